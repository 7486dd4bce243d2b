(** Model of how a [PanicError] is read: src/error.rs 679-743 (the shared error and its [with],
    [with_str], [with_downcast_ref], [downcast]), used by 746-773 ([Display], [Debug]) and 777-784
    ([Serialize]). All clones of an error share one [std::sync::Mutex], which is locked while the
    closure runs. [Display] is a [with_str], [Debug] a [with], [downcast] a [with_downcast_ref]
    whose closure is the type's [Clone], and [Serialize] goes through [Display]
    (src/actor/actor_ref.rs 313, 402 use [with_downcast_ref] the same way).

    Simplified: a lock that is free is taken in one step, by any thread that waits for it (std's
    mutex is not fair); locking a mutex again in the thread that has it waits like any other
    attempt (std: it does not return); handles are never dropped; a panic of a closure ends that
    closure, whether the closure around it goes on or panics too is up to the environment. *)
From Coq Require Import Ascii String List Bool PeanoNat.
From Verif Require Import Errors Dyn.
Import ListNotations.

Section PanicLock.
Variable user : nat -> Type.
Local Notation den := (den user).
Local Notation panic_error := (panic_error user).

(** src/error.rs 702, 723, 735: the three ways to read an error. *)
Inductive use : Type :=
| UWith          (* 735-743: [with] *)
| UStr           (* 702-712: [with_str] *)
| URef (t : ty). (* 723-732: [with_downcast_ref::<T>] *)

(** src/error.rs 704, 726, 737: what the closure is given. *)
Inductive given : Type :=
| GAll (e : panic_error)
| GText (s : string)
| GVal (t : ty) (v : den t).

(** src/error.rs 706-711, 729-730, 740-741: what is handed to the closure under the lock; [None]: it is
    not called. *)
Definition read (u : use) (e : panic_error) : option given :=
  match u with
  | UWith => Some (GAll e)
  | UStr => option_map GText (pe_str e)
  | URef t => option_map (GVal t) (pe_downcast t e)
  end.

(** src/error.rs 682: the mutex: its content, whether it is locked, whether it is poisoned. *)
Record cell : Type := mkCell { c_err : panic_error; c_locked : bool; c_poisoned : bool }.

(** A thread: the errors whose closures it is in (the innermost first), and the call for which it
    waits (src/error.rs 728, 739). *)
Record thread : Type := mkThread { t_in : list nat; t_wait : option (nat * use) }.

(** src/error.rs 680-682: all errors, all handles (each is an [Arc] of one error), all threads. *)
Record world : Type := mkWorld { cells : list cell; handles : list nat; threads : nat -> thread }.

(** Nothing has been made yet (src/error.rs 686). *)
Definition start : world := mkWorld [] [] (fun _ => mkThread [] None).

(** What happens. *)
Inductive event : Type :=
| ENew (e : panic_error)             (* src/error.rs 686-698: [new], [new_from_panic_any] *)
| EClone (h : nat)                   (* src/error.rs 680: [clone] *)
| ECall (t h : nat) (u : use)        (* src/error.rs 702, 723, 735: thread [t] calls *)
| EGet (t : nat)                     (* src/error.rs 728, 739: [lock] returns *)
| EReturn (t : nat)                  (* src/error.rs 729-730, 740-741: the closure returns *)
| EPanic (t : nat) (marks : bool).   (* it panics; [marks]: the guard poisons the mutex *)

(** What is seen of it. *)
Inductive out : Type :=
| OHandle (h : nat)
| OCalled
| OGiven (g : given)  (* the closure is called *)
| ONone               (* the call returns [None], the closure is not called *)
| OOver.              (* the closure is over, the call returns or panics *)

(** src/error.rs 682: change the error [e]. *)
Fixpoint set_cell (e : nat) (c : cell) (l : list cell) : list cell :=
  match l, e with
  | [], _ => []
  | _ :: l, 0 => c :: l
  | x :: l, S e => x :: set_cell e c l
  end.
(** A thread goes on (src/error.rs 735). *)
Definition set_thread (t : nat) (x : thread) (f : nat -> thread) : nat -> thread :=
  fun t' => if Nat.eqb t' t then x else f t'.

(** src/error.rs 728-731, 739-742: [lock] returns [Ok] or, poisoned, [Err] with the same guard. *)
Definition lock (c : cell) : option (result panic_error panic_error) :=
  if c_locked c then None
  else Some (if c_poisoned c then Err (c_err c) else Ok (c_err c)).

(** src/error.rs 728-731, 739-742: what the two arms do with it. *)
Definition arms (u : use) (r : result panic_error panic_error) : option given :=
  match r with
  | Ok e => read u e
  | Err e => read u e
  end.

(** The guard is dropped when the closure of the innermost call is over (src/error.rs 729-730, 740-741). *)
Definition leave (t : nat) (marks : bool) (w : world) : option (out * world) :=
  match threads w t with
  | mkThread (e :: es) None =>
      match nth_error (cells w) e with
      | None => None
      | Some c =>
          Some (OOver,
                mkWorld (set_cell e (mkCell (c_err c) false (c_poisoned c || marks)) (cells w))
                  (handles w) (set_thread t (mkThread es None) (threads w)))
      end
  | _ => None
  end.

(** src/error.rs 684-743: one step; [None]: it cannot happen now. *)
Definition step (x : event) (w : world) : option (out * world) :=
  match x with
  | ENew e =>
      Some (OHandle (List.length (handles w)),
            mkWorld (cells w ++ [mkCell e false false]) (handles w ++ [List.length (cells w)]) (threads w))
  | EClone h =>
      match nth_error (handles w) h with
      | None => None
      | Some e => Some (OHandle (List.length (handles w)), mkWorld (cells w) (handles w ++ [e]) (threads w))
      end
  | ECall t h u =>
      match t_wait (threads w t), nth_error (handles w) h with
      | None, Some e =>
          Some (OCalled, mkWorld (cells w) (handles w)
                  (set_thread t (mkThread (t_in (threads w t)) (Some (e, u))) (threads w)))
      | _, _ => None
      end
  | EGet t =>
      match t_wait (threads w t) with
      | None => None
      | Some (e, u) =>
          match nth_error (cells w) e with
          | None => None
          | Some c =>
              match lock c with
              | None => None
              | Some r =>
                  match arms u r with
                  | Some g =>
                      Some (OGiven g,
                            mkWorld (set_cell e (mkCell (c_err c) true (c_poisoned c)) (cells w))
                              (handles w)
                              (set_thread t (mkThread (e :: t_in (threads w t)) None) (threads w)))
                  | None =>
                      Some (ONone, mkWorld (cells w) (handles w)
                              (set_thread t (mkThread (t_in (threads w t)) None) (threads w)))
                  end
              end
          end
      end
  | EReturn t => leave t false w
  | EPanic t marks => leave t marks w
  end.

(** A use of panic errors: what happened and what was seen of it, in order
    (src/error.rs 684-743). *)
Inductive used : list (event * out) -> world -> Prop :=
| used_start : used [] start
| used_step : forall h w x o w', used h w -> step x w = Some (o, w') -> used (h ++ [(x, o)]) w'.
End PanicLock.

Arguments ENew {user} e.
Arguments EClone {user} h.
Arguments ECall {user} t h u.
Arguments EGet {user} t.
Arguments EReturn {user} t.
Arguments EPanic {user} t marks.
Arguments OHandle {user} h.
Arguments OCalled {user}.
Arguments OGiven {user} g.
Arguments ONone {user}.
Arguments OOver {user}.
Arguments GAll {user} e.
Arguments GText {user} s.
Arguments GVal {user} t v.
