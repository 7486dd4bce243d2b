(** What reading shared panic errors is to look like (C69), said with the calls, the closures
    that were called and those that are over; no locks, no poison. *)
From Coq Require Import Ascii String List Bool PeanoNat.
From Verif Require Import Errors Dyn PanicLock.
Import ListNotations.

Section Spec.
Variable user : nat -> Type.
Local Notation event := (event user).
Local Notation out := (out user).

(** What a closure is given for an error: everything, its text if it is one, its value if it has
    the type asked for. *)
Inductive fits : use -> panic_error user -> given user -> Prop :=
| fits_all : forall e, fits UWith e (GAll e)
| fits_str : forall s, fits UStr (PEValue (box user (t := TStr) s)) (GText s)
| fits_string : forall s, fits UStr (PEValue (box user (t := TString) s)) (GText s)
| fits_value : forall t v, fits (URef t) (PEValue (box user (t := t) v)) (GVal t v).

(** What the history says: the errors in the order they were made, which of them each handle is
    for, which closures each thread is in (the innermost first), and what it waits for. *)
Record view := mkView {
  made : list (panic_error user); refers : list nat;
  inside : nat -> list nat; awaits : nat -> option (nat * use) }.

Definition at_thread {T : Type} (t : nat) (x : T) (f : nat -> T) : nat -> T :=
  fun t' => if Nat.eqb t' t then x else f t'.

Definition see (v : view) (x : event * out) : view :=
  match x with
  | (ENew e, _) => mkView (made v ++ [e]) (refers v ++ [List.length (made v)]) (inside v) (awaits v)
  | (EClone h, _) => mkView (made v) (refers v ++ [nth h (refers v) 0]) (inside v) (awaits v)
  | (ECall t h u, _) =>
      mkView (made v) (refers v) (inside v) (at_thread t (Some (nth h (refers v) 0, u)) (awaits v))
  | (EGet t, OGiven _) =>
      mkView (made v) (refers v)
        (at_thread t (match awaits v t with Some (e, _) => e :: inside v t | None => inside v t end) (inside v))
        (at_thread t None (awaits v))
  | (EGet t, _) => mkView (made v) (refers v) (inside v) (at_thread t None (awaits v))
  | (EReturn t, _) | (EPanic t _, _) =>
      mkView (made v) (refers v) (at_thread t (tl (inside v t)) (inside v)) (awaits v)
  end.

Definition seen (h : list (event * out)) : view :=
  fold_left see h (mkView [] [] (fun _ => []) (fun _ => None)).

(** What may come next. *)
Definition allowed (v : view) (x : event) (o : out) : Prop :=
  match x with
  | ENew _ => o = OHandle (List.length (refers v))
  | EClone h => h < List.length (refers v) /\ o = OHandle (List.length (refers v))
  | ECall t h _ => awaits v t = None /\ h < List.length (refers v) /\ o = OCalled
  | EGet t =>
      exists e u x, awaits v t = Some (e, u) /\ nth_error (made v) e = Some x /\
        (forall t', ~ In e (inside v t')) /\
        match o with
        | OGiven g => fits u x g
        | ONone => forall g, ~ fits u x g
        | _ => False
        end
  | EReturn t | EPanic t _ => awaits v t = None /\ inside v t <> [] /\ o = OOver
  end.

Definition possible (h : list (event * out)) : Prop := exists w, used user h w.

(** Every call is made outside of closures for errors that come later in some order of the
    errors, or for the same error. *)
Definition ordered (rank : nat -> nat) (h : list (event * out)) : Prop :=
  forall a t hd u b, h = a ++ (ECall t hd u, OCalled) :: b ->
  forall e, In e (inside (seen a) t) -> rank e < rank (nth hd (refers (seen a)) 0).

(** Threads that wait for each other. *)
Definition entangled (v : view) (ts : nat -> Prop) : Prop :=
  forall t, ts t -> exists e u t', awaits v t = Some (e, u) /\ ts t' /\ In e (inside v t').
End Spec.

Arguments made {user} v.
Arguments refers {user} v.
Arguments inside {user} v _.
Arguments awaits {user} v _.
