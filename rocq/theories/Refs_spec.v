(** Vocabulary of the properties of Refs. *)
From Coq Require Import List Bool Arith.
Import ListNotations.
From Verif Require Import Refs.

(** The kinds of handles. *)
Inductive kind : Type := KRef | KRecipient | KMessage | KContext | KSender | KWeak | KWeakRecipient | KWeakSender.

(** Those that keep the actor running. *)
Definition strong_kind (d : kind) : bool :=
  match d with KRef | KRecipient | KMessage | KContext | KSender => true | _ => false end.

(** An entry of the book: the kind of a handle, its actor (the number of the handle that
    [PreparedActor::new] made) and whether it is still held. *)
Record entry : Type := mk_entry { e_kind : kind; e_actor : nat; e_held : bool }.

(** What kind of handle an operation makes of (or from) which. *)
Definition makes (o : op) (d : kind) : kind :=
  match o with
  | ToRecipient _ => KRecipient
  | Downgrade _ => match d with KRef => KWeak | _ => KWeakSender end
  | Upgrade _ => match d with KWeak => KRef | KWeakRecipient => KRecipient | _ => KSender end
  | TakeSender _ => KSender
  | MakeLink _ => KWeakSender
  | Tell _ => KMessage
  | Handle_ _ => KContext
  | ContextRef _ => KRef
  | _ => d
  end.

(** It holds a sender the caller can compare. *)
Definition has_sender (d : kind) : Prop := d = KRef \/ d = KSender.

(** The handle an operation is about. *)
Definition about (o : op) : option nat :=
  match o with
  | Prepare _ => None
  | Clone k | ToRecipient k | Downgrade k | Upgrade k | TakeSender k | MakeLink k | Tell k | Handle_ k
  | ContextRef k | DropIt k | Id k | IsAlive k | StrongCount k | WeakCount k | IsCurrent k _ | Stop k | Kill k
  | WaitStartup k | StartupResult k | WaitShutdown k | WaitForStop k | ShutdownResult k | SameChannel k _
  | LinkTable k => Some k
  end.

(** Whether the handle is gone afterwards. *)
Definition uses_up (o : op) : bool := match o with ToRecipient _ | Handle_ _ | DropIt _ => true | _ => false end.

Fixpoint cross_out (b : list entry) (k : nat) : list entry :=
  match b, k with
  | [], _ => []
  | x :: b', 0 => mk_entry (e_kind x) (e_actor x) false :: b'
  | x :: b', S k' => x :: cross_out b' k'
  end.

(** The book, kept from what the operations returned. *)
Definition note (b : list entry) (x : op * result) : list entry :=
  let (o, r) := x in
  let b' := match about o with Some k => if uses_up o then cross_out b k else b | None => b end in
  match r with
  | MadeActor _ _ => b' ++ [mk_entry KRef (length b) true]
  | Made _ =>
      match about o with
      | Some k =>
          match nth_error b k with
          | Some x => b' ++ [mk_entry (makes o (e_kind x)) (e_actor x) true]
          | None => b'
          end
      | None => b'
      end
  | _ => b'
  end.

Definition book (tr : list (op * result)) : list entry := fold_left note tr [].

(** How many strong (weak) handles of an actor are held. *)
Definition strong_held (b : list entry) (a : nat) : nat :=
  length (filter (fun x => e_held x && strong_kind (e_kind x) && (e_actor x =? a)) b).
Definition weak_held (b : list entry) (a : nat) : nat :=
  length (filter (fun x => e_held x && negb (strong_kind (e_kind x)) && (e_actor x =? a)) b).

(** The same of one kind only. *)
Definition kind_held (d : kind -> bool) (b : list entry) (a : nat) : nat :=
  length (filter (fun x => e_held x && d (e_kind x) && (e_actor x =? a)) b).

(** What a method of a handle of the actor made with the parts [p] does, other than counting. *)
Definition acts_on (o : op) (p : parts) : option effect :=
  match o with
  | Id _ => Some (SaysId (p_id p))
  | IsAlive _ => Some (AsksClosed (p_chan p))
  | IsCurrent _ cur => Some (SaysBool (match cur with Some c => c =? p_id p | None => false end))
  | Stop _ => Some (SendsStop (p_chan p))
  | Kill _ => Some (Aborts (p_abort p))
  | WaitStartup _ | WaitForStop _ => Some (Acquires (p_semaphore p))
  | StartupResult _ => Some (AcquiresReads (p_semaphore p) (p_startup_error p))
  | WaitShutdown _ => Some (AwaitsClosed (p_chan p))
  | ShutdownResult _ => Some (AwaitsClosedReads (p_chan p) (p_shutdown_error p))
  | LinkTable _ => Some (Locks (p_links p))
  | _ => None
  end.

(** The parts of an actor, as numbers. *)
Definition parts_list (p : parts) : list nat :=
  [p_id p; p_chan p; p_abort p; p_links p; p_semaphore p; p_startup_error p; p_shutdown_error p].

(** Which kinds of handles have which methods. *)
Definition offers (d : kind) (o : op) : bool :=
  match o, d with
  | Clone _, (KRef | KRecipient | KSender | KWeak | KWeakRecipient | KWeakSender) => true
  | ToRecipient _, KRef => true
  | Downgrade _, (KRef | KRecipient | KSender) => true
  | Upgrade _, (KWeak | KWeakRecipient | KWeakSender) => true
  | TakeSender _, KRef => true
  | MakeLink _, KRef => true
  | Tell _, (KRef | KRecipient) => true
  | Handle_ _, KMessage => true
  | ContextRef _, KContext => true
  | DropIt _, _ => true
  | Id _, (KRef | KRecipient | KWeak | KWeakRecipient) => true
  | IsAlive _, (KRef | KRecipient | KSender) => true
  | (StrongCount _ | WeakCount _), (KMessage | KContext) => false
  | (StrongCount _ | WeakCount _), _ => true
  | (IsCurrent _ _ | Stop _ | Kill _ | WaitStartup _ | WaitShutdown _), (KRef | KRecipient) => true
  | (StartupResult _ | WaitForStop _ | ShutdownResult _ | LinkTable _), KRef => true
  | _, _ => false
  end.
