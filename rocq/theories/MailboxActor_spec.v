(** The mailbox inside the model of one actor (Lifecycle.v) compared with the mailbox of
    src/mailbox.rs (Mailbox.v), which has the sends that wait and tokio's permits. *)
From Coq Require Import List Bool PeanoNat.
Import ListNotations.
From Verif Require Import Lifecycle Lifecycle_spec.
From Verif Require Mailbox.

(** The same kind of signal. *)
Definition same_signal (a : signal) (b : Mailbox.signal) : Prop :=
  match a, b with
  | SStartup, Mailbox.StartupFinished | SMsg _, Mailbox.Message _
  | SLinkDied _ _, Mailbox.LinkDied _ | SStop, Mailbox.Stop => True
  | _, _ => False
  end.

(** The kind of mailbox of an actor. *)
Definition kind_of (c : option nat) : Mailbox.kind :=
  match c with Some n => Mailbox.Bounded n | None => Mailbox.Unbounded end.

(** The sends that wait; those of them that were given a place; the references in them. *)
Definition waiting (m : Mailbox.mailbox) : list Mailbox.wait := Mailbox.waits_of (Mailbox.sem m).
Definition placed (m : Mailbox.mailbox) : nat := length (filter Mailbox.w_granted (waiting m)).
Definition lent (m : Mailbox.mailbox) : nat := Mailbox.held (map Mailbox.w_signal (waiting m)).

(** The actor's mailbox looks like this one: the same signals wait in it, there are as many
    strong references, the receiver is there or not, the permits out are those of sends that
    have not gone on yet, and whoever waits to send holds references outside the actor. *)
Record mirrors (s : actor) (m : Mailbox.mailbox) : Prop := mk_mirrors {
  mi_queue : Forall2 same_signal (queue s) (Mailbox.queue m);
  mi_strong : strong s = Mailbox.strong m;
  mi_open : rx_open s = Mailbox.receiver m;
  mi_closed : Mailbox.rx_closed m = negb (Mailbox.receiver m);
  mi_reserved : reserved s = placed m;
  mi_lent : waiting m <> [] -> lent m < ext s
}.

(** Calls made one after the other. *)
Inductive calls : Mailbox.mailbox -> list (Mailbox.op * Mailbox.res) -> Mailbox.mailbox -> Prop :=
| calls_nil : forall m, calls m [] m
| calls_cons : forall m o r m1 l m2, Mailbox.step o m = Some (r, m1) -> calls m1 l m2 ->
    calls m ((o, r) :: l) m2.

(** Calls that those outside can make who hold a reference of their own for it: the one
    that goes into a message, and the one they call on. *)
Definition by_others (s : actor) (m : Mailbox.mailbox) (o : Mailbox.op) : Prop :=
  match o with
  | Mailbox.OSend _ x | Mailbox.OTrySend x =>
      x <> Mailbox.StartupFinished /\ lent m + Mailbox.holds x < ext s
  | Mailbox.ODrop => (if waiting m then 0 else S (lent m)) < ext s
  | Mailbox.OPoll i =>
      forall w, Mailbox.find_wait i (waiting m) = Some w -> Mailbox.w_signal w <> Mailbox.StartupFinished
  | Mailbox.OCancel _ | Mailbox.OPollClosed | Mailbox.OSenderIsClosed
  | Mailbox.OClone | Mailbox.ODowngrade | Mailbox.OCloneWeak | Mailbox.ODropWeak
  | Mailbox.OUpgrade | Mailbox.OStrongCount _ | Mailbox.OWeakCount _ => True
  | Mailbox.ORecv | Mailbox.ORecvMany _ | Mailbox.OTryRecv _ | Mailbox.OClose
  | Mailbox.OReceiverIsClosed | Mailbox.OIsEmpty | Mailbox.OLen | Mailbox.ODropReceiver => False
  end.

(** The signal a call put into the mailbox. *)
Definition put_in (m : Mailbox.mailbox) (o : Mailbox.op) (r : Mailbox.res) : list Mailbox.signal :=
  match o, r with
  | Mailbox.OSend _ x, Mailbox.RDone | Mailbox.OTrySend x, Mailbox.RDone => [x]
  | Mailbox.OPoll i, Mailbox.RDone =>
      match Mailbox.find_wait i (waiting m) with Some w => [Mailbox.w_signal w] | None => [] end
  | _, _ => []
  end.

(** What those outside do in Lifecycle.v to the mailbox. *)
Definition outside_event (e : event) : bool :=
  match e with
  | ESend _ _ | EStop | ELinkSignal _ _ | EAcquire | EDrop | EReserve | ERelease => true
  | _ => false
  end.

(** References are dropped, nothing else. *)
Definition only_drops (l : list (Mailbox.op * Mailbox.res)) : Prop :=
  Forall (fun c => c = (Mailbox.ODrop, Mailbox.RDone)) l.
Definition only_clones (l : list (Mailbox.op * Mailbox.res)) : Prop :=
  Forall (fun c => c = (Mailbox.OClone, Mailbox.RDone)) l.

(** What the actor's own step is for its mailbox: a receive, the startup signal, references
    made, or references dropped and perhaps the receiver with them. *)
Inductive own_call := KDrops | KClones | KTakes | KStartup.
Definition own_kind (s : actor) (e : event) : own_call :=
  match e, ph s with
  | ARecv, PLoop LRecv => KTakes
  | ASignal, _ => KStartup
  | AStart, _ | ERegister, _ => KClones
  | _, _ => KDrops
  end.

(** The calls on the mailbox that the step from [s] to [s'] makes. *)
Definition own_calls (s : actor) (e : event) (s' : actor) (l : list (Mailbox.op * Mailbox.res)) : Prop :=
  match own_kind s e with
  | KTakes =>
      exists r rest, l = (Mailbox.ORecv, r) :: rest /\ only_drops rest
        /\ match queue s with
           | [] => r = Mailbox.ROver
           | sg :: _ => exists x, r = Mailbox.RGot x /\ same_signal sg x
           end
  | KStartup =>
      l = [(Mailbox.OTrySend Mailbox.StartupFinished,
            if has_room s then Mailbox.RDone else Mailbox.RFull Mailbox.StartupFinished)]
  | KClones => only_clones l /\ length l <= 1
  | KDrops =>
      if rx_open s && negb (rx_open s')
      then exists q rest, l = (Mailbox.ODropReceiver, Mailbox.RDropped q) :: rest /\ only_drops rest
             /\ Forall2 same_signal (queue s) q
      else only_drops l
  end.
