(** Vocabulary of the property of mailboxes (C66): what the calls made on a mailbox and their
    results say, and what the next call may return given those before it. No semaphore, no
    permits, no queue that is operated on: only the calls and their results. *)
From Coq Require Import List Bool PeanoNat.
From Verif Require Import Mailbox.
Import ListNotations.

Definition calls := list (op * res).

(** What can be told from the calls so far: the sends that wait, oldest first; the signals that
    entered the mailbox and those that left it, in order; the senders outside of signals; the
    weak senders; the mailbox is closed; its receiver is gone; the waiting sends that had a
    place when it was closed. *)
Record view := mkView {
  line : list (nat * signal); entered : list signal; left_ : list signal; outside : nat;
  weaks : nat; shut : bool; gone : bool; owed : list nat }.

(** The signals in the mailbox. *)
Definition unread (v : view) : list signal := skipn (length (left_ v)) (entered v).

(** The waiting send [i] is over. *)
Definition leave (i : nat) (v : view) : view :=
  mkView (filter (fun x => negb (Nat.eqb (fst x) i)) (line v)) (entered v) (left_ v) (outside v)
    (weaks v) (shut v) (gone v) (filter (fun j => negb (Nat.eqb j i)) (owed v)).
Definition signal_of (i : nat) (v : view) : option signal :=
  option_map snd (find (fun x => Nat.eqb (fst x) i) (line v)).
Definition enter (s : signal) (v : view) : view :=
  mkView (line v) (entered v ++ [s]) (left_ v) (outside v) (weaks v) (shut v) (gone v) (owed v).
Definition give (l : list signal) (v : view) : view :=
  mkView (line v) (entered v) (left_ v ++ l) (held l + outside v) (weaks v) (shut v) (gone v) (owed v).
Definition hold (a b : nat) (v : view) : view :=
  mkView (line v) (entered v) (left_ v) a b (shut v) (gone v) (owed v).
(** A mailbox of capacity [c] has a place for as many of the waiting sends as there is room. *)
Definition places (k : kind) (v : view) : nat :=
  match k with Bounded c => c - length (unread v) | Unbounded => 0 end.
Definition shuts (k : kind) (v : view) : view :=
  mkView (line v) (entered v) (left_ v) (outside v) (weaks v) true (gone v)
    (if shut v then owed v else map fst (firstn (places k v) (line v))).
Definition goes (l : list signal) (v : view) : view :=
  mkView (line v) (entered v) (left_ v ++ l) (outside v) (weaks v) (shut v) true (owed v).

(** One more call. *)
Definition see (k : kind) (v : view) (e : op * res) : view :=
  match e with
  | (OSend i s, RPending) =>
      mkView (line v ++ [(i, s)]) (entered v) (left_ v) (outside v - holds s) (weaks v) (shut v)
        (gone v) (owed v)
  | (OSend i s, RDone) => enter s (hold (outside v - holds s) (weaks v) v)
  | (OPoll i, RDone) =>
      match signal_of i v with Some s => enter s (leave i v) | None => v end
  | (OPoll i, RRefused s) => hold (holds s + outside v) (weaks v) (leave i v)
  | (OCancel i, _) => leave i v
  | (OTrySend s, RDone) => enter s (hold (outside v - holds s) (weaks v) v)
  | (OClone, _) | (OUpgrade, RDone) => hold (S (outside v)) (weaks v) v
  | (ODrop, _) => hold (outside v - 1) (weaks v) v
  | (ODowngrade, _) | (OCloneWeak, _) => hold (outside v) (S (weaks v)) v
  | (ODropWeak, _) => hold (outside v) (weaks v - 1) v
  | (ORecv, RGot s) | (OTryRecv _, RGot s) => give [s] v
  | (ORecvMany _, RMany l) => give l v
  | (OClose, _) => shuts k v
  | (ODropReceiver, RDropped l) => goes l (shuts k v)
  | _ => v
  end.
Definition seen (k : kind) (h : calls) : view :=
  fold_left (see k) h (mkView [] [] [] 1 0 false false []).

(** All senders there are: those outside, and one in each message that is in the mailbox or
    waits to enter it. *)
Definition senders (v : view) : nat := outside v + held (unread v) + held (map snd (line v)).

(** A signal that is sent now enters at once. *)
Definition room (k : kind) (v : view) : bool :=
  match k with Bounded c => length (unread v) + length (line v) <? c | Unbounded => true end.
(** Nothing can ever come any more: no sender is left; or the mailbox is closed, and no send
    that had a place then is still to be told so. *)
Definition over (v : view) : bool :=
  Nat.eqb (senders v) 0 || shut v && match owed v with [] => true | _ => false end.

(** There is a handle of this sort. *)
Definition holding (v : view) (x : handle) : Prop :=
  match x with HSender => 0 < outside v | HWeak => 0 < weaks v | HReceiver => gone v = false end.

(** What the next call may be, and what it returns. *)
Definition allowed (k : kind) (v : view) (o : op) (r : res) : Prop :=
  match o with
  | OSend i s =>
      holds s < outside v /\ ~ In i (map fst (line v)) /\
      r = if shut v then RRefused s else if room k v then RDone else RPending
  | OPoll i =>
      exists p s, nth_error (line v) p = Some (i, s) /\
      r = if shut v then RRefused s
          else match k with
               | Bounded c => if length (unread v) + p <? c then RDone else RPending
               | Unbounded => RPending
               end
  | OCancel i => In i (map fst (line v)) /\ r = RDone
  | OTrySend s =>
      holds s < outside v /\ r = if shut v then RRefused s else if room k v then RDone else RFull s
  | OPollClosed => holding v HSender /\ r = if shut v then RDone else RPending
  | OSenderIsClosed => holding v HSender /\ r = RBool (shut v)
  | OClone | ODowngrade => holding v HSender /\ r = RDone
  | ODrop => holding v HSender /\ (line v = [] \/ 1 < outside v) /\ r = RDone
  | OCloneWeak | ODropWeak => holding v HWeak /\ r = RDone
  | OUpgrade => holding v HWeak /\ r = if Nat.eqb (senders v) 0 then ROver else RDone
  | OStrongCount x => holding v x /\ r = RCount (senders v)
  | OWeakCount x => holding v x /\ r = RCount (weaks v)
  | ORecv =>
      holding v HReceiver /\
      r = match unread v with s :: _ => RGot s | [] => if over v then ROver else RPending end
  | ORecvMany n =>
      holding v HReceiver /\
      r = match n, unread v with
          | 0, _ => RMany []
          | _, [] => if over v then RMany [] else RPending
          | _, l => RMany (firstn n l)
          end
  | OTryRecv late =>
      holding v HReceiver /\
      r = match unread v with
          | s :: _ => RGot s
          | [] => if Nat.eqb (senders v) 0 || shut v && late then ROver else REmpty
          end
  | OClose => holding v HReceiver /\ r = RDone
  | OReceiverIsClosed =>
      holding v HReceiver /\ r = RBool (shut v || Nat.eqb (senders v) 0)
  | OIsEmpty => holding v HReceiver /\ r = RBool match unread v with [] => true | _ => false end
  | OLen => holding v HReceiver /\ r = RCount (length (unread v))
  | ODropReceiver => holding v HReceiver /\ r = RDropped (unread v)
  end.

(** A mailbox of this kind can be used like this. *)
Definition possible (k : kind) (h : calls) : Prop := exists m, used k h m.

(** The signals that the receiver's methods gave, and those dropped with the receiver, read off
    the results alone. *)
Definition taken (h : calls) : list signal :=
  flat_map (fun e => match snd e with RGot s => [s] | RMany l => l | _ => [] end) h.
Definition dropped (h : calls) : list signal :=
  flat_map (fun e => match snd e with RDropped l => l | _ => [] end) h.
(** The calls that send. *)
Definition sends (o : op) : bool :=
  match o with OSend _ _ | OPoll _ | OTrySend _ => true | _ => false end.
Definition closing (o : op) : bool :=
  match o with OClose | ODropReceiver => true | _ => false end.
Definition gets (o : op) : bool :=
  match o with ORecv | ORecvMany _ | OTryRecv _ => true | _ => false end.
(** A send had to wait, or there was no room. *)
Definition held_up (e : op * res) : bool :=
  match e with (OSend _ _, RPending) | (OTrySend _, RFull _) => true | _ => false end.
(** The signals offered by the calls that began a send, and those given back. *)
Definition offered (h : calls) : list signal :=
  flat_map (fun e => match fst e with OSend _ s | OTrySend s => [s] | _ => [] end) h.
Definition returned (h : calls) : list signal :=
  flat_map (fun e => match snd e with RRefused s | RFull s => [s] | _ => [] end) h.
Definition cancels (h : calls) : nat :=
  length (filter (fun e => match fst e with OCancel _ => true | _ => false end) h).
