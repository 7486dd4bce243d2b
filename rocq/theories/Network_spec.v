(** What C72 says, in terms of what is seen of a run only. *)
From Coq Require Import List Bool PeanoNat.
From Verif Require Import Network.
Import ListNotations.

(** The calls that returned, in order. *)
Fixpoint called (t : list obs) : list (nat * command) :=
  match t with
  | [] => []
  | OCalled i c :: t' => (i, c) :: called t'
  | _ :: t' => called t'
  end.

(** The commands carried out, in order. *)
Fixpoint carried (t : list obs) : list (nat * command) :=
  match t with
  | [] => []
  | ODid i c _ :: t' => (i, c) :: carried t'
  | _ :: t' => carried t'
  end.

(** The addresses Kademlia was given. *)
Fixpoint learned (t : list obs) : list (nat * nat) :=
  match t with
  | [] => []
  | OLearned p a :: t' => (p, a) :: learned t'
  | _ :: t' => learned t'
  end.

(** Everything mDNS has found. *)
Fixpoint found (es : list event) : list (nat * nat) :=
  match es with
  | [] => []
  | Found l :: es' => l ++ found es'
  | _ :: es' => found es'
  end.

(** How often the future of call [i] ended in front of its owner. *)
Fixpoint results (i : nat) (t : list obs) : nat :=
  match t with
  | [] => 0
  | (OReady j _ | OFuturePanicked j) :: t' => (if j =? i then 1 else 0) + results i t'
  | _ :: t' => results i t'
  end.

(** Methods that return a future. *)
Definition awaits (c : command) : Prop :=
  match c with Listen _ | Dial _ => True | _ => False end.

(** The owner of future [i] does nothing more with it: it has had its result or dropped it. *)
Definition let_go (i : nat) (es : list event) (t : list obs) : Prop :=
  In (Forget i) es \/ (exists r, In (OReady i r) t) \/ In (OFuturePanicked i) t.

(** What the network sees: everything except calls that only concern futures. *)
Definition of_futures (e : event) : bool :=
  match e with Poll _ | Forget _ => true | _ => false end.
Definition seen_by_owner (o : obs) : bool :=
  match o with OPending _ | OReady _ _ | OFuturePanicked _ => true | _ => false end.
