(** What the properties of pools say, in terms of what is observed. *)
From Coq Require Import List Bool PeanoNat.
From Verif Require Import Pool.
Import ListNotations.

(** The number of messages that worker [w] was given. *)
Fixpoint given (w : nat) (tr : list obs) : nat :=
  match tr with
  | [] => 0
  | OSent v _ :: tr' => (if v =? w then 1 else 0) + given w tr'
  | _ :: tr' => given w tr'
  end.

(** The number of messages it is done with. *)
Fixpoint done_with (w : nat) (tr : list obs) : nat :=
  match tr with
  | [] => 0
  | OFinished v _ _ :: tr' => (if v =? w then 1 else 0) + done_with w tr'
  | ODropped v _ :: tr' => (if v =? w then 1 else 0) + done_with w tr'
  | _ :: tr' => done_with w tr'
  end.

(** Those outstanding. *)
Definition outstanding (tr : list obs) (w : nat) : nat := given w tr - done_with w tr.

(** The list with position [i] replaced. *)
Definition replace_at (i v : nat) (l : list nat) : list nat := firstn i l ++ v :: skipn (S i) l.

(** The workers of a pool that began with workers [l]. *)
Definition workers_after (l : list nat) (tr : list obs) : list nat :=
  fold_left (fun l o => match o with OReplaced i _ new => replace_at i new l | _ => l end) tr l.

(** [w] is the first of those with the least [f]. *)
Definition first_least (f : nat -> nat) (l : list nat) (w : nat) : Prop :=
  exists l1 l2, l = l1 ++ w :: l2 /\ (forall v, In v l1 -> f w < f v) /\ (forall v, In v l2 -> f w <= f v).

(** The sends to [w] that the pool is waiting for. *)
Definition waiting (s : pool) (w : nat) : nat :=
  match ph s with
  | PSending _ _ v => if v =? w then 1 else 0
  | PCasting _ rs =>
      length (filter (fun r => (fst r =? w) && match snd r with None => true | _ => false end) rs)
  | _ => 0
  end.

(** A pool created with [caps], and its history. *)
Definition reaches (caps : list (option nat)) (c : option nat) (es : list event) (s : pool) (tr : list obs) : Prop :=
  exists s0, new_pool caps c = Some s0 /\ run s0 es = Some (s, tr).

(** The pool has been told that [w] is dead, or will be. *)
Definition report_due (s : pool) (w : nat) : Prop :=
  to_tell (wk s w) = true \/ In (PReport w) (inbox s).

(** No [on_link_died] finds the last reference to the pool gone (189-191). *)
Definition referenced (es : list event) : Prop := forall c, ~ In (EHandle false c) es.

(** Observations about broadcasts. *)
Definition about_cast (o : obs) : bool :=
  match o with OCasting _ | OCast _ _ => true | _ => false end.
(** The choices of [Dispatch], and what was sent to workers. *)
Fixpoint choices (tr : list obs) : list (nat * msg) :=
  match tr with
  | [] => []
  | OChosen w m :: tr' => (w, m) :: choices tr'
  | _ :: tr' => choices tr'
  end.
Fixpoint sends (tr : list obs) : list (nat * msg) :=
  match tr with
  | [] => []
  | OSent w m :: tr' => (w, m) :: sends tr'
  | _ :: tr' => sends tr'
  end.

(** A worker's mailbox takes another message. *)
Definition takes_more (x : worker) : Prop :=
  st x <> WGone /\ match cap x with None => True | Some n => length (queue x) < n end.
(** A worker that is free. *)
Definition free (x : worker) : Prop := st x = WUp /\ queue x = [] /\ busy x = None.

(** The messages worker [w] was given, and those it is done with, in order. *)
Definition got (w : nat) (tr : list obs) : list msg :=
  flat_map (fun o => match o with OSent v m => if v =? w then [m] else [] | _ => [] end) tr.
Definition ended (w : nat) (tr : list obs) : list msg :=
  flat_map (fun o => match o with OFinished v m _ | ODropped v m => if v =? w then [m] else [] | _ => [] end) tr.
(** What it has. *)
Definition holding (x : worker) : list msg := match busy x with Some m => [m] | None => [] end ++ queue x.
