(** What is claimed about links between nodes, in terms of what is observed. *)
From Coq Require Import List Bool Arith PeanoNat.
From Verif Require Import RemoteLinks.
Import ListNotations.

(** The observations happened in this order, possibly with others between them. *)
Fixpoint in_order (l t : list obs) : Prop :=
  match l with
  | [] => True
  | a :: l' => exists t1 t2, t = t1 ++ a :: t2 /\ in_order l' t2
  end.

(** What call [i] of function [o] does to the links of [x]: it gains or loses [y]. *)
Definition mark (i : nat) (o : op) (x y : aid) : obs :=
  match o with
  | OpLink => OLinked i x y
  | OpUnlink => OUnlinked i x y
  end.

(** [x] has a link to [y]. *)
Definition linked (w : world) (x y : aid) : Prop :=
  exists a rid, w_actors w x = Some a /\ In (y, rid) (a_links a).

(** Whether [x] has a link to [y] after the observations, from whether it had one before. *)
Fixpoint link_after (x y : aid) (b : bool) (t : list obs) : bool :=
  match t with
  | [] => b
  | o :: t' =>
      link_after x y
        (match o with
         | OLinked _ x' y' => if aid_eqb x x' && aid_eqb y y' then true else b
         | OUnlinked _ x' y' | OForgot x' y' => if aid_eqb x x' && aid_eqb y y' then false else b
         | ODrained x' _ _ => if aid_eqb x x' then false else b
         | _ => b
         end) t'
  end.

(** Nothing takes the link of [x] to [y] away. *)
Definition keeps (x y : aid) (t : list obs) : Prop :=
  (forall i, ~ In (OUnlinked i x y) t) /\ ~ In (OForgot x y) t /\ (forall r l, ~ In (ODrained x r l) t).

(** The link deaths of [dead] accepted by the mailbox of [x]. *)
Fixpoint deaths (x dead : aid) (t : list obs) : list nat :=
  match t with
  | [] => []
  | OGot x' d r :: t' =>
      if aid_eqb x x' && aid_eqb dead d then r :: deaths x dead t' else deaths x dead t'
  | _ :: t' => deaths x dead t'
  end.

(** The times [x] took its links out: its reason and the siblings. *)
Fixpoint stops (x : aid) (t : list obs) : list (nat * list aid) :=
  match t with
  | [] => []
  | ODrained x' r l :: t' => if aid_eqb x x' then (r, l) :: stops x t' else stops x t'
  | _ :: t' => stops x t'
  end.

(** The pieces of carrying out notification [k]. *)
Definition carries (k : nat) (e : event) : bool :=
  match e with
  | Send j _ | FindNote j | Signal j => j =? k
  | _ => false
  end.

(** Notification [k] tells [x] of the end of [dead]. *)
Definition notifies (w : world) (k : nat) (x dead : aid) (reason : nat) : Prop :=
  exists n, nth_error (w_notes w) k = Some n /\ n_to n = x /\ n_dead n = dead /\ n_reason n = reason.

(** Why node [n] refuses a request for actor [y] as one of type [rid]. *)
Inductive refusal (known : nat -> nat -> bool) (w : world) (n : nat) (y : aid) (rid : nat) : outcome -> Prop :=
| ref_unknown : known n rid = false -> refusal known w n y rid UnknownActor
| ref_absent : known n rid = true ->
    ~ (home y = n /\ exists a, w_actors w y = Some a /\ a_table a = true) ->
    refusal known w n y rid ActorNotRunning
| ref_type : forall a, known n rid = true -> home y = n -> w_actors w y = Some a -> a_table a = true ->
    a_rid a <> rid -> refusal known w n y rid BadActorType.

(** The pieces of the future of call [i] and of carrying out its request. *)
Definition piece (i : nat) (e : event) : bool :=
  match e with
  | Poll j _ | Find j | Apply j | Answer j => j =? i
  | _ => false
  end.

(** The link deaths the mailbox of [x] accepted, in order, with their reasons. *)
Fixpoint got (x : aid) (t : list obs) : list (aid * nat) :=
  match t with
  | [] => []
  | OGot x' d r :: t' => if aid_eqb x x' then (d, r) :: got x t' else got x t'
  | _ :: t' => got x t'
  end.

(** The siblings whose link deaths [x] handled, in order. *)
Fixpoint forgot (x : aid) (t : list obs) : list aid :=
  match t with
  | [] => []
  | OForgot x' y :: t' => if aid_eqb x x' then y :: forgot x t' else forgot x t'
  | _ :: t' => forgot x t'
  end.

(** What is left for an actor that has taken its links out: to send its notifications, which
    are over some time, to leave the table and to end. *)
Inductive winds_up (w : world) (x : aid) : event -> Prop :=
| wu_send : forall k alone y r, notifies w k y x r -> winds_up w x (Send k alone)
| wu_over : forall k y r, notifies w k y x r -> winds_up w x (Over k)
| wu_leave : winds_up w x (Leave x)
| wu_exit : winds_up w x (Exit x).

(** The calls made, in order; call [i] is the one at place [i]. *)
Definition is_call (e : event) : bool := match e with Call _ _ _ _ | Half _ _ _ _ _ _ => true | _ => false end.
Definition calls_made (es : list event) : list event := filter is_call es.

(** After [es1] event [e] puts [x] into its node's table: [x] is registered, or a call linking it
    to another actor begins. *)
Definition enters (x : aid) (es1 : list event) (e : event) : Prop :=
  e = Register x
  \/ exists i alone y rid, e = Poll i alone /\ nth_error (calls_made es1) i = Some (Call OpLink x y rid)
     /\ x <> y /\ forall b, ~ In (Poll i b) es1.

(** It was put there and has not left since. *)
Definition in_table (x : aid) (es : list event) : Prop :=
  exists es1 e es2, es = es1 ++ e :: es2 /\ enters x es1 e /\ ~ In (Leave x) es2.

(** The steps of the end of [x], and which of them may come next: it takes its links out, leaves
    the table and is gone, or its on_stop panics; or it is gone at once as its on_start failed. *)
Definition end_of (x : aid) (e : event) : bool :=
  match e with
  | Stop y _ | Leave y | Exit y | Vanish y | Crash y => aid_eqb x y
  | _ => false
  end.
Inductive next (x : aid) : list event -> event -> Prop :=
| next_stop : forall r, next x [] (Stop x r)
| next_vanish : next x [] (Vanish x)
| next_leave : forall r, next x [Stop x r] (Leave x)
| next_crash : forall r, next x [Stop x r] (Crash x)
| next_exit : forall r, next x [Stop x r; Leave x] (Exit x).
