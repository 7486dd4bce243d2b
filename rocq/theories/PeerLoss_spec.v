(** Vocabulary of the properties of PeerLoss. *)
From Coq Require Import List.
From Verif Require Import ActorId PeerLoss.
Import ListNotations.

(** The link deaths task [i] has sent, accepted or not: (actor told, dead actor). *)
Fixpoint told {P : peers} (i : nat) (t : list (obs P)) : list (nat * actor_id P) :=
  match t with
  | [] => []
  | OTold j a x _ :: t' => if Nat.eqb i j then (a, x) :: told i t' else told i t'
  | _ :: t' => told i t'
  end.

(** The link maps task [i] has looked at. *)
Fixpoint visited {P : peers} (i : nat) (t : list (obs P)) : list (nat * list (actor_id P)) :=
  match t with
  | [] => []
  | ORead j a l :: t' => if Nat.eqb i j then (a, l) :: visited i t' else visited i t'
  | _ :: t' => visited i t'
  end.

(** The id denotes an actor of peer [p], seen from node [me]. *)
Definition lives_on {P : peers} (me p : peer P) (x : actor_id P) : Prop :=
  match kind x with
  | Local => p = me
  | PeerId q => q = p
  end.

(** [tells] is exactly one link death for each link on [p] of the link maps [maps]. *)
Definition one_per_link {P : peers} (me p : peer P) (maps : list (nat * list (actor_id P)))
  (tells : list (nat * actor_id P)) : Prop :=
  (forall a x, In (a, x) tells <-> exists l, In (a, l) maps /\ In x l /\ lives_on me p x)
  /\ ((forall a l, In (a, l) maps -> NoDup l) -> NoDup (map fst maps) -> NoDup tells).

(** Pieces of the tasks, as opposed to what others do to the table and the links. *)
Definition of_task {P : peers} (e : event P) : bool :=
  match e with
  | Lock _ | Read _ _ | Leave _ | Tell _ _ _ | Finish _ => true
  | _ => false
  end.

(** Task [i] has entered the loop over the table and has not left it. *)
Definition holding {P : peers} (i : nat) (es : list (event P)) : Prop :=
  exists es1 es2, es = es1 ++ Lock i :: es2 /\ ~ In (Leave i) es2.
