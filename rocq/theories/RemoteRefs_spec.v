(** Vocabulary of the properties of RemoteRefs. *)
From Coq Require Import List.
From Verif Require Import Lifecycle RemoteRefs.
Import ListNotations.

(** The actor's part of a trace. *)
Fixpoint seen (t : list obs) : list Lifecycle.obs :=
  match t with
  | [] => []
  | Saw o :: t' => o :: seen t'
  | _ :: t' => seen t'
  end.

(** Call number [i] of a state is a link_remote to another actor. *)
Definition is_link (w : world) (i : nat) : Prop :=
  exists sib p, nth_error (w_calls w) i = Some (mk_call Link sib false p).

(** The node's table holds a strong reference to the actor. *)
Definition in_table (w : world) : Prop := in_reg (w_actor w) = true.

(** Somebody holds a strong reference. *)
Definition referenced (w : world) : Prop := 0 < strong (w_actor w).

(** What call [i] found each time it was let on. *)
Fixpoint polls (i : nat) (es : list event) : list (swarm * result) :=
  match es with
  | [] => []
  | Poll j sw a :: es' => if Nat.eqb i j then (sw, a) :: polls i es' else polls i es'
  | _ :: es' => polls i es'
  end.

(** The number of steps a call takes on its own node before it needs the swarm. *)
Definition local_steps (o : op) : nat := match o with Link => 2 | Unlink => 1 end.

(** What a call returns, by what it found. *)
Inductive returns (o : op) : bool -> list (swarm * result) -> result -> Prop :=
| ret_self : forall p, returns o true [p] Done
| ret_no_swarm : forall l a, length l = local_steps o -> returns o false (l ++ [(NoSwarm, a)]) NotBootstrapped
| ret_dead_swarm : forall l a, length l = local_steps o -> returns o false (l ++ [(DeadSwarm, a)]) CallPanic
| ret_answer : forall l a sw r, length l = local_steps o -> returns o false (l ++ [(Running, a); (sw, r)]) r.
