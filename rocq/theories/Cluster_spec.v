(** Vocabulary of the property of calls between nodes (C62), over what happened at each
    node. *)
From Coq Require Import List Bool Arith.
From Verif Require Import ActorId Swarm Swarm_spec Cluster.
Import ListNotations.

Section Spec.
Variable T : swarm_types.
Notation peer_t := (peer (st_peers T)).

(** Whose event it was, which, and what was seen. *)
Definition doer (x : happened T) : peer_t * (event T * list (obs T)) :=
  match x with
  | HNode p e os => (p, (e, os))
  | HDeliver k ch os => (pk_dest k, (ENet (NRequest ch (pk_req k)), os))
  | HAnswer k r os => (pk_from k, (ENet (NResponse (pk_rid k) r), os))
  end.

(** What node [p] went through. *)
Fixpoint at_node (p : peer_t) (hist : list (happened T)) : list (event T * list (obs T)) :=
  match hist with
  | [] => []
  | x :: h =>
      if peer_eqb (st_peers T) (fst (doer x)) p then snd (doer x) :: at_node p h else at_node p h
  end.

(** Seen at node [p]. *)
Definition saw (hist : list (happened T)) (p : peer_t) (o : obs T) : Prop :=
  In o (seen (at_node p hist)).

(** Node [p] went through the event [e]. *)
Definition did (hist : list (happened T)) (p : peer_t) (e : event T) : Prop :=
  In e (map fst (at_node p hist)).

(** Task [t] of node [n] was started to serve the call [c] of node [p], as the request
    [q]: on the caller's own node, or for a request of the caller's that arrived. *)
Inductive serves (hist : list (happened T)) (n : peer_t) (t : nat) (p : peer_t) (c : nat)
  (q : request T) : Prop :=
| serves_here : n = p -> saw hist p (OServe t c q) -> serves hist n t p c q
| serves_there : forall rid ch os, saw hist p (OWire c rid n q) ->
    In (HDeliver (mk_packet p rid n q) ch os) hist -> In (OServePeer t ch q) os ->
    serves hist n t p c q.

(** The task was started at all. *)
Definition spawned (hist : list (happened T)) (n : peer_t) (t : nat) : Prop :=
  exists x q, saw hist n (OServe t x q) \/ saw hist n (OServePeer t x q).

(** The task ended, with a result or a panic. *)
Definition task_ended (hist : list (happened T)) (n : peer_t) (t : nat)
  (r : option (st_result T)) : Prop := did hist n (ETask t r).

(** How often it ended. *)
Definition task_ends (hist : list (happened T)) (n : peer_t) (t : nat) : nat :=
  length (filter (fun e => match e with ETask t' _ => Nat.eqb t t' | _ => false end)
            (map fst (at_node n hist))).

End Spec.
Arguments doer {T} x.
Arguments at_node {T} p hist.
Arguments saw {T} hist p o.
Arguments did {T} hist p e.
Arguments serves {T} hist n t p c q.
Arguments spawned {T} hist n t.
Arguments task_ended {T} hist n t r.
Arguments task_ends {T} hist n t.
