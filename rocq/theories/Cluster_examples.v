(** Data for the examples beside the theorems about calls between nodes. *)
From Coq Require Import List Bool NArith Init.Byte Strings.Byte.
From Verif Require Import ActorId ActorId_examples Swarm Swarm_spec Swarm_examples Cluster Cluster_spec.
Import ListNotations.

(** Equality by the kernel's virtual machine. *)
Ltac by_vm := match goal with |- ?a = ?b => exact (eq_refl b <: a = b) end.

(** Node a asks actor 1 of node b twice; the second request arrives and is served first,
    and its answer arrives first. *)
Definition cl_send : list (c_event sw_types) :=
  [CNode sw_a (ESend (sw_ask 1 10)); CNode sw_a (ESend (sw_ask 1 20));
   CNode sw_a (ECommand 1 true); CNode sw_a (ECommand 1 true)].
Definition cl_second : list (c_event sw_types) :=
  [CDeliver 1; CNode sw_b (ETask 0 (Some (sw_result 200)))].
Definition cl_first : list (c_event sw_types) :=
  [CDeliver 0; CNode sw_b (ECommand 1 true); CNode sw_b (ETask 1 (Some (sw_result 100)));
   CNode sw_b (ECommand 1 true); CAnswer 0; CAnswer 0].
Definition cl_events : list (c_event sw_types) := cl_send ++ cl_second ++ cl_first.

(** Node a's second ask is made after the first was answered; node a then serves its own
    ask because no peer is connected. *)
Definition cl_awaited : list (c_event sw_types) :=
  [CNode sw_a (ESend (sw_ask 1 10)); CNode sw_a (ECommand 1 true); CDeliver 0;
   CNode sw_b (ETask 0 (Some (sw_result 100))); CNode sw_b (ECommand 1 true); CAnswer 0].
Definition cl_alone : list (c_event sw_types) :=
  [CNode sw_a (ESend (sw_ask 1 20)); CNode sw_a (ECommand 0 true); CNode sw_a (ETask 0 (Some (sw_result 5)))].

(** The request is served, but the network reports a timeout before the answer arrives. *)
Definition cl_late : list (c_event sw_types) :=
  [CNode sw_a (ESend (sw_ask 1 10)); CNode sw_a (ECommand 1 true); CDeliver 0;
   CNode sw_b (ETask 0 (Some (sw_result 100))); CNode sw_a (ENet (NFailure 0 OfTimeout));
   CNode sw_b (ECommand 1 true); CAnswer 0].

(** What happened in a run. *)
Definition cl_hist (es : list (c_event sw_types)) : list (happened sw_types) :=
  match c_exec cluster_new es with Some (_, h) => h | None => [] end.
Definition cl_state (es : list (c_event sw_types)) : cluster sw_types :=
  match c_exec cluster_new es with Some (s, _) => s | None => cluster_new end.

Definition cl_req (b : nat) : request sw_types := QAsk (sw_id 1) b.

Lemma cl_ran : forall es, match c_exec (T:=sw_types) cluster_new es with Some _ => true | None => false end = true ->
  c_exec cluster_new es = Some (cl_state es, cl_hist es).
Proof.
  intros es; unfold cl_state, cl_hist. destruct (c_exec cluster_new es) as [[s h]|]; [reflexivity|discriminate].
Qed.

Ltac at_place n := unfold saw, task_ended, did; apply (nth_error_In _ n); by_vm.

Lemma cl_first_served : serves (cl_hist cl_events) sw_b 1 sw_a 0 (cl_req 10).
Proof.
  apply (serves_there _ (cl_hist cl_events) sw_b 1 sw_a 0 (cl_req 10) 0 1 [OServePeer 1 1 (cl_req 10)]);
    [at_place 2|at_place 6|now left].
Qed.

Lemma cl_second_served : serves (cl_hist cl_events) sw_b 0 sw_a 1 (cl_req 20).
Proof.
  apply (serves_there _ (cl_hist cl_events) sw_b 0 sw_a 1 (cl_req 20) 1 0 [OServePeer 0 0 (cl_req 20)]);
    [at_place 3|at_place 4|now left].
Qed.

Lemma cl_awaited_first : serves (cl_hist (cl_awaited ++ cl_alone)) sw_b 0 sw_a 0 (cl_req 10).
Proof.
  apply (serves_there _ (cl_hist (cl_awaited ++ cl_alone)) sw_b 0 sw_a 0 (cl_req 10) 0 0 [OServePeer 0 0 (cl_req 10)]);
    [at_place 1|at_place 2|now left].
Qed.

Lemma cl_awaited_second : serves (cl_hist (cl_awaited ++ cl_alone)) sw_a 0 sw_a 1 (cl_req 20).
Proof. apply serves_here; [reflexivity|at_place 4]. Qed.

Lemma cl_late_served : serves (cl_hist cl_late) sw_b 0 sw_a 0 (cl_req 10).
Proof.
  apply (serves_there _ (cl_hist cl_late) sw_b 0 sw_a 0 (cl_req 10) 0 0 [OServePeer 0 0 (cl_req 10)]);
    [at_place 1|at_place 2|now left].
Qed.

Definition cl_no_spawn (t : nat) (o : obs sw_types) : bool :=
  match o with OServe t' _ _ | OServePeer t' _ _ => negb (Nat.eqb t t') | _ => true end.
Definition cl_no_sent (c : nat) (o : obs sw_types) : bool :=
  match o with OSent c' _ => negb (Nat.eqb c c') | _ => true end.

Lemma cl_not_spawned : ~ spawned (cl_hist (cl_send ++ cl_second)) sw_b 1.
Proof.
  intros (x & q & H).
  assert (F : forallb (cl_no_spawn 1) (seen (at_node sw_b (cl_hist (cl_send ++ cl_second)))) = true)
    by (by_vm).
  destruct H as [H|H]; apply (proj1 (forallb_forall _ _) F) in H; discriminate H.
Qed.

Lemma cl_sent_first : forall x, ~ saw (cl_hist (firstn 1 cl_send)) sw_a (OSent 1 x).
Proof.
  intros x H.
  assert (F : forallb (cl_no_sent 1) (seen (at_node sw_a (cl_hist (firstn 1 cl_send)))) = true)
    by (by_vm).
  apply (proj1 (forallb_forall _ _) F) in H; discriminate H.
Qed.

Lemma cl_not_sent : forall x, ~ saw (cl_hist cl_awaited) sw_a (OSent 1 x).
Proof.
  intros x H.
  assert (F : forallb (cl_no_sent 1) (seen (at_node sw_a (cl_hist cl_awaited))) = true)
    by (by_vm).
  apply (proj1 (forallb_forall _ _) F) in H; discriminate H.
Qed.
