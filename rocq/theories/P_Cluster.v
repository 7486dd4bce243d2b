(** Property theorems about calls between nodes (C62). Any number of nodes run the swarm
    task; requests and responses between them are delivered at any time, in any order, at
    most once or never; failures are reported at any time. *)
From Coq Require Import List Bool Arith NArith.
From Verif Require Import ActorId ActorId_examples Swarm Swarm_spec Swarm_examples Cluster Cluster_spec Cluster_proofs
  Cluster_examples.
Import ListNotations.
Local Open Scope nat_scope.

(** ** C62 *)

(** What a node goes through is a run of the swarm task, so that C48 and C49 hold of each
    node. *)
Theorem C62_nodes_run : forall T es (s : cluster T) hist p, c_exec cluster_new es = Some (s, hist) ->
  run p handler_new (map fst (at_node p hist)) = (cl_node s p, at_node p hist).
Proof. exact nodes_run. Qed.
Print Assumptions C62_nodes_run.

(** A call is served by at most one task of at most one node. *)
Theorem C62_served_once : forall T es (s : cluster T) hist n t p c q n' t' q',
  c_exec cluster_new es = Some (s, hist) ->
  serves hist n t p c q -> serves hist n' t' p c q' -> n = n' /\ t = t' /\ q = q'.
Proof. exact served_once. Qed.
Print Assumptions C62_served_once.

(** A task serves one call. *)
Theorem C62_serves_one : forall T es (s : cluster T) hist n t p c q p' c' q',
  c_exec cluster_new es = Some (s, hist) ->
  serves hist n t p c q -> serves hist n t p' c' q' -> p = p' /\ c = c' /\ q = q'.
Proof. exact serves_one. Qed.
Print Assumptions C62_serves_one.

(** It serves what the caller asked for, on the node the call is for or on the caller's. *)
Theorem C62_serves_own : forall T es (s : cluster T) hist n t p c q, c_exec cluster_new es = Some (s, hist) ->
  serves hist n t p c q ->
  exists x dest, saw hist p (OSent c x) /\ means p x dest q /\ (n = dest \/ n = p).
Proof. exact serves_own. Qed.
Print Assumptions C62_serves_own.

(** A task ends once, and only if it was started. *)
Theorem C62_ended_once : forall T es (s : cluster T) hist n t, c_exec cluster_new es = Some (s, hist) ->
  task_ends hist n t <= 1.
Proof. exact ended_once. Qed.
Print Assumptions C62_ended_once.
Theorem C62_ended_spawned : forall T es (s : cluster T) hist n t r, c_exec cluster_new es = Some (s, hist) ->
  task_ended hist n t r -> spawned hist n t.
Proof. exact ended_spawned. Qed.
Print Assumptions C62_ended_spawned.

(** A result that a caller gets is the result of the task that served its own call. *)
Theorem C62_result_own : forall T es (s : cluster T) hist p c k r, c_exec cluster_new es = Some (s, hist) ->
  saw hist p (OReply c (AResponse (RResult k r))) ->
  exists n t q, serves hist n t p c q /\ task_ended hist n t (Some r) /\ k = request_kind q.
Proof. exact result_own. Qed.
Print Assumptions C62_result_own.

(** A network error that a caller gets was reported for its own request. *)
Theorem C62_failure_own : forall T es (s : cluster T) hist p c e, c_exec cluster_new es = Some (s, hist) ->
  saw hist p (OReply c (AResponse (RFailure e))) ->
  exists rid dest q f, saw hist p (OWire c rid dest q) /\ did hist p (ENet (NFailure rid f)) /\ failure_means f e.
Proof. exact failure_own. Qed.
Print Assumptions C62_failure_own.

(** Between nodes that all run this code no answer is of a kind that makes the caller
    panic. *)
Theorem C62_right_kind : forall T es (s : cluster T) hist p c x k a, c_exec cluster_new es = Some (s, hist) ->
  saw hist p (OSent c x) -> kind_wanted x = Some k -> saw hist p (OReply c (AResponse a)) ->
  client_request k (Some (AResponse a)) <> CallerPanic.
Proof. exact right_kind. Qed.
Print Assumptions C62_right_kind.

(** Two asks of one node, served and answered in reverse order, each with its own answer. *)
Example C62_answers_case : c_exec cluster_new cl_events = Some (cl_state cl_events, cl_hist cl_events) /\
  serves (cl_hist cl_events) sw_b 1 sw_a 0 (cl_req 10) /\ serves (cl_hist cl_events) sw_b 0 sw_a 1 (cl_req 20) /\
  saw (cl_hist cl_events) sw_a (OReply 0 (AResponse (RResult KAsk (sw_result 100)))) /\
  saw (cl_hist cl_events) sw_a (OReply 1 (AResponse (RResult KAsk (sw_result 200)))) /\
  task_ends (cl_hist cl_events) sw_b 0 = 1.
Proof.
  split; [apply cl_ran; by_vm|]. split; [exact cl_first_served|].
  split; [exact cl_second_served|]. split; [at_place 5|]. split; [at_place 4|by_vm].
Qed.

(** A call made after another's result has arrived is served after the other's task has
    ended, whichever nodes make and serve them. *)
Theorem C62_awaited : forall T es (s : cluster T) h1 h2 n t p c q k r n' t' p' c' q',
  c_exec cluster_new es = Some (s, h1 ++ h2) ->
  serves (h1 ++ h2) n t p c q -> saw h1 p (OReply c (AResponse (RResult k r))) ->
  serves (h1 ++ h2) n' t' p' c' q' -> (forall x, ~ saw h1 p' (OSent c' x)) ->
  task_ended h1 n t (Some r) /\ ~ spawned h1 n' t'.
Proof. exact awaited. Qed.
Print Assumptions C62_awaited.

Example C62_awaited_case : exists h2,
  c_exec cluster_new (cl_awaited ++ cl_alone) =
    Some (cl_state (cl_awaited ++ cl_alone), cl_hist cl_awaited ++ h2) /\
  serves (cl_hist cl_awaited ++ h2) sw_b 0 sw_a 0 (cl_req 10) /\
  saw (cl_hist cl_awaited) sw_a (OReply 0 (AResponse (RResult KAsk (sw_result 100)))) /\
  serves (cl_hist cl_awaited ++ h2) sw_a 0 sw_a 1 (cl_req 20) /\
  (forall x, ~ saw (cl_hist cl_awaited) sw_a (OSent 1 x)).
Proof.
  exists (skipn 6 (cl_hist (cl_awaited ++ cl_alone))).
  assert (E : cl_hist cl_awaited ++ skipn 6 (cl_hist (cl_awaited ++ cl_alone)) = cl_hist (cl_awaited ++ cl_alone))
    by (by_vm).
  rewrite E. split; [apply cl_ran; by_vm|]. split; [exact cl_awaited_first|].
  split; [at_place 2|]. split; [exact cl_awaited_second|exact cl_not_sent].
Qed.

(** Without waiting for the result, two calls of one node to one actor, sent in order, can
    be served in the other order: the second is over before the first begins. *)
Theorem C62_order_refuted : exists es (s : cluster sw_types) h1 h2 h3 n t t' p c c' dest to b b' r,
  c_exec cluster_new es = Some (s, h1 ++ h2 ++ h3) /\
  saw h1 p (OSent c (CAsk dest to b)) /\ (forall x, ~ saw h1 p (OSent c' x)) /\
  saw (h1 ++ h2) p (OSent c' (CAsk dest to b')) /\
  serves (h1 ++ h2 ++ h3) n t p c (QAsk to b) /\ serves (h1 ++ h2 ++ h3) n t' p c' (QAsk to b') /\
  task_ended (h1 ++ h2) n t' (Some r) /\ ~ spawned (h1 ++ h2) n t.
Proof.
  exists cl_events, (cl_state cl_events), (cl_hist (firstn 1 cl_send)),
    (skipn 1 (cl_hist (cl_send ++ cl_second))), (skipn 6 (cl_hist cl_events)),
    sw_b, 1, 0, sw_a, 0, 1, sw_b, (sw_id 1), 10, 20, (sw_result 200).
  assert (E12 : cl_hist (firstn 1 cl_send) ++ skipn 1 (cl_hist (cl_send ++ cl_second))
                = cl_hist (cl_send ++ cl_second)) by (by_vm).
  assert (E : cl_hist (firstn 1 cl_send) ++ skipn 1 (cl_hist (cl_send ++ cl_second)) ++ skipn 6 (cl_hist cl_events)
              = cl_hist cl_events) by (by_vm).
  rewrite E, E12. split; [apply cl_ran; by_vm|]. split; [at_place 0|].
  split; [exact cl_sent_first|]. split; [at_place 1|]. split; [exact cl_first_served|]. split; [exact cl_second_served|].
  split; [at_place 1|exact cl_not_spawned].
Qed.
Print Assumptions C62_order_refuted.

(** A network error does not tell that the call was not served. *)
Theorem C62_failed_unserved_refuted : exists es (s : cluster sw_types) hist p c e n t q r,
  c_exec cluster_new es = Some (s, hist) /\ saw hist p (OReply c (AResponse (RFailure e))) /\
  serves hist n t p c q /\ task_ended hist n t (Some r).
Proof.
  exists cl_late, (cl_state cl_late), (cl_hist cl_late), sw_a, 0, NeTimeout, sw_b, 0, (cl_req 10), (sw_result 100).
  split; [apply cl_ran; by_vm|]. split; [at_place 2|]. split; [exact cl_late_served|at_place 1].
Qed.
Print Assumptions C62_failed_unserved_refuted.

(** A request on its way to a live node with no command waiting can be delivered, served
    with any result, and that result handed to the caller. *)
Theorem C62_round_trip : forall T es (s : cluster T) hist c i p rid n q r,
  c_exec cluster_new es = Some (s, hist) -> nth_error (cl_wire s) i = Some (mk_packet p rid n q) ->
  saw hist p (OWire c rid n q) -> endings c (seen (at_node p hist)) = 0 ->
  ~ saw hist p OHandlerPanic -> ~ saw hist n OHandlerPanic -> h_cmds (cl_node s n) = [] ->
  exists t es2 s2 hist2, c_exec s es2 = Some (s2, hist2) /\
    serves (hist ++ hist2) n t p c q /\ task_ended hist2 n t (Some r) /\
    saw hist2 p (OReply c (AResponse (RResult (request_kind q) r))).
Proof. exact round_trip. Qed.
Print Assumptions C62_round_trip.

Example C62_round_trip_case :
  nth_error (cl_wire (cl_state cl_send)) 1 = Some (mk_packet sw_a 1 sw_b (cl_req 20)) /\
  endings 1 (seen (at_node sw_a (cl_hist cl_send))) = 0 /\ h_cmds (cl_node (cl_state cl_send) sw_b) = [].
Proof. split; [by_vm|]. split; by_vm. Qed.
