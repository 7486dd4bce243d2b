(** Property theorems about remote asks and tells from the caller to the mailbox and back
    (C63): any number of nodes, as in C62, whose tasks for asks and tells look up the
    actor, put the message into its mailbox and make the answer, as in C47, while
    the tables and mailboxes change in any way. *)
From Coq Require Import String List Bool Arith NArith.
From Verif Require Import ActorId ActorId_examples Errors Dyn Reply Requests Requests_spec.
From Verif Require Import Swarm Swarm_spec Cluster Cluster_spec.
From Verif Require Import RemoteDispatch RemoteDispatch_spec RemoteDispatch_examples.
From Verif Require Import RemoteCalls RemoteCalls_spec RemoteCalls_proofs RemoteCalls_examples.
Import ListNotations.
Local Open Scope nat_scope.
Local Open Scope list_scope.

(** ** C63 *)

(** The cluster's part of a run is a run of C62, so that C48, C49 and C62 hold of it. *)
Theorem C63_cluster : forall P user bytes reason (prog : program user bytes) es (s : calls P user bytes reason) hist, x_exec prog calls_new es = Some (s, hist) ->
  exists ces, c_exec cluster_new ces = Some (cs_net s, net hist).
Proof. exact cluster_runs. Qed.
Print Assumptions C63_cluster.

(** The task that serves an ask or tell enqueues nothing, or one message: the one of the
    request, in the mailbox of the actor that the node's table had under the request's id,
    with a channel for the reply exactly if it is an ask. *)
Theorem C63_enqueued : forall P user bytes reason (prog : program user bytes) es (s : calls P user bytes reason) hist n t p c (q : Swarm.request (call_types P user bytes reason)) b,
  x_exec prog calls_new es = Some (s, hist) -> ids_unique (world_at prog n) ->
  serves (net hist) n t p c q -> is_call q b ->
  puts hist n t = [] \/
  exists reg f a msg, had_table hist n t reg /\ accepted (world_at prog n) b reg f a msg /\
    puts hist n t = [(a, signal_of (q_ask b) t (fn_msg f) msg)].
Proof. exact call_enqueued. Qed.
Print Assumptions C63_enqueued.

(** Nothing is enqueued for any other reason. *)
Theorem C63_only_calls : forall P user bytes reason (prog : program user bytes) es (s : calls P user bytes reason) hist n t,
  x_exec prog calls_new es = Some (s, hist) -> puts hist n t <> [] ->
  exists p c to b, serves (net hist) n t p c (@QAsk (call_types P user bytes reason) to b) \/ serves (net hist) n t p c (@QTell (call_types P user bytes reason) to b).
Proof. exact only_calls. Qed.
Print Assumptions C63_only_calls.

(** For one call at most one message is enqueued, on all nodes together. *)
Theorem C63_once : forall P user bytes reason (prog : program user bytes) es (s : calls P user bytes reason) hist n t n' t' p c (q q' : Swarm.request (call_types P user bytes reason)),
  x_exec prog calls_new es = Some (s, hist) -> ids_unique (world_at prog n) ->
  serves (net hist) n t p c q -> serves (net hist) n' t' p c q' ->
  (n', t') = (n, t) /\ List.length (puts hist n t) <= 1.
Proof. exact put_once. Qed.
Print Assumptions C63_once.

(** What an ask of a handled message returns, and what was enqueued for it: a network error;
    or one node served it, and the actor was not in its table, or had another type, and
    nothing was enqueued; or the result is that of a local ask of that actor with this
    message. *)
Theorem C63_ask : forall P user bytes reason (prog : program user bytes) es (s : calls P user bytes reason) hist p c dest to b actor mid f
    (v : den user (fn_msg f)) mt rt imm a,
  x_exec prog calls_new es = Some (s, hist) -> ids_unique (world_at prog p) ->
  In ((actor, mid), f) (pr_messages prog) -> round_trip (world_at prog p) (fn_msg f) ->
  round_trip (world_at prog p) (r_ok (fn_reply f)) -> round_trip (world_at prog p) (r_err (fn_reply f)) ->
  build (world_at prog p) true true to actor mid (fn_msg f) v mt rt imm = Command b ->
  saw (net hist) p (@OSent (call_types P user bytes reason) c (@CAsk (call_types P user bytes reason) dest to b)) -> saw (net hist) p (@OReply (call_types P user bytes reason) c (AResponse a)) ->
  let o := receive_ask (world_at prog p) (fn_reply f) (Some (as_response a)) in
  (exists e, network_error o e) \/
  exists n t reg, serves (net hist) n t p c (@QAsk (call_types P user bytes reason) to b) /\ (n = dest \/ n = p) /\ had_table hist n t reg /\
    ((absent (world_at prog n) reg to /\ puts hist n t = [] /\ o = RemoteErr RActorNotRunning)
     \/ (exists x, registered (world_at prog n) reg to x /\ en_type x <> fn_actor f /\ puts hist n t = [] /\
           o = RemoteErr RBadActorType)
     \/ (exists x box es' s' os' o', registered (world_at prog n) reg to x /\ en_type x = fn_actor f /\
           rq_exec v t false (rq_start (fn_msg f) (fn_reply f) (if imm then MAskTry rt else MAsk mt rt) box) es'
             = Some (s', os') /\
           puts hist n t = map (pair (en_actor x)) os' /\ local_result (rq_pos s') o' /\
           ask_result (world_at prog n) o' o)).
Proof. exact ask_answered. Qed.
Print Assumptions C63_ask.

(** An ask that returns a value had its message enqueued, once, and the value is what the
    reply to that message was. *)
Theorem C63_ask_ok : forall P user bytes reason (prog : program user bytes) es (s : calls P user bytes reason) hist p c dest to b actor mid f
    (v : den user (fn_msg f)) mt rt imm a y,
  x_exec prog calls_new es = Some (s, hist) -> ids_unique (world_at prog p) ->
  In ((actor, mid), f) (pr_messages prog) -> round_trip (world_at prog p) (fn_msg f) ->
  round_trip (world_at prog p) (r_ok (fn_reply f)) -> round_trip (world_at prog p) (r_err (fn_reply f)) ->
  build (world_at prog p) true true to actor mid (fn_msg f) v mt rt imm = Command b ->
  saw (net hist) p (@OSent (call_types P user bytes reason) c (@CAsk (call_types P user bytes reason) dest to b)) -> saw (net hist) p (@OReply (call_types P user bytes reason) c (AResponse a)) ->
  receive_ask (world_at prog p) (fn_reply f) (Some (as_response a)) = RemoteOk y ->
  exists n t reg x box es' s' os', serves (net hist) n t p c (@QAsk (call_types P user bytes reason) to b) /\ (n = dest \/ n = p) /\
    had_table hist n t reg /\ registered (world_at prog n) reg to x /\ en_type x = fn_actor f /\
    puts hist n t = [(en_actor x, signal_of true t (fn_msg f) v)] /\
    rq_exec v t false (rq_start (fn_msg f) (fn_reply f) (if imm then MAskTry rt else MAsk mt rt) box) es'
      = Some (s', os') /\ rq_pos s' = RqDone (OutOk y).
Proof. exact ask_value. Qed.
Print Assumptions C63_ask_ok.

(** A tell of a handled message: if it returns Ok, its message was enqueued, once; with an
    error other than a network error nothing was enqueued. *)
Theorem C63_tell : forall P user bytes reason (prog : program user bytes) es (s : calls P user bytes reason) hist p c dest to b actor mid f
    (v : den user (fn_msg f)) mt rt imm a,
  x_exec prog calls_new es = Some (s, hist) -> ids_unique (world_at prog p) ->
  In ((actor, mid), f) (pr_messages prog) -> round_trip (world_at prog p) (fn_msg f) ->
  build (world_at prog p) false true to actor mid (fn_msg f) v mt rt imm = Command b ->
  saw (net hist) p (@OSent (call_types P user bytes reason) c (@CTell (call_types P user bytes reason) dest to b)) -> saw (net hist) p (@OReply (call_types P user bytes reason) c (AResponse a)) ->
  let o := receive_tell (Some (as_response a)) in
  (exists e, network_error o e) \/
  exists n t reg, serves (net hist) n t p c (@QTell (call_types P user bytes reason) to b) /\ (n = dest \/ n = p) /\ had_table hist n t reg /\
    ((absent (world_at prog n) reg to /\ puts hist n t = [] /\ o = RemoteErr RActorNotRunning)
     \/ (exists x, registered (world_at prog n) reg to x /\ en_type x <> fn_actor f /\ puts hist n t = [] /\
           o = RemoteErr RBadActorType)
     \/ (exists x, registered (world_at prog n) reg to x /\ en_type x = fn_actor f /\
           ((o = RemoteOk tt /\ puts hist n t = [(en_actor x, signal_of false t (fn_msg f) v)])
            \/ ((o = RemoteErr RActorNotRunning \/ o = RemoteErr RMailboxFull \/ o = RemoteErr RReplyTimeout) /\
                puts hist n t = [])))).
Proof. exact tell_answered. Qed.
Print Assumptions C63_tell.

(** Node a asks 42 of an actor that is not yet in node b's table when its task begins; the
    actor replies 7, which the ask returns. *)
Example C63_ask_case :
  x_exec rc_prog calls_new rc_asked = Some (rc_state rc_asked, rc_hist rc_asked) /\
  ids_unique (world_at rc_prog ex_node_b) /\ In (("A", "m")%string, rd_fns) (pr_messages rc_prog) /\
  round_trip (world_at rc_prog ex_node_a) (fn_msg rd_fns) /\
  round_trip (world_at rc_prog ex_node_a) (r_ok (fn_reply rd_fns)) /\
  round_trip (world_at rc_prog ex_node_a) (r_err (fn_reply rd_fns)) /\
  build (world_at rc_prog ex_node_a) true true rc_id "A" "m" (fn_msg rd_fns) 42 true true false = Command (rc_ask 42) /\
  saw (T := rc_types) (net (rc_hist rc_asked)) ex_node_a (@OSent rc_types 0 (@CAsk rc_types ex_node_b rc_id (rc_ask 42))) /\
  saw (T := rc_types) (net (rc_hist rc_asked)) ex_node_a
    (@OReply rc_types 0 (AResponse (@RResult rc_types KAsk (RespAsk (Ok 7))))) /\
  serves (T := rc_types) (net (rc_hist rc_asked)) ex_node_b 0 ex_node_a 0 (@QAsk rc_types rc_id (rc_ask 42)) /\
  is_call (reason := nat) (@QAsk rc_types rc_id (rc_ask 42)) (rc_ask 42) /\
  puts (rc_hist rc_asked) ex_node_b 0 = [(30, signal_of (user := rd_user) true 0 (TUser 1) 42)] /\
  receive_ask (world_at rc_prog ex_node_a) (fn_reply rd_fns) (Some (RespAsk (Ok 7))) = RemoteOk 7.
Proof.
  split; [apply rc_ran; by_vm|]. split; [apply rc_unique|]. split; [now left|].
  split; [apply rc_round_trip|]. split; [apply rc_round_trip|]. split; [apply rc_round_trip|].
  split; [reflexivity|]. split; [rc_place 0|]. split; [rc_place 2|].
  split; [apply (rc_served rc_asked 0 0 0 0 _ 1 2); by_vm|].
  split; [constructor; reflexivity|]. split; by_vm.
Qed.

(** A call made after another's result has arrived, from whichever node, has its message
    enqueued after the other's. *)
Theorem C63_awaited : forall P user bytes reason (prog : program user bytes) es (s : calls P user bytes reason) h1 h2 n t p c (q : Swarm.request (call_types P user bytes reason)) b k r n' t' p' c' (q' : Swarm.request (call_types P user bytes reason)),
  x_exec prog calls_new es = Some (s, h1 ++ h2) ->
  serves (net (h1 ++ h2)) n t p c q -> is_call q b -> saw (net h1) p (OReply c (AResponse (RResult k r))) ->
  serves (net (h1 ++ h2)) n' t' p' c' q' -> (forall x, ~ saw (net h1) p' (OSent c' x)) ->
  puts h2 n t = [] /\ puts h1 n' t' = [].
Proof. exact awaited_calls. Qed.
Print Assumptions C63_awaited.

(** Node a tells 10, which is enqueued; then node b tells 20 itself. The first tell is over
    before the second is made: what they enqueue is in that order. *)
Example C63_awaited_case :
  x_exec rc_prog calls_new (rc_told ++ rc_told_again)
    = Some (rc_state (rc_told ++ rc_told_again), rc_hist (rc_told ++ rc_told_again)) /\
  rc_hist (rc_told ++ rc_told_again) = firstn 10 (rc_hist (rc_told ++ rc_told_again)) ++
                                       skipn 10 (rc_hist (rc_told ++ rc_told_again)) /\
  firstn 10 (rc_hist (rc_told ++ rc_told_again)) = rc_hist rc_told /\
  build (world_at rc_prog ex_node_a) false true rc_id "A" "m" (fn_msg rd_fns) 10 true false false
    = Command (rc_tell 10) /\
  saw (T := rc_types) (net (rc_hist rc_told)) ex_node_a (@OSent rc_types 0 (@CTell rc_types ex_node_b rc_id (rc_tell 10))) /\
  saw (T := rc_types) (net (rc_hist rc_told)) ex_node_a
    (@OReply rc_types 0 (AResponse (@RResult rc_types KTell (RespTell (Ok tt))))) /\
  serves (T := rc_types) (net (rc_hist rc_told)) ex_node_b 0 ex_node_a 0 (@QTell rc_types rc_id (rc_tell 10)) /\
  is_call (reason := nat) (@QTell rc_types rc_id (rc_tell 10)) (rc_tell 10) /\
  serves (T := rc_types) (net (rc_hist (rc_told ++ rc_told_again))) ex_node_b 1 ex_node_b 0
    (@QTell rc_types rc_id (rc_tell 20)) /\
  (forall x, ~ saw (T := rc_types) (net (rc_hist rc_told)) ex_node_b (OSent 0 x)) /\
  puts (rc_hist rc_told) ex_node_b 0 = [(30, signal_of (user := rd_user) false 0 (TUser 1) 10)] /\
  puts (rc_hist (rc_told ++ rc_told_again)) ex_node_b 1 = [(30, signal_of (user := rd_user) false 1 (TUser 1) 20)] /\
  receive_tell (bytes := nat) (Some (RespTell (user := rd_user) (Ok tt))) = RemoteOk tt.
Proof.
  split; [apply rc_ran; by_vm|]. split; [symmetry; apply firstn_skipn|].
  split; [by_vm|]. split; [reflexivity|]. split; [rc_place 0|]. split; [rc_place 2|].
  split; [apply (rc_served rc_told 0 0 0 0 _ 1 2); by_vm|]. split; [constructor; reflexivity|].
  split; [apply serves_here; [reflexivity|rc_place 3]|]. split; [apply rc_not_sent; by_vm|].
  split; [|split]; by_vm.
Qed.

(** If nodes have only their own actors in their tables, the message is enqueued on the
    node that the actor id names. *)
Theorem C63_right_node : forall P user bytes reason (prog : program user bytes) es (s : calls P user bytes reason) hist n t p c x dest (q : Swarm.request (call_types P user bytes reason)) b,
  x_exec prog calls_new es = Some (s, hist) -> ids_unique (world_at prog n) ->
  serves (net hist) n t p c q -> is_call q b ->
  saw (net hist) p (OSent c x) -> means p x dest q -> kind_peer P (Some p) (kind (q_id b)) = Some dest ->
  (forall reg i e, had_table hist n t reg -> In (i, e) reg -> kind_peer P (Some n) (kind i) = Some n) ->
  puts hist n t <> [] -> n = dest.
Proof. exact right_node. Qed.
Print Assumptions C63_right_node.

(** Node b's table holds only its own actor, under its local id. *)
Example C63_right_node_case :
  means (T := rc_types) ex_node_a (@CTell rc_types ex_node_b rc_id (rc_tell 10)) ex_node_b
    (@QTell rc_types rc_id (rc_tell 10)) /\
  kind_peer ex_peers (Some ex_node_a) (kind (q_id (rc_tell 10))) = Some ex_node_b /\
  (forall i e, In (i, e) rc_table -> kind_peer ex_peers (Some ex_node_b) (kind i) = Some ex_node_b) /\
  puts (rc_hist rc_told) ex_node_b 0 <> [].
Proof.
  split; [constructor|]. split; [reflexivity|]. split; [intros i e [[= <- <-]|[]]; reflexivity|].
  vm_compute. discriminate.
Qed.

(** A tell on its way to a running node whose actor is registered and has room in its
    mailbox can be enqueued and answered with Ok. *)
Theorem C63_tell_delivers : forall P user bytes reason (prog : program user bytes) es (s : calls P user bytes reason) hist c i (p : peer P) rid (n : peer P) to b
    (reg : registry (actor_id P)) box f a msg,
  x_exec prog calls_new es = Some (s, hist) ->
  nth_error (cl_wire (cs_net s)) i = Some (@mk_packet (call_types P user bytes reason) p rid n (@QTell (call_types P user bytes reason) to b)) ->
  saw (net hist) p (@OWire (call_types P user bytes reason) c rid n (@QTell (call_types P user bytes reason) to b)) -> endings c (seen (@at_node (call_types P user bytes reason) p (net hist))) = 0 ->
  ~ saw (net hist) p (@OHandlerPanic (call_types P user bytes reason)) -> ~ saw (net hist) n (@OHandlerPanic (call_types P user bytes reason)) ->
  h_cmds (@cl_node (call_types P user bytes reason) (cs_net s) n) = [] -> is_call (@QTell (call_types P user bytes reason) to b) b ->
  ids_unique (world_at prog n) -> one_entry (world_at prog n) reg -> accepted (world_at prog n) b reg f a msg ->
  mopen (box a) = true -> ~ full user (box a) ->
  exists t es2 s2 hist2 (x : Swarm.response (call_types P user bytes reason)), x_exec prog s es2 = Some (s2, hist2) /\ serves (net (hist ++ hist2)) n t p c (@QTell (call_types P user bytes reason) to b) /\
    had_table hist2 n t reg /\ puts hist2 n t = [(a, signal_of false t (fn_msg f) msg)] /\
    saw (net hist2) p (@OReply (call_types P user bytes reason) c (AResponse x)) /\ receive_tell (Some (as_response x)) = RemoteOk tt.
Proof. exact tell_delivers. Qed.
Print Assumptions C63_tell_delivers.

(** An ask likewise; it returns the value that the actor replies. *)
Theorem C63_ask_delivers : forall P user bytes reason (prog : program user bytes) es (s : calls P user bytes reason) hist c i (p : peer P) rid (n : peer P) to b
    (reg : registry (actor_id P)) box f a msg (y : den user (r_ok (fn_reply f))) pl,
  x_exec prog calls_new es = Some (s, hist) ->
  nth_error (cl_wire (cs_net s)) i = Some (@mk_packet (call_types P user bytes reason) p rid n (@QAsk (call_types P user bytes reason) to b)) ->
  saw (net hist) p (@OWire (call_types P user bytes reason) c rid n (@QAsk (call_types P user bytes reason) to b)) -> endings c (seen (@at_node (call_types P user bytes reason) p (net hist))) = 0 ->
  ~ saw (net hist) p (@OHandlerPanic (call_types P user bytes reason)) -> ~ saw (net hist) n (@OHandlerPanic (call_types P user bytes reason)) ->
  h_cmds (@cl_node (call_types P user bytes reason) (cs_net s) n) = [] -> is_call (@QAsk (call_types P user bytes reason) to b) b ->
  ids_unique (world_at prog n) -> one_entry (world_at prog n) reg -> accepted (world_at prog n) b reg f a msg ->
  mopen (box a) = true -> ~ full user (box a) ->
  pr_encode prog _ y = Ok pl -> round_trip (world_at prog p) (r_ok (fn_reply f)) ->
  exists t es2 s2 hist2 (x : Swarm.response (call_types P user bytes reason)), x_exec prog s es2 = Some (s2, hist2) /\ serves (net (hist ++ hist2)) n t p c (@QAsk (call_types P user bytes reason) to b) /\
    had_table hist2 n t reg /\ puts hist2 n t = [(a, signal_of true t (fn_msg f) msg)] /\
    saw (net hist2) p (@OReply (call_types P user bytes reason) c (AResponse x)) /\
    receive_ask (world_at prog p) (fn_reply f) (Some (as_response x)) = RemoteOk y.
Proof. exact ask_delivers. Qed.
Print Assumptions C63_ask_delivers.

(** A tell (an ask) on the way to node b, whose actor 30 is registered and has room. *)
Example C63_delivers_case :
  x_exec rc_prog calls_new (firstn 2 rc_told) = Some (rc_state (firstn 2 rc_told), rc_hist (firstn 2 rc_told)) /\
  nth_error (cl_wire (cs_net (rc_state (firstn 2 rc_told)))) 0
    = Some (@mk_packet rc_types ex_node_a 0 ex_node_b (@QTell rc_types rc_id (rc_tell 10))) /\
  saw (T := rc_types) (net (rc_hist (firstn 2 rc_told))) ex_node_a
    (@OWire rc_types 0 0 ex_node_b (@QTell rc_types rc_id (rc_tell 10))) /\
  endings 0 (seen (at_node (T := rc_types) ex_node_a (net (rc_hist (firstn 2 rc_told))))) = 0 /\
  (forall n, ~ saw (T := rc_types) (net (rc_hist (firstn 2 rc_told))) n (@OHandlerPanic rc_types)) /\
  h_cmds (cl_node (T := rc_types) (cs_net (rc_state (firstn 2 rc_told))) ex_node_b) = [] /\
  is_call (reason := nat) (@QTell rc_types rc_id (rc_tell 10)) (rc_tell 10) /\
  is_call (reason := nat) (@QAsk rc_types rc_id (rc_ask 42)) (rc_ask 42) /\
  one_entry (world_at rc_prog ex_node_b) rc_table /\
  accepted (world_at rc_prog ex_node_b) (rc_tell 10) rc_table rd_fns 30 10 /\
  accepted (world_at rc_prog ex_node_b) (rc_ask 42) rc_table rd_fns 30 42 /\
  mopen (rc_boxes 30) = true /\ ~ full rd_user (rc_boxes 30) /\
  pr_encode rc_prog (r_ok (fn_reply rd_fns)) 7 = Ok 7.
Proof.
  split; [apply rc_ran; by_vm|]. split; [by_vm|]. split; [rc_place 1|].
  split; [by_vm|]. split; [apply rc_no_panic|]. split; [by_vm|].
  split; [constructor; reflexivity|]. split; [constructor; reflexivity|]. split; [apply rc_one_entry|].
  split; [apply rc_accepted; reflexivity|]. split; [apply rc_accepted; reflexivity|]. split; [reflexivity|]. split; [apply rc_room|reflexivity].
Qed.

(** Two tells to one actor that are not awaited are enqueued in any order: node a tells 10
    and then 20; 20 is enqueued, then 10. *)
Theorem C63_order_refuted : exists es (s : calls ex_peers rd_user nat nat) h1 h2 h3,
  x_exec rc_prog calls_new es = Some (s, h1 ++ h2 ++ h3) /\
  saw (T := rc_types) (net h1) ex_node_a (@OSent rc_types 0 (@CTell rc_types ex_node_b rc_id (rc_tell 10))) /\
  (forall x, ~ saw (T := rc_types) (net h1) ex_node_a (OSent 1 x)) /\
  saw (T := rc_types) (net h2) ex_node_a (@OSent rc_types 1 (@CTell rc_types ex_node_b rc_id (rc_tell 20))) /\
  puts (h1 ++ h2) ex_node_b 0 = [(30, signal_of (user := rd_user) false 0 (TUser 1) 20)] /\
  puts (h1 ++ h2) ex_node_b 1 = [] /\
  puts h3 ex_node_b 1 = [(30, signal_of (user := rd_user) false 1 (TUser 1) 10)].
Proof.
  set (all := rc_two_sent ++ rc_two_second ++ rc_two_first).
  exists all, (rc_state all), (rc_hist rc_two_sent), (skipn 1 (firstn 9 (rc_hist all))), (skipn 9 (rc_hist all)).
  split.
  { assert (E : rc_hist rc_two_sent ++ skipn 1 (firstn 9 (rc_hist all)) ++ skipn 9 (rc_hist all) = rc_hist all)
      by (by_vm). rewrite E. apply rc_ran. by_vm. }
  split; [rc_place 0|]. split; [apply rc_not_sent; by_vm|]. split; [rc_place 0|].
  split; [|split]; by_vm.
Qed.
Print Assumptions C63_order_refuted.

(** A caller that gets a network error cannot know: the message may be in the mailbox. *)
Theorem C63_failed_unenqueued_refuted : exists es (s : calls ex_peers rd_user nat nat) hist a,
  x_exec rc_prog calls_new es = Some (s, hist) /\
  saw (T := rc_types) (net hist) ex_node_a (@OSent rc_types 0 (@CTell rc_types ex_node_b rc_id (rc_tell 10))) /\
  saw (T := rc_types) (net hist) ex_node_a (@OReply rc_types 0 (AResponse a)) /\
  receive_tell (Some (as_response a)) = RemoteErr RNetworkTimeout /\
  serves (T := rc_types) (net hist) ex_node_b 0 ex_node_a 0 (@QTell rc_types rc_id (rc_tell 10)) /\
  puts hist ex_node_b 0 = [(30, signal_of (user := rd_user) false 0 (TUser 1) 10)].
Proof.
  exists rc_late, (rc_state rc_late), (rc_hist rc_late), (@RFailure rc_types NeTimeout).
  split; [apply rc_ran; by_vm|]. split; [rc_place 0|]. split; [rc_place 2|]. split; [reflexivity|].
  split; [apply (rc_served rc_late 0 0 0 0 _ 1 2); by_vm|]. by_vm.
Qed.
Print Assumptions C63_failed_unenqueued_refuted.
