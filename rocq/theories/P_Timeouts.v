(** Property theorems about the timeouts of requests (C57). A run starts with a request that
    nobody has polled, made by any chain of calls, and interleaves polls with the passing of
    time and with anything others do to the mailbox and the reply channel; timers may be
    [gran] late. *)
From Coq Require Import List Bool NArith Lia.
Import ListNotations.
From Verif Require Import Errors Dyn Reply Requests Requests_examples Timeouts Timeouts_spec Timeouts_proofs Timeouts_examples.

(** ** C57 *)
Theorem C57_plan : forall t l h p,
  plan_of t l h = Some p <->
  set_last SetMailbox l (p_mailbox p) /\ set_last SetReply l (p_reply p)
  /\ sends t h (is_set (p_mailbox p)) (is_set (p_reply p)) (p_method p).
Proof. exact plan_meaning. Qed.
Print Assumptions C57_plan.

(** The later of two mailbox timeouts counts, here and on another node; a request with a
    mailbox timeout has no [try_send], a tell no reply timeout. *)
Example C57_plan_case :
  plan_of LocalAsk tx_sets Send = Some tx_plan /\ plan_of RemoteAsk tx_sets Send = Some tx_plan
  /\ plan_of LocalAsk tx_sets Enqueue = Some tx_enqueue
  /\ plan_of RecipientTell [SetMailbox 3%N; SetMailbox 4%N] Send = Some (mk_plan (MTell true) (Some 4%N) None)
  /\ plan_of LocalAsk tx_sets TrySend = None /\ plan_of LocalTell [SetReply 3%N] Send = None.
Proof. repeat split. Qed.

Theorem C57_conversions : forall s o,
  option_of_setting (Maybe (maybe_of_setting s)) = option_of_setting s
  /\ option_of_setting (Maybe (maybe_of_option o)) = o.
Proof. exact conversions. Qed.
Print Assumptions C57_conversions.

Example C57_conversions_case :
  maybe_of_setting (With (Some 3%N)) = TimeoutAfter 3%N /\ maybe_of_setting (With None) = NoTimeout.
Proof. repeat split. Qed.

Theorem C57_mailbox_not_early : forall user gran m r p (msg : den user m) chn within t l h,
  plan_of t l h = Some p -> forall now b es (s : timed user m r p) tr,
  texec gran msg chn within (tstart m r p now b) es = Some (s, tr) ->
  forall o, rq_pos (t_rq s) = RqFailed (NotSent (Timeout o)) ->
  exists d t0 rest t1, set_last SetMailbox l (Some d) /\ tr = Polled t0 :: rest /\ In (Finished t1) tr
    /\ (t0 + d <= t1)%N /\ forall x, ~ In (Enqueued x) tr.
Proof. exact mailbox_not_early. Qed.
Print Assumptions C57_mailbox_not_early.

Theorem C57_mailbox_punctual : forall user gran m r p (msg : den user m) chn within t l h,
  plan_of t l h = Some p -> forall now b es (s : timed user m r p) tr,
  texec gran msg chn within (tstart m r p now b) es = Some (s, tr) ->
  forall d t0 rest x, set_last SetMailbox l (Some d) -> tr = Polled t0 :: rest ->
  In (Polled x) tr -> (t0 + d + gran <= x)%N ->
  exists u, (u <= x)%N /\ (In (Enqueued u) tr \/ In (Finished u) tr).
Proof. exact mailbox_punctual. Qed.
Print Assumptions C57_mailbox_punctual.

(** The mailbox stays full: the request gives up 11 after its first poll, handing the message
    back. *)
Example C57_mailbox_case :
  exists s, plan_of LocalAsk tx_sets Send = Some tx_plan
  /\ tx_run tx_plan tx_stuck = Some (s, [Polled 100; Polled 104; Polled 111; Finished 111]%N)
  /\ rq_pos (t_rq s) = ex_failed (p_method tx_plan) (ex_error (Timeout (Some (7 : nat)))).
Proof. eexists. split; [reflexivity|]. split; vm_compute; reflexivity. Qed.

Theorem C57_reply_not_early : forall user gran m r p (msg : den user m) chn within t l h,
  plan_of t l h = Some p -> forall now b es (s : timed user m r p) tr,
  texec gran msg chn within (tstart m r p now b) es = Some (s, tr) ->
  rq_pos (t_rq s) = RqDone (OutErr (Timeout None)) -> unanswered es ->
  exists d a t1 c f t2, set_last SetReply l (Some d) /\ tr = a ++ Enqueued t1 :: c /\ counts_from h t1 c f
    /\ In (Finished t2) c /\ (f + d <= t2)%N.
Proof. exact reply_not_early. Qed.
Print Assumptions C57_reply_not_early.

Theorem C57_reply_punctual : forall user gran m r p (msg : den user m) chn within t l h,
  plan_of t l h = Some p -> forall now b es (s : timed user m r p) tr,
  texec gran msg chn within (tstart m r p now b) es = Some (s, tr) ->
  forall d a t1 c f x, set_last SetReply l (Some d) -> tr = a ++ Enqueued t1 :: c ->
  counts_from h t1 c f -> In (Polled x) c -> (f + d + gran <= x)%N ->
  exists u, (u <= x)%N /\ In (Finished u) tr.
Proof. exact reply_punctual. Qed.
Print Assumptions C57_reply_punctual.

Theorem C57_both_punctual : forall user gran m r p (msg : den user m) chn within t l h,
  plan_of t l h = Some p -> forall now b es (s : timed user m r p) tr,
  texec gran msg chn within (tstart m r p now b) es = Some (s, tr) ->
  forall dm dr t0 rest x y, set_last SetMailbox l (Some dm) -> set_last SetReply l (Some dr) -> h = Send ->
  tr = Polled t0 :: rest -> In (Polled x) tr -> (t0 + dm + gran <= x)%N ->
  In (Polled y) tr -> (x < y)%N -> (x + dr + gran <= y)%N ->
  exists u, (u <= y)%N /\ In (Finished u) tr.
Proof. exact both_punctual. Qed.
Print Assumptions C57_both_punctual.

(** The message is enqueued at 105, the request gives up at 111 having been polled in vain at
    107. *)
Example C57_reply_case :
  exists s, plan_of LocalAsk tx_sets Send = Some tx_plan /\ unanswered tx_slow
  /\ tx_run tx_plan tx_slow
     = Some (s, [Polled 100; Polled 105; Enqueued 105; Polled 107; Polled 111; Finished 111]%N)
  /\ rq_pos (t_rq s) = RqDone (ex_reply_error (Timeout None)).
Proof.
  eexists. split; [reflexivity|]. split.
  - intros v H. cbn in H. repeat destruct H as [H|H]; try discriminate H. exact H.
  - split; vm_compute; reflexivity.
Qed.

Theorem C57_refines : forall user gran (m : ty) (r : rty) (p : plan) (msg : den user m) chn within t l h,
  plan_of t l h = Some p -> forall es (s : timed user m r p) s' tr,
  texec gran msg chn within s es = Some (s', tr) ->
  exists es' sg, rq_exec msg chn within (t_rq s) es' = Some (t_rq s', sg)
    /\ length sg = length (filter is_enqueued tr).
Proof. exact exec_refines. Qed.
Print Assumptions C57_refines.

Example C57_refines_case :
  exists s, tx_run tx_plan tx_slow = Some (s, [Polled 100; Polled 105; Enqueued 105; Polled 107; Polled 111; Finished 111]%N)
  /\ rq_exec tx_msg 3 false (rq_start (TUser 1) ex_rep (p_method tx_plan) tx_full)
       [RPoll false false; REnv tx_free; RPoll false false; RPoll false false; RPoll false true]
     = Some (t_rq s, [GMsg (box ex_user tx_msg) (Some 3) false]).
Proof. eexists. split; vm_compute; reflexivity. Qed.

(** A reply timeout of [enqueue] does not count from when the message was enqueued: 111 is
    more than 5 after 105, but the pending reply goes on waiting; it gives up at 113, 6 after
    its first poll. *)
Theorem C57_enqueue_refuted : ~ (forall user gran m r p (msg : den user m) chn within t l h,
  plan_of t l h = Some p -> forall now b es (s : timed user m r p) tr,
  texec gran msg chn within (tstart m r p now b) es = Some (s, tr) ->
  forall d a t1 c x, set_last SetReply l (Some d) -> tr = a ++ Enqueued t1 :: c ->
  In (Polled x) c -> (t1 + d + gran <= x)%N -> exists u, In (Finished u) tr).
Proof. exact enqueue_refuted. Qed.
Print Assumptions C57_enqueue_refuted.

Example C57_enqueue_case :
  exists s, plan_of LocalAsk tx_sets Enqueue = Some tx_enqueue /\ unanswered tx_later
  /\ tx_run tx_enqueue tx_later
     = Some (s, [Polled 100; Polled 105; Enqueued 105; Polled 107; Polled 111; Polled 113; Finished 113]%N)
  /\ rq_pos (t_rq s) = RqDone (ex_reply_error (Timeout None)).
Proof.
  eexists. split; [reflexivity|]. split.
  - intros v H. cbn in H. repeat destruct H as [H|H]; try discriminate H. exact H.
  - split; vm_compute; reflexivity.
Qed.

(** If no timer is ever late, a request is over in the first poll at the time of its timeout or
    after it. *)
Theorem C57_prompt_mailbox : forall user gran m r p (msg : den user m) chn within t l h,
  plan_of t l h = Some p -> forall now b es (s : timed user m r p) tr,
  texec gran msg chn within (tstart m r p now b) es = Some (s, tr) -> ~ In (PollAt false) es ->
  forall d t0 rest x, set_last SetMailbox l (Some d) -> tr = Polled t0 :: rest ->
  In (Polled x) tr -> (t0 + d <= x)%N ->
  exists u, (u <= x)%N /\ (In (Enqueued u) tr \/ In (Finished u) tr).
Proof. exact prompt_mailbox. Qed.
Print Assumptions C57_prompt_mailbox.

Theorem C57_prompt_reply : forall user gran m r p (msg : den user m) chn within t l h,
  plan_of t l h = Some p -> forall now b es (s : timed user m r p) tr,
  texec gran msg chn within (tstart m r p now b) es = Some (s, tr) -> ~ In (PollAt false) es ->
  forall d a t1 c f x, set_last SetReply l (Some d) -> tr = a ++ Enqueued t1 :: c ->
  counts_from h t1 c f -> In (Polled x) c -> (f + d <= x)%N ->
  exists u, (u <= x)%N /\ In (Finished u) tr.
Proof. exact prompt_reply. Qed.
Print Assumptions C57_prompt_reply.

Example C57_prompt_case :
  (exists s, tx_run tx_plan [PollAt true; Pass 9; PollAt true; Pass 1; PollAt true]%N
             = Some (s, [Polled 100; Polled 109; Polled 110; Finished 110]%N))
  /\ plan_of LocalAsk tx_sets Send = Some tx_plan
  /\ ~ In (PollAt false) ([PollAt true; Pass 9; PollAt true; Pass 1; PollAt true]%N : list (tevent (fun _ => nat))).
Proof.
  split; [eexists; vm_compute; reflexivity|]. split; [reflexivity|].
  intros H. cbn in H. repeat destruct H as [H|H]; try discriminate H. exact H.
Qed.

(** A mailbox timeout does not end the request in the first poll at its time or after it: a timer may
    be late. With a timer that is not, it does. *)
Theorem C57_exact_refuted : ~ (forall user gran m r p (msg : den user m) chn within t l h,
  plan_of t l h = Some p -> forall now b es (s : timed user m r p) tr,
  texec gran msg chn within (tstart m r p now b) es = Some (s, tr) ->
  forall d t0 rest x, set_last SetMailbox l (Some d) -> tr = Polled t0 :: rest ->
  In (Polled x) tr -> (t0 + d <= x)%N ->
  exists u, (u <= x)%N /\ (In (Enqueued u) tr \/ In (Finished u) tr)).
Proof. exact exact_refuted. Qed.
Print Assumptions C57_exact_refuted.

Example C57_exact_case :
  (exists s, tx_run tx_plan tx_due = Some (s, [Polled 100; Polled 110]%N))
  /\ (exists s, tx_run tx_plan [PollAt true; Pass 10; PollAt true]%N = Some (s, [Polled 100; Polled 110; Finished 110]%N)).
Proof. split; eexists; vm_compute; reflexivity. Qed.
