(** Property theorems about requests (C16-C20). [user] is an arbitrary family of
    user-defined types; runs interleave polls of the request with anything others
    do to the mailbox. *)
From Coq Require Import List Bool.
Import ListNotations.
From Verif Require Import Errors Dyn Reply Reply_spec Requests Requests_spec Requests_proofs Requests_examples.

(** ** C16 *)
Theorem C16_always_a_verdict : forall user (m : ty) (r : rty) k (b : mailbox user) fired, exists vd, expects user k b fired vd.
Proof. exact poll_verdict_exists. Qed.
Print Assumptions C16_always_a_verdict.

Theorem C16_each_poll : forall user m r k (msg : den user m) chn within (s : rq_state user m r k) mt rt vd,
  rq_pos s = RqSend -> is_tell k || is_ask k = true -> expects user k (rq_box s) mt vd ->
  match vd with
  | VSent => exists b', appended user (rq_box s) b' [message_signal user k m msg chn within] /\
      rq_step msg chn within s (RPoll mt rt)
      = Some (mk_rq b' (rq_ch s) (if is_tell k then RqDone OutSent else RqWait),
              [message_signal user k m msg chn within])
  | VWait => rq_step msg chn within s (RPoll mt rt) = Some (s, [])
  | _ => exists e, rq_step msg chn within s (RPoll mt rt)
                   = Some (mk_rq (rq_box s) (rq_ch s) (RqFailed (NotSent e)), []) /\
      error_is user vd e msg
  end.
Proof. exact poll_tell_ask. Qed.
Print Assumptions C16_each_poll.

Theorem C16_failed_hands_back : forall user m r k (msg : den user m) chn within es b s os x,
  rq_exec msg chn within (rq_start m r k b) es = Some (s, os) ->
  rq_pos s = RqFailed x -> is_tell k || is_ask k = true ->
  os = [] /\
  exists es1 mt rt es2 s1 vd e, es = es1 ++ RPoll mt rt :: es2 /\
    rq_exec msg chn within (rq_start m r k b) es1 = Some (s1, []) /\
    expects user k (rq_box s1) mt vd /\ x = NotSent e /\ error_is user vd e msg.
Proof. exact failed_tell_ask. Qed.
Print Assumptions C16_failed_hands_back.

(** A tell with a timeout waits for a slot twice and then times out; a try_send on
    the same mailbox says full; a message to a stopped actor comes back. *)
Example C16_timeout_case :
  exists s, rq_exec (m := TUser 1) (user := ex_user) 42 0 false
    (rq_start (TUser 1) ex_rep (MTell true) (ex_box (Some 1) true))
    [RPoll false false; REnv (ex_box (Some 1) true); RPoll true false] = Some (s, [])
    /\ rq_pos s = ex_failed (MTell true) (ex_error (Timeout (Some 42))).
Proof. eexists. split; vm_compute; reflexivity. Qed.
Example C16_full_case :
  exists s, rq_exec (m := TUser 1) (user := ex_user) 42 0 false
    (rq_start (TUser 1) ex_rep (MAskTry true) (ex_box (Some 1) true)) [RPoll true true] = Some (s, [])
    /\ rq_pos s = ex_failed (MAskTry true) (ex_error (MailboxFull 42)).
Proof. eexists. split; vm_compute; reflexivity. Qed.
Example C16_closed_case :
  exists s, rq_exec (m := TUser 1) (user := ex_user) 42 0 false
    (rq_start (TUser 1) ex_rep (MAsk false true) (ex_box (Some 1) true))
    [RPoll false true; REnv (ex_box (Some 1) false); RPoll false false] = Some (s, [])
    /\ rq_pos s = ex_failed (MAsk false true) (ex_error (ActorNotRunning 42)).
Proof. eexists. split; vm_compute; reflexivity. Qed.

(** ** C17: for all twelve methods *)
Theorem C17_enqueued_once : forall user m r k (msg : den user m) chn within es b s os,
  rq_exec msg chn within (rq_start m r k b) es = Some (s, os) ->
  match rq_pos s with
  | RqSend | RqFailed _ => os = []
  | RqWait | RqDone _ => os = [message_signal user k m msg chn within]
  end.
Proof. exact accounted_run. Qed.
Print Assumptions C17_enqueued_once.

Theorem C17_at_the_back : forall user m r k (msg : den user m) chn within (s s' : rq_state user m r k) mt rt os,
  rq_step msg chn within s (RPoll mt rt) = Some (s', os) ->
  appended user (rq_box s) (rq_box s') os /\ rq_ch s' = rq_ch s.
Proof. exact poll_appends. Qed.
Print Assumptions C17_at_the_back.

(** An ask that had to wait, was queued and got its answer. *)
Example C17_ask_case :
  exists s, rq_exec (m := TUser 1) (user := ex_user) 42 7 true
    (rq_start (TUser 1) ex_rep (MAsk false true) (ex_box (Some 1) true))
    [RPoll false false; REnv (mk_mailbox (Some 1) [] 0 true); RPoll false false; RPoll false false;
     REnv (mk_mailbox (Some 1) [] 0 true);
     RReply (Err (HandlerError (existT _ (TUser 2) 5))); RPoll false true]
    = Some (s, [GMsg (existT _ (TUser 1) 42) (Some 7) true])
    /\ rq_pos s = RqDone (ex_reply_error (HandlerError 5)).
Proof. eexists. split; vm_compute; reflexivity. Qed.

(** ** C18 *)
Theorem C18_unbounded_ignores_mailbox_timeout : forall user m r k (msg : den user m) chn within b es,
  mcap b = None ->
  rq_exec msg chn within (rq_start m r k b) es
  = rq_exec msg chn within (rq_start m r k b) (map (no_mailbox_timer user) es).
Proof. exact unbounded_no_timer. Qed.
Print Assumptions C18_unbounded_ignores_mailbox_timeout.

Theorem C18_unset_mailbox_timeout : forall user m r k (msg : den user m) chn within b es,
  has_mailbox_timeout k = false ->
  rq_exec msg chn within (rq_start m r k b) es
  = rq_exec msg chn within (rq_start m r k b) (map (no_mailbox_timer user) es).
Proof. exact unset_no_timer. Qed.
Print Assumptions C18_unset_mailbox_timeout.

Theorem C18_unset_reply_timeout : forall user m r k (msg : den user m) chn within b es,
  has_reply_timeout k = false ->
  rq_exec msg chn within (rq_start m r k b) es
  = rq_exec msg chn within (rq_start m r k b) (map (no_reply_timer user) es).
Proof. exact unset_no_reply_timer. Qed.
Print Assumptions C18_unset_reply_timeout.

(** While waiting for the reply: a reply that is there is delivered whatever the
    timer says; an elapsed reply timer gives [Timeout(None)], and nothing is taken
    back from the mailbox. *)
Theorem C18_waiting_for_reply : forall user m r k (msg : den user m) chn within es b s os,
  rq_exec msg chn within (rq_start m r k b) es = Some (s, os) -> rq_pos s = RqWait ->
  forall mt rt,
  rq_step msg chn within s (RPoll mt rt) =
  match rq_ch s with
  | OValue v =>
      Some (mk_rq (rq_box s) (rq_ch s)
              (RqDone (match receive m r v with
                       | AnsOk x => OutOk x | AnsErr e => OutErr e | AnsPanic => OutPanic end)), [])
  | ODropped => Some (mk_rq (rq_box s) (rq_ch s) (RqDone (OutErr ActorStopped)), [])
  | OEmpty =>
      if has_reply_timeout k && rt
      then Some (mk_rq (rq_box s) (rq_ch s) (RqDone (OutErr (Timeout None))), [])
      else Some (s, [])
  end.
Proof. exact waits_spec. Qed.
Print Assumptions C18_waiting_for_reply.

Example C18_unbounded_case :
  exists s, rq_exec (m := TUser 1) (user := ex_user) 42 7 false
    (rq_start (TUser 1) ex_rep (MAsk true true) (ex_box None true))
    [RPoll true true; RPoll true true]
    = Some (s, [GMsg (existT _ (TUser 1) 42) (Some 7) false])
    /\ rq_pos s = RqDone (ex_reply_error (Timeout None)) /\ length (mqueue (rq_box s)) = 2.
Proof. eexists. repeat split; vm_compute; reflexivity. Qed.

(** ** C19 *)
Theorem C19_ok_iff_queued : forall user (b b' : mailbox user),
  stop_gracefully b = Ready (b', Sent) <-> mopen b = true /\ ~ full user b /\ b' = enq GStop b.
Proof. exact stop_ok. Qed.
Print Assumptions C19_ok_iff_queued.

Theorem C19_waits_while_full : forall user (b : mailbox user),
  stop_gracefully b = Pending <-> mopen b = true /\ full user b.
Proof. exact stop_waits. Qed.
Print Assumptions C19_waits_while_full.

(** The documented error is never returned: the call panics. *)
Theorem C19_error_refuted : forall user (b : mailbox user), mopen b = false ->
  stop_gracefully b = Ready (b, SendPanic).
Proof. exact stop_closed. Qed.
Print Assumptions C19_error_refuted.

Theorem C19_never_an_error : forall user (b b' : mailbox user) e, stop_gracefully b <> Ready (b', NotSent e).
Proof. exact stop_never_reports. Qed.
Print Assumptions C19_never_an_error.

(** The internal [signal_stop] on the same mailbox does report it. *)
Theorem C19_signal_stop_reports : forall user (b : mailbox user), mopen b = false ->
  signal_stop b = Ready (b, NotSent (ActorNotRunning (tt : den user TUnit))).
Proof. exact signal_stop_reports. Qed.
Print Assumptions C19_signal_stop_reports.

Example C19_case : stop_gracefully (ex_box (Some 2) true)
  = Ready (mk_mailbox (Some 2) [GMsg ex_any None false; GStop] 0 true, Sent)
  /\ stop_gracefully (ex_box (Some 1) true) = Pending
  /\ stop_gracefully (ex_box None false) = Ready (ex_box None false, SendPanic).
Proof. repeat split; vm_compute; reflexivity. Qed.

(** ** C20: failures of enqueue and forward panic *)
Theorem C20_failure_reported_refuted : forall user m r k (msg : den user m) chn within es b s os x,
  rq_exec msg chn within (rq_start m r k b) es = Some (s, os) ->
  rq_pos s = RqFailed x -> is_forward k = true \/ is_enqueue k = true /\ m <> TUnit ->
  x = SendPanic /\ os = [].
Proof. exact enqueue_forward_panics. Qed.
Print Assumptions C20_failure_reported_refuted.

Theorem C20_closed_panics : forall user m r k (msg : den user m) chn within (s : rq_state user m r k) mt rt,
  rq_pos s = RqSend -> mopen (rq_box s) = false ->
  is_forward k = true \/ is_enqueue k = true /\ m <> TUnit ->
  rq_step msg chn within s (RPoll mt rt) = Some (mk_rq (rq_box s) (rq_ch s) (RqFailed SendPanic), []).
Proof. exact enqueue_forward_closed. Qed.
Print Assumptions C20_closed_panics.

(** Only for messages of type [()] does enqueue report. *)
Theorem C20_enqueue_unit : forall user m r k (msg : den user m) chn within es b s os x,
  rq_exec msg chn within (rq_start m r k b) es = Some (s, os) ->
  rq_pos s = RqFailed x -> is_enqueue k = true -> m = TUnit ->
  os = [] /\ exists e, x = NotSent e.
Proof. exact enqueue_unit_reports. Qed.
Print Assumptions C20_enqueue_unit.

(** [Context::forward]: with a reply sender a failure panics in the handler and the
    reply sender is lost; without one it is reported in the [ForwardedReply]. *)
Theorem C20_ctx_forward_asked : forall user m r d (msg : den user m) ch w (b : mailbox user),
  exists vd, expects user (sends_like d) b false vd /\
  ctx_forward m r d msg (Some ch) w b =
  match vd with
  | VSent => Ready (Forwarded (enq (GMsg (box user msg) (Some ch) w) b) None (Ok tt : rval user (RFwd m r)))
  | VWait => Pending
  | _ => Ready (ForwardPanic b)
  end.
Proof. exact ctx_forward_asked. Qed.
Print Assumptions C20_ctx_forward_asked.

Theorem C20_ctx_forward_told : forall user m r d (msg : den user m) w (b : mailbox user),
  exists vd, expects user (sends_like d) b false vd /\
  match vd with
  | VSent => ctx_forward m r d msg None w b
      = Ready (Forwarded (enq (GMsg (box user msg) None w) b) None (Ok tt : rval user (RFwd m r)))
  | VWait => ctx_forward m r d msg None w b = Pending
  | _ => exists e, ctx_forward m r d msg None w b
      = Ready (Forwarded b None (Err e : rval user (RFwd m r))) /\ error_is (M := m) (E := r_err r) user vd e msg
  end.
Proof. exact ctx_forward_told. Qed.
Print Assumptions C20_ctx_forward_told.

Example C20_enqueue_case :
  exists s, rq_exec (m := TUser 1) (user := ex_user) 42 7 false
    (rq_start (TUser 1) ex_rep (MEnqueueTry false) (ex_box (Some 1) true)) [RPoll false false] = Some (s, [])
    /\ rq_pos s = RqFailed SendPanic.
Proof. eexists. split; vm_compute; reflexivity. Qed.
Example C20_forward_case :
  exists s, rq_exec (m := TUnit) (user := ex_user) tt 7 false
    (rq_start TUnit ex_rep (MForward true) (ex_box (Some 1) true)) [RPoll false false; RPoll true false] = Some (s, [])
    /\ rq_pos s = RqFailed SendPanic.
Proof. eexists. split; vm_compute; reflexivity. Qed.
Example C20_unit_case :
  exists s, rq_exec (m := TUnit) (user := ex_user) tt 7 false
    (rq_start TUnit ex_rep (MEnqueue true false) (ex_box (Some 1) true)) [RPoll false false; RPoll true false] = Some (s, [])
    /\ rq_pos s = ex_failed_unit (MEnqueue true false) (ex_error_unit (Timeout (Some tt))).
Proof. eexists. split; vm_compute; reflexivity. Qed.
Example C20_ctx_case :
  ctx_forward (user := ex_user) (TUser 1) ex_rep FwdTry 42 (Some 3) false (ex_box (Some 1) true)
    = Ready (ForwardPanic (ex_box (Some 1) true))
  /\ ctx_forward (user := ex_user) (TUser 1) ex_rep FwdTry 42 None false (ex_box (Some 1) true)
    = Ready (Forwarded (ex_box (Some 1) true) None (Err (MailboxFull 42) : rval ex_user (RFwd (TUser 1) ex_rep))).
Proof. split; vm_compute; reflexivity. Qed.
