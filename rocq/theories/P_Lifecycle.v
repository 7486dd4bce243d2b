(** Property theorems about the lifecycle of one actor (C01-C15, C37). *)
From Coq Require Import List Bool PeanoNat Permutation Lia.
Import ListNotations.
From Verif Require Import Lifecycle Lifecycle_spec Lifecycle_room_spec Lifecycle_room_proofs Lifecycle_stop_proofs Lifecycle_wait_proofs Lifecycle_later_proofs Lifecycle_count_spec Lifecycle_count_proofs
  Lifecycle_final_proofs Lifecycle_signals_spec Lifecycle_signals_proofs Lifecycle_examples.

(** ** C01 *)
Theorem C01_order : forall c es s tr h1 m1 h2 m2 h3,
  exec (init c) es = Some (s, tr) ->
  handled tr = h1 ++ m1 :: h2 ++ m2 :: h3 -> inside m1 = inside m2 ->
  exists a1 a2 a3, accepted tr = a1 ++ m1 :: a2 ++ m2 :: a3.
Proof. exact run_order. Qed.
Print Assumptions C01_order.

Theorem C01_exact : forall c es s0 tr0 es' s o,
  exec (init c) es = Some (s0, tr0) -> finished s0 = true -> ph s0 = PLoop LRecv ->
  exec s0 es' = Some (s, o) -> no_exit o ->
  discarded o = [] /\ msgs_of (queue s0) ++ accepted o = handled o ++ msgs_of (queue s).
Proof. exact run_exact. Qed.
Print Assumptions C01_exact.

Example C01_two_messages : runs plain ex_two (fun s tr =>
  finished s = true /\ ph s = PLoop LRecv
  /\ map mid (handled tr) = [0; 1] /\ map mid (accepted tr) = [0; 1; 2]
  /\ map mid (msgs_of (queue s)) = [2]).
Proof. run_it. facts. Qed.

(** Messages and notifications of links share one order once the actor has started. *)
Theorem C01_signals : forall c es s0 tr0 es' s o,
  exec (init c) es = Some (s0, tr0) -> finished s0 = true -> ph s0 = PLoop LRecv ->
  exec s0 es' = Some (s, o) ->
  exists rest, filter calls_code (queue s0) ++ entered o = begun o ++ rest
    /\ (no_exit o -> rest = filter calls_code (queue s)).
Proof. exact run_signals. Qed.
Print Assumptions C01_signals.

Theorem C01_notifications : forall c es s tr, exec (init c) es = Some (s, tr) ->
  exists rest, filter is_note (entered tr) = filter is_note (begun tr) ++ rest.
Proof. exact run_notes. Qed.
Print Assumptions C01_notifications.

Example C01_both : runs plain (started ++
  [ESend false false; ELinkSignal 5 Normal; ESend false false; ELinkSignal 6 Killed;
   ARecv; AHandleDone (OutOk 1); ARecv; ALinkDone (FlowOk Continue); ALinkRm;
   ARecv; AHandleDone (OutOk 2)]) (fun s tr =>
  finished s = true /\ ph s = PLoop LRecv
  /\ begun tr = [SMsg (mk_msg 0 false false); SLinkDied 5 Normal; SMsg (mk_msg 1 false false)]
  /\ entered tr = begun tr ++ [SLinkDied 6 Killed]
  /\ filter calls_code (queue s) = [SLinkDied 6 Killed]).
Proof. run_it. facts. Qed.

(** While it starts they do not: messages wait for the end of startup, notifications do not. *)
Theorem C01_startup_overtaken_refuted : exists c es s tr m id r a1 a2 b1 b2,
  exec (init c) es = Some (s, tr) /\ inside m = false
  /\ entered tr = a1 ++ SMsg m :: SLinkDied id r :: a2
  /\ begun tr = b1 ++ SLinkDied id r :: SMsg m :: b2.
Proof.
  exists plain, [AStart; ESend false false; ELinkSignal 5 Normal; AStartDone HookOk; ASetStartup;
    ASignal; ADowngrade; APoll; ARecv; ARecv; ALinkDone (FlowOk Continue); ALinkRm; ARecv].
  eexists _, _, (mk_msg 0 false false), 5, Normal, [], [], [], [].
  split; [vm_compute; reflexivity|]. split; [reflexivity|]. split; vm_compute; reflexivity.
Qed.
Print Assumptions C01_startup_overtaken_refuted.

(** ** C02 *)
Theorem C02_at_most_once : forall c es s tr, exec (init c) es = Some (s, tr) ->
  NoDup (map mid (handled tr ++ discarded tr)) /\ incl (handled tr) (accepted tr).
Proof. exact run_once. Qed.
Print Assumptions C02_at_most_once.

Theorem C02_conserved : forall c es s tr, exec (init c) es = Some (s, tr) ->
  exists pending, Permutation (accepted tr) (handled tr ++ discarded tr ++ pending)
    /\ (ended (ph s) = true -> pending = []).
Proof. exact run_conserve. Qed.
Print Assumptions C02_conserved.

Theorem C02_never_concurrent : forall c es s tr,
  exec (init c) es = Some (s, tr) -> one_at_a_time false tr.
Proof. exact run_serial. Qed.
Print Assumptions C02_never_concurrent.

Example C02_one_lost_one_handled : runs plain ex_stop (fun s tr =>
  ended (ph s) = true /\ map mid (accepted tr) = [0; 1]
  /\ map mid (handled tr) = [0] /\ map mid (discarded tr) = [1]).
Proof. run_it. facts. Qed.
Example C02_overlap_is_wrong : ~ one_at_a_time false
  [OStartBegin; OStartEnd HookOk; OHandle (mk_msg 0 false false); OHandle (mk_msg 1 false false)].
Proof. cbn. intuition discriminate. Qed.

(** ** C03 *)
Theorem C03_first_and_once : forall c es s t1 o t2, exec (init c) es = Some (s, t1 ++ o :: t2) ->
  (o = OStartBegin -> forall x, In x (t1 ++ t2) -> x <> OStartBegin)
  /\ (is_call o = true -> o <> OStartBegin -> In OStartBegin t1)
  /\ (is_loop_obs o = true -> In (OStartEnd HookOk) t1).
Proof. exact run_start. Qed.
Print Assumptions C03_first_and_once.

Theorem C03_failed_start : forall c es s tr f, exec (init c) es = Some (s, tr) ->
  In (OStartEnd (HookFail f)) tr -> forall o, In o tr -> is_loop_obs o = false.
Proof. exact run_failed_start. Qed.
Print Assumptions C03_failed_start.

Example C03_started : runs plain ex_two (fun s tr =>
  exists t1 t2, tr = t1 ++ OHandle (mk_msg 0 false false) :: t2 /\ In (OStartEnd HookOk) t1).
Proof. run_it. eexists [_; _; _; _; _], _. facts. Qed.
Example C03_failing : runs plain ex_fail (fun s tr =>
  In (OStartEnd (HookFail (FErr 9))) tr /\ map mid (accepted tr) = [0] /\ handled tr = []
  /\ ph s = PDone (Panicked (FErr 9))).
Proof. run_it. facts. Qed.

(** ** C04 *)
Theorem C04_own_first : forall c es s ta m tb, exec (init c) es = Some (s, ta ++ OHandle m :: tb) ->
  inside m = false -> In (OAccept SStartup) (ta ++ OHandle m :: tb) ->
  no_stop_before_marker (ta ++ OHandle m :: tb) ->
  incl (own_startup_msgs (ta ++ OHandle m :: tb)) (handled ta).
Proof. exact run_prio. Qed.
Print Assumptions C04_own_first.

Example C04_self_sent : runs plain ex_self (fun s tr =>
  map mid (accepted tr) = [0; 1] /\ map mid (own_startup_msgs tr) = [1] /\ map mid (handled tr) = [1; 0]
  /\ In (OAccept SStartup) tr /\ no_stop_before_marker tr).
Proof. run_it. facts. Qed.

(** The three ways to lose the guarantee: a full mailbox, a run outside the
    task scope, and a stop queued before the marker. *)
Theorem C04_full_mailbox_refuted : exists c es s tr,
  exec (init c) es = Some (s, tr) /\ c_scoped c = true /\ no_stop_before_marker tr
  /\ In (OStartEnd HookOk) tr
  /\ exists own m, In own (inside_msgs (accepted (before accepts_marker tr)))
       /\ handled tr = [m] /\ inside m = false /\ In (SMsg own) (queue s).
Proof.
  exists (bounded 2), ex_full. eexists _, _. split; [vm_compute; reflexivity|].
  split; [reflexivity|]. split; [facts|]. split; [is_in|].
  exists (mk_msg 1 true false), (mk_msg 0 false false). facts.
Qed.
Print Assumptions C04_full_mailbox_refuted.

Theorem C04_stop_first_refuted : exists c es s tr own m h1 h2 h3,
  exec (init c) es = Some (s, tr) /\ c_scoped c = true /\ In (OAccept SStartup) tr
  /\ In own (own_startup_msgs tr) /\ handled tr = h1 ++ m :: h2 ++ own :: h3 /\ inside m = false.
Proof.
  exists plain, [AStart; ESend false false; EStop; ESend true false; AStartDone HookOk; ASetStartup;
    ASignal; ADowngrade; APoll; ARecv; ARecv; AHandleDone (OutPanic 1); APanicDone (FlowOk Continue); ARecv].
  eexists _, _, (mk_msg 1 true false), (mk_msg 0 false false), [], [], [].
  split; [vm_compute; reflexivity|]. facts.
Qed.
Print Assumptions C04_stop_first_refuted.

(** In a run outside the task scope (PreparedActor::run) the actor's own message,
    sent during on_start, waits behind one from outside. *)
Theorem C04_unscoped_refuted : exists c es1 es2 s tr s1 tr1,
  c_scoped c = false
  /\ exec (init c) es1 = Some (s1, tr1) /\ ph s1 = PStarting
  /\ exec (init c) (es1 ++ ESend true false :: es2) = Some (s, tr)
  /\ In (OAccept SStartup) tr /\ no_stop_before_marker tr
  /\ map mid (accepted tr1) = [0] /\ map mid (handled tr) = [0; next_mid s1].
Proof.
  exists (mk_config None false false 1), [AStart; ESend false false],
    [AStartDone HookOk; ASetStartup; ASignal; ADowngrade; APoll; ARecv; ARecv; ARecv;
     AHandleDone (OutOk 0); AHandleDone (OutOk 0)].
  eexists _, _, _, _. split; [reflexivity|]. split; [vm_compute; reflexivity|].
  split; [reflexivity|]. split; [vm_compute; reflexivity|]. facts.
Qed.
Print Assumptions C04_unscoped_refuted.

(** ** C05 *)
Theorem C05_exactly_what_was_queued : forall c es s tr, exec (init c) es = Some (s, tr) ->
  In (OExit Normal) tr -> no_failure tr -> no_hook_stop tr ->
  Permutation (handled tr) (accepted (before accepts_stop tr)).
Proof. exact run_stop_exact. Qed.
Print Assumptions C05_exactly_what_was_queued.

Theorem C05_in_order : forall c es s0 tr0 es' s o,
  exec (init c) es = Some (s0, tr0) -> finished s0 = true -> ph s0 = PLoop LRecv ->
  exec s0 es' = Some (s, o) -> In (OExit Normal) o -> no_hook_stop o ->
  handled o = msgs_of (before is_stop_signal (queue s0 ++ accepted_signals o)).
Proof. exact run_stop_fifo. Qed.
Print Assumptions C05_in_order.

(** The stop reason is [Normal] unless a kill or a hook says otherwise. *)
Theorem C05_reason : forall c es s tr, exec (init c) es = Some (s, tr) ->
  forall r, In (OExit r) tr -> exit_cause tr r.
Proof. exact run_exit_cause. Qed.
Print Assumptions C05_reason.

(** A stop that was accepted is obeyed: left to itself the task can finish, and
    it has only finitely much work to do on the way. *)
Theorem C05_ends : forall c es s tr, exec (init c) es = Some (s, tr) ->
  In (OAccept SStop) tr -> no_failure tr ->
  exists es' s' tr', forallb is_task es' = true /\ exec s es' = Some (s', tr')
    /\ ended (ph s') = true.
Proof. exact run_stop_ends. Qed.
Print Assumptions C05_ends.

Theorem C05_ends_started : forall c es s0 tr0 es' s o,
  exec (init c) es = Some (s0, tr0) -> finished s0 = true -> ph s0 = PLoop LRecv ->
  exec s0 es' = Some (s, o) -> In (OAccept SStop) o ->
  exists es' s' tr', forallb is_task es' = true /\ exec s es' = Some (s', tr')
    /\ ended (ph s') = true.
Proof. exact run_stop_ends_started. Qed.
Print Assumptions C05_ends_started.

Theorem C05_bounded_work : forall c es s tr, exec (init c) es = Some (s, tr) ->
  exists n, forall es' s' tr', forallb is_task es' = true -> exec s es' = Some (s', tr') ->
    work es' <= n.
Proof. exact run_bounded. Qed.
Print Assumptions C05_bounded_work.

Example C05_stopped : runs plain ex_stop (fun s tr =>
  In (OExit Normal) tr /\ no_failure tr /\ no_hook_stop tr
  /\ map mid (accepted tr) = [0; 1] /\ map mid (accepted (before accepts_stop tr)) = [0]
  /\ map mid (handled tr) = [0] /\ ended (ph s) = true).
Proof. run_it. facts. Qed.

(** An accepted stop can be lost if it arrives before the startup marker and a
    message buffered before it fails. *)
Theorem C05_stop_lost_refuted : exists c es s tr,
  exec (init c) es = Some (s, tr) /\ In (OAccept SStop) tr /\ recovers tr /\ waits s.
Proof.
  exists plain, ex_lost_stop. eexists _, _. split; [vm_compute; reflexivity|].
  split; [is_in|]. split; [|facts].
  intros res H. vm_compute in H. repeat (destruct H as [H|H]; [congruence|]). destruct H.
Qed.
Print Assumptions C05_stop_lost_refuted.

(** ** C06 *)
Theorem C06_referenced : forall c es s tr, exec (init c) es = Some (s, tr) ->
  In (OExit Normal) tr -> no_hook_stop tr -> ~ In (OAccept SStop) tr ->
  strong s = 0 /\ c_threaded c = false.
Proof. exact run_referenced. Qed.
Print Assumptions C06_referenced.

Theorem C06_unreferenced_ends : forall c es s tr, exec (init c) es = Some (s, tr) ->
  strong s = 0 -> ph s <> PInit ->
  exists es' s' tr', forallb is_task es' = true /\ exec s es' = Some (s', tr')
    /\ ended (ph s') = true.
Proof. exact run_dead_ends. Qed.
Print Assumptions C06_unreferenced_ends.

Theorem C06_drained : forall c es s tr, exec (init c) es = Some (s, tr) ->
  In (OExit Normal) tr -> no_failure tr -> no_hook_stop tr -> ~ In (OAccept SStop) tr ->
  Permutation (handled tr) (accepted tr).
Proof. exact run_drained. Qed.
Print Assumptions C06_drained.

Example C06_dropped : runs plain ex_dead (fun s tr =>
  strong s = 0 /\ In (OExit Normal) tr /\ map mid (accepted tr) = [0] /\ map mid (handled tr) = [0]
  /\ accepts_stop (OAccept SStop) = true /\ existsb accepts_stop tr = false).
Proof. run_it. facts. Qed.

(** ** C07 *)
Theorem C07_next_is_killed : forall c es s0 tr0 es' s o,
  exec (init c) es = Some (s0, tr0) -> aborted s0 = true ->
  (starting (ph s0) = true \/ (exists pc, ph s0 = PLoop pc /\ polling s0 = false)) ->
  exec s0 es' = Some (s, o) ->
  find loop_acts o = None \/ find loop_acts o = Some (OExit Killed).
Proof. exact run_killed. Qed.
Print Assumptions C07_next_is_killed.

Theorem C07_suspended : forall es s0 s o pc,
  aborted s0 = true -> ph s0 = PLoop pc -> polling s0 = false -> exec s0 es = Some (s, o) ->
  (find loop_acts_or_panics o = None /\ ph s = PLoop pc /\ polling s = false)
  \/ (find loop_acts_or_panics o = Some (OExit Killed) /\ past_loop (ph s) = true).
Proof. exact killed_loop_run. Qed.
Print Assumptions C07_suspended.

Theorem C07_kill_sticks : forall c es s tr, exec (init c) es = Some (s, tr) ->
  In OKill tr -> aborted s = true.
Proof. exact run_kill_sticks. Qed.
Print Assumptions C07_kill_sticks.

Theorem C07_only_kills : forall c es s tr, exec (init c) es = Some (s, tr) ->
  In (OExit Killed) tr ->
  In OKill tr \/ In (OPanicHookEnd (FlowOk (Break Killed))) tr
  \/ In (OLinkHookEnd (FlowOk (Break Killed))) tr.
Proof. exact run_killed_cause. Qed.
Print Assumptions C07_only_kills.

Example C07_kill_in_handler : runs plain ex_kill (fun s tr =>
  In OKill tr /\ ph s = PDrainLinks Killed /\ In (OHandleCut (mk_msg 0 false true)) tr
  /\ last tr OClosed = OExit Killed).
Proof. run_it. facts. Qed.
Example C07_kill_in_failing_on_start :
  runs plain [AStart; EKill; AStartDone (HookFail (FErr 9)); ASetStartup; ASignal; ADowngrade;
              APanicDone (FlowOk Continue); AStopDone HookOk] (fun s tr =>
  In OKill tr /\ In (OStopHook (Panicked (FErr 9))) tr).
Proof. vm_compute. intuition auto 20. Qed.

(** ** C08 *)
Theorem C08_once_last_same_reason : forall c es s t1 r t2,
  exec (init c) es = Some (s, t1 ++ OStopHook r :: t2) ->
  (forall r', ~ In (OStopHook r') (t1 ++ t2))
  /\ (forall o, In o t2 -> begins_code o = false /\ is_loop_obs o = false)
  /\ (forall id r' d, In (ONotify id r' d) (t1 ++ t2) -> r' = r)
  /\ (forall r', In (OReturn r') (t1 ++ t2) -> r' = r)
  /\ (forall r', In (OExit r') t1 -> r' = r).
Proof. exact run_stop_hook. Qed.
Print Assumptions C08_once_last_same_reason.

Theorem C08_done_means_on_stop_ran : forall c es s tr r,
  exec (init c) es = Some (s, tr) -> ph s = PDone r ->
  exists t1 t2, tr = t1 ++ OStopHook r :: t2 /\ In (OReturn r) t2.
Proof. exact run_stop_once. Qed.
Print Assumptions C08_done_means_on_stop_ran.

Theorem C08_crash : forall c es s tr, exec (init c) es = Some (s, tr) -> In OCrash tr ->
  (exists p, In (OPanicHookEnd (FlowFail (FPanic p))) tr \/ In (OStopHookEnd (HookFail (FPanic p))) tr)
  /\ (forall id r d, ~ In (ONotify id r d) tr) /\ (forall r, ~ In (OReturn r) tr).
Proof. exact run_crash. Qed.
Print Assumptions C08_crash.

Example C08_stopped : runs plain ex_stop (fun s tr =>
  ph s = PDone Normal /\ In (ONotify 5 Normal true) tr
  /\ length (filter (fun o => match o with OStopHook _ => true | _ => false end) tr) = 1).
Proof. run_it. facts. Qed.
Example C08_crashed : runs plain ex_crash (fun s tr =>
  In OCrash tr /\ In (OLinksTaken [5]) tr /\ ph s = PCrashed).
Proof. run_it. facts. Qed.

(** ** C09 *)
Theorem C09_verdict : forall c es s t1 res t2,
  exec (init c) es = Some (s, t1 ++ OPanicHookEnd res :: t2) -> In (OStartEnd HookOk) t1 ->
  match res with
  | FlowOk Continue =>
      (forall f, next_call t2 <> Some (OPanicHook f)) /\ (forall r, next_call t2 <> Some (OStopHook r))
      /\ (forall r, next_call t2 = Some (OExit r) -> r = Normal \/ r = Killed)
  | FlowOk (Break r) => next_call t2 = None \/ next_call t2 = Some (OExit r)
  | FlowFail (FErr e) => next_call t2 = None \/ next_call t2 = Some (OExit (Panicked (FErr e)))
  | FlowFail (FPanic _) => next_call t2 = None \/ next_call t2 = Some OCrash
  end.
Proof. exact run_panic_verdict. Qed.
Print Assumptions C09_verdict.

Theorem C09_failed_start : forall c es s t1 f t2,
  exec (init c) es = Some (s, t1 ++ OStartEnd (HookFail f) :: t2) ->
  (next_call t2 = None \/ next_call t2 = Some (OPanicHook f))
  /\ forall ta res tb, t2 = ta ++ OPanicHookEnd res :: tb ->
       next_call tb = None \/ next_call tb = Some (failed_verdict f res).
Proof. exact run_start_failure. Qed.
Print Assumptions C09_failed_start.

Theorem C09_only_failures : forall c es s t1 f t2,
  exec (init c) es = Some (s, t1 ++ OPanicHook f :: t2) ->
  exists o, last_call t1 = Some o /\
    ((exists m, o = OHandleEnd m (OutErr match f with FErr e => e | FPanic p => p end) /\ exists e, f = FErr e)
     \/ (exists m p, f = FPanic p /\ o = OHandleEnd m (OutPanic p))
     \/ o = OStartEnd (HookFail f) \/ o = OLinkHookEnd (FlowFail f)
     \/ o = OLinkHookEnd (FlowOk (Break (Panicked f)))).
Proof. exact run_panic_explained. Qed.
Print Assumptions C09_only_failures.

Theorem C09_link_hook : forall c es s t1 res t2,
  exec (init c) es = Some (s, t1 ++ OLinkHookEnd res :: t2) ->
  match res with
  | FlowOk Continue => forall f, next_call t2 <> Some (OPanicHook f)
  | FlowOk (Break (Panicked f)) | FlowFail f =>
      next_call t2 = None \/ next_call t2 = Some (OPanicHook f) \/ next_call t2 = Some (OExit Killed)
  | FlowOk (Break r) =>
      next_call t2 = None \/ next_call t2 = Some (OExit r) \/ next_call t2 = Some (OExit Killed)
  end.
Proof. exact run_link_end. Qed.
Print Assumptions C09_link_hook.

Example C09_recovered : runs plain ex_recover (fun s tr =>
  exists t1 t2, tr = t1 ++ OPanicHookEnd (FlowOk Continue) :: t2 /\ In (OStartEnd HookOk) t1
    /\ In (OPanicHook (FPanic 4)) t1 /\ next_call t2 = Some (OHandle (mk_msg 1 false true))).
Proof. run_it. eexists [_; _; _; _; _; _; _; _], _. facts. Qed.

(** ** C10 *)
Theorem C10_nothing_lost : forall c es s0 tr0 es' s o,
  exec (init c) es = Some (s0, tr0) -> finished s0 = true -> ph s0 = PLoop LRecv ->
  exec s0 es' = Some (s, o) -> no_exit o ->
  discarded o = [] /\ msgs_of (queue s0) ++ accepted o = handled o ++ msgs_of (queue s).
Proof. exact run_exact. Qed.
Print Assumptions C10_nothing_lost.

Example C10_recovered : runs plain (started ++ [ESend false false; ESend false true]) (fun s0 _ =>
  finished s0 = true /\ ph s0 = PLoop LRecv /\ map mid (msgs_of (queue s0)) = [0; 1]
  /\ match exec s0 [ARecv; AHandleDone (OutPanic 4); APanicDone (FlowOk Continue); ARecv] with
     | Some (s, o) => map mid (handled o) = [0; 1] /\ In (OPanicHook (FPanic 4)) o
     | None => False
     end).
Proof. run_it. facts. Qed.

(** ... and if on_panic returns Continue and what follows goes well, all messages in front of the first stop
    signal are handled, by steps of the actor's task alone. *)
Theorem C10_handled_later : forall c es s tr f q rest, exec (init c) es = Some (s, tr) ->
  ph s = PLoop (LPanic f) -> finished s = true -> ~ In OKill tr ->
  queue s = q ++ rest -> ~ In SStop q ->
  exists es' s' o, forallb is_task es' = true /\ exec s es' = Some (s', o)
    /\ In (OPanicHookEnd (FlowOk Continue)) o /\ ph s' = PLoop LRecv /\ queue s' = rest
    /\ forall m, In (SMsg m) q -> In (OHandle m) o.
Proof. exact run_later. Qed.
Print Assumptions C10_handled_later.

Example C10_handled_later_case : runs plain
    (started ++ [ESend false false; ESend false true; ELinkSignal 5 Normal; ESend false false; EStop; ARecv;
                 AHandleDone (OutPanic 4)]) (fun s tr =>
  ph s = PLoop (LPanic (FPanic 4)) /\ finished s = true /\ existsb (fun o => match o with OKill => true | _ => false end) tr = false
  /\ queue s = [SMsg (mk_msg 1 false true); SLinkDied 5 Normal; SMsg (mk_msg 2 false false)] ++ [SStop]).
Proof. run_it. facts. Qed.

Theorem C10_buffered_lost_refuted : exists c es s tr m,
  exec (init c) es = Some (s, tr) /\ recovers tr /\ waits s
  /\ In (OPanicHookEnd (FlowOk Continue)) tr /\ In m (discarded tr).
Proof.
  exists plain, ex_lost_buffer. eexists _, _, (mk_msg 1 false false). split; [vm_compute; reflexivity|].
  split; [|split; [|split]].
  - intros res H. vm_compute in H. repeat (destruct H as [H|H]; [congruence|]). destruct H.
  - facts.
  - is_in.
  - is_in.
Qed.
Print Assumptions C10_buffered_lost_refuted.

(** ** C11 *)
Theorem C11_after_on_start : forall c es s t1 v t2,
  exec (init c) es = Some (s, t1 ++ OSawStartup v :: t2) ->
  exists res, In (OStartEnd res) t1 /\ v = Some (error_of res).
Proof. exact run_saw_startup. Qed.
Print Assumptions C11_after_on_start.

Theorem C11_released : forall c es s tr, exec (init c) es = Some (s, tr) -> 0 < ext s ->
  (finished s = true /\ In (OAccept SStartup) tr /\ ~ In SStartup (queue s) /\ exists pc, ph s = PLoop pc)
  \/ ((exists f, In (OStartEnd (HookFail f)) tr) /\ starting (ph s) = false) ->
  exists v, step s EWaitStartup = Some (s, [OSawStartup v]).
Proof. exact run_startup_ready'. Qed.
Print Assumptions C11_released.

Theorem C11_never_if_full : forall c es s tr es' s' o v pc, exec (init c) es = Some (s, tr) ->
  ph s = PLoop pc -> ~ In (OAccept SStartup) tr ->
  exec s es' = Some (s', o) -> ~ In (OSawStartup v) (tr ++ o).
Proof. exact run_startup_lost. Qed.
Print Assumptions C11_never_if_full.

Theorem C11_never_if_left_early : forall c es s tr es' s' o v r, exec (init c) es = Some (s, tr) ->
  In (OExit r) tr -> permit_adds s = 0 ->
  exec s es' = Some (s', o) -> ~ In (OSawStartup v) (tr ++ o).
Proof. exact run_startup_never. Qed.
Print Assumptions C11_never_if_left_early.

Example C11_waited : runs plain (started ++ [EWaitStartup]) (fun s tr =>
  In (OSawStartup (Some None)) tr).
Proof. run_it. facts. Qed.
Example C11_waited_failed : runs plain (ex_fail ++ [EWaitStartup]) (fun s tr =>
  In (OSawStartup (Some (Some (FErr 9)))) tr).
Proof. run_it. facts. Qed.
Example C11_full : runs (bounded 2) ex_full (fun s tr =>
  ph s = PLoop LRecv /\ existsb accepts_marker tr = false /\ ext s = 2).
Proof. run_it. facts. Qed.
(** Killed during on_start, which succeeds: the marker is never received. *)
Example C11_killed_early : runs plain
  [AStart; EKill; AStartDone HookOk; ASetStartup; ASignal; ADowngrade; APoll] (fun s tr =>
  In (OExit Killed) tr /\ permit_adds s = 0 /\ ext s = 2).
Proof. run_it. facts. Qed.

(** ** C12 *)
Theorem C12_closed : forall c es s tr,
  exec (init c) es = Some (s, tr) -> rx_open s = false -> In OClosed tr.
Proof. exact run_closed. Qed.
Print Assumptions C12_closed.

Theorem C12_closed_after : forall c es s t1 t2, exec (init c) es = Some (s, t1 ++ OClosed :: t2) ->
  (In OCrash t1 \/ exists res, In (OStopHookEnd res) t1)
  /\ (forall ids id, ~ In OCrash t1 -> In (OLinksTaken ids) t1 -> In id ids ->
        exists r d, In (ONotify id r d) t1)
  /\ (forall ids, ~ In (OLinksTaken ids) t2)
  /\ (forall o, In o t2 -> begins_code o = false).
Proof. exact run_closed_after. Qed.
Print Assumptions C12_closed_after.

Theorem C12_result_recorded : forall c es s tr v, exec (init c) es = Some (s, tr) ->
  In (OSawShutdown v) tr ->
  In OClosed tr /\ (In OCrash tr \/ exists res, In (OStopHookEnd res) tr /\ v = Some (error_of res)).
Proof. exact run_saw_shutdown. Qed.
Print Assumptions C12_result_recorded.

Example C12_waited : runs plain ex_stop (fun s tr =>
  rx_open s = false /\ In (OSawShutdown (Some None)) tr /\ In (OLinksTaken [5]) tr
  /\ In (ONotify 5 Normal true) tr).
Proof. run_it. facts. Qed.
(** After a panic in on_stop the waiter finds no result (and panics). *)
Example C12_crashed : runs plain (ex_crash ++ [EWaitShutdown]) (fun s tr =>
  In (OSawShutdown None) tr /\ In OCrash tr).
Proof. run_it. facts. Qed.

(** ** C13 *)
Theorem C13_once : forall c es s tr, exec (init c) es = Some (s, tr) ->
  NoDup (answered tr) /\ incl (answered tr) (ask_ids (accepted tr))
  /\ (ended (ph s) = true -> Permutation (ask_ids (accepted tr)) (answered tr ++ given s)).
Proof. exact run_asks. Qed.
Print Assumptions C13_once.

Theorem C13_dropped_unhandled : forall c es s tr m,
  exec (init c) es = Some (s, tr) -> In (ODiscard m) tr -> ask m = true ->
  In (OReplyDropped (mid m)) tr.
Proof. exact discard_asks_exec. Qed.
Print Assumptions C13_dropped_unhandled.

Theorem C13_interrupted : forall c es s ta m tb t2,
  exec (init c) es = Some (s, ta ++ OHandle m :: tb ++ OHandleCut m :: t2) ->
  (forall x, In x tb -> is_call x = false) ->
  (ask m && negb (existsb (gives_away (mid m)) tb) = true ->
     exists t3, t2 = OReplyDropped (mid m) :: t3)
  /\ (next_call t2 = None \/ next_call t2 = Some (OExit Killed)).
Proof. exact run_handler_cut. Qed.
Print Assumptions C13_interrupted.

Example C13_answered : runs plain ex_stop (fun s tr =>
  ended (ph s) = true /\ ask_ids (accepted tr) = [0; 1] /\ answered tr = [0; 1] /\ given s = []
  /\ In (OReply 0 (ReplyOk 3)) tr /\ In (OReplyDropped 1) tr).
Proof. run_it. facts. Qed.
Example C13_cut : runs plain ex_kill (fun s tr =>
  exists ta tb t2, tr = ta ++ OHandle (mk_msg 0 false true) :: tb ++ OHandleCut (mk_msg 0 false true) :: t2
   /\ tb = [OKill] /\ t2 = [OReplyDropped 0; OExit Killed]).
Proof. run_it. eexists [_; _; _; _], _, _. facts. Qed.

(** ** C14 *)
Theorem C14_outcomes : forall c es s ta m tb out t2,
  exec (init c) es = Some (s, ta ++ OHandle m :: tb ++ OHandleEnd m out :: t2) ->
  (forall x, In x tb -> is_call x = false) ->
  let kept := ask m && negb (existsb (gives_away (mid m)) tb) in
  match out, kept with
  | OutOk v, true => exists t3, t2 = OReply (mid m) (ReplyOk v) :: t3
  | OutErr e, true => exists t3, t2 = OReply (mid m) (ReplyErr e) :: t3 /\
                        (forall f, next_call t3 <> Some (OPanicHook f))
  | OutPanic p, true => exists t3, t2 = OReplyDropped (mid m) :: t3 /\
                        (next_call t3 = None \/ next_call t3 = Some (OPanicHook (FPanic p)))
  | OutOk v, false => forall f, next_call t2 <> Some (OPanicHook f)
  | OutErr e, false => next_call t2 = None \/ next_call t2 = Some (OPanicHook (FErr e))
  | OutPanic p, false => next_call t2 = None \/ next_call t2 = Some (OPanicHook (FPanic p))
  end.
Proof. exact run_handler_end. Qed.
Print Assumptions C14_outcomes.

Example C14_ask_error : runs plain ex_recover (fun s tr =>
  exists ta t2, tr = ta ++ OHandle (mk_msg 1 false true) :: [] ++ OHandleEnd (mk_msg 1 false true) (OutErr 6) :: t2
   /\ t2 = [OReply 1 (ReplyErr 6)]).
Proof. run_it. eexists [_; _; _; _; _; _; _; _; _], _. facts. Qed.
Example C14_tell_error : runs plain
  (started ++ [ESend false false; ARecv; AHandleDone (OutErr 6)]) (fun s tr =>
  last tr OClosed = OPanicHook (FErr 6)).
Proof. run_it. facts. Qed.
Example C14_error_after_reply_taken : runs plain
  (started ++ [ESend false true; ARecv; ATakeReply; AHandleDone (OutErr 6)]) (fun s tr =>
  last tr OClosed = OPanicHook (FErr 6)).
Proof. run_it. facts. Qed.

(** ** C15 *)
Theorem C15_capacity : forall c es s tr n, exec (init c) es = Some (s, tr) -> c_cap c = Some n ->
  length (queue s) + reserved s <= n.
Proof. exact run_cap. Qed.
Print Assumptions C15_capacity.

Example C15_full : runs (bounded 2) [AStart; ESend false false; EStop] (fun s tr =>
  length (queue s) = 2 /\ step s (ESend false false) = None /\ step s EStop = None).
Proof. run_it. facts. Qed.

(** When a signal is accepted, told by what was done to the mailbox: the signals
    waiting are the last ones accepted, the permits out are those given and not yet
    back, and an unbounded mailbox is never full. *)
Theorem C15_waiting : forall c es s tr, exec (init c) es = Some (s, tr) ->
  (~ In OClosed tr -> exists taken, accepted_signals tr = taken ++ queue s)
  /\ (In OClosed tr -> queue s = []).
Proof. exact run_waiting. Qed.
Print Assumptions C15_waiting.

Theorem C15_accepts : forall c es s tr, exec (init c) es = Some (s, tr) ->
  (forall is_ask, can_happen s (ESend false is_ask) <->
     0 < ext s /\ ~ In OClosed tr /\ takes_one_more (c_cap c) (length (queue s)) es)
  /\ (forall is_ask, can_happen s (ESend true is_ask) <->
     0 < ext s /\ ~ In OClosed tr /\ takes_one_more (c_cap c) (length (queue s)) es
     /\ runs_now tr es)
  /\ (can_happen s EStop <->
     0 < ext s /\ ~ In OClosed tr /\ takes_one_more (c_cap c) (length (queue s)) es)
  /\ (forall id r, can_happen s (ELinkSignal id r) <->
     0 < strong s /\ ~ In OClosed tr /\ takes_one_more (c_cap c) (length (queue s)) es)
  /\ (can_happen s EReserve <->
     ~ In OClosed tr /\ c_cap c <> None /\ takes_one_more (c_cap c) (length (queue s)) es).
Proof. exact run_accepts. Qed.
Print Assumptions C15_accepts.

(** Capacity 2: one message and one permit out fill it; the permit back makes room. An
    unbounded mailbox with three messages takes one more. *)
Example C15_accepts_case :
  runs (bounded 2) [AStart; ESend false false; EReserve] (fun s tr =>
    ~ In OClosed tr /\ 0 < ext s /\ length (queue s) = 1
    /\ ~ takes_one_more (Some 2) 1 [AStart; ESend false false; EReserve]
    /\ step s (ESend false false) = None /\ step s EStop = None)
  /\ runs (bounded 2) [AStart; ESend false false; EReserve; ERelease] (fun s tr =>
    takes_one_more (Some 2) (length (queue s)) [AStart; ESend false false; EReserve; ERelease]
    /\ step s (ESend false false) <> None)
  /\ runs plain [AStart; ESend false false; ESend false false; ESend false true] (fun s tr =>
    length (queue s) = 3 /\ step s EStop <> None /\ accepted_signals tr = queue s
    /\ runs_now tr [AStart; ESend false false; ESend false false; ESend false true]
    /\ step s (ESend true false) <> None).
Proof.
  split; [run_it|split; run_it].
  - repeat split; cbn; try lia; try reflexivity.
    intros K. repeat (destruct K as [K|K]; [discriminate K|]). exact K.
  - split; [cbn; lia|discriminate].
  - repeat split; try reflexivity; discriminate.
Qed.

(** ** C37 *)
Theorem C37_upgrade : forall c es s tr, exec (init c) es = Some (s, tr) ->
  ((exists s' o, step s EAcquire = Some (s', o)) <->
   (0 < ext s \/ (exists m, In (SMsg m) (queue s)) \/ buf s <> [] \/ starting (ph s) = true
    \/ (exists m owned rest k, ph s = PLoop (LHandle m owned rest k))
    \/ in_reg s = true \/ (threaded s = true /\ ended (ph s) = false))).
Proof. exact run_upgrade. Qed.
Print Assumptions C37_upgrade.

Theorem C37_dead_stays_dead : forall c es s tr es' s' o, exec (init c) es = Some (s, tr) ->
  strong s = 0 -> ph s <> PInit -> exec s es' = Some (s', o) ->
  strong s' = 0 /\ accepted_signals o = [] /\ step s' EAcquire = None.
Proof. exact run_dead. Qed.
Print Assumptions C37_dead_stays_dead.

(** The number of strong references, told by what was done: references made less
    references gone. *)
Theorem C37_counted : forall c es s tr, exec (init c) es = Some (s, tr) ->
  strong s + refs_gone es tr = refs_made c es tr.
Proof. exact run_counted. Qed.
Print Assumptions C37_counted.

Theorem C37_upgrade_told : forall c es s tr, exec (init c) es = Some (s, tr) ->
  ((exists s' o, step s EAcquire = Some (s', o)) <-> refs_gone es tr < refs_made c es tr).
Proof. exact run_upgradable. Qed.
Print Assumptions C37_upgrade_told.

(** Registered, a clone taken and dropped, one message being handled, one queued: the
    caller's reference, the registry's, the handler's and the queued message's. *)
Example C37_counting : runs plain
    (started ++ [ERegister; EAcquire; ESend false false; ESend false true; EDrop; ARecv]) (fun s tr =>
  strong s = 4 /\ length (accepted tr) = 2 /\ over tr = 0
  /\ match exec s [AHandleDone (OutOk 0); ARecv; EDrop] with
     | Some (s', o) => strong s' = 2 /\ over o = 1 /\ queue s' = []
     | None => False
     end).
Proof. run_it. facts. Qed.

(** One message queued, no other reference: upgrading works; after it was handled
    it does not. A link (to 5) makes no difference. *)
Example C37_queued_message : runs plain (started ++ [ELink 5; ESend false false; EDrop]) (fun s tr =>
  ext s = 0 /\ links s = [5] /\ step s EAcquire <> None
  /\ match exec s [ARecv; AHandleDone (OutOk 0)] with
     | Some (s', _) => links s' = [5] /\ strong s' = 0 /\ step s' EAcquire = None
     | None => False
     end).
Proof. run_it. facts. Qed.
