(** Property theorems about the task of an actor with any [next] (C65). *)
From Coq Require Import List Bool.
From Verif Require Import Lifecycle Loop Loop_spec Loop_proofs Loop_examples.
Import ListNotations.

(** ** C65 *)

(** Whatever is called is what the history says must be called next. *)
Theorem C65_next_hook : forall es s h1 x h2, run_task es = Some (s, h1 ++ Began x :: h2) -> expected h1 = Some x.
Proof. exact next_hook. Qed.
Print Assumptions C65_next_hook.

(** One piece of the user's code at a time, and what is cut is what runs. *)
Theorem C65_one_at_a_time : forall es s h1 h2, run_task es = Some (s, h1 ++ h2) -> running h1 <> None /\
  forall x h3, h2 = Cut x :: h3 -> running h1 = Some (Some x).
Proof. exact one_at_a_time. Qed.
Print Assumptions C65_one_at_a_time.

(** While it runs, whichever way it ends the task goes on from there. *)
Theorem C65_goes_on : forall es s h x o, run_task es = Some (s, h) -> running h = Some (Some x) ->
  same_hook o x = true -> exists e s' h', run_task (es ++ [e]) = Some (s', h ++ o :: h').
Proof. exact goes_on. Qed.
Print Assumptions C65_goes_on.

(** While none runs, the task is over, or goes on by itself to the next call. *)
Theorem C65_goes_on_alone : forall es s h, run_task es = Some (s, h) -> running h = Some None ->
  (exists h0 o, h = h0 ++ [o] /\ (o = Crashed \/ exists r, o = Returned r)) \/
  exists s' h' x, run_task (es ++ [DOn]) = Some (s', h ++ h' ++ [Began x]) /\
    forall o, In o h' -> (exists k, o = Dropped k) \/ exists r, o = Took r.
Proof. exact goes_on_alone. Qed.
Print Assumptions C65_goes_on_alone.

(** A kill cuts what runs, unless it is [on_start], [on_stop] or the [on_panic] of a failed start. *)
Theorem C65_killed : forall es s h x, run_task es = Some (s, h) -> running h = Some (Some x) ->
  match x with HStart | HStop _ => False | HPanic _ => start_failed h = None | _ => True end <->
  exists s' h', run_task (es ++ [DKill]) = Some (s', h ++ Cut x :: h').
Proof. exact killed. Qed.
Print Assumptions C65_killed.

(** The loop is dropped with what was cut, before it was entered, or after an [on_link_died]. *)
Theorem C65_aborted : forall es s h1 h2, run_task es = Some (s, h1 ++ Aborted :: h2) ->
  running h1 = Some None /\ start_failed h1 = None /\
  exists e, last_end h1 = Some e /\ match e with Cut _ | Started HookOk | LinkDone _ => True | _ => False end.
Proof. exact aborted. Qed.
Print Assumptions C65_aborted.

Theorem C65_cut_then : forall es s h1 x h2, run_task es = Some (s, h1 ++ Cut x :: h2) ->
  exists h3, h2 = Aborted :: h3.
Proof. exact cut_then. Qed.
Print Assumptions C65_cut_then.

(** A message is handled if [next] gave it, once, never after it was dropped; at once if it was sent
    within the actor, else only after the startup signal or a stop; each of the two kinds in order. *)
Theorem C65_handled : forall es s h1 k h2, run_task es = Some (s, h1 ++ Began (HMessage k) :: h2) ->
  exists w, given h1 k w /\ ~ In k (begun h1) /\ ~ In k (dropped h1) /\ (w = true \/ opened h1 = true) /\
    forall k', In k' (begun h1) -> given h1 k' w -> k' < k.
Proof. exact handled. Qed.
Print Assumptions C65_handled.

(** A message is dropped only after a failure, a kill or an [on_link_died] or [on_panic] that ends the actor. *)
Theorem C65_dropped : forall es s h1 k h2, run_task es = Some (s, h1 ++ Dropped k :: h2) ->
  (exists w, given h1 k w) /\ ~ In k (begun h1) /\ ~ In k (dropped h1) /\
  exists e, last_end h1 = Some e /\ loses e = true.
Proof. exact dropping. Qed.
Print Assumptions C65_dropped.

(** Whenever [next] or [on_stop] is called, every message given has been handled or dropped, or it is
    another's and the startup is not over. *)
Theorem C65_accounted : forall es s h1 x h2 k w, run_task es = Some (s, h1 ++ Began x :: h2) -> given h1 k w ->
  match x with HNext => True | HStop _ => True | _ => False end ->
  In k (begun h1) \/ In k (dropped h1) \/ (x = HNext /\ w = false /\ opened h1 = false).
Proof. exact accounted. Qed.
Print Assumptions C65_accounted.

(** When the task is over, every message given has been handled or dropped. *)
Theorem C65_over_accounted : forall es s h o k w, run_task es = Some (s, h ++ [o]) ->
  o = Crashed \/ (exists r, o = Returned r) -> given h k w -> In k (begun h) \/ In k (dropped h).
Proof. exact over_accounted. Qed.
Print Assumptions C65_over_accounted.

(** It is over once; nothing follows. *)
Theorem C65_over_last : forall es s h1 o h2, run_task es = Some (s, h1 ++ o :: h2) ->
  o = Crashed \/ (exists r, o = Returned r) -> h2 = [].
Proof. exact over_last. Qed.
Print Assumptions C65_over_last.

(** After [on_stop] was called nothing is, and the task returns its reason or panics. *)
Theorem C65_stop_last : forall es s h1 r h2 o, run_task es = Some (s, h1 ++ Began (HStop r) :: h2) -> In o h2 ->
  (exists res, o = Stopped res) \/ o = Told r \/ o = Returned r \/ o = Crashed.
Proof. exact stop_once_last. Qed.
Print Assumptions C65_stop_last.

(** It returns after [on_stop] with that reason has not panicked, and after the links were told it,
    unless the start failed. *)
Theorem C65_returned : forall es s h1 r h2, run_task es = Some (s, h1 ++ Returned r :: h2) ->
  In (Began (HStop r)) h1 /\ (exists res, last_end h1 = Some (Stopped res) /\ uncaught (Stopped res) = false) /\
  (start_failed h1 = None <-> exists h0, h1 = h0 ++ [Told r]).
Proof. exact returned. Qed.
Print Assumptions C65_returned.

(** It panics only if [next], [on_panic] or [on_stop] did. *)
Theorem C65_crashed : forall es s h1 h2, run_task es = Some (s, h1 ++ Crashed :: h2) ->
  exists e, last_end h1 = Some e /\ uncaught e = true.
Proof. exact crashed. Qed.
Print Assumptions C65_crashed.

(** The links are taken right before [on_stop], unless the start failed. *)
Theorem C65_took : forall es s h1 r h2, run_task es = Some (s, h1 ++ Began (HStop r) :: h2) ->
  start_failed h1 = None <-> exists h0, h1 = h0 ++ [Took r].
Proof. exact took. Qed.
Print Assumptions C65_took.

Theorem C65_took_then : forall es s h1 r h2, run_task es = Some (s, h1 ++ Took r :: h2) ->
  exists h3, h2 = Began (HStop r) :: h3.
Proof. exact took_then. Qed.
Print Assumptions C65_took_then.

(** They are told after an [on_stop] that did not panic, and then the task returns. *)
Theorem C65_told : forall es s h1 r h2, run_task es = Some (s, h1 ++ Told r :: h2) ->
  h2 = [Returned r] /\ In (Took r) h1 /\ exists res, last_end h1 = Some (Stopped res) /\ uncaught (Stopped res) = false.
Proof. exact told. Qed.
Print Assumptions C65_told.

(** Nobody is told if the task panics. *)
Theorem C65_crash_untold : forall es s h r, run_task es = Some (s, h ++ [Crashed]) -> ~ In (Told r) h.
Proof. exact crash_untold. Qed.
Print Assumptions C65_crash_untold.

(** After [next] gave a stop it is asked again only if a handler failed and [on_panic] let the actor
    go on. *)
Theorem C65_stop_heeded : forall es s h1 h2, run_task es = Some (s, h1 ++ Began HNext :: h2) ->
  stop_given h1 = true -> resumed h1.
Proof. exact stop_heeded. Qed.
Print Assumptions C65_stop_heeded.

(** [wait_for_startup] is let go by the startup signal and by a failed start, by nothing else. *)
Theorem C65_ready : forall es s h1 z h2, run_task es = Some (s, h1 ++ z :: h2) ->
  z = Gave GStartup \/ (exists f, z = Started (HookFail f)) -> exists h3, h2 = Ready :: h3.
Proof. exact ready. Qed.
Print Assumptions C65_ready.

Theorem C65_ready_only : forall es s h1 h2, run_task es = Some (s, h1 ++ Ready :: h2) ->
  exists h0 e, h1 = h0 ++ [e] /\ (e = Gave GStartup \/ exists f, e = Started (HookFail f)).
Proof. exact ready_only. Qed.
Print Assumptions C65_ready_only.

(** The runs of the examples meet the hypotheses of all of these. *)
Example C65_full_case :
  (exists s, run_task full = Some (s, full_h1 ++ Began (HMessage 2) :: full_h2)) /\
  expected full_h1 = Some (HMessage 2) /\ given full_h1 2 false /\ opened full_h1 = true /\ begun full_h1 = [1; 0] /\
  running full_h1 = Some None /\ In (Returned Normal) full_h2 /\ In (Took Normal) full_h2 /\ In (Told Normal) full_h2 /\ In Ready full_h1 /\
  In (Gave GStartup) full_h1.
Proof. split; [exact full_runs|]. repeat split; try reflexivity; repeat (try (left; reflexivity); right). Qed.

Example C65_cut_case :
  (exists s, run_task cut_short = Some (s, cut_h1 ++ Dropped 2 :: cut_h2 ++ Began HNext :: cut_h3)) /\
  stop_given (cut_h1 ++ Dropped 2 :: cut_h2) = true /\ resumed (cut_h1 ++ Dropped 2 :: cut_h2) /\
  last_end cut_h1 = Some (Handled 1 (HookFail (FPanic 4))) /\
  running (cut_h1 ++ Dropped 2 :: cut_h2 ++ [Began HNext]) = Some (Some HNext) /\ begun cut_h1 = [0; 1] /\
  In (Cut HNext) cut_h3 /\ In Aborted cut_h3.
Proof.
  split; [exact cut_runs|]. split; [reflexivity|]. split; [|repeat split; try reflexivity; repeat (try (left; reflexivity); right)].
  exists [Started HookOk; Gave (GMessage false); Gave (GMessage false); Gave (GMessage false); Gave GStop; Handled 0 HookOk], 1, (FPanic 4).
  reflexivity.
Qed.

Example C65_failing_case : exists s h, run_task failing = Some (s, h ++ [Crashed]) /\ start_failed h = Some (FErr 1) /\
  In (Began (HStop Killed)) h.
Proof. eexists _, [_; _; _; _; _; _; _]. split; [reflexivity|]. split; [reflexivity|]. do 5 right. now left. Qed.

(** The task between two calls. *)
Example C65_alone_case : exists s, run_task [DStart HookOk true] = Some (s, [Began HStart; Started HookOk]) /\
  running [Began HStart; Started HookOk] = Some None.
Proof. eexists. split; reflexivity. Qed.

(** If [next] panics, [on_stop] is not called and no linked actor is told. *)
Theorem C65_stopped_refuted : forall es s h, run_task es = Some (s, h) -> running h = Some (Some HNext) ->
  exists s' ks, run_task (es ++ [DNextPanic]) = Some (s', h ++ NextPanicked :: map Dropped ks ++ [Crashed]) /\
    ~ stopping (h ++ NextPanicked :: map Dropped ks ++ [Crashed]) /\
    forall r, ~ In (Told r) (h ++ NextPanicked :: map Dropped ks ++ [Crashed]).
Proof. exact next_panic. Qed.
Print Assumptions C65_stopped_refuted.

Example C65_broken_case : exists s, run_task broken = Some (s,
  [Began HStart; Started HookOk; Began HNext; Gave (GMessage false); Began HNext; NextPanicked; Dropped 0; Crashed]).
Proof. exact broken_runs. Qed.

(** A [next] that drops the startup signal gets any number of messages of others and none is handled;
    [wait_for_startup] is not let go. *)
Theorem C65_served_refuted : forall n, exists es s h, run_task es = Some (s, h) /\
  running h = Some (Some HNext) /\ gaves h = repeat (GMessage false) n /\ begun h = [] /\ dropped h = [] /\ ~ In Ready h.
Proof. exact swallowing. Qed.
Print Assumptions C65_served_refuted.
