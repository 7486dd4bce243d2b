(** Property theorems about actors whose task is dropped instead of stopped (C71). *)
From Coq Require Import List Bool PeanoNat Permutation.
Import ListNotations.
From Verif Require Import Lifecycle Lifecycle_spec Lifecycle_room_spec Lifecycle_count_spec Cancel Cancel_spec Cancel_proofs Cancel_when_proofs Cancel_examples.

(** ** C71 *)

(** The mailbox is closed at once: nothing is accepted any more, and who waits for the shutdown goes on. *)
Theorem C71_closed : forall c es1 s1 t1 s2 t2 es2 s3 t3, dropped c es1 s1 t1 s2 t2 es2 s3 t3 ->
  In OClosed t2 /\ accepted_signals t3 = [] /\ (0 < ext s3 -> can_happen s3 EWaitShutdown)
  /\ forall e, In e [ESend false false; ESend false true; EStop] -> ~ can_happen s3 e.
Proof. exact dropped_closed. Qed.
Print Assumptions C71_closed.

Example C71_closed_ex : ca_all ca_busy [EKill; EWaitShutdown; EDrop; EDrop] (fun s1 t1 s2 t2 s3 t3 =>
  0 < ext s2 /\ t3 = [OKill; OSawShutdown None] /\ rx_open s1 = true).
Proof. vm_compute. repeat split. apply le_S, le_n. Qed.

(** Every message that was accepted has been handled once, or is dropped now and never handled. *)
Theorem C71_messages : forall c es1 s1 t1 s2 t2 es2 s3 t3, dropped c es1 s1 t1 s2 t2 es2 s3 t3 ->
  Permutation (accepted (t1 ++ t2 ++ t3)) (handled (t1 ++ t2 ++ t3) ++ discarded (t1 ++ t2 ++ t3))
  /\ handled (t1 ++ t2 ++ t3) = handled t1.
Proof. exact dropped_messages. Qed.
Print Assumptions C71_messages.

(** Every asker gets its reply or an error, once, unless user code was given the reply sender before. *)
Theorem C71_asks : forall c es1 s1 t1 s2 t2 es2 s3 t3, dropped c es1 s1 t1 s2 t2 es2 s3 t3 ->
  exists held, Permutation (ask_ids (accepted (t1 ++ t2 ++ t3))) (answered (t1 ++ t2 ++ t3) ++ held)
  /\ forall id, In id held -> In (OReplyTaken id) t1.
Proof. exact dropped_asks. Qed.
Print Assumptions C71_asks.

Example C71_asks_ex : ca_all ca_busy [] (fun s1 t1 s2 t2 s3 t3 =>
    ask_ids (accepted t1) = [0; 1] /\ answered t1 = [] /\ answered t2 = [0; 1]
    /\ In (OHandleCut (mk_msg 0 false true)) t2 /\ discarded t2 = [mk_msg 1 false true])
  /\ ca_all ca_lent [EGivenReply 0 (ReplyOk 5)] (fun s1 t1 s2 t2 s3 t3 =>
    answered t1 = [] /\ answered t2 = [1] /\ t3 = [OReply 0 (ReplyOk 5)]).
Proof. vm_compute. repeat split. left. reflexivity. Qed.

(** No code of the actor begins or ends after that: [on_stop] and [on_panic] are not called, and what ran is cut off. *)
Theorem C71_silent : forall c es1 s1 t1 s2 t2 es2 s3 t3, dropped c es1 s1 t1 s2 t2 es2 s3 t3 ->
  existsb begins_code (t2 ++ t3) = false /\ existsb returns (t2 ++ t3) = false.
Proof. exact dropped_silent. Qed.
Print Assumptions C71_silent.

Example C71_silent_ex : ca_all [ESend false true; ESend false false] [EWaitShutdown] (fun s1 t1 s2 t2 s3 t3 =>
    begins_code OStartBegin = true /\ existsb begins_code t1 = false /\ answered t2 = [0] /\ length (discarded t2) = 2)
  /\ ca_all ca_stopping [] (fun s1 t1 s2 t2 s3 t3 => entered t1 = Some UStop /\ t2 = [OClosed]).
Proof. vm_compute. repeat split. Qed.

(** Linked actors are told only by an actor whose [on_stop] has returned, and by none after the drop. *)
Theorem C71_told_before : forall c es1 s1 t1 s2 t2 es2 s3 t3, dropped c es1 s1 t1 s2 t2 es2 s3 t3 ->
  forall id r d, In (ONotify id r d) (t1 ++ t2 ++ t3) ->
  In (ONotify id r d) t1 /\ exists res, In (OStopHookEnd res) t1.
Proof. exact dropped_told. Qed.
Print Assumptions C71_told_before.

Example C71_told_before_ex : ca_all ca_telling [] (fun s1 t1 s2 t2 s3 t3 =>
  In (OLinksTaken [8; 7]) t1 /\ In (ONotify 7 Normal true) t1 /\ ~ In (ONotify 8 Normal true) (t1 ++ t2 ++ t3)).
Proof. vm_compute. repeat split; intuition discriminate. Qed.

(** Refuted: a linked actor is told of the end of every actor that has started. *)
Theorem C71_told_refuted : exists c es1 s1 t1 s2 t2,
  exec (init c) es1 = Some (s1, t1) /\ drop_task s1 = Some (s2, t2) /\ In (ELink 7) es1
  /\ In (OStartEnd HookOk) t1 /\ In (OStopHook Normal) t1
  /\ forall es2 s3 t3 r d, exec s2 es2 = Some (s3, t3) -> ~ In (ONotify 7 r d) (t1 ++ t2 ++ t3).
Proof. exact untold_for_ever. Qed.
Print Assumptions C71_told_refuted.

(** [wait_for_startup] returns afterwards exactly if it could have returned right before. *)
Theorem C71_startup : forall c es1 s1 t1 s2 t2 es2 s3 t3, dropped c es1 s1 t1 s2 t2 es2 s3 t3 ->
  0 < ext s1 -> 0 < ext s3 -> (can_happen s3 EWaitStartup <-> can_happen s1 EWaitStartup).
Proof. exact dropped_startup. Qed.
Print Assumptions C71_startup.

Example C71_startup_ex : ca_all ca_busy [EWaitStartup] (fun s1 t1 s2 t2 s3 t3 =>
  0 < ext s1 /\ 0 < ext s3 /\ t3 = [OSawStartup (Some None)]).
Proof. vm_compute. repeat split; apply le_S, le_n. Qed.

(** Refuted: it returns if [on_start] has succeeded. *)
Theorem C71_startup_refuted : exists c es1 s1 t1 s2 t2,
  exec (init c) es1 = Some (s1, t1) /\ drop_task s1 = Some (s2, t2) /\ In (OStartEnd HookOk) t1 /\ 0 < ext s1
  /\ forall es2 s3 t3 v, exec s2 es2 = Some (s3, t3) -> ~ In (OSawStartup v) t3.
Proof. exact unstarted_for_ever. Qed.
Print Assumptions C71_startup_refuted.

(** [wait_for_shutdown_result] finds no result, at which it panics. *)
Theorem C71_shutdown_result : forall c es1 s1 t1 s2 t2 es2 s3 t3, dropped c es1 s1 t1 s2 t2 es2 s3 t3 ->
  forall v, In (OSawShutdown v) t3 -> v = None.
Proof. exact dropped_shutdown. Qed.
Print Assumptions C71_shutdown_result.

Example C71_shutdown_result_ex : ca_all ca_telling [EWaitShutdown] (fun s1 t1 s2 t2 s3 t3 =>
  In (OStopHookEnd HookOk) t1 /\ t3 = [OSawShutdown None]).
Proof. vm_compute. split; [tauto|reflexivity]. Qed.

(** An actor that was registered for remote use keeps its entry and with it a reference, for ever. *)
Theorem C71_registered : forall c es1 s1 t1 s2 t2 es2 s3 t3, dropped c es1 s1 t1 s2 t2 es2 s3 t3 ->
  In ERegister es1 -> 0 < strong s3 /\ can_happen s3 EAcquire.
Proof. exact dropped_registered. Qed.
Print Assumptions C71_registered.

Example C71_registered_ex : ca_all ca_busy [EDrop; EDrop] (fun s1 t1 s2 t2 s3 t3 =>
  In ERegister ca_busy /\ ext s3 = 0 /\ strong s3 = 1).
Proof. vm_compute. repeat split. left. reflexivity. Qed.

(** A task can be dropped in every piece of the user's code: in [on_start] and [on_stop], and in
    handlers and hooks wherever they await. *)
Theorem C71_anywhere : forall c es s tr, exec (init c) es = Some (s, tr) -> c_threaded c = false -> entered tr <> None ->
  polled es = false \/ entered tr = Some UStart \/ entered tr = Some UStop ->
  exists s' o, drop_task s = Some (s', o).
Proof. exact code_droppable. Qed.
Print Assumptions C71_anywhere.

Example C71_anywhere_ex : ca_all ca_busy [] (fun s1 t1 s2 t2 s3 t3 => entered t1 = Some UHandler /\ polled ca_busy = false)
  /\ ca_all ca_stopping [] (fun s1 t1 s2 t2 s3 t3 => entered t1 = Some UStop)
  /\ ca_all [AStart] [] (fun s1 t1 s2 t2 s3 t3 => entered t1 = Some UStart)
  /\ ca_all [AStart; AStartDone (HookFail (FErr 1)); ASetStartup; ASignal; ADowngrade] [] (fun s1 t1 s2 t2 s3 t3 =>
       entered t1 = Some UPanic /\ entered t2 = None /\ In OPanicHookCut t2).
Proof. vm_compute. repeat split. left. reflexivity. Qed.

(** When exactly a task can be dropped, told by what it did: never in a thread of its own; before it is
    polled first and in [on_start]; in the loop whenever it gave control back; in the hooks after a failed
    start; and from the end of the loop until the registry has been told. *)
Theorem C71_when : forall c es s tr, exec (init c) es = Some (s, tr) ->
  ((exists s' o, drop_task s = Some (s', o)) <-> c_threaded c = false /\ suspended es tr = true).
Proof. exact droppable_when. Qed.
Print Assumptions C71_when.

Example C71_when_ex :
  let at_ es := match exec (init ca_conf) es with
                | Some (s, tr) => Some (suspended es tr, match drop_task s with Some _ => true | None => false end)
                | None => None
                end in
  at_ [] = Some (true, true) /\ at_ [AStart] = Some (true, true) /\ at_ [AStart; AStartDone HookOk] = Some (false, false)
  /\ at_ ca_started = Some (true, true) /\ at_ (ca_started ++ [APoll]) = Some (false, false)
  /\ at_ (ca_started ++ [APoll; ARecv; AYield]) = Some (true, true) /\ at_ ca_telling = Some (true, true)
  /\ at_ (ca_telling ++ [ANotify 8 true; ANotifyEnd]) = Some (true, true)
  /\ at_ (ca_telling ++ [ANotify 8 true; ANotifyEnd; ARegRemove]) = Some (false, false)
  /\ at_ (ca_telling ++ [ANotify 8 true; ANotifyEnd; ARegRemove; ASetShutdown; AClose]) = Some (false, false).
Proof. vm_compute. repeat split. Qed.

(** What is cut off is the user's code that was running: a handler, [on_link_died] or [on_panic]. *)
Theorem C71_cuts : forall c es s tr s' o, exec (init c) es = Some (s, tr) -> drop_task s = Some (s', o) ->
  (In OLinkHookCut o <-> entered tr = Some ULink) /\ (In OPanicHookCut o <-> entered tr = Some UPanic)
  /\ ((exists m, In (OHandleCut m) o) <-> entered tr = Some UHandler).
Proof. exact dropped_cuts. Qed.
Print Assumptions C71_cuts.

Example C71_cuts_ex :
  ca_all (ca_started ++ [ELinkSignal 7 Killed; APoll; ARecv; ARecv; AYield]) [] (fun s1 t1 s2 t2 s3 t3 =>
    entered t1 = Some ULink /\ t2 = [OLinkHookCut; OClosed])
  /\ ca_all ca_busy [] (fun s1 t1 s2 t2 s3 t3 => entered t1 = Some UHandler /\ In (OHandleCut (mk_msg 0 false true)) t2)
  /\ ca_all ca_stopping [] (fun s1 t1 s2 t2 s3 t3 => entered t1 = Some UStop /\ t2 = [OClosed]).
Proof. vm_compute. repeat split. left. reflexivity. Qed.

(** The references left: those given to the caller, to clones, upgrades and [on_start] and not dropped, and
    the registry's. The task's own, those of its messages and that of a running handler are gone. *)
Theorem C71_refs : forall c es s tr s' o, exec (init c) es = Some (s, tr) -> drop_task s = Some (s', o) ->
  strong s' + given_up es = c_refs c + acquired es + handed_to_on_start tr + (if registered es then 1 else 0).
Proof. exact dropped_refs. Qed.
Print Assumptions C71_refs.

Example C71_refs_ex : ca_all ca_busy [] (fun s1 t1 s2 t2 s3 t3 =>
  strong s1 = 5 /\ strong s2 = 3 /\ handed_to_on_start t1 = 1 /\ registered ca_busy = true /\ length (discarded t2) = 1).
Proof. vm_compute. repeat split. Qed.
