(** Property theorems about actor pools (C39-C42): every size, all capacities, and every
    order in which the pool, its workers and the senders take their steps. *)
From Coq Require Import List Bool PeanoNat.
From Verif Require Import Errors Dyn Reply Pool Pool_spec Pool_proofs Pool_more_proofs Pool_send_proofs Pool_line_proofs Pool_examples
  Pool_reply Pool_reply_proofs.
Import ListNotations.

(** ** C39 *)

(** The chosen worker is the first of those with the fewest outstanding messages. *)
Theorem C39_least_loaded : forall caps c es s t1 w m t2,
  reaches caps c es s (t1 ++ OChosen w m :: t2) ->
  first_least (outstanding t1) (workers_after (seq 0 (length caps)) t1) w.
Proof. exact chosen_least. Qed.
Print Assumptions C39_least_loaded.

(** The load of a worker is the number of its outstanding messages, and of the sends to
    it that have not completed. *)
Theorem C39_load : forall caps c es s tr w,
  reaches caps c es s tr -> load (wk s w) = outstanding tr w + waiting s w.
Proof. exact load_known. Qed.
Print Assumptions C39_load.

(** A message is outstanding as long as the worker has it. *)
Theorem C39_held : forall caps c es s tr w,
  reaches caps c es s tr ->
  given w tr = done_with w tr + length (queue (wk s w)) + match busy (wk s w) with Some _ => 1 | None => 0 end.
Proof. exact accounted. Qed.
Print Assumptions C39_held.

(** A worker is done with the messages it was given in the order in which it was given them;
    it has the others. *)
Theorem C39_in_turn : forall caps c es s tr w, reaches caps c es s tr ->
  got w tr = ended w tr ++ holding (wk s w).
Proof. exact worker_in_turn. Qed.
Print Assumptions C39_in_turn.

Example C39_in_turn_case : exists s, reaches caps3 (Some 4) ex_load s tr_load
  /\ got 0 tr_load = [(10, None); (13, None)] /\ ended 0 tr_load = [] /\ ended 1 tr_load = [(11, Some 7)]
  /\ holding (wk s 0) = [(10, None); (13, None)].
Proof. at_end. auto 10. Qed.

Example C39_case : exists s, reaches caps3 (Some 4) ex_load s tr_load
  /\ choices tr_load = [(0, (10, None)); (1, (11, Some 7)); (2, (12, None)); (0, (13, None)); (1, (14, None))]
  /\ map (fun w => load (wk s w)) [0; 1; 2] = [2; 1; 1]
  /\ map (outstanding tr_load) [0; 1; 2] = [2; 0; 1] /\ waiting s 1 = 1.
Proof. at_end. auto 10. Qed.

(** ** C40 *)

(** The number of workers does not change, and no worker is in two slots. *)
Theorem C40_size : forall caps c es s tr, reaches caps c es s tr ->
  length (slots s) = length caps /\ NoDup (slots s) /\ slots s = workers_after (seq 0 (length caps)) tr.
Proof. exact size_kept. Qed.
Print Assumptions C40_size.

(** There are pools of any size but 0, with workers' mailboxes of any capacity but 0. *)
Theorem C40_created : forall caps c, (exists es s tr, reaches caps c es s tr) <-> caps <> [] /\ ~ In (Some 0) caps.
Proof. exact created_when. Qed.
Print Assumptions C40_created.

(** A worker's death that the pool comes to: it is replaced if it is still in its slot, unless
    nobody holds the pool; for a capacity of 0 the pool panics. *)
Theorem C40_report : forall caps c es s tr w q up k, reaches caps c es s tr ->
  ph s = PIdle -> inbox s = PReport w :: q ->
  exists s' o, step s (EHandle up k) = Some (s', o) /\ inbox s' = q /\
    ((up = false \/ ~ In w (slots s)) /\ o = [] /\ slots s' = slots s /\ ph s' = PIdle
     \/ up = true /\ In w (slots s) /\ k = Some 0 /\ o = [OPanicked; OStopped] /\ ph s' = PStopped
     \/ up = true /\ k <> Some 0 /\ exists i v, nth_error (slots s) i = Some w /\ ~ In v (slots s)
          /\ o = [OReplaced i w v] /\ slots s' = replace_at i v (slots s)
          /\ wk s' v = mk_worker WUp k [] None 0 false false /\ ph s' = PLinking v).
Proof. exact report_handled. Qed.
Print Assumptions C40_report.

(** A step changes at most one slot: that of a worker that has ended, and it puts a new
    idle worker there, which is linked next. No other worker is touched. *)
Theorem C40_one_slot : forall caps c es s tr e s' o, reaches caps c es s tr -> step s e = Some (s', o) ->
  slots s' = slots s \/
  exists i w k, nth_error (slots s) i = Some w /\ st (wk s w) <> WUp
    /\ slots s' = replace_at i (fresh s) (slots s) /\ ~ In (fresh s) (slots s) /\ given (fresh s) tr = 0
    /\ wk s' (fresh s) = mk_worker WUp k [] None 0 false false
    /\ (forall v, v <> fresh s -> wk s' v = wk s v)
    /\ o = [OReplaced i w (fresh s)] /\ ph s' = PLinking (fresh s).
Proof. exact replaced_one. Qed.
Print Assumptions C40_one_slot.

(** A worker in its loop is linked, except until [on_start] gets to it, or right after it
    was put in place. *)
Theorem C40_linked : forall caps c es s tr w, reaches caps c es s tr ->
  In w (slots s) -> st (wk s w) = WUp -> ph s <> PStopped ->
  linked (wk s w) = true \/ ph s = PLinking w
  \/ exists k i, ph s = PStarting k /\ k <= i /\ nth_error (slots s) i = Some w.
Proof. exact up_is_linked. Qed.
Print Assumptions C40_linked.

(** A worker that was linked when it ended is in its slot only until the pool has handled
    the report of its end. *)
Theorem C40_reported : forall caps c es s tr w, reaches caps c es s tr -> referenced es ->
  In (OLinked w) tr -> In w (slots s) -> ph s <> PStopped ->
  (st (wk s w) = WUp -> linked (wk s w) = true) /\ (st (wk s w) <> WUp -> report_due s w).
Proof. exact report_kept. Qed.
Print Assumptions C40_reported.

(** One that ended without being linked, or whose report was passed over, stays. *)
Theorem C40_unreported : forall caps c es s tr w, reaches caps c es s tr ->
  In w (slots s) -> st (wk s w) <> WUp -> ~ report_due s w ->
  forall es' s' tr', run s es' = Some (s', tr') -> In w (slots s') /\ st (wk s' w) <> WUp /\ ~ report_due s' w.
Proof. exact missed_for_good. Qed.
Print Assumptions C40_unreported.

(** So it is not true that each worker that ends is replaced. *)
Theorem C40_replaced_refuted : exists caps c es s tr w, reaches caps c es s tr /\ ph s = PIdle /\ inbox s = []
  /\ In w (slots s) /\ st (wk s w) = WGone
  /\ forall es' s' tr', run s es' = Some (s', tr') -> In w (slots s') /\ st (wk s' w) <> WUp.
Proof. exact missed_refuted. Qed.
Print Assumptions C40_replaced_refuted.

Example C40_case : exists s, reaches caps3 (Some 4) ex_replace s tr_replace
  /\ slots s = [3; 1; 2] /\ linked (wk s 3) = true /\ load (wk s 3) = 0
  /\ outstanding tr_replace 0 = 0 /\ load (wk s 1) = 1.
Proof. at_end. auto 10. Qed.
Example C40_before_case : exists s, reaches caps3 (Some 4) ex_dead s tr_dead
  /\ slots s = [0; 1; 2] /\ st (wk s 0) = WGone /\ inbox s = [PReport 0] /\ In (OLinked 0) tr_dead
  /\ (exists s', step s (EHandle true (Some 2)) = Some (s', [OReplaced 0 0 3])) /\ ph s = PIdle.
Proof. at_end. repeat split; auto 10. eexists; reflexivity. Qed.
Example C40_referenced : referenced ex_dead.
Proof. intros c H. cbn in H. intuition discriminate. Qed.
Example C40_unreported_case : exists s, reaches caps2 (Some 4) ex_missed s tr_missed
  /\ In 1 (slots s) /\ st (wk s 1) <> WUp /\ ~ report_due s 1.
Proof. at_end. repeat split; auto; try discriminate. intros [H|[]]; discriminate. Qed.

(** ** C41 *)

(** A dispatch reaches the least loaded worker if that has not ended and has room. *)
Theorem C41_reaches_live : forall caps c es s tr m q w up k, reaches caps c es s tr ->
  ph s = PIdle -> inbox s = PDispatchMsg m :: q ->
  first_least (outstanding tr) (slots s) w -> takes_more (wk s w) ->
  exists s', run s [EHandle up k; ESent] = Some (s', [OChosen w m; OSent w m; OForwarded m])
    /\ ph s' = PIdle /\ queue (wk s' w) = queue (wk s w) ++ [m].
Proof. exact live_chosen. Qed.
Print Assumptions C41_reaches_live.

(** What is forwarded was sent to the worker chosen last, after others that had ended. *)
Theorem C41_forwarded : forall caps c es s t1 m t2, reaches caps c es s (t1 ++ OForwarded m :: t2) ->
  exists ta tb ws w, t1 = ta ++ tb ++ [OSent w m] /\ choices tb = map (fun w => (w, m)) (ws ++ [w]) /\ sends tb = []
    /\ (forall w, In w ws -> st (wk s w) = WGone) /\ (snd m <> None -> ws = []).
Proof. exact forwarded_why. Qed.
Print Assumptions C41_forwarded.

(** A failure hands back the very message, sent to nobody, after as many choices as there
    are workers, all of workers that have ended. The pool stops. *)
Theorem C41_failed : forall caps c es s t1 m t2, reaches caps c es s (t1 ++ OFailed m :: t2) ->
  (exists ta tb ws, t1 = ta ++ tb /\ choices tb = map (fun w => (w, m)) ws /\ sends tb = []
     /\ length ws = length caps /\ (forall w, In w ws -> st (wk s w) = WGone) /\ snd m = None)
  /\ ph s = PStopped /\ choices t2 = [] /\ sends t2 = [].
Proof. exact failed_why. Qed.
Print Assumptions C41_failed.

(** The pool panics when it dispatches for an asker to a worker that has ended, and when
    a replacement would have a mailbox of capacity 0; in no other case. *)
Theorem C41_panicked : forall caps c es s t1 t2, reaches caps c es s (t1 ++ OPanicked :: t2) ->
  (In (EHandle true (Some 0)) es
   \/ exists ta tb m w, t1 = ta ++ tb /\ choices tb = [(w, m)] /\ sends tb = [] /\ snd m <> None /\ st (wk s w) = WGone)
  /\ ph s = PStopped /\ choices t2 = [] /\ sends t2 = [].
Proof. exact panicked_why. Qed.
Print Assumptions C41_panicked.

(** When the least loaded worker has ended, the rounds choose it again and again, and the
    pool stops, no matter how many workers live. *)
Theorem C41_dead_least_told : forall caps c es s tr m q w up k, reaches caps c es s tr ->
  ph s = PIdle -> inbox s = PDispatchMsg m :: q -> snd m = None ->
  first_least (outstanding tr) (slots s) w -> st (wk s w) = WGone ->
  exists s', run s (EHandle up k :: repeat ERefused (length (slots s)))
             = Some (s', repeat (OChosen w m) (length (slots s)) ++ [OFailed m; OStopped])
    /\ ph s' = PStopped.
Proof. exact dead_told. Qed.
Print Assumptions C41_dead_least_told.

Theorem C41_dead_least_asked : forall caps c es s tr m q w up k, reaches caps c es s tr ->
  ph s = PIdle -> inbox s = PDispatchMsg m :: q -> snd m <> None ->
  first_least (outstanding tr) (slots s) w -> st (wk s w) = WGone ->
  exists s', run s [EHandle up k; ERefused] = Some (s', [OChosen w m; OPanicked; OStopped]) /\ ph s' = PStopped.
Proof. exact dead_asked. Qed.
Print Assumptions C41_dead_least_asked.

(** So a dispatch can fail though a worker lives and has room. *)
Theorem C41_live_worker_refuted : exists caps c es s tr m q w,
  reaches caps c es s tr /\ ph s = PIdle /\ inbox s = PDispatchMsg m :: q /\ snd m = None
  /\ In w (slots s) /\ st (wk s w) = WUp /\ takes_more (wk s w)
  /\ exists es' s' tr', run s es' = Some (s', tr') /\ In (OFailed m) tr' /\ ph s' = PStopped /\ st (wk s' w) = WUp.
Proof. exact dispatch_refuted. Qed.
Print Assumptions C41_live_worker_refuted.

(** And it can wait forever though a worker is free: the pool waits for room at a worker
    that waits for room in the mailbox of the pool. *)
Theorem C41_completes_refuted : exists caps c es s tr m k w v, reaches caps c es s tr /\ ph s = PSending m k w
  /\ inbox s <> [] /\ In v (slots s) /\ free (wk s v)
  /\ forall es' s' tr', run s es' = Some (s', tr') -> ph s' = PSending m k w /\ inbox s' = inbox s /\ choices tr' = [] /\ sends tr' = [].
Proof. exact waits_forever. Qed.
Print Assumptions C41_completes_refuted.

(** The asker of a [Dispatch] gets the value; it panics if there is an error. *)
Theorem C41_answer_value : forall user m N r v, pool_answer user m N r (Ok v) = AnsOk (r := RDeleg r) v.
Proof. exact pool_ok. Qed.
Print Assumptions C41_answer_value.
Theorem C41_answer_error_refuted : forall user m N r e, pool_answer user m N r (Err e) = AnsPanic.
Proof. exact pool_err. Qed.
Print Assumptions C41_answer_error_refuted.

Example C41_live_case : exists s, reaches caps3 (Some 4) (ex_load ++ [ESent; ESubmit (PDispatchMsg (15, Some 8))]) s
    (tr_load ++ [OSent 1 (14, None); OForwarded (14, None)])
  /\ ph s = PIdle /\ inbox s = [PDispatchMsg (15, Some 8)] /\ takes_more (wk s 1)
  /\ first_least (outstanding (tr_load ++ [OSent 1 (14, None); OForwarded (14, None)])) (slots s) 1.
Proof.
  at_end. repeat split; auto; try discriminate. exists [0], [2]. repeat split; intros v [<-|[]]; repeat constructor.
Qed.
Example C41_dead_case : forall ch, exists s, reaches caps2 (Some 4) (ex_missed_11 ch) s (tr_missed_11 ch)
  /\ ph s = PIdle /\ inbox s = [PDispatchMsg (11, ch)] /\ st (wk s 1) = WGone
  /\ first_least (outstanding (tr_missed_11 ch)) (slots s) 1.
Proof.
  intros ch. at_end. repeat split; auto; try discriminate. exists [0], []. repeat split; [intros v [<-|[]]; repeat constructor|intros v []].
Qed.
Example C41_failed_case : exists s, reaches caps2 (Some 4) (ex_missed_11 None ++ [EHandle true None; ERefused; ERefused]) s
    ((tr_missed_11 None ++ [OChosen 1 (11, None); OChosen 1 (11, None)]) ++ OFailed (11, None) :: [OStopped]) /\ st (wk s 0) = WUp.
Proof. at_end. auto. Qed.
Example C41_panicked_case : exists s, reaches caps2 (Some 4) (ex_missed_11 (Some 6) ++ [EHandle true None; ERefused]) s
    ((tr_missed_11 (Some 6) ++ [OChosen 1 (11, Some 6)]) ++ OPanicked :: [OStopped]) /\ st (wk s 0) = WUp.
Proof. at_end. auto. Qed.
Example C41_answer_case :
  pool_answer (fun _ => nat) (TUser 0) (TUser 1) (RRes (TUser 2) (TUser 3)) (Ok 5) = AnsOk (r := RDeleg (RRes (TUser 2) (TUser 3))) 5
  /\ pool_answer (fun _ => nat) (TUser 0) (TUser 1) (RRes (TUser 2) (TUser 3)) (Err (HandlerError 5)) = AnsPanic.
Proof. vm_compute. auto. Qed.

(** A pool that has not stopped accepts a dispatch or broadcast while its mailbox has room,
    and comes to it when it has handled those before it. *)
Theorem C41_accepts : forall s m, (exists s' o, step s (ESubmit m) = Some (s', o)) <->
  (forall w, m <> PReport w) /\ ph s <> PStopped /\ match pcap s with None => True | Some n => length (inbox s) < n end.
Proof. exact submit_when. Qed.
Print Assumptions C41_accepts.
Theorem C41_queued : forall s m s' o, step s (ESubmit m) = Some (s', o) -> o = [] /\ inbox s' = inbox s ++ [m] /\ ph s' = ph s
  /\ slots s' = slots s /\ forall w, wk s' w = wk s w.
Proof. exact submit_does. Qed.
Print Assumptions C41_queued.
Theorem C41_handled : forall s up k, ph s = PIdle -> inbox s <> [] ->
  exists s' o, step s (EHandle up k) = Some (s', o) /\ inbox s' = tl (inbox s).
Proof. exact handle_when. Qed.
Print Assumptions C41_handled.

(** It stops where a dispatch fails or a handler panics, and nowhere else. *)
Theorem C41_stops : forall caps c es s tr, reaches caps c es s tr -> ph s = PStopped <-> In OStopped tr.
Proof. exact stops_when. Qed.
Print Assumptions C41_stops.

(** A worker that finishes a message of an asker answers it, with what its handler returned,
    and nobody else answers. *)
Theorem C41_answered : forall caps c es s t1 w m ch ok t2, reaches caps c es s (t1 ++ OFinished w (m, Some ch) ok :: t2) ->
  exists t3, t2 = OReply ch ok :: t3.
Proof. exact answered. Qed.
Print Assumptions C41_answered.
Theorem C41_answer_why : forall caps c es s t1 ch ok t2, reaches caps c es s (t1 ++ OReply ch ok :: t2) ->
  exists t0 w m, t1 = t0 ++ [OFinished w (m, Some ch) ok].
Proof. exact answer_why. Qed.
Print Assumptions C41_answer_why.

Example C41_answered_case : exists s, reaches caps3 (Some 4) ex_load s
    (firstn 15 tr_load ++ OFinished 1 (11, Some 7) true :: OReply 7 true :: skipn 17 tr_load)
  /\ ph s <> PStopped /\ pcap s = Some 4 /\ inbox s = [].
Proof. at_end. repeat split; auto; discriminate. Qed.
Example C41_handled_case : exists s, reaches caps3 (Some 4) (ex_load ++ [ESent; ESubmit (PBroadcastMsg 20); ESubmit (PDispatchMsg (15, Some 8))]) s
    (tr_load ++ [OSent 1 (14, None); OForwarded (14, None)])
  /\ ph s = PIdle /\ inbox s = [PBroadcastMsg 20; PDispatchMsg (15, Some 8)].
Proof. at_end. auto. Qed.

(** ** C42 *)

(** A broadcast returns one result for each worker, in the order of the workers. A worker
    whose result is [Ok] was given one copy, one with an error, which has ended, none;
    nothing else was sent meanwhile. *)
Theorem C42_results : forall caps c es s t1 m rs t2, reaches caps c es s (t1 ++ OCast m rs :: t2) ->
  exists ta tb, t1 = ta ++ OCasting m :: tb /\ (forall o, In o tb -> about_cast o = false)
    /\ map fst rs = workers_after (seq 0 (length caps)) ta
    /\ (forall w b, In (w, b) rs -> given w tb = (if b then 1 else 0) /\ (b = false -> st (wk s w) = WGone))
    /\ (forall p, In p (sends tb) -> snd p = (m, None) /\ In (fst p, true) rs).
Proof. exact cast_results. Qed.
Print Assumptions C42_results.

(** A broadcast under way waits for a worker with a full mailbox only. *)
Theorem C42_goes_on : forall caps c es s tr m rs, reaches caps c es s tr -> ph s = PCasting m rs ->
  exists k w, nth_error rs k = Some (w, None)
    /\ (st (wk s w) = WGone -> step s (ECastRefused k) <> None)
    /\ (takes_more (wk s w) -> step s (ECastSent k) <> None).
Proof. exact cast_goes_on. Qed.
Print Assumptions C42_goes_on.

Example C42_case : exists s, reaches caps3 (Some 4) ex_cast_done s
  (removelast tr_cast_done ++ OCast 20 [(3, true); (1, true); (2, false)] :: []) /\ ph s = PIdle.
Proof. at_end. auto. Qed.
Example C42_under_way : exists s, reaches caps3 (Some 4) ex_casting s tr_casting
  /\ ph s = PCasting 20 [(3, None); (1, Some true); (2, Some false)] /\ takes_more (wk s 3).
Proof. at_end. repeat split; auto; try discriminate; repeat constructor. Qed.
