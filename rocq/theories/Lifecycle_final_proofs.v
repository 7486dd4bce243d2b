(** Statements about whole runs, in terms of events, observations and Lifecycle_spec. *)
From Coq Require Import List Bool PeanoNat Permutation Lia.
Import ListNotations.
From Verif Require Import Lifecycle Lifecycle_spec Lifecycle_proofs Lifecycle_order_proofs
  Lifecycle_proto_proofs Lifecycle_hooks_proofs Lifecycle_fifo_proofs Lifecycle_stop_proofs
  Lifecycle_wait_proofs Lifecycle_prio_proofs Lifecycle_term_proofs.

Lemma run_proto : forall c es s tr, exec (init c) es = Some (s, tr) ->
  exists q, proto_run QFresh tr = Some q /\ calm q = true.
Proof.
  intros c es s tr H. destruct (proto_exec _ _ _ _ H) as (q & P & A).
  exists q. split; [exact P|]. eapply at_proto_calm; eauto.
Qed.

(** *** C01, C02 *)

Lemma subseq_split : forall A (l1 l2 l : list A) x,
  subseq (l1 ++ x :: l2) l -> exists a b, l = a ++ x :: b /\ subseq l1 a /\ subseq l2 b.
Proof.
  intros A l1 l2 l x H. remember (l1 ++ x :: l2) as k eqn:E. revert l1 E.
  induction H as [|y k l H IH|y k l H IH]; intros l1 E.
  - destruct l1; discriminate E.
  - destruct l1 as [|z l1]; cbn in E; injection E as -> E.
    + subst k. exists [], l. repeat split; [constructor|exact H].
    + destruct (IH _ E) as (a & b & -> & S1 & S2). exists (z :: a), b.
      repeat split; [constructor; exact S1|exact S2].
  - destruct (IH _ E) as (a & b & -> & S1 & S2). exists (y :: a), b.
    repeat split; [constructor; exact S1|exact S2].
Qed.

Lemma subseq_pair : forall A (l : list A) h1 x h2 y h3,
  subseq (h1 ++ x :: h2 ++ y :: h3) l -> exists a1 a2 a3, l = a1 ++ x :: a2 ++ y :: a3.
Proof.
  intros A l h1 x h2 y h3 H. apply subseq_split in H. destruct H as (a & b & -> & _ & H).
  apply subseq_split in H. destruct H as (a2 & a3 & -> & _ & _). eauto.
Qed.

Lemma subseq_filter_self : forall A (p : A -> bool) l, subseq (filter p l) l.
Proof. induction l as [|x l IH]; cbn; [constructor|]. destruct (p x); constructor; exact IH. Qed.

Lemma run_order : forall c es s tr h1 m1 h2 m2 h3,
  exec (init c) es = Some (s, tr) ->
  handled tr = h1 ++ m1 :: h2 ++ m2 :: h3 -> inside m1 = inside m2 ->
  exists a1 a2 a3, accepted tr = a1 ++ m1 :: a2 ++ m2 :: a3.
Proof.
  intros c es s tr h1 m1 h2 m2 h3 H E Hi.
  destruct (order_exec _ _ _ _ (wf_init c) H) as [O I]. cbn [pend init] in O, I.
  unfold pend in O, I. cbn in O, I. rewrite outside_app in O. rewrite inside_app in I.
  apply subseq_prefix in O. apply subseq_prefix in I.
  destruct (inside m1) eqn:I1.
  - apply (subseq_pair _ _ (inside_msgs h1) m1 (inside_msgs h2) m2 (inside_msgs h3)).
    eapply subseq_trans; [|apply subseq_filter_self]. unfold inside_msgs in *.
    rewrite E in I. rewrite filter_app in I. cbn in I. rewrite I1, filter_app in I. cbn in I.
    rewrite <- Hi in I. exact I.
  - apply (subseq_pair _ _ (outside_msgs h1) m1 (outside_msgs h2) m2 (outside_msgs h3)).
    eapply subseq_trans; [|apply subseq_filter_self]. unfold outside_msgs in *.
    rewrite E in O. rewrite filter_app in O. cbn in O. rewrite I1, filter_app in O. cbn in O.
    rewrite <- Hi in O. exact O.
Qed.

Lemma ready_steady : forall s, wf s -> finished s = true -> ph s = PLoop LRecv ->
  steady s /\ link_noted s [].
Proof.
  intros s W F P. split.
  - split; [exact F|]. split; [apply W; exact F|]. exists LRecv. split; [exact P|exact I].
  - unfold link_noted. rewrite P. exact I.
Qed.

Lemma run_wf : forall c es s tr, exec (init c) es = Some (s, tr) -> wf s.
Proof. intros. eapply exec_wf; eauto. apply wf_init. Qed.

Lemma run_exact : forall c es s0 tr0 es' s o,
  exec (init c) es = Some (s0, tr0) -> finished s0 = true -> ph s0 = PLoop LRecv ->
  exec s0 es' = Some (s, o) -> no_exit o ->
  discarded o = [] /\ msgs_of (queue s0) ++ accepted o = handled o ++ msgs_of (queue s).
Proof.
  intros c es s0 tr0 es' s o H F P H' N.
  destruct (ready_steady s0 (run_wf _ _ _ _ H) F P) as [S L].
  destruct (fifo_exact _ _ _ _ S L H' N) as (_ & X). exact X.
Qed.

Lemma run_conserve : forall c es s tr, exec (init c) es = Some (s, tr) ->
  exists pending, Permutation (accepted tr) (handled tr ++ discarded tr ++ pending)
    /\ (ended (ph s) = true -> pending = []).
Proof.
  intros c es s tr H. exists (pend s). split; [exact (conserve_exec _ _ _ _ H)|].
  intro E. destruct (run_wf _ _ _ _ H) as [[_ Wp _ _] _ _]. unfold at_phase, pend in *.
  destruct (ph s); try discriminate E; destruct Wp as [-> ->]; reflexivity.
Qed.

Lemma run_once : forall c es s tr, exec (init c) es = Some (s, tr) ->
  NoDup (map mid (handled tr ++ discarded tr)) /\ incl (handled tr) (accepted tr).
Proof.
  intros c es s tr H. destruct (run_conserve _ _ _ _ H) as (p & P & _).
  destruct (ids_exec _ _ _ _ H) as [ND _]. split.
  - rewrite app_assoc in P. apply (Permutation_map mid) in P. rewrite map_app in P.
    apply (Permutation_NoDup P) in ND. apply NoDup_app_l in ND. exact ND.
  - intros m Hm. eapply Permutation_in; [symmetry; exact P|]. apply in_or_app. auto.
Qed.

Lemma run_serial : forall c es s tr, exec (init c) es = Some (s, tr) -> one_at_a_time false tr.
Proof.
  intros c es s tr H. destruct (run_proto _ _ _ _ H) as (q & P & _).
  apply run_one_at_a_time in P. exact P.
Qed.

(** *** C03 *)

Lemma run_start : forall c es s t1 o t2, exec (init c) es = Some (s, t1 ++ o :: t2) ->
  (o = OStartBegin -> forall x, In x (t1 ++ t2) -> x <> OStartBegin)
  /\ (is_call o = true -> o <> OStartBegin -> In OStartBegin t1)
  /\ (is_loop_obs o = true -> In (OStartEnd HookOk) t1).
Proof.
  intros c es s t1 o t2 H. destruct (run_proto _ _ _ _ H) as (q & P & _).
  split; [|split].
  - intros -> x Hx ->. apply in_app_or in Hx.
    destruct (proto_split _ _ _ _ _ P) as (q1 & q2 & R1 & R2 & R3).
    destruct Hx as [Hx|Hx].
    + apply in_split in Hx. destruct Hx as (a & b & ->).
      destruct (proto_split _ _ _ _ _ R1) as (q3 & q4 & R4 & R5 & R6).
      assert (q4 <> QFresh) by (destruct q3; try discriminate R5; injection R5 as <-; discriminate).
      destruct (fresh_once _ _ _ H0 R6) as [N _]. destruct q1; try discriminate R2. congruence.
    + assert (q2 <> QFresh) by (destruct q1; try discriminate R2; injection R2 as <-; discriminate).
      destruct (fresh_once _ _ _ H0 R3) as [_ N]. exact (N Hx).
  - intros C N. eapply calls_after_start; eauto.
  - intro L. eapply loop_after_start_ok; eauto.
Qed.

Lemma run_failed_start : forall c es s tr f, exec (init c) es = Some (s, tr) ->
  In (OStartEnd (HookFail f)) tr -> forall o, In o tr -> is_loop_obs o = false.
Proof.
  intros c es s tr f H K o Ho. destruct (is_loop_obs o) eqn:L; [|reflexivity]. exfalso.
  apply in_split in Ho. destruct Ho as (t1 & t2 & ->).
  destruct (run_start _ _ _ _ _ _ H) as (_ & _ & X). specialize (X L).
  destruct (run_proto _ _ _ _ H) as (q & P & _).
  apply in_split in K. destruct K as (a & b & E). rewrite E in P.
  destruct (proto_split _ _ _ _ _ P) as (q1 & q2 & R1 & R2 & R3).
  assert (S : start_failed q2 = true) by (destruct q1; try discriminate R2; injection R2 as <-; reflexivity).
  destruct (start_failed_forward _ _ _ S R3) as (_ & N).
  (* no loop observation after the failure, no second end of on_start anywhere *)
  assert (A : forall x, In x a -> x <> OStartEnd HookOk).
  { intros x Hx ->. apply in_split in Hx. destruct Hx as (a1 & a2 & ->).
    destruct (proto_split _ _ _ _ _ R1) as (q3 & q4 & S1 & S2 & S3).
    assert (G : q4 <> QInStart /\ q4 <> QFresh)
      by (destruct q3; try discriminate S2; injection S2 as <-; split; discriminate).
    destruct (proto_forward (fun q => q <> QInStart /\ q <> QFresh) (fun _ => False)) with (2 := G) (3 := S3) as [F _].
    - clear. intros q o q' [N1 N2] E. split; [|tauto]. 
      destruct q; try congruence; proto_cases E; split; congruence.
    - destruct q1; try discriminate R2. destruct F as [F _]. congruence. }
  assert (B : forall x, In x b -> x <> OStartEnd HookOk).
  { intros x Hx ->. apply in_split in Hx. destruct Hx as (a1 & a2 & ->).
    destruct (proto_split _ _ _ _ _ R3) as (q3 & q4 & S1 & S2 & S3).
    destruct (start_failed_forward _ _ _ S S1) as (F & _).
    destruct q3; try discriminate S2. discriminate F. }
  assert (C : In (OStartEnd HookOk) (t1 ++ o :: t2)) by (apply in_or_app; auto).
  rewrite E in C. apply in_app_or in C. destruct C as [C|[C|C]].
  - exact (A _ C eq_refl).
  - discriminate C.
  - exact (B _ C eq_refl).
Qed.

(** *** C05-C09: leaving the loop *)

Lemma exit_past : forall c es s tr, exec (init c) es = Some (s, tr) ->
  forall r, In (OExit r) tr -> past_loop (ph s) = true.
Proof.
  intros c es s tr H. revert H.
  apply (exec_invariant (fun s tr => forall r, In (OExit r) tr -> past_loop (ph s) = true)).
  - intros r [].
  - clear. intros s tr e s' o IH H r K. apply in_app_or in K. destruct K as [K|K].
    + eapply past_loop_step; eauto.
    + destruct e; step_cases H; split_vars; in_obs K; try discriminate K; reflexivity.
Qed.

Lemma exit_cause_app : forall t1 t2 r, exit_cause t1 r -> exit_cause (t1 ++ t2) r.
Proof.
  unfold exit_cause. intros t1 t2 r H. rewrite !in_app_iff.
  destruct H as [H|[[H1 H2]|[H|[H|(e & H1 & H2)]]]]; auto 7.
  do 4 right. exists e. rewrite in_app_iff. auto.
Qed.

Lemma run_exit_cause : forall c es s tr, exec (init c) es = Some (s, tr) ->
  forall r, In (OExit r) tr -> exit_cause tr r.
Proof.
  intros c es. induction es as [|e es IH] using rev_ind; intros s tr H.
  - cbn in H. injection H as <- <-. intros r [].
  - apply exec_snoc in H. destruct H as (s1 & o1 & o2 & H1 & H & ->). intros r K.
    apply in_app_or in K. destruct K as [K|K]; [apply exit_cause_app; eapply IH; eauto|].
    destruct (killed_reason_exec _ _ _ _ H1) as (KA & KL & _).
    destruct (run_wf _ _ _ _ H1) as [[_ Wp _ _] _ _]. clear IH H1.
    unfold at_phase in Wp. unfold link_noted in KL. unfold exit_cause.
    destruct e; step_cases H; split_vars; in_obs K; try discriminate K; injection K as <-; phs.
    all: auto.
    all: try (right; left; split; [reflexivity|]; apply in_or_app; left; apply KA; assumption).
    all: try (exfalso; destruct Wp as (_ & _ & _ & _ & _ & _ & Wk); apply Wk; reflexivity).
    all: rewrite ?in_app_iff; cbn; eauto 10.
    do 4 right. eexists. rewrite in_app_iff. cbn. eauto.
Qed.

Lemma run_stop_ends : forall c es s tr, exec (init c) es = Some (s, tr) ->
  In (OAccept SStop) tr -> no_failure tr ->
  exists es' s' tr', forallb is_task es' = true /\ exec s es' = Some (s', tr')
    /\ ended (ph s') = true.
Proof.
  intros c es s tr H K N.
  destruct (settles s (run_wf _ _ _ _ H)) as (es' & s' & tr' & A & B & _ & C).
  exists es', s', tr'. repeat split; auto. apply C. eapply stop_accepted; eauto.
Qed.

Lemma run_stop_ends_started : forall c es s0 tr0 es' s o,
  exec (init c) es = Some (s0, tr0) -> finished s0 = true -> ph s0 = PLoop LRecv ->
  exec s0 es' = Some (s, o) -> In (OAccept SStop) o ->
  exists es' s' tr', forallb is_task es' = true /\ exec s es' = Some (s', tr')
    /\ ended (ph s') = true.
Proof.
  intros c es s0 tr0 es' s o H F P H' K.
  destruct (ready_steady s0 (run_wf _ _ _ _ H) F P) as [S L].
  pose proof (stop_coming_steady _ _ _ _ S L H' K) as C.
  assert (W : wf s) by (eapply exec_wf; [eapply run_wf|]; eauto).
  destruct (settles s W) as (es1 & s1 & tr1 & A & B & _ & D).
  exists es1, s1, tr1. auto.
Qed.

Lemma run_bounded : forall c es s tr, exec (init c) es = Some (s, tr) ->
  exists n, forall es' s' tr', forallb is_task es' = true -> exec s es' = Some (s', tr') ->
    work es' <= n.
Proof.
  intros c es s tr _. exists (mu s). intros es' s' tr' T H.
  pose proof (work_bound _ _ _ _ H T). lia.
Qed.

Lemma dead_exec : forall es s s' o, exec s es = Some (s', o) -> strong s = 0 -> ph s <> PInit ->
  strong s' = 0 /\ accepted_signals o = [] /\ ph s' <> PInit.
Proof.
  intros es s s' o H Z P.
  apply (exec_invariant (fun s' o => strong s' = 0 /\ accepted_signals o = [] /\ ph s' <> PInit) s)
    with (es := es); auto.
  clear. intros s tr e s' o (Z & A & P) H.
  destruct (dead_stays_dead_step _ _ _ _ H Z P) as [Z' A']. rewrite accepted_signals_app, A, A'.
  repeat split; auto. destruct e; step_cases H; phs; congruence.
Qed.

Lemma run_dead_ends : forall c es s tr, exec (init c) es = Some (s, tr) ->
  strong s = 0 -> ph s <> PInit ->
  exists es' s' tr', forallb is_task es' = true /\ exec s es' = Some (s', tr')
    /\ ended (ph s') = true.
Proof.
  intros c es s tr H Z P.
  destruct (settles s (run_wf _ _ _ _ H)) as (es' & s' & tr' & A & B & [E|(_ & _ & E & _)] & _).
  - eauto 6.
  - destruct (dead_exec _ _ _ _ B Z P) as (X & _). lia.
Qed.

Lemma run_referenced : forall c es s tr, exec (init c) es = Some (s, tr) ->
  In (OExit Normal) tr -> no_hook_stop tr -> ~ In (OAccept SStop) tr ->
  strong s = 0 /\ c_threaded c = false.
Proof.
  intros c es s tr H K N A. destruct (normal_reason_exec _ _ _ _ H) as (_ & _ & X).
  destruct (X K N) as [Y|(Y1 & Y2 & _)]; [contradiction|]. split; [exact Y1|].
  rewrite <- Y2. clear - H. symmetry. revert H.
  apply (exec_invariant (fun s tr => threaded s = c_threaded c)); [reflexivity|].
  intros s1 t e s' o IH Hs. rewrite (threaded_const _ _ _ _ Hs). exact IH.
Qed.

Lemma run_stop_exact : forall c es s tr, exec (init c) es = Some (s, tr) ->
  In (OExit Normal) tr -> no_failure tr -> no_hook_stop tr ->
  Permutation (handled tr) (accepted (before accepts_stop tr)).
Proof.
  intros c es s tr H K F N. destruct (normal_stop _ _ _ _ H K F N) as [P _].
  rewrite accepted_of_signals.
  replace (accepted_signals (before accepts_stop tr)) with (before is_stop_signal (accepted_signals tr));
    [exact P|].
  clear. induction tr as [|o tr IH]; [reflexivity|].
  destruct o; try exact IH.
  destruct sg; cbn in *; try reflexivity; f_equal; exact IH.
Qed.

Lemma run_stop_fifo : forall c es s0 tr0 es' s o,
  exec (init c) es = Some (s0, tr0) -> finished s0 = true -> ph s0 = PLoop LRecv ->
  exec s0 es' = Some (s, o) -> In (OExit Normal) o -> no_hook_stop o ->
  handled o = msgs_of (before is_stop_signal (queue s0 ++ accepted_signals o)).
Proof.
  intros c es s0 tr0 es' s o H F P H' K N.
  destruct (ready_steady s0 (run_wf _ _ _ _ H) F P) as [S L].
  exact (proj1 (fifo_stop _ _ _ _ S L H' K N)).
Qed.

(** *** C08: on_stop *)

Lemma run_stop_hook : forall c es s t1 r t2, exec (init c) es = Some (s, t1 ++ OStopHook r :: t2) ->
  (forall r', ~ In (OStopHook r') (t1 ++ t2))
  /\ (forall o, In o t2 -> begins_code o = false /\ is_loop_obs o = false)
  /\ (forall id r' d, In (ONotify id r' d) (t1 ++ t2) -> r' = r)
  /\ (forall r', In (OReturn r') (t1 ++ t2) -> r' = r)
  /\ (forall r', In (OExit r') t1 -> r' = r).
Proof.
  intros c es s t1 r t2 H. destruct (run_proto _ _ _ _ H) as (q & P & _).
  pose proof (stop_hook_last _ _ _ _ P) as A.
  assert (B : forall r', ~ In (OStopHook r') t1).
  { intros r' K. apply in_split in K. destruct K as (a & b & ->).
    rewrite <- app_assoc in P. cbn in P.
    destruct (stop_hook_last _ _ _ _ P (OStopHook r)) as (X & _); [apply in_or_app; right; left; reflexivity|].
    discriminate X. }
  assert (C : forall o r', In o t1 -> reports r' o = true -> False).
  { intros o r' K R. apply in_split in K. destruct K as (a & b & ->).
    rewrite <- app_assoc in P. cbn in P.
    pose proof (reports_after_stop _ _ _ _ _ P R) as X.
    apply (B r'). apply in_or_app. auto. }
  split; [|split; [|split; [|split]]].
  - intros r' K. apply in_app_or in K. destruct K as [K|K]; [exact (B _ K)|].
    destruct (A _ K) as (X & _). discriminate X.
  - intros o Ho. destruct (A _ Ho) as (X & Y & _). auto.
  - intros id r' d K. apply in_app_or in K. destruct K as [K|K].
    + exfalso. apply (C _ r' K). cbn. apply reason_beq_refl.
    + destruct (A _ K) as (_ & _ & X & _). exact (X _ _ _ eq_refl).
  - intros r' K. apply in_app_or in K. destruct K as [K|K].
    + exfalso. apply (C _ r' K). cbn. apply reason_beq_refl.
    + destruct (A _ K) as (_ & _ & _ & X). exact (X _ eq_refl).
  - intros r' K. apply in_split in K. destruct K as (a & b & ->).
    rewrite <- app_assoc in P. cbn in P.
    destruct (proto_split _ _ _ _ _ P) as (q1 & q2 & R1 & R2 & R3).
    assert (E2 : q2 = QExited r').
    { proto_cases R2; auto. all: congruence. }
    subst q2.
    destruct (demand_next _ (QExited r') _ _ eq_refl R3) as [[_ X]|X].
    + exfalso. unfold next_call in X. rewrite find_app in X. destruct (find is_call b); discriminate X.
    + unfold next_call in X. rewrite find_app in X. cbn in X.
      destruct (find is_call b) as [x|] eqn:Ef; [|congruence].
      exfalso. apply find_some in Ef. destruct Ef as [Ef _]. injection X as ->.
      apply (B r'). apply in_or_app. right. right. exact Ef.
Qed.

Lemma done_returns : forall c es s tr, exec (init c) es = Some (s, tr) ->
  forall r, ph s = PDone r -> In (OReturn r) tr.
Proof.
  intros c es s tr H. revert H.
  apply (exec_invariant (fun s tr => forall r, ph s = PDone r -> In (OReturn r) tr)).
  - intros r E. discriminate E.
  - clear. intros s tr e s' o IH H r E.
    assert (X : ph s = PDone r \/ In (OReturn r) o).
    { destruct e; step_cases H; auto; try congruence.
      all: try (injection E as <-; right; cbn; rewrite in_app_iff; cbn; auto). }
    apply in_or_app. destruct X; auto.
Qed.

Lemma run_stop_once : forall c es s tr r, exec (init c) es = Some (s, tr) -> ph s = PDone r ->
  exists t1 t2, tr = t1 ++ OStopHook r :: t2 /\ In (OReturn r) t2.
Proof.
  intros c es s tr r H E. pose proof (done_returns _ _ _ _ H r E) as K.
  destruct (run_proto _ _ _ _ H) as (q & P & _).
  apply in_split in K. destruct K as (a & b & ->).
  assert (X : In (OStopHook r) a) by (eapply reports_after_stop; eauto; apply reason_beq_refl).
  apply in_split in X. destruct X as (a1 & a2 & ->).
  exists a1, (a2 ++ OReturn r :: b). rewrite <- app_assoc. split; [reflexivity|].
  apply in_or_app. right. left. reflexivity.
Qed.

Lemma run_crash : forall c es s tr, exec (init c) es = Some (s, tr) -> In OCrash tr ->
  (exists p, In (OPanicHookEnd (FlowFail (FPanic p))) tr \/ In (OStopHookEnd (HookFail (FPanic p))) tr)
  /\ (forall id r d, ~ In (ONotify id r d) tr) /\ (forall r, ~ In (OReturn r) tr).
Proof.
  intros c es s tr H K. destruct (run_proto _ _ _ _ H) as (q & P & _).
  apply in_split in K. destruct K as (t1 & t2 & ->).
  assert (NR : forall r x, In x (t1 ++ OCrash :: t2) -> reports r x = true -> False).
  { intros r x Hx R.
    assert (Fwd : forall t q q', match q with QStopped _ _ | QClosed _ | QEnd => True | _ => False end ->
        proto_run q t = Some q' -> ~ In OCrash t).
    { clear. intros t q q' Hq Hr. 
      destruct (proto_forward (fun q => match q with QStopped _ _ | QClosed _ | QEnd => True | _ => False end)
        (fun o => o = OCrash)) with (2 := Hq) (3 := Hr) as [_ X].
      - clear. intros q o q' Hq E. destruct q; try contradiction; proto_cases E; split; auto; discriminate.
      - intro K. exact (X _ K eq_refl). }
    assert (Bwd : forall t q q', match q with QCrashing | QEnd => True | _ => False end ->
        proto_run q t = Some q' -> forall x r, In x t -> reports r x = false).
    { clear. intros t q q' Hq Hr x r Hx.
      destruct (proto_forward (fun q => match q with QCrashing | QEnd => True | _ => False end)
        (fun o => reports r o = true)) with (2 := Hq) (3 := Hr) as [_ X].
      - clear. intros q o q' Hq E. destruct q; try contradiction; proto_cases E; split; auto; discriminate.
      - destruct (reports r x) eqn:R; [|reflexivity]. exfalso. exact (X _ Hx R). }
    destruct (proto_split _ _ _ _ _ P) as (q1 & q2 & R1 & R2 & R3).
    apply in_app_or in Hx. destruct Hx as [Hx|[<-|Hx]].
    - apply in_split in Hx. destruct Hx as (a & b & ->). rewrite <- app_assoc in P. cbn in P.
      destruct (proto_split _ _ _ _ _ P) as (q3 & q4 & S1 & S2 & S3).
      apply (Fwd _ q4 _) in S3.
      + apply S3. apply in_or_app. right. left. reflexivity.
      + clear - S2 R. destruct x; try discriminate R; proto_cases S2; exact I.
    - discriminate R.
    - assert (Hq2 : match q2 with QCrashing | QEnd => True | _ => False end)
        by (proto_cases R2; exact I).
      rewrite (Bwd _ _ _ Hq2 R3 x r Hx) in R. discriminate R. }
  split; [|split].
  - destruct (proto_precedes (fun q => q <> QMustCrash)
      (fun o => match o with OPanicHookEnd (FlowFail (FPanic _)) | OStopHookEnd (HookFail (FPanic _)) => true | _ => false end)
      (fun o => o = OCrash)) with (3 := P) as (x & Hx & Tx); try reflexivity; try discriminate.
    + clear. intros q o q' Hq T E. destruct q; try congruence; proto_cases E; split; try discriminate; try congruence.
    + destruct x; try discriminate Tx; destruct res as [|[|p]]; try discriminate Tx;
        exists p; rewrite !in_app_iff; auto.
  - intros id r d K. apply (NR r _ K). apply reason_beq_refl.
  - intros r K. apply (NR r _ K). apply reason_beq_refl.
Qed.

(** *** C09, C13, C14: failures and replies *)

(** States reachable only after a successful start. *)
Definition started_ok (q : proto) : Prop :=
  match q with
  | QFresh | QInStart | QStartFailed _ | QInFailPanic _ | QFailVerdict _ => False
  | _ => True
  end.

Lemma demanded : forall t q q' o, proto_run q t = Some q' -> demand q = Some o ->
  q' = q /\ next_call t = None \/ next_call t = Some o.
Proof. intros t q q' o R D. eapply demand_next; eauto. Qed.

Lemma ready_next : forall t q', proto_run QReady t = Some q' ->
  (forall f, next_call t <> Some (OPanicHook f))
  /\ (forall r, next_call t <> Some (OStopHook r))
  /\ (forall r, next_call t = Some (OExit r) -> r = Normal \/ r = Killed).
Proof.
  induction t as [|o t IH]; intros q' H; cbn in H.
  - repeat split; intros; discriminate.
  - unfold next_call in *. cbn [find].
    destruct o; cbn in H |- *; try discriminate H; try (eapply IH; eauto; fail).
    all: try (repeat split; intros; discriminate).
    destruct r; try discriminate H; repeat split; try discriminate; intros r E; injection E as <-; auto.
Qed.

Lemma started_ok_forward : forall t q q', started_ok q -> proto_run q t = Some q' -> started_ok q'.
Proof.
  intros t q q' Hq Hr.
  destruct (proto_forward started_ok (fun _ => False)) with (2 := Hq) (3 := Hr) as [X _]; [|exact X].
  clear. intros q o q' Hq E. split; [|tauto].
  destruct q; try contradiction; proto_cases E; exact I.
Qed.

Lemma started_state : forall t q, proto_run QFresh t = Some q -> In (OStartEnd HookOk) t -> started_ok q.
Proof.
  intros t q P K. apply in_split in K. destruct K as (a & b & ->).
  destruct (proto_split _ _ _ _ _ P) as (q1 & q2 & R1 & R2 & R3).
  eapply started_ok_forward; [|exact R3]. destruct q1; try discriminate R2. injection R2 as <-. exact I.
Qed.

(** After on_panic of a running actor. *)
Lemma run_panic_verdict : forall c es s t1 res t2,
  exec (init c) es = Some (s, t1 ++ OPanicHookEnd res :: t2) -> In (OStartEnd HookOk) t1 ->
  match res with
  | FlowOk Continue =>
      (forall f, next_call t2 <> Some (OPanicHook f)) /\ (forall r, next_call t2 <> Some (OStopHook r))
      /\ (forall r, next_call t2 = Some (OExit r) -> r = Normal \/ r = Killed)
  | FlowOk (Break r) => next_call t2 = None \/ next_call t2 = Some (OExit r)
  | FlowFail (FErr e) => next_call t2 = None \/ next_call t2 = Some (OExit (Panicked (FErr e)))
  | FlowFail (FPanic _) => next_call t2 = None \/ next_call t2 = Some OCrash
  end.
Proof.
  intros c es s t1 res t2 H K. destruct (run_proto _ _ _ _ H) as (q & P & _).
  destruct (proto_split _ _ _ _ _ P) as (q1 & q2 & R1 & R2 & R3).
  pose proof (started_state _ _ R1 K) as S.
  destruct q1; try discriminate R2; try contradiction S. injection R2 as <-.
  destruct res as [[|r]|[e|p]]; cbn in R3.
  - eapply ready_next; eauto.
  - destruct (demanded _ _ _ _ R3 eq_refl) as [[_ X]|X]; auto.
  - destruct (demanded _ _ _ _ R3 eq_refl) as [[_ X]|X]; auto.
  - destruct (demanded _ _ _ _ R3 eq_refl) as [[_ X]|X]; auto.
Qed.

(** After a failed on_start. *)
Lemma run_start_failure : forall c es s t1 f t2,
  exec (init c) es = Some (s, t1 ++ OStartEnd (HookFail f) :: t2) ->
  (next_call t2 = None \/ next_call t2 = Some (OPanicHook f))
  /\ forall ta res tb, t2 = ta ++ OPanicHookEnd res :: tb ->
       next_call tb = None \/ next_call tb = Some (failed_verdict f res).
Proof.
  intros c es s t1 f t2 H. destruct (run_proto _ _ _ _ H) as (q & P & _).
  destruct (proto_split _ _ _ _ _ P) as (q1 & q2 & R1 & R2 & R3).
  destruct q1; try discriminate R2. injection R2 as <-.
  split.
  - destruct (demanded _ _ _ _ R3 eq_refl) as [[_ X]|X]; auto.
  - intros ta res tb ->. destruct (proto_split _ _ _ _ _ R3) as (q3 & q4 & S1 & S2 & S3).
    assert (F : match q3 with
                | QStartFailed f' | QInFailPanic f' => f' = f
                | QFailVerdict _ | QInStop _ _ | QStopped _ _ | QClosed _ | QMustCrash | QCrashing | QEnd => True
                | _ => False end).
    { destruct (proto_forward (fun q => match q with
                | QStartFailed f' | QInFailPanic f' => f' = f
                | QFailVerdict _ | QInStop _ _ | QStopped _ _ | QClosed _ | QMustCrash | QCrashing | QEnd => True
                | _ => False end) (fun _ => False)) with (3 := S1) as [X _]; [|reflexivity|exact X].
      clear. intros q o q' Hq E. split; [|tauto].
      destruct q; try contradiction; proto_cases E; auto. }
    destruct q3; try discriminate S2; try contradiction F. subst. injection S2 as <-.
    destruct res as [[|r]|[e|p]]; cbn in S3 |- *;
      (destruct (demanded _ _ _ _ S3 eq_refl) as [[_ X]|X]; auto).
Qed.

(** on_panic is only called for a failure, and right after it. *)
Lemma run_panic_explained : forall c es s t1 f t2,
  exec (init c) es = Some (s, t1 ++ OPanicHook f :: t2) ->
  exists o, last_call t1 = Some o /\
    ((exists m, o = OHandleEnd m (OutErr match f with FErr e => e | FPanic p => p end) /\ exists e, f = FErr e)
     \/ (exists m p, f = FPanic p /\ o = OHandleEnd m (OutPanic p))
     \/ o = OStartEnd (HookFail f) \/ o = OLinkHookEnd (FlowFail f)
     \/ o = OLinkHookEnd (FlowOk (Break (Panicked f)))).
Proof.
  intros c es s t1 f t2 H. destruct (run_proto _ _ _ _ H) as (q & P & _).
  destruct (panic_hook_explained _ _ _ _ P) as (o & L & X). exists o. split; [exact L|].
  unfold explains in X. destruct o; try contradiction X.
  - destruct res; try contradiction X. subst. auto.
  - destruct out; try contradiction X; subst; eauto 10.
  - destruct res as [[|r]|]; try contradiction X; [destruct r; try contradiction X|]; subst; auto 7.
Qed.

Lemma must_reply : forall id v t q, proto_run (QMustReply id v) t = Some q -> calm q = true ->
  exists t3, t = OReply id v :: t3 /\ proto_run QReady t3 = Some q.
Proof.
  intros id v t q R C. destruct t as [|o t]; [injection R as <-; discriminate C|].
  cbn [proto_run] in R. destruct (proto_step (QMustReply id v) o) as [q3|] eqn:S; [|discriminate R].
  proto_cases S. exists t. auto.
Qed.

(** The end of a handler. [tb]: what happened since it began. *)
Lemma run_handler_end : forall c es s ta m tb out t2,
  exec (init c) es = Some (s, ta ++ OHandle m :: tb ++ OHandleEnd m out :: t2) ->
  (forall x, In x tb -> is_call x = false) ->
  let kept := ask m && negb (existsb (gives_away (mid m)) tb) in
  match out, kept with
  | OutOk v, true => exists t3, t2 = OReply (mid m) (ReplyOk v) :: t3
  | OutErr e, true => exists t3, t2 = OReply (mid m) (ReplyErr e) :: t3 /\
                        (forall f, next_call t3 <> Some (OPanicHook f))
  | OutPanic p, true => exists t3, t2 = OReplyDropped (mid m) :: t3 /\
                        (next_call t3 = None \/ next_call t3 = Some (OPanicHook (FPanic p)))
  | OutOk v, false => forall f, next_call t2 <> Some (OPanicHook f)
  | OutErr e, false => next_call t2 = None \/ next_call t2 = Some (OPanicHook (FErr e))
  | OutPanic p, false => next_call t2 = None \/ next_call t2 = Some (OPanicHook (FPanic p))
  end.
Proof.
  intros c es s ta m tb out t2 H N kept. destruct (run_proto _ _ _ _ H) as (q & P & C).
  destruct (handler_bracket _ _ _ _ _ _ P N) as (q2 & S & R). fold kept in S.
  cbn in S. rewrite Nat.eqb_refl in S. injection S as <-.
  destruct out as [v|e|p]; destruct kept; cbn [after_handler] in R.
  - destruct (must_reply _ _ _ _ R C) as (t3 & -> & _). eauto.
  - eapply ready_next; eauto.
  - destruct (must_reply _ _ _ _ R C) as (t3 & -> & R'). exists t3. split; [reflexivity|].
    eapply ready_next; eauto.
  - destruct (demanded _ _ _ _ R eq_refl) as [[_ X]|X]; auto.
  - destruct t2 as [|o t3]; [injection R as <-; discriminate C|]. cbn [proto_run] in R.
    destruct (proto_step (QDropThenFail (mid m) (FPanic p)) o) as [q3|] eqn:S; [|discriminate R].
    proto_cases S. exists t3. split; [reflexivity|].
    destruct (demanded _ _ _ _ R eq_refl) as [[_ X]|X]; auto.
  - destruct (demanded _ _ _ _ R eq_refl) as [[_ X]|X]; auto.
Qed.

(** A handler interrupted by kill. *)
Lemma run_handler_cut : forall c es s ta m tb t2,
  exec (init c) es = Some (s, ta ++ OHandle m :: tb ++ OHandleCut m :: t2) ->
  (forall x, In x tb -> is_call x = false) ->
  (ask m && negb (existsb (gives_away (mid m)) tb) = true ->
     exists t3, t2 = OReplyDropped (mid m) :: t3)
  /\ (next_call t2 = None \/ next_call t2 = Some (OExit Killed)).
Proof.
  intros c es s ta m tb t2 H N. destruct (run_proto _ _ _ _ H) as (q & P & C).
  destruct (handler_bracket _ _ _ _ _ _ P N) as (q2 & S & R).
  cbn in S. rewrite Nat.eqb_refl in S. injection S as <-.
  destruct (ask m && negb (existsb (gives_away (mid m)) tb)).
  - destruct t2 as [|o t3]; [injection R as <-; discriminate C|]. cbn [proto_run] in R.
    destruct (proto_step (QDropThenExit (mid m)) o) as [q3|] eqn:S; [|discriminate R].
    proto_cases S. split; [eauto|]. unfold next_call. cbn [find is_call].
    destruct (demanded _ _ _ _ R eq_refl) as [[_ X]|X]; auto.
  - split; [discriminate|]. destruct (demanded _ _ _ _ R eq_refl) as [[_ X]|X]; auto.
Qed.

(** A verdict of on_link_died (kill may still intervene at the lock). *)
Lemma run_link_end : forall c es s t1 res t2,
  exec (init c) es = Some (s, t1 ++ OLinkHookEnd res :: t2) ->
  match res with
  | FlowOk Continue => forall f, next_call t2 <> Some (OPanicHook f)
  | FlowOk (Break (Panicked f)) | FlowFail f =>
      next_call t2 = None \/ next_call t2 = Some (OPanicHook f) \/ next_call t2 = Some (OExit Killed)
  | FlowOk (Break r) =>
      next_call t2 = None \/ next_call t2 = Some (OExit r) \/ next_call t2 = Some (OExit Killed)
  end.
Proof.
  intros c es s t1 res t2 H. destruct (run_proto _ _ _ _ H) as (q & P & _).
  destruct (proto_split _ _ _ _ _ P) as (q1 & q2 & R1 & R2 & R3).
  destruct q1; try discriminate R2. injection R2 as <-. clear P R1 H.
  revert R3. unfold next_call. induction t2 as [|o t2 IH]; intro R.
  - destruct res as [[|[]]|]; cbn; auto; discriminate.
  - cbn [proto_run] in R. destruct (proto_step (QAfterLink res) o) as [q3|] eqn:S; [|discriminate R].
    unfold proto_step, flow_res_allows_panic, flow_res_allows_exit in S.
    destruct o; cbn [find is_call]; try discriminate S;
      try (injection S as <-; exact (IH R)); clear IH R.
    all: destruct res as [[|r']|f']; [| destruct r' |]; try discriminate S; try discriminate; auto.
    all: try match type of S with context [match ?r with Normal => _ | _ => _ end] => destruct r end;
         try discriminate S; auto.
    all: repeat match type of S with context [if ?b then _ else _] => destruct b eqn:?E end; try discriminate S.
    all: try (apply failure_beq_eq in E; subst; auto; fail).
    all: try (apply reason_beq_eq in E; rewrite E; auto; fail).
Qed.

Lemma run_asks : forall c es s tr, exec (init c) es = Some (s, tr) ->
  NoDup (answered tr) /\ incl (answered tr) (ask_ids (accepted tr))
  /\ (ended (ph s) = true -> Permutation (ask_ids (accepted tr)) (answered tr ++ given s)).
Proof.
  intros c es s tr H. destruct (asks_exec _ _ _ _ H) as [P ND].
  split; [eapply NoDup_app_l; eauto|]. split.
  - intros x Hx. eapply Permutation_in; [symmetry; exact P|]. apply in_or_app. auto.
  - intro E. destruct (run_wf _ _ _ _ H) as [[_ Wp _ _] _ _]. unfold at_phase, pend, cur in *.
    destruct (ph s); try discriminate E; destruct Wp as [Wb Wq]; rewrite Wb, Wq in P; exact P.
Qed.

(** *** C11, C12 *)

Lemma run_saw_startup : forall c es s t1 v t2,
  exec (init c) es = Some (s, t1 ++ OSawStartup v :: t2) ->
  exists res, In (OStartEnd res) t1 /\ v = Some (error_of res).
Proof.
  intros c es s t1 v t2 H.
  destruct (startup_exec _ _ _ _ H) as [K _ _ _ S _].
  destruct (S v) as (_ & res & I & E); [apply in_or_app; right; left; reflexivity|].
  exists res. split; [|exact E].
  destruct (run_proto _ _ _ _ H) as (q & P & _).
  apply in_app_or in I. destruct I as [I|[I|I]]; [exact I|discriminate I|exfalso].
  (* on_start cannot end after a waiter was released *)
  destruct (proto_split _ _ _ _ _ P) as (q1 & q2 & R1 & R2 & R3).
  assert (Q : q2 <> QInStart /\ q2 <> QFresh).
  { clear - R2. destruct q1; cbn in R2; try discriminate R2; injection R2 as <-; split; discriminate. }
  destruct (proto_forward (fun q => q <> QInStart /\ q <> QFresh) (fun o => o = OStartEnd res))
    with (2 := Q) (3 := R3) as [_ X].
  - clear. intros q o q' [N1 N2] E. destruct q; try congruence; proto_cases E; repeat split; try discriminate; congruence.
  - exact (X _ I eq_refl).
Qed.

Lemma run_startup_ready : forall c es s tr, exec (init c) es = Some (s, tr) -> 0 < ext s ->
  (finished s = true /\ In (OAccept SStartup) tr /\ markers (queue s) = 0 /\ exists pc, ph s = PLoop pc)
  \/ ((exists f, In (OStartEnd (HookFail f)) tr) /\ starting (ph s) = false) ->
  exists v, step s EWaitStartup = Some (s, [OSawStartup v]).
Proof.
  intros c es s tr H X D.
  assert (P : permit_adds s > 0).
  { eapply startup_released; eauto. destruct D as [(_ & A & B & C)|D]; auto. }
  exists (startup_err s). cbn [step].
  replace (0 <? ext s) with true by (symmetry; apply Nat.ltb_lt; exact X).
  replace (0 <? permit_adds s) with true by (symmetry; apply Nat.ltb_lt; exact P). reflexivity.
Qed.

(** The marker was never queued. *)
Lemma run_startup_lost : forall c es s tr es' s' o v pc, exec (init c) es = Some (s, tr) ->
  ph s = PLoop pc -> ~ In (OAccept SStartup) tr ->
  exec s es' = Some (s', o) -> ~ In (OSawStartup v) (tr ++ o).
Proof.
  intros c es s tr es' s' o v pc H P N H' K.
  destruct (startup_exec _ _ _ _ H) as [A _ M Pm Sw _].
  unfold start_known in A. rewrite P in A. destruct A as [_ A].
  assert (Z : permit_adds s = 0).
  { destruct (permit_adds s) eqn:E; [reflexivity|]. exfalso.
    destruct Pm as [X|[f X]]; [lia|exact (N X)|exact (A _ X)]. }
  assert (Zm : markers (queue s) = 0).
  { destruct (markers (queue s)) eqn:E; [reflexivity|]. exfalso. apply N, M. lia. }
  apply in_app_or in K. destruct K as [K|K].
  - destruct (Sw _ K) as [X _]. lia.
  - eapply (never_released es' s s' o); eauto. right. rewrite P. auto.
Qed.

(** The loop was left before the marker was received. *)
Lemma run_startup_never : forall c es s tr es' s' o v r, exec (init c) es = Some (s, tr) ->
  In (OExit r) tr -> permit_adds s = 0 ->
  exec s es' = Some (s', o) -> ~ In (OSawStartup v) (tr ++ o).
Proof.
  intros c es s tr es' s' o v r H E Z H' K.
  apply in_app_or in K. destruct K as [K|K].
  - destruct (startup_exec _ _ _ _ H) as [_ _ _ _ Sw _]. destruct (Sw _ K) as [X _]. lia.
  - eapply (never_released es' s s' o); eauto. left. eapply exit_past; eauto.
Qed.

Lemma run_closed : forall c es s tr, exec (init c) es = Some (s, tr) -> rx_open s = false -> In OClosed tr.
Proof. intros c es s tr H. exact (sh_closed _ _ (shutdown_exec _ _ _ _ H)). Qed.

(** What has happened when the mailbox closes. *)
Lemma run_closed_after : forall c es s t1 t2, exec (init c) es = Some (s, t1 ++ OClosed :: t2) ->
  (In OCrash t1 \/ exists res, In (OStopHookEnd res) t1)
  /\ (forall ids id, ~ In OCrash t1 -> In (OLinksTaken ids) t1 -> In id ids ->
        exists r d, In (ONotify id r d) t1)
  /\ (forall ids, ~ In (OLinksTaken ids) t2)
  /\ (forall o, In o t2 -> begins_code o = false).
Proof.
  intros c es s t1 t2 H. destruct (proto_exec _ _ _ _ H) as (q & P & A).
  destruct (proto_split _ _ _ _ _ P) as (q1 & q2 & R1 & R2 & R3).
  assert (Q2 : match q2 with QClosed _ | QEnd => True | _ => False end) by (proto_cases R2; exact I).
  destruct (proto_forward (fun q => match q with QClosed _ | QEnd => True | _ => False end)
      (fun o => (exists ids, o = OLinksTaken ids) \/ (exists i r d, o = ONotify i r d) \/ begins_code o = true \/ o = OCrash))
    with (2 := Q2) (3 := R3) as [Qe X].
  { clear. intros q o q' Hq E. destruct q; try contradiction; proto_cases E; (split; [auto|]);
      intros [[? ?]|[(? & ? & ? & ?)|[?|?]]]; discriminate. }
  split; [|split; [|split]].
  - destruct (closed_after_stop _ _ _ _ P) as (a & Ha & Sa); [reflexivity|].
    destruct a; try discriminate Sa; auto. right. eauto.
  - intros ids id NC T I.
    destruct (sh_links _ _ (shutdown_exec _ _ _ _ H) ids id) as [(r & d & K)|[K|K]].
    + apply in_or_app. auto.
    + exact I.
    + apply in_app_or in K. destruct K as [K|[K|K]]; [eauto|discriminate K|].
      exfalso. apply (X _ K). right. left. eauto.
    + exfalso. unfold stop_pending in K. destruct (ph s); try destruct K; cbn in A.
      * subst. contradiction Qe.
      * subst. contradiction Qe.
    + exfalso. apply (sh_crash _ _ (shutdown_exec _ _ _ _ H)) in K.
      apply in_app_or in K. destruct K as [K|[K|K]]; [exact (NC K)|discriminate K|].
      apply (X _ K). auto.
  - intros ids K. apply (X _ K). left. eauto.
  - intros o K. destruct (begins_code o) eqn:B; [|reflexivity]. exfalso. apply (X _ K). auto.
Qed.

Lemma run_saw_shutdown : forall c es s tr v, exec (init c) es = Some (s, tr) ->
  In (OSawShutdown v) tr ->
  In OClosed tr /\ (In OCrash tr \/ exists res, In (OStopHookEnd res) tr /\ v = Some (error_of res)).
Proof. intros c es s tr v H. exact (sh_saw _ _ (shutdown_exec _ _ _ _ H) v). Qed.

(** *** C15, C37 *)

Lemma run_cap : forall c es s tr n, exec (init c) es = Some (s, tr) -> c_cap c = Some n ->
  length (queue s) + reserved s <= n.
Proof.
  intros c es s tr n H E. destruct (run_wf _ _ _ _ H) as [_ _ K]. unfold wf_cap in K.
  assert (cap s = c_cap c) as X.
  { clear - H. revert H. apply (exec_invariant (fun s _ => cap s = c_cap c)); [reflexivity|].
    intros s1 t e s' o IH Hs. rewrite (cap_const _ _ _ _ Hs). exact IH. }
  rewrite X, E in K. exact K.
Qed.

Lemma run_prio : forall c es s ta m tb, exec (init c) es = Some (s, ta ++ OHandle m :: tb) ->
  inside m = false -> In (OAccept SStartup) (ta ++ OHandle m :: tb) ->
  no_stop_before_marker (ta ++ OHandle m :: tb) ->
  incl (own_startup_msgs (ta ++ OHandle m :: tb)) (handled ta).
Proof.
  intros c es s ta m tb H I A N. destruct (prio_exec _ _ _ _ H) as (_ & _ & P). eapply P; eauto.
Qed.

(** Who can keep an actor alive. *)
Lemma run_upgrade : forall c es s tr, exec (init c) es = Some (s, tr) ->
  ((exists s' o, step s EAcquire = Some (s', o)) <->
   (0 < ext s \/ (exists m, In (SMsg m) (queue s)) \/ buf s <> [] \/ starting (ph s) = true
    \/ (exists m owned rest k, ph s = PLoop (LHandle m owned rest k))
    \/ in_reg s = true \/ (threaded s = true /\ ended (ph s) = false))).
Proof.
  intros c es s tr _. cbn [step].
  assert (E : 0 < strong s <->
   (0 < ext s \/ (exists m, In (SMsg m) (queue s)) \/ buf s <> [] \/ starting (ph s) = true
    \/ (exists m owned rest k, ph s = PLoop (LHandle m owned rest k))
    \/ in_reg s = true \/ (threaded s = true /\ ended (ph s) = false))).
  { assert (Q : 0 < length (msgs_of (queue s)) <-> exists m, In (SMsg m) (queue s)).
    { clear. induction (queue s) as [|sg q IH]; cbn.
      - split; [lia|intros [m []]].
      - destruct sg; cbn; split; intro H.
        all: try (apply IH in H; destruct H as [m H]; exists m; auto; fail).
        all: try (destruct H as [m0 [H|H]]; [discriminate H|apply IH; eauto]; fail).
        + exists m. auto.
        + lia. }
    unfold strong. split.
    - intro H. destruct (Nat.eq_dec (ext s) 0) as [E0|]; [|left; lia].
      destruct (Nat.eq_dec (length (msgs_of (queue s))) 0) as [E1|]; [|right; left; apply Q; lia].
      destruct (buf s) as [|b bs] eqn:Eb; [|do 2 right; left; discriminate].
      cbn in H. rewrite E0, E1 in H. cbn in H.
      destruct (in_reg s); [do 5 right; left; reflexivity|].
      destruct (threaded s && negb (ended (ph s))) eqn:Et.
      + apply andb_true_iff in Et. destruct Et as [T1 T2]. apply negb_true_iff in T2. auto 10.
      + destruct (ph s) as [| | | | | | | |pc| | | | | | | |]; cbn in H |- *; auto 7; try lia.
        destruct pc; cbn in H; try lia. do 4 right. left. eauto.
    - intros [H|[H|[H|[H|[(m & ow & rest & k & H)|[H|[H1 H2]]]]]]].
      + lia.
      + apply Q in H. lia.
      + destruct (buf s); [congruence|]. cbn. lia.
      + destruct (ph s); try discriminate H; cbn; lia.
      + rewrite H. cbn. lia.
      + rewrite H. lia.
      + rewrite H1, H2. cbn. lia. }
  rewrite <- E. destruct (0 <? strong s) eqn:L.
  - apply Nat.ltb_lt in L. split; eauto.
  - apply Nat.ltb_ge in L. split; [intros (? & ? & X); discriminate X|lia].
Qed.

Lemma run_dead : forall c es s tr es' s' o, exec (init c) es = Some (s, tr) ->
  strong s = 0 -> ph s <> PInit -> exec s es' = Some (s', o) ->
  strong s' = 0 /\ accepted_signals o = [] /\ step s' EAcquire = None.
Proof.
  intros c es s tr es' s' o H Z P H'. destruct (dead_exec _ _ _ _ H' Z P) as (A & B & _).
  repeat split; auto. cbn [step]. rewrite A. reflexivity.
Qed.

Lemma no_markers : forall q, ~ In SStartup q -> markers q = 0.
Proof.
  induction q as [|sg q IH]; intro H; [reflexivity|].
  assert (H1 : markers q = 0) by (apply IH; intro X; apply H; right; exact X).
  unfold markers in *. destruct sg; cbn; try exact H1. exfalso. apply H. left. reflexivity.
Qed.

Lemma run_startup_ready' : forall c es s tr, exec (init c) es = Some (s, tr) -> 0 < ext s ->
  (finished s = true /\ In (OAccept SStartup) tr /\ ~ In SStartup (queue s) /\ exists pc, ph s = PLoop pc)
  \/ ((exists f, In (OStartEnd (HookFail f)) tr) /\ starting (ph s) = false) ->
  exists v, step s EWaitStartup = Some (s, [OSawStartup v]).
Proof.
  intros c es s tr H E D. eapply run_startup_ready; eauto.
  destruct D as [(A & B & C & D)|D]; [left|right; exact D].
  repeat split; auto. apply no_markers; exact C.
Qed.

Lemma run_killed : forall c es s0 tr0 es' s o,
  exec (init c) es = Some (s0, tr0) -> aborted s0 = true ->
  (starting (ph s0) = true \/ (exists pc, ph s0 = PLoop pc /\ polling s0 = false)) ->
  exec s0 es' = Some (s, o) ->
  find loop_acts o = None \/ find loop_acts o = Some (OExit Killed).
Proof. intros. eapply killed_run; eauto. split; eauto. Qed.

Lemma run_killed_cause : forall c es s tr, exec (init c) es = Some (s, tr) ->
  In (OExit Killed) tr ->
  In OKill tr \/ In (OPanicHookEnd (FlowOk (Break Killed))) tr
  \/ In (OLinkHookEnd (FlowOk (Break Killed))) tr.
Proof. intros c es s tr H. destruct (killed_reason_exec _ _ _ _ H) as (_ & _ & K). exact K. Qed.

Lemma kill_not_discarded : forall ms, ~ In OKill (discard ms).
Proof.
  induction ms as [|m ms IH]; cbn; [auto|]. unfold drop_reply. destruct (ask m); cbn; intuition discriminate.
Qed.

Lemma run_kill_sticks : forall c es s tr, exec (init c) es = Some (s, tr) ->
  In OKill tr -> aborted s = true.
Proof.
  intros c es s tr H. revert s tr H. induction es using rev_ind; intros s tr H.
  - cbn in H. inversion H; subst. intros [].
  - apply exec_snoc in H. destruct H as (s1 & tr1 & o & H1 & H2 & ->).
    intro K. apply in_app_or in K.
    assert (A : aborted s1 = true \/ In OKill o) by (destruct K; eauto). clear K.
    destruct x; step_cases H2; bool_hyps; cbn; destruct A as [A|A]; auto.
    all: try (cbn in A; intuition discriminate).
    all: try (exfalso; revert A; clear; intro A; cbn in A;
              repeat (first [apply in_app_or in A | idtac]; destruct A as [A|A]; try discriminate A);
              try (eapply kill_not_discarded; exact A); cbn in A; intuition discriminate).
    all: exfalso; destruct owned; cbn in A; rewrite ?in_app_iff in A; cbn in A; rewrite ?in_app_iff in A; cbn in A;
         repeat match goal with D : _ \/ _ |- _ => destruct D end; try discriminate; try tauto;
         eapply kill_not_discarded; eauto.
Qed.

Lemma before_id : forall A (p : A -> bool) l, existsb p l = false -> before p l = l.
Proof.
  induction l as [|x l IH]; cbn; [auto|]. intro H. apply orb_false_iff in H. destruct H as [E H].
  rewrite E, IH; auto.
Qed.

Lemma run_drained : forall c es s tr, exec (init c) es = Some (s, tr) ->
  In (OExit Normal) tr -> no_failure tr -> no_hook_stop tr -> ~ In (OAccept SStop) tr ->
  Permutation (handled tr) (accepted tr).
Proof.
  intros c es s tr H X F K N.
  rewrite <- (before_id _ accepts_stop tr) at 2; [eapply run_stop_exact; eauto|].
  destruct (existsb accepts_stop tr) eqn:E; [|reflexivity].
  exfalso. apply N. apply existsb_exists in E. destruct E as (o & I & E).
  destruct o; try discriminate E. destruct sg; try discriminate E. exact I.
Qed.
