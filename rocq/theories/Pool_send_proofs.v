(** Proofs about dispatch and broadcast (Pool.v), for P_Pool.v. *)
From Coq Require Import List Bool PeanoNat Lia.
From Verif Require Import Pool Pool_spec Pool_proofs Pool_more_proofs.
Import ListNotations.

Lemma choices_app : forall a b, choices (a ++ b) = choices a ++ choices b.
Proof. induction a as [|o a IH]; intros b; cbn; auto. destruct o; cbn; rewrite ?IH; auto. Qed.
Lemma sends_app : forall a b, sends (a ++ b) = sends a ++ sends b.
Proof. induction a as [|o a IH]; intros b; cbn; auto. destruct o; cbn; rewrite ?IH; auto. Qed.

(** Nothing about dispatches, broadcasts and replacements. *)
Record quiet (o : list obs) : Prop := {
  q_choices : choices o = [];
  q_sends : sends o = [];
  q_cast : forall x, In x o -> about_cast x = false;
  q_workers : forall l, workers_after l o = l;
  q_given : forall v, given v o = 0
}.

Definition of_pool (e : event) : bool :=
  match e with ELink | EHandle _ _ | ESent | ERefused | ECastSent _ | ECastRefused _ => true | _ => false end.

Lemma other_quiet : forall s e s' o, of_pool e = false -> step s e = Some (s', o) ->
  quiet o /\ ph s' = ph s /\ slots s' = slots s.
Proof.
  assert (N : quiet []) by (constructor; cbn; auto; intros ? []).
  intros s e s' o F E. destruct e as [x| |up c| | |k|k|v|v ok|v|v|v]; try discriminate; cbn [step] in E;
    unfold with_worker in E; cases E; cbn [ph slots]; auto;
    try (split; [|auto]; constructor; cbn; auto; intuition (subst; auto); fail).
  split; [|auto]. generalize (queue (wk s v)). intros q. constructor.
  - induction q; auto.
  - induction q; auto.
  - intros x H. apply in_map_iff in H. destruct H as (y & <- & _). reflexivity.
  - intros l. apply workers_dropped.
  - intros u. apply given_dropped.
Qed.

(** *** Dispatch *)

Definition dispatching (n : nat) (s : pool) (tr : list obs) (m : msg) (k w : nat) : Prop :=
  exists ta tb ws, tr = ta ++ tb /\ choices tb = map (fun v => (v, m)) (ws ++ [w]) /\ sends tb = []
    /\ length ws + 1 + k = n /\ (forall v, In v ws -> v < fresh s /\ st (wk s v) = WGone) /\ (snd m <> None -> ws = []).

Lemma gone_kept : forall l0 s tr e s' o v, INV l0 s tr -> step s e = Some (s', o) ->
  v < fresh s /\ st (wk s v) = WGone -> v < fresh s' /\ st (wk s' v) = WGone.
Proof.
  intros l0 s tr e s' o v I E [A B]. destruct (step_worker _ _ _ _ _ E A) as (F & G & _). split; [lia|auto].
Qed.

Lemma step_dispatching : forall l0 s tr e s' o,
  INV l0 s tr -> (forall m k w, ph s = PSending m k w -> dispatching (length l0) s tr m k w) ->
  step s e = Some (s', o) ->
  forall m k w, ph s' = PSending m k w -> dispatching (length l0) s' (tr ++ o) m k w.
Proof.
  intros l0 s tr e s' o I H E m k w P.
  pose proof (fun v => gone_kept _ _ _ _ _ _ v I E) as GK.
  destruct (of_pool e) eqn:OP.
  - destruct e as [x| |up c| | |j|j|v|v ok|v|v|v]; try discriminate; cbn [step] in E.
    + destruct (ph s); try discriminate; [destruct (nth_error (slots s) k0); [|discriminate]|]; injection E as <- <-; cbn in P;
        [unfold start_at in P; destruct (S k0 <? length (slots s))|]; discriminate.
    + destruct (ph s); try discriminate. destruct (inbox s) as [|x q]; [discriminate|].
      destruct x as [x|x|id|].
      * injection E as E. destruct (slots s) as [|v sl] eqn:SL.
        { pose proof (i_len _ _ _ I) as L. rewrite SL in L. destruct l0; [|discriminate]. destruct (i_pos _ _ _ I eq_refl). }
        unfold next_round in E. cbn [length slots wk] in E. destruct (first_min _ _) as [u|]; injection E as <- <-; cbn in P; [|discriminate].
        injection P as <- <- <-. exists tr, [OChosen u x], []. cbn. repeat split; auto; try contradiction.
        rewrite <- (i_len _ _ _ I), SL. reflexivity.
      * injection E as <- <-. discriminate.
      * unfold on_link_died in E. cases E; discriminate.
      * injection E as <- <-. discriminate.
    + destruct (ph s); try discriminate. cases E; discriminate.
    + destruct (ph s) as [| |x j v| | |] eqn:PS; try discriminate. destruct (st (wk s v)) eqn:S; try discriminate.
      destruct (snd x) eqn:SX; [injection E as <- <-; discriminate|]. injection E as E.
      destruct (H _ _ _ eq_refl) as (ta & tb & ws & -> & C & SD & L & G & A).
      unfold next_round in E. cbn [slots wk] in E. destruct j as [|j]; [injection E as <- <-; discriminate|].
      destruct (first_min _ _) as [u|] eqn:FM; injection E as <- <-; [|discriminate]. cbn in P. injection P as <- <- <-.
      exists ta, (tb ++ [OChosen u x]), (ws ++ [v]). split; [rewrite app_assoc; reflexivity|]. split.
      { rewrite choices_app, C. cbn. rewrite (map_app _ (ws ++ [v]) [u]). reflexivity. }
      split; [rewrite sends_app, SD; reflexivity|]. split; [rewrite app_length; cbn; lia|]. split; [|congruence].
      intros y Y. apply GK. apply in_app_iff in Y. destruct Y as [Y|[ <- |[]]]; [auto|]. split; [|assumption].
      apply (i_old _ _ _ I), (i_send _ _ _ I _ _ _ PS).
    + destruct (ph s); try discriminate. unfold after_cast in E. cases E; discriminate.
    + destruct (ph s); try discriminate. unfold after_cast in E. cases E; discriminate.
  - destruct (other_quiet _ _ _ _ OP E) as (Q & PH & SL). rewrite PH in P.
    destruct (H _ _ _ P) as (ta & tb & ws & -> & C & SD & L & G & A).
    exists ta, (tb ++ o), ws. rewrite choices_app, sends_app, (q_choices _ Q), (q_sends _ Q), !app_nil_r, app_assoc.
    auto 10.
Qed.

Lemma reaches_dispatching : forall caps c es s tr, reaches caps c es s tr ->
  forall m k w, ph s = PSending m k w -> dispatching (length caps) s tr m k w.
Proof.
  intros caps c es s tr (s0 & N & R).
  assert (LN : length caps = length (seq 0 (length caps))) by (rewrite seq_length; reflexivity).
  rewrite LN. remember (seq 0 (length caps)) as l0.
  assert (GEN : forall es s0 t0 s tr, INV l0 s0 t0 ->
    (forall m k w, ph s0 = PSending m k w -> dispatching (length l0) s0 t0 m k w) ->
    run s0 es = Some (s, tr) -> forall m k w, ph s = PSending m k w -> dispatching (length l0) s (t0 ++ tr) m k w).
  { clear. induction es as [|e es IH]; intros s0 t0 s tr I H R; cbn in R.
    - injection R as <- <-. rewrite app_nil_r. exact H.
    - destruct (step s0 e) as [[s1 o1]|] eqn:E; [|discriminate].
      destruct (run s1 es) as [[s2 o2]|] eqn:R2; [|discriminate]. injection R as <- <-.
      rewrite app_assoc. apply (IH s1); auto; [eapply step_inv; eassumption|eapply step_dispatching; eassumption]. }
  apply (GEN es s0 [] s tr); auto.
  - subst l0. eapply init_inv; eassumption.
  - intros m k w P. unfold new_pool in N. destruct caps; [discriminate|].
    destruct (existsb _ _); [discriminate|]. injection N as <-. discriminate.
Qed.

Lemma step_failed : forall l0 s tr e s' o m, INV l0 s tr -> step s e = Some (s', o) -> In (OFailed m) o ->
  o = [OFailed m; OStopped] /\ ph s' = PStopped /\ snd m = None
  /\ exists w, ph s = PSending m 0 w /\ st (wk s w) = WGone.
Proof.
  intros l0 s tr e s' o m I E H. destruct (of_pool e) eqn:OP.
  - destruct e as [x| |up c| | |j|j|v|v ok|v|v|v]; try discriminate; cbn [step] in E.
    + unfold link_obs in E. cases E; cbn in H; intuition discriminate.
    + destruct (ph s); try discriminate. destruct (inbox s) as [|x q]; [discriminate|].
      destruct x as [x|x|id|].
      * injection E as E. destruct (slots s) as [|v sl] eqn:SL.
        { pose proof (i_len _ _ _ I) as L. rewrite SL in L. destruct l0; [|discriminate]. destruct (i_pos _ _ _ I eq_refl). }
        unfold next_round in E. cbn [length slots wk] in E.
        destruct (first_min _ _) as [u|]; injection E as <- <-; cbn in H; intuition discriminate.
      * injection E as <- <-. cbn in H; intuition discriminate.
      * unfold on_link_died in E. cases E; cbn in H; intuition discriminate.
      * injection E as <- <-. destruct H.
    + cases E; cbn in H; intuition discriminate.
    + destruct (ph s) as [| |x j v| | |] eqn:PS; try discriminate. destruct (st (wk s v)) eqn:S; try discriminate.
      destruct (snd x) eqn:SX; [injection E as <- <-; cbn in H; intuition discriminate|]. injection E as E.
      unfold next_round in E. cbn [slots wk] in E. destruct j as [|j].
      * injection E as <- <-. destruct H as [H|[H|[]]]; [|discriminate]. injection H as ->.
        split; [reflexivity|]. split; [reflexivity|]. split; [assumption|]. eauto.
      * destruct (first_min _ _) as [u|]; injection E as <- <-; cbn in H; intuition discriminate.
    + unfold after_cast in E. cases E; cbn in H; intuition discriminate.
    + unfold after_cast in E. cases E; cbn in H; intuition discriminate.
  - exfalso. destruct e as [x| |up c| | |j|j|v|v ok|v|v|v]; try discriminate; cbn [step] in E; unfold with_worker in E; cases E;
    cbn in H; try (intuition discriminate).
    apply in_map_iff in H. destruct H as (y & Y & _). discriminate.
Qed.

Lemma gone_run : forall l0 es s tr s' o v, INV l0 s tr -> run s es = Some (s', o) ->
  v < fresh s /\ st (wk s v) = WGone -> v < fresh s' /\ st (wk s' v) = WGone.
Proof.
  intros l0. induction es as [|e es IH]; intros s tr s' o v I R H; cbn in R.
  - injection R as <- <-. assumption.
  - destruct (step s e) as [[s1 o1]|] eqn:E; [|discriminate].
    destruct (run s1 es) as [[s2 o2]|] eqn:R2; [|discriminate]. injection R as <- <-.
    eapply IH; [eapply step_inv; eassumption|eassumption|eapply gone_kept; eassumption].
Qed.

(** A stopped pool does nothing more. *)
Lemma stopped_run : forall es s s' o, run s es = Some (s', o) -> ph s = PStopped -> ph s' = PStopped /\ quiet o.
Proof.
  induction es as [|e es IH]; intros s s' o R P; cbn in R.
  - injection R as <- <-. split; [assumption|]. constructor; cbn; auto; intros ? [].
  - destruct (step s e) as [[s1 o1]|] eqn:E; [|discriminate].
    destruct (run s1 es) as [[s2 o2]|] eqn:R2; [|discriminate]. injection R as <- <-.
    assert (Q : quiet o1).
    { destruct (of_pool e) eqn:OP; [|apply (other_quiet _ _ _ _ OP E)].
      destruct e; try discriminate; cbn [step] in E; rewrite P in E; discriminate. }
    pose proof (step_stopped _ _ _ _ E P) as P1. destruct (IH _ _ _ R2 P1) as [A B]. split; [assumption|].
    destruct Q as [Q1 Q2 Q3 Q4 Q5], B as [B1 B2 B3 B4 B5]. constructor.
    + rewrite choices_app, Q1, B1; reflexivity.
    + rewrite sends_app, Q2, B2; reflexivity.
    + intros x X. apply in_app_iff in X. destruct X; auto.
    + intros l. rewrite workers_app, Q4, B4. reflexivity.
    + intros v. rewrite given_app, Q5, B5. reflexivity.
Qed.

Lemma failed_why : forall caps c es s t1 m t2, reaches caps c es s (t1 ++ OFailed m :: t2) ->
  (exists ta tb ws, t1 = ta ++ tb /\ choices tb = map (fun w => (w, m)) ws /\ sends tb = []
     /\ length ws = length caps /\ (forall w, In w ws -> st (wk s w) = WGone) /\ snd m = None)
  /\ ph s = PStopped /\ choices t2 = [] /\ sends t2 = [].
Proof.
  intros caps c es s t1 m t2 (s0 & N & R). apply run_split in R.
  destruct R as (es1 & e & es2 & sa & sb & ta & oa & ob & tb & -> & R1 & ST & R2 & -> & ->).
  assert (RA : reaches caps c es1 sa ta) by (exists s0; auto).
  pose proof (reaches_inv _ _ _ _ _ RA) as I.
  destruct (step_failed _ _ _ _ _ _ m I ST) as (A & B & C & w & P & G); [apply in_elt|].
  assert (oa = [] /\ ob = [OStopped]) as [-> ->].
  { destruct oa as [|x oa]; [injection A as ->; auto|]. injection A as _ A.
    destruct oa as [|y oa]; [discriminate|]. injection A as _ A. destruct oa; discriminate. }
  destruct (stopped_run _ _ _ _ R2 B) as [PS Q]. rewrite app_nil_r.
  split; [|split; [assumption|split; [apply (q_choices _ Q)|apply (q_sends _ Q)]]].
  destruct (reaches_dispatching _ _ _ _ _ RA _ _ _ P) as (t0 & tc & ws & -> & CH & SD & L & GW & _).
  exists t0, tc, (ws ++ [w]). split; [reflexivity|]. split; [assumption|]. split; [assumption|].
  split; [rewrite app_length; cbn; lia|]. split; [|assumption].
  intros v V. pose proof (step_inv _ _ _ _ _ _ I ST) as IB.
  assert (X : v < fresh sa /\ st (wk sa v) = WGone).
  { apply in_app_iff in V. destruct V as [V|[ <- |[]]]; [auto|]. split; [|assumption].
    apply (i_old _ _ _ I), (i_send _ _ _ I _ _ _ P). }
  apply (gone_run _ _ _ _ _ _ v IB R2 (gone_kept _ _ _ _ _ _ v I ST X)).
Qed.

Lemma step_forwarded : forall s e s' o m, step s e = Some (s', o) -> In (OForwarded m) o ->
  exists w k, o = [OSent w m; OForwarded m] /\ ph s = PSending m k w.
Proof.
  intros s e s' o m E H.
  destruct e as [x| |up c| | |j|j|v|v ok|v|v|v]; cbn [step] in E;
    unfold next_round, after_cast, on_link_died, with_worker, link_obs in E; cases E; cbn in H; try (intuition discriminate).
  - destruct H as [H|[H|[]]]; [discriminate|]. injection H as ->. eauto.
  - destruct H as [H|[H|[]]]; [discriminate|]. injection H as ->. eauto.
  - apply in_map_iff in H. destruct H as (y & Y & _). discriminate.
Qed.

Lemma forwarded_why : forall caps c es s t1 m t2, reaches caps c es s (t1 ++ OForwarded m :: t2) ->
  exists ta tb ws w, t1 = ta ++ tb ++ [OSent w m] /\ choices tb = map (fun w => (w, m)) (ws ++ [w]) /\ sends tb = []
    /\ (forall w, In w ws -> st (wk s w) = WGone) /\ (snd m <> None -> ws = []).
Proof.
  intros caps c es s t1 m t2 (s0 & N & R). apply run_split in R.
  destruct R as (es1 & e & es2 & sa & sb & ta & oa & ob & tb & -> & R1 & ST & R2 & -> & ->).
  assert (RA : reaches caps c es1 sa ta) by (exists s0; auto).
  pose proof (reaches_inv _ _ _ _ _ RA) as I.
  destruct (step_forwarded _ _ _ _ m ST) as (w & k & A & P); [apply in_elt|].
  assert (oa = [OSent w m]) as ->.
  { destruct oa as [|x oa]; [discriminate|]. injection A as -> A.
    destruct oa as [|y oa]; [reflexivity|]. injection A as _ A. destruct oa; discriminate. }
  destruct (reaches_dispatching _ _ _ _ _ RA _ _ _ P) as (t0 & tc & ws & -> & CH & SD & L & GW & A1).
  exists t0, tc, ws, w. split; [rewrite app_assoc; reflexivity|]. split; [assumption|]. split; [assumption|].
  split; [|assumption]. intros v V. pose proof (step_inv _ _ _ _ _ _ I ST) as IB.
  apply (gone_run _ _ _ _ _ _ v IB R2 (gone_kept _ _ _ _ _ _ v I ST (GW v V))).
Qed.

Lemma step_panicked : forall l0 s tr e s' o, INV l0 s tr -> step s e = Some (s', o) -> In OPanicked o ->
  o = [OPanicked; OStopped] /\ ph s' = PStopped
  /\ ((exists m k w, ph s = PSending m k w /\ snd m <> None /\ st (wk s w) = WGone)
      \/ e = EHandle true (Some 0)).
Proof.
  intros l0 s tr e s' o I E H.
  assert (NE : forall f, first_min f (slots s) <> None).
  { intros f F. apply first_min_none in F. pose proof (i_len _ _ _ I) as L. rewrite F in L.
    destruct l0; [|discriminate]. destruct (i_pos _ _ _ I eq_refl). }
  destruct e as [x| |up c| | |j|j|v|v ok|v|v|v]; cbn [step] in E;
    unfold next_round, after_cast, on_link_died, with_worker, link_obs, bad_cap in E; cbn [slots] in E;
    cases E; cbn in H; try (intuition discriminate).
  - edestruct NE; eassumption.
  - split; [reflexivity|]. split; [reflexivity|]. right. destruct c as [[|?]|]; try discriminate; subst; reflexivity.
  - split; [reflexivity|]. split; [reflexivity|]. left. do 3 eexists. split; [reflexivity|].
    split; [congruence|assumption].
  - edestruct NE; eassumption.
  - apply in_map_iff in H. destruct H as (y & Y & _). discriminate.
Qed.

Lemma panicked_why : forall caps c es s t1 t2, reaches caps c es s (t1 ++ OPanicked :: t2) ->
  (In (EHandle true (Some 0)) es
   \/ exists ta tb m w, t1 = ta ++ tb /\ choices tb = [(w, m)] /\ sends tb = [] /\ snd m <> None /\ st (wk s w) = WGone)
  /\ ph s = PStopped /\ choices t2 = [] /\ sends t2 = [].
Proof.
  intros caps c es s t1 t2 (s0 & N & R). apply run_split in R.
  destruct R as (es1 & e & es2 & sa & sb & ta & oa & ob & tb & -> & R1 & ST & R2 & -> & ->).
  assert (RA : reaches caps c es1 sa ta) by (exists s0; auto).
  pose proof (reaches_inv _ _ _ _ _ RA) as I.
  destruct (step_panicked _ _ _ _ _ _ I ST) as (A & B & C); [apply in_elt|].
  assert (oa = [] /\ ob = [OStopped]) as [-> ->].
  { destruct oa as [|x oa]; [injection A as ->; auto|]. injection A as _ A.
    destruct oa as [|y oa]; [discriminate|]. injection A as _ A. destruct oa; discriminate. }
  destruct (stopped_run _ _ _ _ R2 B) as [PS Q]. rewrite app_nil_r.
  split; [|split; [assumption|split; [apply (q_choices _ Q)|apply (q_sends _ Q)]]].
  destruct C as [(m & k & w & P & SM & G)| -> ]; [right|left; apply in_elt].
  destruct (reaches_dispatching _ _ _ _ _ RA _ _ _ P) as (t0 & tc & ws & -> & CH & SD & L & GW & AA).
  rewrite (AA SM) in CH. exists t0, tc, m, w. split; [reflexivity|]. split; [exact CH|]. split; [assumption|].
  split; [assumption|]. pose proof (step_inv _ _ _ _ _ _ I ST) as IB.
  apply (gone_run _ _ _ _ _ _ w IB R2), (gone_kept _ _ _ _ _ _ w I ST). split; [|assumption].
  apply (i_old _ _ _ I), (i_send _ _ _ I _ _ _ P).
Qed.

(** *** What the state of the chosen worker leads to *)

Lemma takes_room : forall x, takes_more x -> has_room (cap x) (queue x) = true.
Proof. intros x [_ H]. unfold has_room. destruct (cap x); [apply Nat.ltb_lt|]; auto. Qed.

Lemma next_is : forall l0 s tr m k q w, INV l0 s tr -> ph s = PIdle ->
  first_least (outstanding tr) (slots s) w ->
  next_round (mk_pool (slots s) (wk s) (fresh s) q (pcap s) PIdle) m (S k)
  = (mk_pool (slots s) (add_load (wk s) w) (fresh s) q (pcap s) (PSending m k w), [OChosen w m]).
Proof.
  intros l0 s tr m k q w I P F. unfold next_round. cbn [slots wk].
  assert (W0 : forall v, waiting s v = 0) by (intros; unfold waiting; rewrite P; reflexivity).
  destruct (first_min _ (slots s)) as [v|] eqn:FM.
  - apply first_min_some in FM.
    assert (first_least (outstanding tr) (slots s) v) as FV.
    { apply (first_least_eq (fun w => load (wk s w))); [|assumption]. intros u _. exact (loads_are _ _ _ _ I (W0 u)). }
    rewrite (first_least_unique _ _ _ _ (i_nodup _ _ _ I) F FV). reflexivity.
  - apply first_min_none in FM. apply first_least_in in F. rewrite FM in F. destruct F.
Qed.

Lemma slots_some : forall l0 s tr, INV l0 s tr -> exists k, length (slots s) = S k.
Proof.
  intros l0 s tr I. rewrite (i_len _ _ _ I). destruct l0; [destruct (i_pos _ _ _ I eq_refl)|]. eexists; reflexivity.
Qed.

Lemma live_chosen : forall caps c es s tr m q w up k, reaches caps c es s tr ->
  ph s = PIdle -> inbox s = PDispatchMsg m :: q ->
  first_least (outstanding tr) (slots s) w -> takes_more (wk s w) ->
  exists s', run s [EHandle up k; ESent] = Some (s', [OChosen w m; OSent w m; OForwarded m])
    /\ ph s' = PIdle /\ queue (wk s' w) = queue (wk s w) ++ [m].
Proof.
  intros caps c es s tr m q w up k R P Q F T. apply reaches_inv in R.
  destruct (slots_some _ _ _ R) as [n N]. cbn [run step]. rewrite P, Q, N.
  rewrite (next_is _ _ _ m n q w R P F). cbn [ph wk step]. pose proof (takes_room _ T) as RM. destruct T as [NG _].
  assert (X : add_load (wk s) w w = mk_worker (st (wk s w)) (cap (wk s w)) (queue (wk s w)) (busy (wk s w)) (S (load (wk s w))) (linked (wk s w)) (to_tell (wk s w))).
  { unfold add_load. apply put_same. }
  rewrite X. cbn [st cap queue]. rewrite RM.
  destruct (st (wk s w)) eqn:S; try congruence; eexists; (split; [reflexivity|]); (split; [reflexivity|]);
    cbn [wk]; unfold push; rewrite put_same, X; reflexivity.
Qed.

Lemma add_sub : forall f w v, sub_load (add_load f w) w v = f v.
Proof.
  intros f w v. unfold sub_load, add_load. rewrite put_same. cbn [st cap queue busy load linked to_tell].
  destruct (Nat.eq_dec v w) as [ -> |N].
  - rewrite put_same. rewrite Nat.sub_succ, Nat.sub_0_r. destruct (f w); reflexivity.
  - rewrite !put_other by assumption. reflexivity.
Qed.

Lemma dead_asked : forall caps c es s tr m q w up k, reaches caps c es s tr ->
  ph s = PIdle -> inbox s = PDispatchMsg m :: q -> snd m <> None ->
  first_least (outstanding tr) (slots s) w -> st (wk s w) = WGone ->
  exists s', run s [EHandle up k; ERefused] = Some (s', [OChosen w m; OPanicked; OStopped]) /\ ph s' = PStopped.
Proof.
  intros caps c es s tr m q w up k R P Q A F G. apply reaches_inv in R.
  destruct (slots_some _ _ _ R) as [n N]. cbn [run step]. rewrite P, Q, N.
  rewrite (next_is _ _ _ m n q w R P F). cbn [ph wk step].
  unfold add_load at 1. rewrite put_same. cbn [st]. rewrite G. destruct (snd m); [|congruence].
  eexists; split; reflexivity.
Qed.

Lemma dead_told_from : forall sl m w p n f fr ib,
  (forall v, load (f v) = load (p v)) -> first_min (fun v => load (p v)) sl = Some w ->
  st (f w) = WGone -> snd m = None ->
  forall c, exists s', run (mk_pool sl (add_load f w) fr ib c (PSending m n w)) (repeat ERefused (S n))
              = Some (s', repeat (OChosen w m) n ++ [OFailed m; OStopped]) /\ ph s' = PStopped.
Proof.
  intros sl m w p. induction n as [|n IH]; intros f fr ib L F G A c.
  - cbn [repeat run step ph wk]. unfold add_load at 1. rewrite put_same. cbn [st]. rewrite G, A. cbn. eauto.
  - cbn [run step ph wk].
    change (repeat ERefused (S (S n))) with (ERefused :: repeat ERefused (S n)). cbn [run step ph wk].
    unfold add_load at 1. rewrite put_same. cbn [st]. rewrite G, A. cbn [slots wk fresh inbox pcap].
    unfold next_round. cbn [slots wk fresh inbox pcap].
    rewrite (first_min_ext _ (fun v => load (p v))) by (intros v _; rewrite add_sub; apply L). rewrite F.
    destruct (IH (sub_load (add_load f w) w) fr ib) with (c := c) as (s' & R & P); auto.
    + intros v. rewrite add_sub. apply L.
    + rewrite add_sub. assumption.
    + rewrite R. exists s'. split; [reflexivity|assumption].
Qed.

Lemma dead_told : forall caps c es s tr m q w up k, reaches caps c es s tr ->
  ph s = PIdle -> inbox s = PDispatchMsg m :: q -> snd m = None ->
  first_least (outstanding tr) (slots s) w -> st (wk s w) = WGone ->
  exists s', run s (EHandle up k :: repeat ERefused (length (slots s)))
             = Some (s', repeat (OChosen w m) (length (slots s)) ++ [OFailed m; OStopped])
    /\ ph s' = PStopped.
Proof.
  intros caps c es s tr m q w up k R P Q A F G. apply reaches_inv in R.
  destruct (slots_some _ _ _ R) as [n N]. cbn [run step]. rewrite P, Q, N.
  rewrite (next_is _ _ _ m n q w R P F).
  assert (FM : first_min (fun v => load (wk s v)) (slots s) = Some w).
  { pose proof (next_is _ _ _ m n q w R P F) as X. unfold next_round in X. cbn [slots wk] in X.
    destruct (first_min _ _) as [v|]; [|discriminate]. injection X as X1. congruence. }
  destruct (dead_told_from (slots s) m w (wk s) n (wk s) (fresh s) q (fun _ => eq_refl) FM G A (pcap s)) as (s' & RR & PP).
  rewrite RR. exists s'. split; [reflexivity|assumption].
Qed.

(** The pool waits for room at a worker that waits for room in the pool's mailbox. *)
Definition both_wait (s : pool) (m : msg) (k w : nat) : Prop :=
  ph s = PSending m k w /\ st (wk s w) = WEnding /\ to_tell (wk s w) = true
  /\ has_room (cap (wk s w)) (queue (wk s w)) = false /\ has_room (pcap s) (inbox s) = false.

Lemma stuck_for_good : forall es s m k w, both_wait s m k w ->
  forall s' tr, run s es = Some (s', tr) -> both_wait s' m k w /\ inbox s' = inbox s /\ choices tr = [] /\ sends tr = [].
Proof.
  induction es as [|e es IH]; intros s m k w B s' tr R; cbn in R.
  - injection R as <- <-. auto.
  - destruct (step s e) as [[s1 o1]|] eqn:E; [|discriminate].
    destruct (run s1 es) as [[s2 o2]|] eqn:R2; [|discriminate]. injection R as <- <-.
    assert (X : both_wait s1 m k w /\ inbox s1 = inbox s /\ quiet o1).
    { destruct B as (B1 & B2 & B3 & B4 & B5).
      destruct e as [x| |up c| | |j|j|v|v ok|v|v|v]; cbn [step] in E; rewrite ?B1 in E; try discriminate.
      - rewrite B5, andb_false_r in E. discriminate.
      - rewrite B2, B4 in E. discriminate.
      - rewrite B2 in E. discriminate.
      - assert (v <> w). { intros ->. rewrite B2 in E. discriminate. }
        destruct (other_quiet s (ETake v) s1 o1 eq_refl E) as (Q & _). split; [|split; [|exact Q]].
        + unfold with_worker in E. cases E. unfold both_wait. cbn [ph wk pcap inbox]. rewrite put_other by congruence. auto.
        + cases E; reflexivity.
      - assert (v <> w). { intros ->. rewrite B2 in E. discriminate. }
        destruct (other_quiet s (EFinish v ok) s1 o1 eq_refl E) as (Q & _). split; [|split; [|exact Q]].
        + unfold with_worker in E. cases E; unfold both_wait; cbn [ph wk pcap inbox]; rewrite put_other by congruence; auto.
        + cases E; reflexivity.
      - assert (v <> w). { intros ->. rewrite B2 in E. discriminate. }
        destruct (other_quiet s (ELeave v) s1 o1 eq_refl E) as (Q & _). split; [|split; [|exact Q]].
        + unfold with_worker in E. cases E; unfold both_wait; cbn [ph wk pcap inbox]; rewrite put_other by congruence; auto.
        + cases E; reflexivity.
      - rewrite B5 in E. cases E.
      - assert (v <> w). { intros ->. rewrite B2, B3 in E. discriminate. }
        destruct (other_quiet s (EGone v) s1 o1 eq_refl E) as (Q & _). split; [|split; [|exact Q]].
        + unfold with_worker in E. cases E; unfold both_wait; cbn [ph wk pcap inbox]; rewrite put_other by congruence; auto.
        + cases E; reflexivity. }
    destruct X as (X1 & X2 & X3). destruct (IH _ _ _ _ X1 _ _ R2) as (Y1 & Y2 & Y3 & Y4).
    split; [assumption|]. split; [congruence|].
    rewrite choices_app, sends_app, (q_choices _ X3), (q_sends _ X3), Y3, Y4. auto.
Qed.

(** *** Broadcast *)

Definition casting (l0 : list nat) (s : pool) (tr : list obs) (m : nat) (rs : list (nat * option bool)) : Prop :=
  exists ta tb, tr = ta ++ OCasting m :: tb /\ (forall o, In o tb -> about_cast o = false)
    /\ workers_after l0 ta = slots s /\ map fst rs = slots s
    /\ (forall v, given v tb = accepted rs v)
    /\ (forall p, In p (sends tb) -> snd p = (m, None) /\ In (fst p, Some true) rs)
    /\ (forall v, In (v, Some false) rs -> v < fresh s /\ st (wk s v) = WGone).

Lemma settle_in : forall rs k b w r, In (w, r) (settle rs k b) -> In (w, r) rs \/ (r = Some b /\ exists y, nth_error rs k = Some (w, y)).
Proof.
  induction rs as [|[x y] rs IH]; intros [|k] b w r H; cbn in H; auto.
  - destruct H as [H|H]; [injection H as -> <-; right; split; [reflexivity|exists y; reflexivity]|left; right; assumption].
  - destruct H as [H|H]; [left; left; assumption|]. destruct (IH _ _ _ _ H) as [Z|Z]; [left; right; assumption|right; assumption].
Qed.
Lemma settle_keeps : forall rs k b w r y, nth_error rs k = Some (y, None) -> In (w, Some r) rs -> In (w, Some r) (settle rs k b).
Proof.
  induction rs as [|[x z] rs IH]; intros [|k] b w r y E H; cbn in *; try discriminate; auto.
  - injection E as -> ->. destruct H as [H|H]; [discriminate|right; assumption].
  - destruct H as [H|H]; [left; assumption|right; eauto].
Qed.
Lemma settle_has : forall rs k b w y, nth_error rs k = Some (w, y) -> In (w, Some b) (settle rs k b).
Proof.
  induction rs as [|[x z] rs IH]; intros [|k] b w y E; cbn in *; try discriminate.
  - injection E as -> ->. left; reflexivity.
  - right; eauto.
Qed.

Definition casting_all (l0 : list nat) (s : pool) (tr : list obs) : Prop :=
  forall m rs, ph s = PCasting m rs -> casting l0 s tr m rs.

(** After a send of a broadcast. *)
Lemma cast_settled : forall l0 s tr m rs k w b s1 o,
  INV l0 s tr -> casting l0 s tr m rs -> nth_error rs k = Some (w, None) -> In w (slots s) ->
  (b = false -> st (wk s w) = WGone) ->
  slots s1 = slots s -> (forall v, v < fresh s /\ st (wk s v) = WGone -> v < fresh s1 /\ st (wk s1 v) = WGone) ->
  o = (if b then [OSent w (m, None)] else []) ->
  casting l0 s1 (tr ++ o) m (settle rs k b).
Proof.
  intros l0 s tr m rs k w b s1 o I (ta & tb & -> & NC & WA & MF & GV & SD & FL) N IW B SL GK ->.
  exists ta, (tb ++ if b then [OSent w (m, None)] else []). split; [rewrite <- app_assoc; reflexivity|]. split; [|split; [|split; [|split; [|split]]]].
  - intros x X. apply in_app_iff in X. destruct X as [X|X]; [auto|]. destruct b; [destruct X as [ <- |[]]; reflexivity|destruct X].
  - congruence.
  - rewrite settle_fst. congruence.
  - intros v. rewrite given_app, GV, (settle_accepted _ _ b _ v N).
    destruct b; cbn; [rewrite andb_true_r|rewrite andb_false_r]; lia.
  - intros p H. rewrite sends_app in H. apply in_app_iff in H. destruct H as [H|H].
    + destruct (SD p H) as [H1 H2]. split; [assumption|]. eapply settle_keeps; eassumption.
    + destruct b; [|destruct H]. destruct H as [ <- |[]]. cbn. split; [reflexivity|]. eapply settle_has; eassumption.
  - intros v V. apply settle_in in V. destruct V as [V|[V [y Y]]]; [auto|].
    injection V as <-. apply GK. assert (v = w) as -> by congruence. split; [apply (i_old _ _ _ I); assumption|auto].
Qed.

Lemma cast_worker : forall l0 s tr m rs k w r, INV l0 s tr -> ph s = PCasting m rs -> nth_error rs k = Some (w, r) -> In w (slots s).
Proof.
  intros l0 s tr m rs k w r I P N. destruct (i_cast _ _ _ I _ _ P) as [ <- _ ].
  change w with (fst (w, r)). apply in_map. eapply nth_error_In; eassumption.
Qed.

Lemma step_cast : forall l0 s tr e s' o, INV l0 s tr -> casting_all l0 s tr -> step s e = Some (s', o) ->
  casting_all l0 s' (tr ++ o)
  /\ (forall m l, In (OCast m l) o ->
        exists oa rs, o = oa ++ [OCast m l] /\ casting l0 s' (tr ++ oa) m rs /\ results rs = Some l /\ (forall x, In x oa -> about_cast x = false)).
Proof.
  intros l0 s tr e s' o I C E.
  pose proof (fun v => gone_kept _ _ _ _ _ _ v I E) as GK.
  destruct (of_pool e) eqn:OP.
  - destruct e as [x| |up c| | |j|j|v|v ok|v|v|v]; try discriminate; cbn [step] in E.
    + split.
      * intros m rs P. destruct (ph s) eqn:PS; try discriminate; [destruct (nth_error (slots s) k); [|discriminate]|];
          injection E as <- <-; cbn in P; [unfold start_at in P; destruct (S k <? length (slots s))|]; discriminate.
      * intros m l H. unfold link_obs in E. cases E; cbn in H; intuition discriminate.
    + destruct (ph s) eqn:PS; try discriminate. destruct (inbox s) as [|x q]; [discriminate|].
      destruct x as [x|x|id|].
      * unfold next_round in E. cases E; (split; [intros m' rs' P; discriminate|intros m' l' H; cbn in H; intuition discriminate]).
      * injection E as <- <-. split; [|intros m l H; cbn in H; intuition discriminate].
        intros m rs P. injection P as <- <-. exists tr, []. split; [reflexivity|]. split; [intros ? []|].
        split; [symmetry; apply (i_slots _ _ _ I)|]. split; [rewrite map_map; apply map_id|]. split; [intros v; rewrite accepted_start; reflexivity|].
        split; [intros ? []|]. intros v V. apply in_map_iff in V. destruct V as (y & Y & _). discriminate.
      * unfold on_link_died in E. cases E; (split; [intros m' rs' P; discriminate|intros m' l' H; cbn in H; intuition discriminate]).
      * injection E as <- <-. split; [intros m' rs' P; discriminate|intros m' l' []].
    + destruct (ph s) eqn:PS; try discriminate.
      cases E; (split; [intros m' rs' P; discriminate|intros m' l' H; cbn in H; intuition discriminate]).
    + destruct (ph s) eqn:PS; try discriminate. unfold next_round in E.
      cases E; (split; [intros m' rs' P; discriminate|intros m' l' H; cbn in H; intuition discriminate]).
    + destruct (ph s) as [| | |m rs| |] eqn:PS; try discriminate.
      destruct (nth_error rs j) as [[w [b|]]|] eqn:N; try discriminate.
      assert (X : st (wk s w) <> WGone /\ exists o1, after_cast s (push (wk s) w (m, None)) m (settle rs j true) = (s', o1) /\ o = OSent w (m, None) :: o1).
      { destruct (st (wk s w)) eqn:S; try discriminate; (split; [discriminate|]);
        (destruct (has_room _ _); [|discriminate]; destruct (after_cast _ _ _ _) as [s1 o1]; injection E as <- <-; eauto). }
      destruct X as (NG & o1 & AC & ->).
      assert (K : casting l0 s' (tr ++ [OSent w (m, None)]) m (settle rs j true)).
      { apply (cast_settled l0 s tr m rs j w true s' _ I (C _ _ PS) N); auto; try discriminate.
        - eapply cast_worker; eassumption.
        - unfold after_cast in AC. destruct (results _); injection AC as <- _; reflexivity. }
      unfold after_cast in AC. destruct (results (settle rs j true)) as [l|] eqn:RS; injection AC as <- <-.
      * split; [intros m' rs' P; discriminate|]. intros m' l' [H|[H|[]]]; [discriminate|]. injection H as <- <-.
        exists [OSent w (m, None)], (settle rs j true). split; [reflexivity|]. split; [exact K|]. split; [assumption|].
        intros x [ <- |[]]. reflexivity.
      * split; [|intros m' l' [H|[]]; discriminate]. intros m' rs' P. injection P as <- <-. exact K.
    + destruct (ph s) as [| | |m rs| |] eqn:PS; try discriminate.
      destruct (nth_error rs j) as [[w [b|]]|] eqn:N; try discriminate.
      destruct (st (wk s w)) eqn:S; try discriminate. injection E as AC.
      assert (K : casting l0 s' (tr ++ []) m (settle rs j false)).
      { apply (cast_settled l0 s tr m rs j w false s' _ I (C _ _ PS) N); auto.
        - eapply cast_worker; eassumption.
        - unfold after_cast in AC. destruct (results _); injection AC as <- _; reflexivity. }
      unfold after_cast in AC. destruct (results (settle rs j false)) as [l|] eqn:RS; injection AC as <- <-.
      * split; [intros m' rs' P; discriminate|]. intros m' l' [H|[]]. injection H as <- <-.
        exists [], (settle rs j false). split; [reflexivity|]. split; [exact K|]. split; [assumption|]. intros x [].
      * split; [|intros m' l' []]. intros m' rs' P. injection P as <- <-. exact K.
  - destruct (other_quiet _ _ _ _ OP E) as (Q & PH & SL). split.
    + intros m rs P. rewrite PH in P. destruct (C m rs P) as (ta & tb & -> & NC & WA & MF & GV & SD & FL).
      exists ta, (tb ++ o). split; [rewrite <- app_assoc; reflexivity|]. split; [|split; [congruence|split; [congruence|split; [|split]]]].
      * intros x X. apply in_app_iff in X. destruct X; auto. apply (q_cast _ Q); assumption.
      * intros v. rewrite given_app, (q_given _ Q), GV. lia.
      * rewrite sends_app, (q_sends _ Q), app_nil_r. exact SD.
      * auto.
    + intros m l H. apply (q_cast _ Q) in H. discriminate.
Qed.

Lemma reaches_casting : forall caps c es s tr, reaches caps c es s tr -> casting_all (seq 0 (length caps)) s tr.
Proof.
  intros caps c es s tr (s0 & N & R). remember (seq 0 (length caps)) as l0.
  assert (GEN : forall es s0 t0 s tr, INV l0 s0 t0 -> casting_all l0 s0 t0 ->
    run s0 es = Some (s, tr) -> casting_all l0 s (t0 ++ tr)).
  { clear. induction es as [|e es IH]; intros s0 t0 s tr I H R; cbn in R.
    - injection R as <- <-. rewrite app_nil_r. exact H.
    - destruct (step s0 e) as [[s1 o1]|] eqn:E; [|discriminate].
      destruct (run s1 es) as [[s2 o2]|] eqn:R2; [|discriminate]. injection R as <- <-.
      rewrite app_assoc. apply (IH s1); auto; [eapply step_inv; eassumption|eapply step_cast; eassumption]. }
  apply (GEN es s0 [] s tr); auto.
  - subst l0. eapply init_inv; eassumption.
  - intros m rs P. unfold new_pool in N. destruct caps; [discriminate|].
    destruct (existsb _ _); [discriminate|]. injection N as <-. discriminate.
Qed.

Lemma accepted_is : forall l w b, NoDup (map fst l) -> In (w, b) l ->
  accepted (map (fun r => (fst r, Some (snd r))) l) w = if b then 1 else 0.
Proof.
  unfold accepted. induction l as [|[x y] l IH]; intros w b ND H; [destruct H|]. cbn in ND. inversion ND as [|? ? NI ND']; subst.
  cbn. destruct H as [H|H].
  - injection H as -> ->. rewrite Nat.eqb_refl. cbn.
    assert (Z : length (filter (fun r => (fst r =? w) && match snd r with Some true => true | _ => false end)
                 (map (fun r => (fst r, Some (snd r))) l)) = 0).
    { clear - NI. induction l as [|[x y] l IH]; [reflexivity|]. cbn in *.
      destruct (Nat.eqb_spec x w); [subst; destruct NI; left; reflexivity|]. cbn. apply IH. tauto. }
    destruct b; cbn; lia.
  - destruct (Nat.eqb_spec x w) as [ -> |NE]; cbn.
    + exfalso. apply NI. change w with (fst (w, b)). apply in_map; assumption.
    + apply IH; assumption.
Qed.

Lemma cast_results : forall caps c es s t1 m rs t2, reaches caps c es s (t1 ++ OCast m rs :: t2) ->
  exists ta tb, t1 = ta ++ OCasting m :: tb /\ (forall o, In o tb -> about_cast o = false)
    /\ map fst rs = workers_after (seq 0 (length caps)) ta
    /\ (forall w b, In (w, b) rs -> given w tb = (if b then 1 else 0) /\ (b = false -> st (wk s w) = WGone))
    /\ (forall p, In p (sends tb) -> snd p = (m, None) /\ In (fst p, true) rs).
Proof.
  intros caps c es s t1 m rs t2 (s0 & N & R). apply run_split in R.
  destruct R as (es1 & e & es2 & sa & sb & ta & oa & ob & tb & -> & R1 & ST & R2 & -> & ->).
  assert (RA : reaches caps c es1 sa ta) by (exists s0; auto).
  pose proof (reaches_inv _ _ _ _ _ RA) as I. pose proof (reaches_casting _ _ _ _ _ RA) as C.
  destruct (step_cast _ _ _ _ _ _ I C ST) as [_ H]. destruct (H m rs) as (oc & r & A & K & RS & NC); [apply in_elt|].
  assert (oa = oc) as ->.
  { clear - A NC. revert oc A NC. induction oa as [|x oa IH]; intros [|y oc] A NC.
    - reflexivity.
    - injection A as A _. specialize (NC y (or_introl eq_refl)). subst y. discriminate.
    - injection A as _ A. destruct oa; discriminate.
    - injection A as -> A. f_equal. apply IH; auto. intros z Z. apply NC. right; assumption. }
  pose proof (step_inv _ _ _ _ _ _ I ST) as IB.
  destruct K as (ca & cb & -> & K1 & K2 & K3 & K4 & K5 & K6). exists ca, cb.
  pose proof (results_some _ _ RS) as ER.
  assert (MF : map fst rs = slots sb).
  { rewrite <- K3, ER, map_map. reflexivity. }
  split; [reflexivity|]. split; [assumption|]. split; [congruence|]. split.
  - intros w b H1. split.
    + rewrite K4, ER. apply accepted_is; [|assumption]. rewrite MF. apply (i_nodup _ _ _ IB).
    + intros ->. apply (gone_run _ _ _ _ _ _ w IB R2), K6. rewrite ER.
      change (w, Some false) with ((fun r : nat * bool => (fst r, Some (snd r))) (w, false)).
      apply in_map. assumption.
  - intros p H1. destruct (K5 p H1) as [P1 P2]. split; [assumption|].
    rewrite ER in P2. apply in_map_iff in P2. destruct P2 as ([w b] & Z1 & Z2). cbn in Z1. injection Z1 as <- ->. assumption.
Qed.

Lemma cast_goes_on : forall caps c es s tr m rs, reaches caps c es s tr -> ph s = PCasting m rs ->
  exists k w, nth_error rs k = Some (w, None)
    /\ (st (wk s w) = WGone -> step s (ECastRefused k) <> None)
    /\ (takes_more (wk s w) -> step s (ECastSent k) <> None).
Proof.
  intros caps c es s tr m rs R P. apply reaches_inv in R. destruct (i_cast _ _ _ R _ _ P) as [_ RS].
  assert (X : exists k w, nth_error rs k = Some (w, None)).
  { clear - RS. induction rs as [|[w [b|]] rs IH]; cbn in RS; [discriminate| |exists 0, w; reflexivity].
    destruct IH as (k & v & K); [destruct (results rs); [discriminate|reflexivity]|]. exists (S k), v. exact K. }
  destruct X as (k & w & N). exists k, w. split; [assumption|]. cbn [step]. rewrite P, N. split.
  - intros ->. discriminate.
  - intros T. rewrite (takes_room _ T). destruct T as [T _]. destruct (st (wk s w)); try congruence;
      destruct (after_cast _ _ _ _); discriminate.
Qed.
