(** Proofs about the common order of messages and notifications of links (C01). *)
From Coq Require Import List Bool PeanoNat Permutation Lia.
Import ListNotations.
From Verif Require Import Lifecycle Lifecycle_spec Lifecycle_proofs Lifecycle_order_proofs Lifecycle_fifo_proofs
  Lifecycle_final_proofs Lifecycle_signals_spec.

Lemma begun_app : forall a b, begun (a ++ b) = begun a ++ begun b.
Proof. intros a b. unfold begun. apply flat_map_app. Qed.
Lemma entered_app : forall a b, entered (a ++ b) = entered a ++ entered b.
Proof. intros a b. unfold entered. rewrite accepted_signals_app. apply filter_app. Qed.
Lemma begun_discard : forall ms, begun (discard ms) = [].
Proof.
  intro ms. induction ms as [|m ms IH]; [reflexivity|]. cbn. rewrite begun_app.
  unfold discard in IH. rewrite IH. unfold drop_reply. destruct (ask m); reflexivity.
Qed.

Lemma begun_quiet : forall o, (forall x, In x o -> is_loop_obs x = false) -> begun o = [].
Proof.
  induction o as [|x o IH]; intro H; [reflexivity|]. cbn. fold (begun o).
  rewrite IH by (intros y Hy; apply H; right; exact Hy).
  specialize (H x (or_introl eq_refl)). destruct x; try reflexivity; discriminate H.
Qed.

Lemma signals_step : forall s e s' o, steady s -> step s e = Some (s', o) ->
  (steady s' /\ filter calls_code (queue s) ++ entered o = begun o ++ filter calls_code (queue s'))
  \/ (past_loop (ph s') = true /\ begun o = [] /\ entered o = []).
Proof.
  intros s e s' o S H. destruct (steady_step _ _ _ _ S H) as [(S' & _)|(P & _ & E & _)].
  - left. split; [exact S'|]. destruct S as (Hf & Hb & pc0 & Hp & Hpc). destruct S' as (_ & _ & pc1 & Hp1 & _).
    destruct e; step_cases H; bool_hyps; step_rewrite; try discriminate;
      try (injection Hp as <-); cbn in Hpc; try contradiction; split_ands; subst; try congruence;
      cbn in Hp1; try discriminate Hp1.
    all: unfold entered; cbn; repeat match goal with E : queue ?s = _ |- _ => rewrite E end; cbn; sig_simpl;
      split_vars; cbn; rewrite ?filter_app, ?app_nil_r; cbn; rewrite ?app_nil_r; reflexivity.
  - right. split; [exact P|]. unfold entered. rewrite E. split; [|reflexivity].
    destruct S as (Hf & Hb & pc0 & Hp & Hpc).
    destruct e; step_cases H; bool_hyps; step_rewrite; try discriminate;
      try (injection Hp as <-); cbn in Hpc; try contradiction; split_ands; subst; try congruence;
      cbn in P; try discriminate P;
      repeat match goal with E : ph ?s = _ |- _ => rewrite E in * end; try discriminate P.
    all: cbn; split_vars; cbn; rewrite ?begun_app; cbn; fold (begun (discard [])); try reflexivity.
    all: try (cbn in Hpc; destruct Hpc; subst; reflexivity).
    all: apply begun_discard.
Qed.

Lemma signals_exec : forall es s0 s o, steady s0 -> exec s0 es = Some (s, o) ->
  (steady s /\ filter calls_code (queue s0) ++ entered o = begun o ++ filter calls_code (queue s))
  \/ (past_loop (ph s) = true /\ exists rest, filter calls_code (queue s0) ++ entered o = begun o ++ rest).
Proof.
  intros es s0 s o S0. apply (exec_invariant (fun s o =>
    (steady s /\ filter calls_code (queue s0) ++ entered o = begun o ++ filter calls_code (queue s))
    \/ (past_loop (ph s) = true /\ exists rest, filter calls_code (queue s0) ++ entered o = begun o ++ rest))).
  - left. split; [exact S0|]. cbn. rewrite app_nil_r. reflexivity.
  - clear es s o. intros s tr e s' o D H. rewrite entered_app, begun_app, app_assoc.
    destruct D as [[S E]|[P [rest E]]]; rewrite E.
    + destruct (signals_step _ _ _ _ S H) as [[S' F]|(P & B & N)].
      * left. split; [exact S'|]. rewrite <- !app_assoc, F. reflexivity.
      * right. split; [exact P|]. rewrite B, N, !app_nil_r. eauto.
    + right. destruct (past_loop_step _ _ _ _ P H) as (P' & _ & Q). split; [exact P'|].
      rewrite (begun_quiet _ Q), app_nil_r, <- app_assoc. eauto.
Qed.

Lemma run_signals : forall c es s0 tr0 es' s o,
  exec (init c) es = Some (s0, tr0) -> finished s0 = true -> ph s0 = PLoop LRecv ->
  exec s0 es' = Some (s, o) ->
  exists rest, filter calls_code (queue s0) ++ entered o = begun o ++ rest
    /\ (no_exit o -> rest = filter calls_code (queue s)).
Proof.
  intros c es s0 tr0 es' s o H F P H' .
  destruct (ready_steady s0 (run_wf _ _ _ _ H) F P) as [S L].
  destruct (signals_exec _ _ _ _ S H') as [[S' E]|[P' [rest E]]].
  - eauto.
  - exists rest. split; [exact E|]. intro N. destruct (fifo_exact _ _ _ _ S L H' N) as [K _]. congruence.
Qed.

(** Notifications among themselves keep their order from the start. *)
Lemma accepts_discard : forall ms,
  flat_map (fun o : obs => match o with OAccept sg => [sg] | _ => [] end) (discard ms) = [].
Proof.
  induction ms as [|m ms IH]; [reflexivity|]. unfold discard in *. cbn.
  rewrite flat_map_app, IH. unfold drop_reply. destruct (ask m); reflexivity.
Qed.

Lemma notes_step : forall s e s' o, ended (ph s) = false -> step s e = Some (s', o) ->
  (ended (ph s') = false /\
   filter is_note (queue s) ++ filter is_note (entered o) = filter is_note (begun o) ++ filter is_note (queue s'))
  \/ (ended (ph s') = true /\ filter is_note (begun o) = [] /\ entered o = []).
Proof.
  intros s e s' o N H.
  destruct e; step_cases H; bool_hyps; step_rewrite; try discriminate.
  all: unfold entered; cbn;
    repeat match goal with E : ph ?s = _ |- _ => rewrite E in * end; cbn in *; try discriminate.
  all: repeat match goal with E : queue ?s = _ |- _ => rewrite E end; cbn; sig_simpl;
    rewrite ?begun_app, ?begun_discard; split_vars; cbn;
    rewrite ?filter_app, ?app_nil_r; cbn; rewrite ?begun_app, ?begun_discard, ?filter_app, ?app_nil_r; cbn.
  all: try (left; split; [first [reflexivity|assumption]|reflexivity]).
  all: try (right; split; [reflexivity|split; reflexivity]).
  all: rewrite accepts_discard; cbn; rewrite app_nil_r; left; split; reflexivity.
Qed.

Lemma ended_step : forall s e s' o, ended (ph s) = true -> step s e = Some (s', o) ->
  ended (ph s') = true /\ begun o = [].
Proof.
  intros s e s' o N H.
  destruct e; step_cases H; bool_hyps; step_rewrite; try discriminate.
  all: cbn; repeat match goal with E : ph ?s = _ |- _ => rewrite E in * end; cbn in *; try discriminate.
  all: rewrite ?begun_app, ?begun_discard; split; first [reflexivity|assumption|idtac].
Qed.

Lemma ended_exec : forall es s s' o, ended (ph s) = true -> exec s es = Some (s', o) -> begun o = [].
Proof.
  induction es as [|e es IH]; intros s s' o N H.
  - cbn in H. injection H as <- <-. reflexivity.
  - cbn in H. destruct (step s e) as [[s1 o1]|] eqn:H1; [|discriminate].
    destruct (exec s1 es) as [[s2 o2]|] eqn:H2; [|discriminate]. injection H as <- <-.
    destruct (ended_step _ _ _ _ N H1) as [N1 B]. rewrite begun_app, B. eauto.
Qed.

Lemma notes_exec : forall es s s' o, ended (ph s) = false -> exec s es = Some (s', o) ->
  exists rest, filter is_note (queue s) ++ filter is_note (entered o) = filter is_note (begun o) ++ rest.
Proof.
  induction es as [|e es IH]; intros s s' o N H.
  - cbn in H. injection H as <- <-. exists (filter is_note (queue s)). cbn. apply app_nil_r.
  - cbn in H. destruct (step s e) as [[s1 o1]|] eqn:H1; [|discriminate].
    destruct (exec s1 es) as [[s2 o2]|] eqn:H2; [|discriminate]. injection H as <- <-.
    rewrite entered_app, begun_app, !filter_app.
    destruct (notes_step _ _ _ _ N H1) as [[N1 Q]|(N1 & B & A)].
    + destruct (IH _ _ _ N1 H2) as (rest & R). exists rest.
      rewrite app_assoc, Q, <- !app_assoc, R. reflexivity.
    + rewrite (ended_exec _ _ _ _ N1 H2), B. cbn. eexists. reflexivity.
Qed.

Lemma run_notes : forall c es s tr, exec (init c) es = Some (s, tr) ->
  exists rest, filter is_note (entered tr) = filter is_note (begun tr) ++ rest.
Proof. intros c es s tr H. exact (notes_exec es (init c) s tr eq_refl H). Qed.
