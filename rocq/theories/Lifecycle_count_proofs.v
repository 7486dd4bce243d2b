(** Proofs about the number of strong references. *)
From Coq Require Import List Bool PeanoNat Permutation Lia.
Import ListNotations.
From Verif Require Import Lifecycle Lifecycle_spec Lifecycle_proofs Lifecycle_order_proofs
   Lifecycle_count_spec.

Definition own (p : phase) : nat :=
  match p with PInit | PStarting | PStarted _ | PSignal _ | PDowngrade _ _ => 1 | _ => 0 end.
Definition current (p : phase) : nat :=
  match p with PLoop (LHandle _ _ _ _) => 1 | _ => 0 end.

Lemma over_app : forall a b, over (a ++ b) = over a + over b.
Proof. intros. unfold over. rewrite filter_app, app_length. reflexivity. Qed.
Lemma over_discard : forall ms, over (discard ms) = 0.
Proof.
  induction ms as [|m ms IH]; [reflexivity|]. unfold discard in *. cbn [flat_map].
  rewrite over_app, IH. unfold drop_reply. destruct (ask m); reflexivity.
Qed.
Lemma handed_app : forall a b, handed_to_on_start (a ++ b) = handed_to_on_start a + handed_to_on_start b.
Proof. intros. unfold handed_to_on_start. rewrite filter_app, app_length. reflexivity. Qed.
Lemma handed_discard : forall ms, handed_to_on_start (discard ms) = 0.
Proof.
  induction ms as [|m ms IH]; [reflexivity|]. unfold discard in *. cbn [flat_map].
  rewrite handed_app, IH. unfold drop_reply. destruct (ask m); reflexivity.
Qed.
Lemma task_over_app : forall a b, task_over (a ++ b) = task_over a || task_over b.
Proof. intros. unfold task_over. apply existsb_app. Qed.
Lemma task_over_discard : forall ms, task_over (discard ms) = false.
Proof.
  induction ms as [|m ms IH]; [reflexivity|]. unfold discard in *. cbn [flat_map].
  rewrite task_over_app, IH. unfold drop_reply. destruct (ask m); reflexivity.
Qed.


Lemma over_raw : forall ms,
  filter (fun o => match o with OHandleEnd _ _ | OHandleCut _ => true | _ => false end) (discard ms) = [].
Proof. intro ms. apply length_zero_iff_nil. exact (over_discard ms). Qed.
Lemma handed_raw : forall ms,
  filter (fun o => match o with OStartBegin => true | _ => false end) (discard ms) = [].
Proof. intro ms. apply length_zero_iff_nil. exact (handed_discard ms). Qed.
Lemma task_over_raw : forall ms,
  existsb (fun o => match o with OReturn _ | OCrash => true | _ => false end) (discard ms) = false.
Proof. exact task_over_discard. Qed.

Ltac count_trace :=
  cbn; split_vars; cbn; rewrite ?filter_app, ?over_raw, ?handed_raw, ?handled_app, ?handled_discard;
  cbn; rewrite ?filter_app, ?over_raw, ?handed_raw, ?handled_app, ?handled_discard; cbn.

Lemma step_ext : forall s e s' o, step s e = Some (s', o) ->
  ext s' + given_up [e] = ext s + acquired [e] + handed_to_on_start o.
Proof.
  intros s e s' o H. unfold given_up, acquired, handed_to_on_start.
  destruct e; step_cases H; bool_hyps; repeat match goal with E : (_ <? _) = true |- _ => apply Nat.ltb_lt in E end; count_trace.
  all: lia.
Qed.

Lemma step_current : forall s e s' o, step s e = Some (s', o) ->
  current (ph s') + over o = current (ph s) + length (handled o).
Proof.
  intros s e s' o H. unfold over.
  destruct e; step_cases H; bool_hyps; step_rewrite; count_trace.
  all: reflexivity.
Qed.

Lemma step_own : forall s e s' o, wf s -> step s e = Some (s', o) ->
  own (ph s') = match e with ADowngrade => 0 | _ => own (ph s) end.
Proof.
  intros s e s' o W H. destruct W as [_ [_ W2 _ _] _].
  destruct e; step_cases H; bool_hyps; step_rewrite; cbn in *; try reflexivity.
  all: try (destruct W2 as [_ W2]; specialize (W2 eq_refl); congruence).
Qed.

Lemma step_reg : forall s e s' o, wf s -> step s e = Some (s', o) ->
  in_reg s' = match e with ERegister => true | ARegRemove => false | _ => in_reg s end.
Proof. intros s e s' o _ H. destruct e; step_cases H; reflexivity. Qed.

Lemma step_over : forall s e s' o, step s e = Some (s', o) ->
  threaded s' = threaded s /\ ended (ph s') = ended (ph s) || task_over o.
Proof.
  intros s e s' o H. unfold task_over.
  destruct e; step_cases H; split; try reflexivity; step_rewrite;
    cbn; split_vars; cbn; rewrite ?existsb_app, ?task_over_raw; cbn;
    rewrite ?existsb_app, ?task_over_raw; cbn; rewrite ?orb_true_r, ?orb_false_r; reflexivity.
Qed.

Lemma strong_split : forall s, strong s =
  ext s + length (pend s) + current (ph s) + own (ph s) + (if in_reg s then 1 else 0)
  + (if threaded s && negb (ended (ph s)) then 1 else 0).
Proof.
  intro s. unfold strong, pend. rewrite !app_length.
  assert (phase_refs (ph s) = own (ph s) + length (rest_of (ph s)) + current (ph s)).
  { destruct (ph s) eqn:Ep; try reflexivity; try (cbn; lia);
      match goal with p : loop_pc |- _ => destruct p end; cbn; lia. }
  lia.
Qed.

Lemma own_ref_snoc : forall es e,
  own_ref (es ++ [e]) = match e with ADowngrade => 0 | _ => own_ref es end.
Proof.
  intros es e. unfold own_ref. rewrite existsb_app. cbn.
  destruct e; rewrite ?orb_false_r, ?orb_true_r; reflexivity.
Qed.
Lemma registered_snoc : forall es e,
  registered (es ++ [e]) = match e with ERegister => true | ARegRemove => false | _ => registered es end.
Proof. intros es e. unfold registered. rewrite rev_unit. cbn. destruct e; reflexivity. Qed.
Lemma acquired_app : forall a b, acquired (a ++ b) = acquired a + acquired b.
Proof. intros. unfold acquired. rewrite filter_app, app_length. reflexivity. Qed.
Lemma given_up_app : forall a b, given_up (a ++ b) = given_up a + given_up b.
Proof. intros. unfold given_up. rewrite filter_app, app_length. reflexivity. Qed.

Lemma run_counted_parts : forall c es s tr, exec (init c) es = Some (s, tr) ->
  wf s
  /\ ext s + given_up es = c_refs c + acquired es + handed_to_on_start tr
  /\ length (pend s) + current (ph s) + length (discarded tr) + over tr = length (accepted tr)
  /\ own (ph s) = own_ref es /\ in_reg s = registered es
  /\ threaded s = c_threaded c /\ ended (ph s) = task_over tr.
Proof.
  intros c es. induction es as [|e es IH] using rev_ind; intros s tr H.
  - cbn in H. injection H as <- <-. split; [apply wf_init|]. cbn. repeat split; lia.
  - apply exec_snoc in H. destruct H as (s1 & o1 & o2 & H1 & H2 & ->).
    destruct (IH _ _ H1) as (W & A & B & C & D & E & F).
    pose proof (step_ext _ _ _ _ H2). pose proof (step_current _ _ _ _ H2).
    pose proof (step_own _ _ _ _ W H2) as Ow. pose proof (step_reg _ _ _ _ W H2) as Rg.
    destruct (step_over _ _ _ _ H2) as [Th En].
    pose proof (Permutation_length (conserve_step _ _ _ _ H2)) as P.
    rewrite !app_length in P.
    rewrite own_ref_snoc, registered_snoc, acquired_app, given_up_app, handed_app, over_app,
      task_over_app, discarded_app, accepted_app, !app_length.
    split; [eapply wf_step; eassumption|].
    split; [lia|]. split; [lia|].
    split; [rewrite Ow, C; destruct e; reflexivity|].
    split; [rewrite Rg, D; destruct e; reflexivity|].
    split; congruence.
Qed.

Lemma run_counted : forall c es s tr, exec (init c) es = Some (s, tr) ->
  strong s + refs_gone es tr = refs_made c es tr.
Proof.
  intros c es s tr H. destruct (run_counted_parts _ _ _ _ H) as (_ & A & B & C & D & E & F).
  rewrite strong_split. unfold refs_gone, refs_made. rewrite C, D, E, F. lia.
Qed.

Lemma run_upgradable : forall c es s tr, exec (init c) es = Some (s, tr) ->
  ((exists s' o, step s EAcquire = Some (s', o)) <-> refs_gone es tr < refs_made c es tr).
Proof.
  intros c es s tr H. rewrite <- (run_counted _ _ _ _ H). cbn [step].
  destruct (0 <? strong s) eqn:E.
  - apply Nat.ltb_lt in E. split; [lia|]. intros _. eauto.
  - apply Nat.ltb_ge in E. split; [intros (s' & o & K); discriminate K|lia].
Qed.
