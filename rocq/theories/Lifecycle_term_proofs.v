(** Progress and termination of an actor's task. *)
From Coq Require Import List Bool PeanoNat Permutation Lia Wf_nat.
Import ListNotations.
From Verif Require Import Lifecycle Lifecycle_spec Lifecycle_proofs Lifecycle_order_proofs
  Lifecycle_fifo_proofs Lifecycle_stop_proofs Lifecycle_wait_proofs.

Definition weight (p : phase) : nat :=
  match p with
  | PInit => 63 | PStarting => 62 | PStarted _ => 61 | PSignal _ => 60 | PDowngrade _ _ => 49
  | PFailPanic _ => 30 | PFailStop _ => 29 | PFailSet _ _ => 28
  | PLoop LEntry => 24 | PLoop LRecv => 23
  | PLoop (LHandle _ owned rest _) => 25 + (if owned then 1 else 0) + 8 * length rest
  | PLoop (LLink _ _) => 27 | PLoop (LLinkRm _ _) => 26 | PLoop (LPanic _) => 24
  | PDrainLinks _ => 11
  | PStop _ pend => 10 + length pend | PNotify _ _ pend => 9 + length pend
  | PRegRemove _ _ => 8 | PSet _ _ => 7 | PClosing _ => 6
  | PDone _ | PCrashed => 0
  end.

(** Work left if nothing new arrives. *)
Definition mu (s : actor) : nat :=
  10 * length (queue s) + 8 * length (buf s) + length (links s) + weight (ph s).

Lemma remove_length_le' : forall x l, length (remove Nat.eq_dec x l) <= length l.
Proof. induction l as [|y l IH]; cbn; [lia|]. destruct (Nat.eq_dec x y); cbn; lia. Qed.

Lemma remove_length_in : forall x l, In x l -> length (remove Nat.eq_dec x l) < length l.
Proof.
  induction l as [|y l IH]; cbn; [tauto|]. intros [->|H].
  - destruct (Nat.eq_dec x x); [|congruence]. pose proof (remove_length_le' x l). lia.
  - destruct (Nat.eq_dec x y); cbn; [pose proof (remove_length_le' x l); lia|].
    specialize (IH H). lia.
Qed.

Lemma mu_step : forall s e s' o, step s e = Some (s', o) -> is_task e = true ->
  mu s' <= mu s /\ (is_work e = true -> mu s' < mu s).
Proof.
  intros s e s' o H T. destruct e; try discriminate T; clear T.
  all: assert (G : forall x : nat, existsb (Nat.eqb x) [] = false) by reflexivity; clear G.
  all: step_cases H; bool_hyps; unfold mu; cbn [is_work is_task]; simp_fields.
  all: repeat match goal with E : ph ?s = _ |- _ => rewrite E end;
       repeat match goal with E : queue ?s = _ |- _ => rewrite E end;
       repeat match goal with E : buf ?s = _ |- _ => rewrite E end.
  all: rewrite ?app_length; cbn [length weight].
  all: try match goal with
    | |- context [remove Nat.eq_dec ?x ?l] =>
        pose proof (remove_length_le' x l);
        try (assert (In x l) by (apply existsb_eqb; assumption);
             pose proof (remove_length_in x l ltac:(assumption)))
    end.
  all: try match goal with pc : loop_pc |- _ => destruct pc end.
  all: repeat match goal with |- context [if ?b then _ else _] => destruct b end.
  all: cbn [length weight] in *.
  all: unfold actor_id in *; try (split; [lia|intro; first [discriminate|lia]]).
Qed.

Lemma work_bound : forall es s s' tr, exec s es = Some (s', tr) -> forallb is_task es = true ->
  work es + mu s' <= mu s.
Proof.
  induction es as [|e es IH]; intros s s' tr H T; cbn [exec forallb] in *.
  - injection H as <- <-. cbn. lia.
  - destruct (step s e) as [[s1 o1]|] eqn:E; [|discriminate].
    destruct (exec s1 es) as [[s2 o2]|] eqn:E2; [|discriminate]. injection H as <- <-.
    apply andb_true_iff in T. destruct T as [T1 T2].
    specialize (IH _ _ _ E2 T2). destruct (mu_step _ _ _ _ E T1) as [M1 M2].
    unfold work in *. cbn [filter]. destruct (is_work e); cbn [length]; [specialize (M2 eq_refl)|]; lia.
Qed.

(** A stop is on its way: queued, being executed, or the loop has been left. *)
Definition stop_coming (s : actor) : Prop :=
  In SStop (queue s)
  \/ match ph s with
     | PLoop (LHandle _ _ _ ToStop) => True
     | PLoop _ => False
     | p => over p = true
     end.

Lemma stop_coming_step : forall s e s' o,
  step s e = Some (s', o) -> stop_coming s -> (forall f, ~ In (OPanicHook f) o) -> stop_coming s'.
Proof.
  intros s e s' o H SC NF. unfold stop_coming in *.
  destruct e; step_cases H; bool_hyps; phs; qs; cbn in *; auto.
  all: try (rewrite in_app_iff; tauto).
  all: try (exfalso; eapply NF; cbn; rewrite ?in_app_iff; cbn; eauto; fail).
  all: try (destruct SC as [SC|SC]; [left; exact SC|try contradiction SC]; auto; fail).
  all: try (destruct SC as [[SC|SC]|SC]; try discriminate SC; try contradiction SC; auto; fail).
  all: try (destruct SC as [SC|SC]; [left; exact SC|]).
  all: try (destruct k; auto; fail).
  all: try tauto.
  all: try (destruct SC as [SC|SC]; [left; rewrite ?in_app_iff in *; tauto|right; exact SC]).
  discriminate SC.
Qed.

Lemma progress : forall s, wf s -> ended (ph s) = false ->
  waits s \/
  exists es s' tr, forallb is_task es = true /\ exec s es = Some (s', tr) /\ mu s' < mu s
    /\ (stop_coming s -> stop_coming s').
Proof.
  intros s W He.
  (* one working step, possibly after being polled *)
  assert (ONE : forall e s' o, is_work e = true -> step s e = Some (s', o) ->
      (stop_coming s -> stop_coming s') ->
      exists es s' tr, forallb is_task es = true /\ exec s es = Some (s', tr) /\ mu s' < mu s
        /\ (stop_coming s -> stop_coming s')).
  { intros e s' o Hw Hs Hk. exists [e], s', (o ++ []). cbn.
    assert (Ht : is_task e = true) by (destruct e; cbn in *; auto; discriminate).
    rewrite Ht, Hs. repeat split; auto. apply (mu_step _ _ _ _ Hs Ht). exact Hw. }
  assert (STEP : forall e, is_work e = true ->
      (exists s' o, step s e = Some (s', o) /\ (stop_coming s -> stop_coming s')) ->
      exists es s' tr, forallb is_task es = true /\ exec s es = Some (s', tr) /\ mu s' < mu s
        /\ (stop_coming s -> stop_coming s')).
  { intros e Hw (s' & o & Hs & Hk). eapply ONE; eauto. }
  destruct (ph s) as [| |res|res|res sf|f|r|r res|pc|r|r pend|r res pend|r res|r res|r|r|] eqn:Hp;
    try discriminate He.
  - right. apply (STEP AStart eq_refl). cbn. rewrite Hp. do 2 eexists. split; [reflexivity|].
    unfold stop_coming. rewrite Hp. cbn. tauto.
  - right. apply (STEP (AStartDone HookOk) eq_refl). cbn. rewrite Hp. do 2 eexists. split; [reflexivity|].
    unfold stop_coming. rewrite Hp. cbn. tauto.
  - right. apply (STEP ASetStartup eq_refl). cbn. rewrite Hp.
    destruct (startup_err s); do 2 eexists; (split; [reflexivity|]);
    unfold stop_coming; rewrite Hp; cbn; auto; tauto.
  - right. apply (STEP ASignal eq_refl). cbn. rewrite Hp.
    destruct (rx_open s && has_room s); do 2 eexists; (split; [reflexivity|]);
    unfold stop_coming; rewrite Hp; cbn; rewrite ?in_app_iff; tauto.
  - right. apply (STEP ADowngrade eq_refl). cbn. rewrite Hp.
    destruct res; do 2 eexists; (split; [reflexivity|]);
    unfold stop_coming; rewrite Hp; cbn; auto; intros [X|X]; [auto|discriminate X].
  - right. apply (STEP (APanicDone (FlowOk Continue)) eq_refl). cbn. rewrite Hp.
    do 2 eexists; (split; [reflexivity|]). unfold stop_coming; rewrite Hp; cbn; auto.
  - right. apply (STEP (AStopDone HookOk) eq_refl). cbn. rewrite Hp.
    do 2 eexists; (split; [reflexivity|]). unfold stop_coming; rewrite Hp; cbn; auto.
  - right. apply (STEP ASetShutdown eq_refl). cbn [step]. rewrite Hp.
    destruct (0 <? strong s); [destruct (shutdown_err s)|]; do 2 eexists; (split; [reflexivity|]);
    unfold stop_coming; rewrite Hp; cbn; auto.
  - (* the loop *)
    assert (ABORT : aborted s = true ->
      exists es s' tr, forallb is_task es = true /\ exec s es = Some (s', tr) /\ mu s' < mu s
        /\ (stop_coming s -> stop_coming s')).
    { intro Ha.
      exists [if polling s then AYield else APoll],
        (fst (abort_loop pc s)), (snd (abort_loop pc s) ++ []).
      assert (M : mu (fst (abort_loop pc s)) < mu s).
      { unfold mu. rewrite Hp. cbn. destruct pc; cbn; lia. }
      assert (K : stop_coming (fst (abort_loop pc s))) by (unfold stop_coming; cbn; auto).
      destruct (polling s) eqn:Hpo; cbn [forallb is_task exec step]; rewrite Hp, Hpo, Ha;
        destruct (abort_loop pc s); cbn [fst snd andb] in *; auto. }
    destruct (aborted s) eqn:Ha; [right; apply ABORT; reflexivity|].
    (* a step of the loop, once polled *)
    assert (LOOP : (exists e s1 o, is_work e = true /\ step (set_polling true s) e = Some (s1, o)
              /\ (stop_coming s -> stop_coming s1)) ->
      exists es s' tr, forallb is_task es = true /\ exec s es = Some (s', tr) /\ mu s' < mu s
        /\ (stop_coming s -> stop_coming s')).
    { intros (e & s1 & o & Hw & Hs & Hk).
      assert (Ht : is_task e = true) by (destruct e; cbn in *; auto; discriminate).
      assert (Hm : mu s1 < mu (set_polling true s)) by (apply (mu_step _ _ _ _ Hs Ht); exact Hw).
      destruct (polling s) eqn:Hpo.
      - exists [e], s1, (o ++ []). cbn [forallb exec]. rewrite Ht.
        replace s with (set_polling true s) at 1 by (destruct s; cbn in *; subst; reflexivity).
        rewrite Hs. repeat split; auto.
      - exists [APoll; e], s1, ([] ++ o ++ []). cbn [forallb exec]. rewrite Ht.
        cbn [step]. rewrite Hp, Hpo, Ha, Hs. repeat split; auto. }
    destruct pc as [| |m owned rest k|id r|id res|f].
    + right. apply LOOP. exists ARecv. cbn. rewrite Hp.
      unfold startup_finished, drain, begin_handle. cbn.
      destruct W as [[_ Wp _ _] _ _]. unfold at_phase in Wp. rewrite Hp in Wp.
      destruct Wp as (_ & Wb & _). rewrite Wb.
      do 2 eexists. split; [reflexivity|]. split; [reflexivity|].
      unfold stop_coming; rewrite Hp; cbn; tauto.
    + destruct (queue s) as [|sg q] eqn:Hq.
      * destruct (Nat.eq_dec (strong s) 0) as [Hs|Hs]; [|left; repeat split; auto; lia].
        right. apply LOOP. exists ARecv. cbn [step].
        replace (strong (set_polling true s)) with (strong s) by reflexivity.
        cbn. rewrite Hp, Hq, Hs. cbn.
        unfold startup_finished, drain, begin_handle. cbn.
        destruct (buf s); do 2 eexists; (split; [reflexivity|]); (split; [reflexivity|]);
          unfold stop_coming; cbn; auto.
      * right. apply LOOP. exists ARecv. cbn [step]. cbn. rewrite Hp, Hq. cbn.
        unfold on_signal, startup_finished, drain, begin_handle, shutdown_with, exit_loop. cbn.
        destruct sg as [|m|id r|]; cbn.
        -- destruct (buf s); do 2 eexists; (split; [reflexivity|]); (split; [reflexivity|]);
             unfold stop_coming; rewrite Hp, Hq; cbn; intros [[X|X]|X]; try discriminate X; tauto.
        -- destruct (negb (inside m) && negb (finished s)); do 2 eexists; (split; [reflexivity|]);
             (split; [reflexivity|]); unfold stop_coming; cbn; rewrite Hp, Hq; cbn;
             intros [[X|X]|X]; try discriminate X; tauto.
        -- do 2 eexists; (split; [reflexivity|]); (split; [reflexivity|]);
             unfold stop_coming; rewrite Hp, Hq; cbn; intros [[X|X]|X]; try discriminate X; tauto.
        -- destruct (buf s); do 2 eexists; (split; [reflexivity|]); (split; [reflexivity|]);
             unfold stop_coming; cbn; auto.
    + right. apply LOOP. exists (AHandleDone (OutOk 0)). cbn. rewrite Hp. unfold handler_done, drain, begin_handle.
      destruct rest as [|m1 rest].
      * destruct k; cbn; do 2 eexists; (split; [reflexivity|]); (split; [reflexivity|]);
          unfold stop_coming; rewrite Hp; cbn; auto.
      * cbn; do 2 eexists; (split; [reflexivity|]); (split; [reflexivity|]);
          unfold stop_coming; rewrite Hp; cbn; auto.
    + right. apply LOOP. exists (ALinkDone (FlowOk Continue)). cbn. rewrite Hp.
      do 2 eexists; (split; [reflexivity|]); (split; [reflexivity|]);
          unfold stop_coming; rewrite Hp; cbn; auto.
    + right. apply LOOP. exists ALinkRm. cbn. rewrite Hp. unfold link_done, shutdown_with, exit_loop.
      destruct res as [[|r]|f]; [|destruct r|]; cbn; do 2 eexists; (split; [reflexivity|]); (split; [reflexivity|]);
          unfold stop_coming; rewrite Hp; cbn; auto; tauto.
    + right. apply LOOP. exists (APanicDone (FlowOk Continue)). cbn. rewrite Hp. cbn.
      do 2 eexists; (split; [reflexivity|]); (split; [reflexivity|]);
          unfold stop_coming; rewrite Hp; cbn; auto.
  - right. apply (STEP ADrainLinks eq_refl). cbn. rewrite Hp.
    do 2 eexists; (split; [reflexivity|]). unfold stop_coming; rewrite Hp; cbn; auto.
  - right. apply (STEP (AStopDone HookOk) eq_refl). cbn. rewrite Hp.
    do 2 eexists; (split; [reflexivity|]). unfold stop_coming; rewrite Hp; cbn; auto.
  - right. destruct pend as [|id pend].
    + apply (STEP ANotifyEnd eq_refl). cbn. rewrite Hp.
      do 2 eexists; (split; [reflexivity|]). unfold stop_coming; rewrite Hp; cbn; auto.
    + apply (STEP (ANotify id true) eq_refl). cbn. rewrite Hp. cbn [existsb]. rewrite Nat.eqb_refl.
      do 2 eexists; (split; [reflexivity|]). unfold stop_coming; rewrite Hp; cbn; auto.
  - right. apply (STEP ARegRemove eq_refl). cbn. rewrite Hp.
    do 2 eexists; (split; [reflexivity|]). unfold stop_coming; rewrite Hp; cbn; auto.
  - right. apply (STEP ASetShutdown eq_refl). cbn [step]. rewrite Hp.
    destruct (0 <? strong s); [destruct (shutdown_err s)|]; do 2 eexists; (split; [reflexivity|]);
    unfold stop_coming; rewrite Hp; cbn; auto.
  - right. apply (STEP AClose eq_refl). cbn. rewrite Hp.
    do 2 eexists; (split; [reflexivity|]). unfold stop_coming; rewrite Hp; cbn; auto.
Qed.

Lemma exec_wf : forall es s s' tr, wf s -> exec s es = Some (s', tr) -> wf s'.
Proof.
  intros es s s' tr W H.
  apply (exec_invariant (fun s _ => wf s) s) with (es := es) (tr := tr); auto.
  intros. eapply wf_step; eauto.
Qed.

(** Left alone, the task ends or falls asleep - and it ends if a stop is coming. *)
Lemma settles : forall s, wf s ->
  exists es s' tr, forallb is_task es = true /\ exec s es = Some (s', tr)
    /\ (ended (ph s') = true \/ waits s')
    /\ (stop_coming s -> ended (ph s') = true).
Proof.
  intro s. induction s as [s IH] using (induction_ltof1 _ mu). unfold ltof in IH. intro W.
  destruct (ended (ph s)) eqn:He.
  - exists [], s, []. cbn. auto.
  - destruct (progress s W He) as [Hw|(es & s1 & tr & T & E & M & K)].
    + exists [], s, []. cbn. repeat split; auto.
      intros [X|X]; destruct Hw as (H1 & H2 & _).
      * rewrite H2 in X. destruct X.
      * rewrite H1 in X. destruct X.
    + destruct (IH s1 M (exec_wf _ _ _ _ W E)) as (es' & s2 & tr' & T' & E' & R1 & R2).
      exists (es ++ es'), s2, (tr ++ tr'). rewrite forallb_app, T, T', exec_app, E, E'. repeat split; auto.
Qed.

Lemma stop_accepted : forall c es s tr,
  exec (init c) es = Some (s, tr) -> In (OAccept SStop) tr -> no_failure tr -> stop_coming s.
Proof.
  intros c es s tr H.
  apply (exec_invariant (fun s tr => In (OAccept SStop) tr -> no_failure tr -> stop_coming s) (init c))
    with (es := es); auto.
  - intros [].
  - clear. intros s tr e s' o IH H KA KF.
    assert (NF : forall f, ~ In (OPanicHook f) o).
    { intros f K. apply (KF f). apply in_or_app. auto. }
    apply in_app_or in KA. destruct KA as [KA|KA].
    + eapply stop_coming_step; eauto. apply IH; auto. eapply no_failure_l; eauto.
    + clear - H KA. destruct e; step_cases H; bool_hyps; split_vars; in_obs KA; try discriminate KA.
      left. cbn. apply in_or_app. right. left. reflexivity.
Qed.

(** A stop accepted while the actor is past its startup phase is never lost,
    whatever fails later. *)
Lemma stop_coming_steady : forall es s0 s o,
  steady s0 -> link_noted s0 [] -> exec s0 es = Some (s, o) ->
  In (OAccept SStop) o -> stop_coming s.
Proof.
  intros es s0 s o S0 L0 H KA.
  destruct (fifo_exec _ _ _ _ S0 L0 H) as (c & rest & E1 & _ & E3 & [(_ & -> & _)|(P & _)]).
  - left. apply accept_signal_in in KA.
    assert (K : In SStop (c ++ queue s)) by (rewrite <- E1; apply in_or_app; auto).
    apply in_app_or in K. destruct K as [K|K]; [|exact K]. exfalso.
    assert (existsb is_stop_signal c = true) by (apply existsb_exists; eauto). congruence.
  - right. unfold over. destruct (ph s); try discriminate P; reflexivity.
Qed.
