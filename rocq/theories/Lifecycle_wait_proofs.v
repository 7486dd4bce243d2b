(** Waiting for startup and shutdown, priority of self-sent startup messages,
    termination. *)
From Coq Require Import List Bool PeanoNat Permutation Lia.
Import ListNotations.
From Verif Require Import Lifecycle Lifecycle_spec Lifecycle_proofs Lifecycle_order_proofs
  Lifecycle_fifo_proofs Lifecycle_stop_proofs.

Ltac phs := repeat match goal with E : ph ?s = _ |- _ => rewrite E in * end.
Ltac qs := repeat match goal with E : queue ?s = _ |- _ => rewrite E in * end.

(** ** Startup *)

(** The result of on_start known at a program point. *)
Definition start_known (s : actor) (tr : list obs) : Prop :=
  match ph s with
  | PInit | PStarting => forall res, ~ In (OStartEnd res) tr
  | PStarted res | PSignal res | PDowngrade res _ =>
      In (OStartEnd res) tr /\ forall res', In (OStartEnd res') tr -> res' = res
  | PFailPanic _ | PFailStop _ | PFailSet _ _ =>
      permit_adds s > 0 /\ exists f, In (OStartEnd (HookFail f)) tr
  | PLoop _ => In (OStartEnd HookOk) tr /\ forall f, ~ In (OStartEnd (HookFail f)) tr
  | _ => forall f, In (OStartEnd (HookFail f)) tr -> permit_adds s > 0
  end.

Record startup_inv (s : actor) (tr : list obs) : Prop := mk_startup_inv {
  si_known : start_known s tr;
  si_err : forall v, startup_err s = Some v -> exists res, In (OStartEnd res) tr /\ v = error_of res;
  si_marker : markers (queue s) > 0 -> In (OAccept SStartup) tr;
  si_permits : permit_adds s > 0 ->
    In (OAccept SStartup) tr \/ exists f, In (OStartEnd (HookFail f)) tr;
  si_saw : forall v, In (OSawStartup v) tr ->
    permit_adds s > 0 /\ exists res, In (OStartEnd res) tr /\ v = Some (error_of res);
  si_loop : In (OAccept SStartup) tr ->
    match ph s with
    | PInit | PStarting | PStarted _ | PSignal _ => False
    | PDowngrade _ _ | PLoop _ => permit_adds s + markers (queue s) > 0
    | _ => True
    end
}.

(** What one step adds, as far as startup is concerned. *)
Definition start_obs (o : obs) : bool :=
  match o with OStartEnd _ | OSawStartup _ | OAccept SStartup => true | _ => false end.

Lemma quiet_app : forall x tr o,
  (forall y, In y o -> start_obs y = false) -> start_obs x = true ->
  (In x (tr ++ o) <-> In x tr).
Proof.
  intros x tr o Q Hx. rewrite in_app_iff. split; [|auto].
  intros [H|H]; [exact H|]. rewrite (Q _ H) in Hx. discriminate Hx.
Qed.

Lemma startup_quiet_step : forall s e s' o,
  wf s -> step s e = Some (s', o) ->
  match e with AStartDone _ | ASignal | EWaitStartup => False | _ => True end ->
  (forall y, In y o -> start_obs y = false)
  /\ (ph s' = ph s
      \/ match ph s, ph s' with
         | PInit, PStarting => True
         | PStarted r, PSignal r' => r = r'
         | PDowngrade HookOk _, PLoop _ => True
         | PDowngrade (HookFail f) _, PFailPanic _ => permit_adds s' > 0
         | PLoop _, PLoop _ => True
         | PLoop _, p => past_loop p = true
         | PFailPanic _, PFailStop _ | PFailStop _, PFailSet _ _ => True
         | (PFailPanic _ | PFailStop _ | PFailSet _ _), p => past_loop p = true
         | p, p' => past_loop p = true /\ past_loop p' = true
         end)
  /\ (startup_err s' = startup_err s
      \/ exists res, ph s = PStarted res /\ startup_err s' = Some (error_of res))
  /\ permit_adds s <= permit_adds s'
  /\ (permit_adds s' > permit_adds s -> markers (queue s) > 0 \/ exists f sf, ph s = PDowngrade (HookFail f) sf)
  /\ markers (queue s') <= markers (queue s)
  /\ (match ph s' with PDowngrade _ _ | PLoop _ => True | _ => False end ->
        permit_adds s' + markers (queue s') >= permit_adds s + markers (queue s)).
Proof.
  intros s e s' o W H HE. destruct W as [_ [_ Wc _ _] _].
  destruct e; try destruct HE; step_cases H; bool_hyps; phs; qs; try discriminate; split_vars.
  all: split; [cbn; let y := fresh in let K := fresh in intros y K; in_obs K; subst; reflexivity|].
  all: split; [cbn; phs; auto; try (right; repeat split; reflexivity)|].
  all: cbn; rewrite ?markers_app; cbn; qs; cbn.
  all: try (exfalso; match goal with E : startup_err ?s = Some _, W : startup_err ?s = None <-> _ |- _ =>
         rewrite E in W; discriminate (proj2 W eq_refl) end).
  all: try match goal with |- _ = _ \/ _ => right; repeat split; lia end.
  all: try match goal with |- (_ = _ \/ _) /\ _ => split; [left; reflexivity|] end.
  all: try (split; [lia|]).
  all: try (split; [intro; lia|]).
  all: try (split; [lia|]).
  all: try (intros; try discriminate; lia).
  - discriminate (proj2 Wc eq_refl).
  - discriminate (proj2 Wc eq_refl).
  - split; [right; eexists; split; reflexivity|]. repeat split; intros; try discriminate; lia.
  - split; [right; eexists; split; reflexivity|]. repeat split; intros; try discriminate; lia.
  - split; [intros _; right; eexists _, _; reflexivity|]. split; intros; try discriminate; lia.
Qed.

Lemma startup_inv_step : forall s tr e s' o,
  wf s -> startup_inv s tr -> step s e = Some (s', o) -> startup_inv s' (tr ++ o).
Proof.
  intros s tr e s' o W I H.
  destruct (match e with AStartDone _ | ASignal | EWaitStartup => true | _ => false end) eqn:He.
  - destruct I as [I1 I2 I3 I4 I5 I6]. unfold start_known in I1.
    destruct e; try discriminate He; clear He.
    + (* EWaitStartup *)
      step_cases H; bool_hyps.
      assert (Q : forall x, In x (tr ++ [OSawStartup (startup_err s)]) -> In x tr \/ x = OSawStartup (startup_err s)).
      { intros x Hx. apply in_app_or in Hx. destruct Hx as [Hx|[Hx|[]]]; auto. }
      assert (Q2 : forall x, In x tr -> In x (tr ++ [OSawStartup (startup_err s)])).
      { intros x Hx. apply in_or_app. auto. }
      assert (Q3 : forall res, In (OStartEnd res) (tr ++ [OSawStartup (startup_err s)]) -> In (OStartEnd res) tr).
      { intros res Hx. destruct (Q _ Hx) as [K|K]; [exact K|discriminate K]. }
      constructor.
      * unfold start_known. destruct (ph s); split_ands; try (split; auto; fail); auto.
        -- intros res K. apply (I1 res). auto.
        -- intros res K. apply (I1 res). auto.
        -- destruct H2 as [f9 Hf]. split; [lia|]. exists f9. auto.
        -- destruct H2 as [f9 Hf]. split; [lia|]. exists f9. auto.
        -- destruct H2 as [f9 Hf]. split; [lia|]. exists f9. auto.
        -- split; [auto|]. intros f9 K. apply (H2 f9). auto.
      * intros v Hv. destruct (I2 v Hv) as (res & K1 & K2). eauto.
      * auto.
      * intro K. destruct (I4 K) as [A|[f A]]; eauto.
      * intros v Hv. destruct (Q _ Hv) as [K|K].
        -- destruct (I5 _ K) as (K1 & res & K2 & K3). split; [lia|]. eauto.
        -- split; [lia|]. injection K as ->.
           destruct (startup_err s) as [v|] eqn:Ev.
           ++ destruct (I2 v eq_refl) as (res & K1 & ->). eauto.
           ++ exfalso. destruct W as [[_ Wp _ _] [_ Wc _ _] _]. apply (proj1 Wc) in Ev.
              unfold at_phase in Wp. destruct (ph s); try discriminate Ev; split_ands; lia.
      * intros K. apply I6. destruct (Q _ K) as [K'|K']; [exact K'|discriminate K'].
    + (* AStartDone *)
      step_cases H. destruct W as [[_ Wp _ _] _ _]. unfold at_phase in Wp. phs. split_ands.
      assert (NS : forall v, In (OSawStartup v) tr -> False).
      { intros v Hv. destruct (I5 _ Hv). lia. }
      constructor; cbn.
      * unfold start_known. cbn. split.
        -- apply in_or_app. right. left. reflexivity.
        -- intros res' K. apply in_app_or in K. destruct K as [K|[K|[]]].
           ++ destruct (I1 _ K).
           ++ congruence.
      * intros v Hv. destruct (I2 v Hv) as (res' & K & _). destruct (I1 _ K).
      * intro K. lia.
      * intro K. lia.
      * intros v Hv. apply in_app_or in Hv. destruct Hv as [Hv|[Hv|[]]]; [destruct (NS _ Hv)|discriminate Hv].
      * intros K. apply in_app_or in K. destruct K as [K|[K|[]]]; [|discriminate K]. destruct (I6 K).
    + (* ASignal *)
      destruct W as [[_ Wp _ _] _ _]. unfold at_phase in Wp.
      step_cases H; phs; split_ands.
      all: assert (NS : forall v, In (OSawStartup v) tr -> False)
        by (intros v Hv; destruct (I5 _ Hv); lia).
      * constructor; cbn.
        -- unfold start_known. cbn. split.
           ++ apply in_or_app. auto.
           ++ intros res' K. apply in_app_or in K. destruct K as [K|[K|[]]]; [auto|discriminate K].
        -- intros v Hv. destruct (I2 v Hv) as (res' & K & ->). exists res'. split; [apply in_or_app; auto|reflexivity].
        -- intros _. apply in_or_app. right. left. reflexivity.
        -- intro K. lia.
        -- intros v Hv. apply in_app_or in Hv. destruct Hv as [Hv|[Hv|[]]]; [destruct (NS _ Hv)|discriminate Hv].
        -- intros _. rewrite markers_app. cbn. lia.
      * rewrite app_nil_r. constructor; cbn; auto.
        intro K. destruct (I6 K).
  - assert (HE : match e with AStartDone _ | ASignal | EWaitStartup => False | _ => True end).
    { destruct e; try exact Logic.I; discriminate He. }
    destruct (startup_quiet_step _ _ _ _ W H HE) as (Q & Hp & Hs & Hle & Hgt & Hm & Hl).
    destruct I as [I1 I2 I3 I4 I5 I6].
    assert (QE : forall res, In (OStartEnd res) (tr ++ o) <-> In (OStartEnd res) tr)
      by (intro res; apply quiet_app; auto).
    assert (QA : In (OAccept SStartup) (tr ++ o) <-> In (OAccept SStartup) tr)
      by (apply quiet_app; auto).
    assert (QS : forall v, In (OSawStartup v) (tr ++ o) <-> In (OSawStartup v) tr)
      by (intro v; apply quiet_app; auto).
    constructor.
    + unfold start_known in *. destruct Hp as [Hp|Hp].
      * rewrite Hp. destruct (ph s) eqn:Ep; split_ands; repeat setoid_rewrite QE; auto;
          try (split; [lia|]); auto.
        all: intros f9 K; apply I1 in K; lia.
      * destruct (ph s) eqn:Ep; destruct (ph s') eqn:Ep'; cbn in Hp; try contradiction;
          try (destruct Hp; discriminate); try discriminate Hp;
          repeat match type of Hp with
                 | match ?x with _ => _ end => destruct x
                 end; cbn in Hp; try contradiction; try discriminate Hp;
          try (destruct Hp; discriminate); subst; split_ands;
          repeat setoid_rewrite QE; auto; try (split; [lia|]); auto; try lia.
        all: try (intros; exfalso; eauto; fail).
        all: try (split; [assumption|]; intros f9 K; specialize (H1 _ K); discriminate).
        all: try (eexists; eassumption).
        all: try (intros f9 K; apply I1 in K; lia).
        all: intros f9 K; exfalso; match goal with X : forall f : failure, ~ _ |- _ => apply (X _ K) end.
    + intros v Hv. destruct Hs as [Hs|(res & Hs & Hs')].
      * rewrite Hs in Hv. destruct (I2 v Hv) as (res & K & ->). exists res. rewrite QE. auto.
      * rewrite Hs' in Hv. injection Hv as <-. exists res. rewrite QE. split; [|reflexivity].
        unfold start_known in I1. rewrite Hs in I1. tauto.
    + intro K. rewrite QA. apply I3. lia.
    + intro K. rewrite QA. setoid_rewrite QE.
      destruct (Nat.eq_dec (permit_adds s) 0) as [E|E].
      * destruct Hgt as [G|(f & sf & G)]; [lia| |].
        -- left. apply I3. exact G.
        -- right. exists f. unfold start_known in I1. rewrite G in I1. tauto.
      * apply I4. lia.
    + intros v Hv. rewrite QS in Hv. destruct (I5 _ Hv) as (K1 & res & K2 & K3).
      split; [lia|]. exists res. rewrite QE. auto.
    + intro K. rewrite QA in K. specialize (I6 K). clear - I6 Hp Hl.
      destruct (ph s) eqn:Ep; try contradiction;
        (destruct (ph s') eqn:Ep'; cbn in Hp; auto;
         try (destruct Hp as [Hp|Hp]; try discriminate Hp; try contradiction; try (destruct Hp; discriminate); fail);
         try (specialize (Hl Logic.I); lia)).
      all: destruct Hp as [Hp|Hp]; [discriminate Hp|]; destruct res; destruct Hp; discriminate.
Qed.

Lemma startup_exec : forall c es s tr, exec (init c) es = Some (s, tr) -> startup_inv s tr.
Proof.
  intros c es s tr. apply (exec_invariant_wf startup_inv).
  - apply wf_init.
  - constructor; cbn; auto; try discriminate; try lia; try contradiction.
  - intros. eapply startup_inv_step; eauto.
Qed.

(** When nobody can be waiting in vain: the permits are there once the marker was
    received, or once the lifecycle dealt with a failed on_start. *)
Lemma startup_released : forall c es s tr,
  exec (init c) es = Some (s, tr) ->
  (In (OAccept SStartup) tr /\ markers (queue s) = 0 /\ (exists pc, ph s = PLoop pc)
   \/ (exists f, In (OStartEnd (HookFail f)) tr) /\ starting (ph s) = false) ->
  permit_adds s > 0.
Proof.
  intros c es s tr H [(A & B & pc & C)|((f & A) & B)];
    destruct (startup_exec _ _ _ _ H) as [I1 I2 I3 I4 I5 I6].
  - specialize (I6 A). rewrite C in I6. lia.
  - unfold start_known in I1. destruct (ph s); try discriminate B; try tauto; eauto.
    destruct I1 as [_ I1]. destruct (I1 _ A).
Qed.

(** Program points from which no permit can be added any more. *)
Lemma no_permit_step : forall s e s' o,
  past_loop (ph s) = true -> step s e = Some (s', o) ->
  past_loop (ph s') = true /\ permit_adds s' = permit_adds s.
Proof.
  intros s e s' o P H. split; [apply (past_loop_step _ _ _ _ P H)|].
  destruct e; step_cases H; bool_hyps; phs; try discriminate P; reflexivity.
Qed.

(** Actors in the loop or beyond whose marker was never accepted. *)
Definition beyond_signal (p : phase) : bool :=
  match p with PLoop _ => true | PDowngrade HookOk _ => true | _ => past_loop p end.

Lemma no_marker_step : forall s e s' o,
  beyond_signal (ph s) = true -> markers (queue s) = 0 -> step s e = Some (s', o) ->
  beyond_signal (ph s') = true /\ markers (queue s') = 0 /\ permit_adds s' = permit_adds s.
Proof.
  intros s e s' o B M H.
  destruct e; step_cases H; bool_hyps; phs; qs; try discriminate B; try discriminate M;
    cbn; rewrite ?markers_app, ?M; phs; qs; cbn in *; auto.
Qed.

Lemma never_released : forall es s0 s o,
  permit_adds s0 = 0 ->
  (past_loop (ph s0) = true \/ (beyond_signal (ph s0) = true /\ markers (queue s0) = 0)) ->
  exec s0 es = Some (s, o) -> forall v, ~ In (OSawStartup v) o.
Proof.
  intros es s0 s o P0 D H.
  assert (G : permit_adds s = 0 /\ (forall v, ~ In (OSawStartup v) o)
     /\ (past_loop (ph s) = true \/ (beyond_signal (ph s) = true /\ markers (queue s) = 0))).
  { revert H. apply (exec_invariant (fun s o => permit_adds s = 0 /\ (forall v, ~ In (OSawStartup v) o)
     /\ (past_loop (ph s) = true \/ (beyond_signal (ph s) = true /\ markers (queue s) = 0)))).
    - repeat split; auto.
    - clear. intros s tr e s' o (P & N & D) H.
      assert (N' : forall v, ~ In (OSawStartup v) o).
      { intros v K. destruct e; step_cases H; bool_hyps; split_vars; in_obs K; try discriminate K; lia. }
      assert (NN : forall v, ~ In (OSawStartup v) (tr ++ o)).
      { intros v K. apply in_app_or in K. destruct K as [K|K]; [apply (N _ K)|apply (N' _ K)]. }
      destruct D as [D|[D1 D2]].
      + destruct (no_permit_step _ _ _ _ D H) as [K1 K2]. rewrite K2. auto.
      + destruct (no_marker_step _ _ _ _ D1 D2 H) as (K1 & K2 & K3). rewrite K3. auto. }
  tauto.
Qed.

(** ** Shutdown *)

Definition stop_pending (p : phase) : list actor_id :=
  match p with PStop _ l | PNotify _ _ l => l | _ => [] end.

Definition stop_known (p : phase) (tr : list obs) : Prop :=
  match p with
  | PNotify _ res _ | PRegRemove _ res | PSet _ res | PFailSet _ res => In (OStopHookEnd res) tr
  | _ => True
  end.

Record shutdown_inv (s : actor) (tr : list obs) : Prop := mk_shutdown_inv {
  sh_known : stop_known (ph s) tr;
  sh_err : forall v, shutdown_err s = Some v -> exists res, In (OStopHookEnd res) tr /\ v = error_of res;
  sh_closed : rx_open s = false -> In OClosed tr;
  sh_crash : ph s = PCrashed <-> In OCrash tr;
  sh_saw : forall v, In (OSawShutdown v) tr ->
    In OClosed tr /\ (In OCrash tr \/ exists res, In (OStopHookEnd res) tr /\ v = Some (error_of res));
  sh_links : forall ids id, In (OLinksTaken ids) tr -> In id ids ->
    (exists r d, In (ONotify id r d) tr) \/ In id (stop_pending (ph s)) \/ ph s = PCrashed
}.

Lemma sh_err_step : forall s e s' o v,
  step s e = Some (s', o) -> shutdown_err s' = Some v ->
  shutdown_err s = Some v
  \/ exists r res, (ph s = PSet r res \/ ph s = PFailSet r res) /\ v = error_of res.
Proof.
  intros s e s' o v H K.
  destruct e; step_cases H; bool_hyps; phs; auto; try (left; congruence).
  all: right; injection K as <-; eexists _, _; split; [eauto|reflexivity].
Qed.

Lemma sh_closed_step : forall s e s' o,
  step s e = Some (s', o) -> rx_open s' = false -> rx_open s = false \/ In OClosed o.
Proof.
  intros s e s' o H K.
  destruct e; step_cases H; bool_hyps; auto.
  all: right; cbn; rewrite ?in_app_iff; cbn; rewrite ?in_app_iff; cbn; auto 10.
Qed.

Lemma sh_crash_step : forall s e s' o,
  step s e = Some (s', o) -> (ph s' = PCrashed <-> ph s = PCrashed \/ In OCrash o).
Proof.
  intros s e s' o H.
  destruct e; step_cases H; bool_hyps; phs; split_vars.
  all: split; [intro K; try discriminate K; auto; right; cbn; auto
              |intros [K|K]; try discriminate K; auto; in_obs K; discriminate K].
Qed.

Lemma sh_saw_step : forall s e s' o v,
  step s e = Some (s', o) -> In (OSawShutdown v) o ->
  rx_open s = false /\ ext s > 0 /\ v = shutdown_err s.
Proof.
  intros s e s' o v H K.
  destruct e; step_cases H; bool_hyps; phs; split_vars; in_obs K; try discriminate K.
  injection K as <-. auto.
Qed.

Lemma sh_taken_step : forall s e s' o ids,
  step s e = Some (s', o) -> In (OLinksTaken ids) o -> stop_pending (ph s') = ids.
Proof.
  intros s e s' o v H K.
  destruct e; step_cases H; bool_hyps; phs; split_vars; in_obs K; try discriminate K.
  injection K as <-. reflexivity.
Qed.

Lemma sh_pending_step : forall s e s' o id,
  step s e = Some (s', o) -> In id (stop_pending (ph s)) ->
  (exists r d, In (ONotify id r d) o) \/ In id (stop_pending (ph s')) \/ ph s' = PCrashed.
Proof.
  intros s e s' o id H K.
  destruct e; step_cases H; bool_hyps; phs; cbn in K |- *; auto; try contradiction.
  destruct (Nat.eq_dec id id0) as [->|N].
  - left. eauto.
  - right. left. apply in_in_remove; auto.
Qed.

Lemma shutdown_inv_step : forall s tr e s' o,
  wf s -> shutdown_inv s tr -> step s e = Some (s', o) -> shutdown_inv s' (tr ++ o).
Proof.
  intros s tr e s' o W I H. destruct I as [I1 I2 I3 I4 I5 I6].
  assert (INC : forall x, In x tr -> In x (tr ++ o)) by (intros; apply in_or_app; auto).
  assert (INR : forall x, In x o -> In x (tr ++ o)) by (intros; apply in_or_app; auto).
  constructor.
  - destruct e; step_cases H; bool_hyps; phs; cbn in *; auto.
    all: try (destruct (ph s); cbn in *; rewrite ?app_nil_r; auto; fail).
    all: try (rewrite in_app_iff; cbn; auto; fail).
  - intros v Hv. destruct (sh_err_step _ _ _ _ _ H Hv) as [K|(r & res & K & ->)].
    + destruct (I2 _ K) as (res & A & B). eauto.
    + exists res. split; [|reflexivity]. apply INC. destruct K as [K|K]; rewrite K in I1; exact I1.
  - intro K. destruct (sh_closed_step _ _ _ _ H K); auto.
  - rewrite (sh_crash_step _ _ _ _ H), I4, in_app_iff. reflexivity.
  - intros v Hv. apply in_app_or in Hv. destruct Hv as [Hv|Hv].
    + destruct (I5 _ Hv) as (A & [B|(res & B & C)]); split; auto. right. eauto.
    + destruct (sh_saw_step _ _ _ _ _ H Hv) as (A & B & ->). split; [auto|].
      destruct W as [_ [Wr _ _ Wd] _]. rewrite A in Wr. symmetry in Wr. apply negb_false_iff in Wr.
      destruct (ph s) eqn:Ep; try discriminate Wr.
      * right. destruct (shutdown_err s) as [v|] eqn:Ev.
        -- destruct (I2 v eq_refl) as (res & C & ->). eauto.
        -- exfalso. apply Wd; auto. unfold strong. lia.
      * left. apply INC. tauto.
  - intros ids id Hi K. apply in_app_or in Hi. destruct Hi as [Hi|Hi].
    + destruct (I6 _ _ Hi K) as [(r & d & A)|[A|A]].
      * left. eauto.
      * destruct (sh_pending_step _ _ _ _ _ H A) as [(r & d & B)|B]; [left; eauto|auto].
      * right. right. rewrite (sh_crash_step _ _ _ _ H). auto.
    + right. left. rewrite (sh_taken_step _ _ _ _ _ H Hi). exact K.
Qed.

Lemma shutdown_exec : forall c es s tr, exec (init c) es = Some (s, tr) -> shutdown_inv s tr.
Proof.
  intros c es s tr. apply (exec_invariant_wf shutdown_inv).
  - apply wf_init.
  - constructor; cbn; auto; try discriminate; try contradiction; try tauto. split; [discriminate|contradiction].
  - intros. eapply shutdown_inv_step; eauto.
Qed.

(** ** Dropped asks *)

Lemma discard_asks : forall m ms, In (ODiscard m) (discard ms) -> ask m = true ->
  In (OReplyDropped (mid m)) (discard ms).
Proof.
  intros m ms H A. unfold discard in *. rewrite in_flat_map in *.
  destruct H as (x & Hx & [E|E]).
  - injection E as ->. exists m. split; [exact Hx|]. unfold drop_reply. rewrite A. cbn. auto.
  - unfold drop_reply in E. destruct (ask x); [destruct E as [E|[]]; discriminate E|destruct E].
Qed.

Lemma discard_asks_step : forall s e s' o m,
  step s e = Some (s', o) -> In (ODiscard m) o -> ask m = true -> In (OReplyDropped (mid m)) o.
Proof.
  intros s e s' o m H K A.
  assert (G : forall l, In (ODiscard m) (discard l) -> In (OReplyDropped (mid m)) (discard l))
    by (intros; apply discard_asks; auto).
  destruct e; step_cases H; bool_hyps; split_vars; cbn in K |- *;
    rewrite ?in_app_iff in *; cbn in K |- *; rewrite ?in_app_iff in *;
    repeat match type of K with
           | _ \/ _ => destruct K as [K|K]
           | ODiscard _ = _ => discriminate K
           | _ = ODiscard _ => discriminate K
           | False => destruct K
           end; auto 10.
Qed.

Lemma discard_asks_exec : forall c es s tr m,
  exec (init c) es = Some (s, tr) -> In (ODiscard m) tr -> ask m = true ->
  In (OReplyDropped (mid m)) tr.
Proof.
  intros c es s tr m.
  apply (exec_invariant (fun s tr => In (ODiscard m) tr -> ask m = true -> In (OReplyDropped (mid m)) tr)).
  - intros [].
  - intros s1 t e s' o IH H K A. rewrite in_app_iff in *. destruct K as [K|K]; [auto|].
    right. eapply discard_asks_step; eauto.
Qed.
