(** Priority of messages the actor sent to itself during on_start; termination. *)
From Coq Require Import List Bool PeanoNat Permutation Lia.
Import ListNotations.
From Verif Require Import Lifecycle Lifecycle_spec Lifecycle_proofs Lifecycle_order_proofs
  Lifecycle_fifo_proofs Lifecycle_stop_proofs Lifecycle_wait_proofs.

Lemma before_app_hit : forall A (p : A -> bool) l1 l2,
  existsb p l1 = true -> before p (l1 ++ l2) = before p l1.
Proof.
  induction l1 as [|x l1 IH]; intros l2 H; cbn in *; [discriminate|].
  destruct (p x); cbn in *; [reflexivity|]. rewrite IH by exact H. reflexivity.
Qed.

Lemma marker_existsb : forall tr, existsb accepts_marker tr = true <-> In (OAccept SStartup) tr.
Proof.
  intro tr. rewrite existsb_exists. split.
  - intros (x & H1 & H2). destruct x; try discriminate H2. destruct sg; try discriminate H2. exact H1.
  - intro H. exists (OAccept SStartup). auto.
Qed.

(** Before the marker nothing is taken out of the mailbox. *)
Definition pre_marker (p : phase) : bool :=
  match p with PInit | PStarting | PStarted _ | PSignal _ => true | _ => false end.

Definition prio (s : actor) (tr : list obs) : Prop :=
  (pre_marker (ph s) = true ->
     accepted_signals tr = queue s /\ handled tr = [] /\ ~ In (OAccept SStartup) tr)
  /\ (In (OAccept SStartup) tr -> no_stop_before_marker tr ->
      match ph s with
      | PDowngrade _ _ | PLoop _ =>
          (finished s = true -> incl (own_startup_msgs tr) (handled tr))
          /\ (finished s = false ->
               exists q1 q2, queue s = q1 ++ SStartup :: q2 /\ existsb is_stop_signal q1 = false
                 /\ markers q1 = 0
                 /\ incl (own_startup_msgs tr) (handled tr ++ inside_msgs (msgs_of q1)))
      | _ => True
      end)
  /\ (forall ta m tb, tr = ta ++ OHandle m :: tb -> inside m = false ->
      In (OAccept SStartup) tr -> no_stop_before_marker tr ->
      incl (own_startup_msgs tr) (handled ta)).

Lemma one_handle : forall s e s' o,
  step s e = Some (s', o) -> handled o = [] \/ exists m owned rest k,
    handled o = [m] /\ ph s' = PLoop (LHandle m owned rest k).
Proof.
  intros s e s' o H.
  destruct e; step_cases H; bool_hyps; split_vars; norm_trace; auto.
  all: right; eexists _, _, _, _; split; reflexivity.
Qed.

(** Steps that accept no marker, from a point beyond it. *)
Lemma prio_loop_step : forall s e s' o I hd,
  wf s -> step s e = Some (s', o) ->
  match ph s with PDowngrade _ _ | PLoop _ => True | _ => False end ->
  match ph s' with PDowngrade _ _ | PLoop _ => True | _ => False end ->
  (forall m, In m I -> inside m = true) ->
  (finished s = true -> incl I hd) ->
  (finished s = false -> exists q1 q2, queue s = q1 ++ SStartup :: q2
       /\ existsb is_stop_signal q1 = false /\ markers q1 = 0
       /\ incl I (hd ++ inside_msgs (msgs_of q1))) ->
  (finished s' = true -> incl I (hd ++ handled o))
  /\ (finished s' = false -> exists q1 q2, queue s' = q1 ++ SStartup :: q2
       /\ existsb is_stop_signal q1 = false /\ markers q1 = 0
       /\ incl I ((hd ++ handled o) ++ inside_msgs (msgs_of q1))).
Proof.
  intros s e s' o I hd W H P P' HI A B.
  destruct W as [[_ Wp _ _] _ _]. unfold at_phase in Wp.
  assert (INC : forall x, incl I hd -> incl I (hd ++ x)) by (intros; apply incl_appl; auto).
  destruct e; step_cases H; bool_hyps; phs; try contradiction; split_vars; norm_trace.
  all: try (split; [first [exact A|intro F; apply INC; exact (A F)]|exact B]).
  all: split; intro F; try (apply INC; auto; fail); try discriminate F; auto.
  all: try (destruct (B F) as (q1 & q2 & E1 & E2 & E3 & E4);
            match goal with |- exists _ _, _ ++ [?x] = _ /\ _ =>
              exists q1, (q2 ++ [x]); rewrite E1, <- app_assoc; auto end).
  all: cbn in Wp; split_ands; try congruence.
  all: try (exfalso; match goal with X : _ :: _ <> [] -> finished ?s = true, F : finished ?s = false |- _ =>
         rewrite X in F; [discriminate F|discriminate] end).
  all: destruct (finished s) eqn:Fs; try discriminate F;
       try (first [exact (A eq_refl) | apply INC; exact (A eq_refl)]).
  all: destruct (B eq_refl) as (q1 & q2 & E1 & E2 & E3 & E4); qs.
  all: try (exfalso; match goal with M : markers _ = 0 |- _ => rewrite ?E1 in M; rewrite markers_app in M; cbn in M; lia end).
  all: destruct q1 as [|sg q1]; cbn in E1; try discriminate E1; inversion E1; subst; clear E1.
  all: try discriminate.
  all: cbn in E2, E3, E4; rewrite ?app_nil_r in E4; auto; try discriminate E2.
  - exists q1, q2. rewrite H in E4. auto.
  - exists q1, q2. repeat (split; [assumption || reflexivity|]).
    intros x Hx. specialize (E4 x Hx). rewrite !in_app_iff in *. cbn.
    destruct (inside m); cbn in E4; tauto.
  - exists q1, q2. auto.
Qed.

Lemma own_inside : forall tr m, In m (own_startup_msgs tr) -> inside m = true.
Proof. intros tr m H. unfold own_startup_msgs, inside_msgs in H. apply filter_In in H. tauto. Qed.

Lemma before_none_app : forall A (p : A -> bool) l1 l2,
  existsb p l1 = false -> before p (l1 ++ l2) = l1 ++ before p l2.
Proof.
  induction l1 as [|x l1 IH]; intros l2 H; cbn in *; [reflexivity|].
  apply orb_false_iff in H. destruct H as [H1 H2]. rewrite H1. cbn. f_equal. auto.
Qed.

Lemma pre_marker_step : forall s e s' o,
  step s e = Some (s', o) -> pre_marker (ph s) = true ->
  (pre_marker (ph s') = true /\ queue s' = queue s ++ accepted_signals o /\ handled o = []
   /\ ~ In (OAccept SStartup) o)
  \/ (exists res, ph s = PSignal res
       /\ ((o = [OAccept SStartup] /\ ph s' = PDowngrade res false /\ queue s' = queue s ++ [SStartup])
           \/ (o = [] /\ exists sf, ph s' = PDowngrade res sf)))
  \/ (ph s' = PCrashed /\ handled o = [] /\ ~ In (OAccept SStartup) o).
Proof.
  intros s e s' o H P.
  destruct e; step_cases H; bool_hyps; phs; try discriminate P; cbn; phs; cbn; rewrite ?app_nil_r.
  all: try (left; repeat split; auto; intros [K|[]]; discriminate K).
  all: try (left; repeat split; auto; intros []; fail).
  all: try (right; left; eexists; split; [reflexivity|]; eauto; fail).
  - right. right. split; [reflexivity|]. split; [norm_trace; reflexivity|].
    intro K. in_obs K; discriminate K.
Qed.

Lemma marker_only_at_signal : forall s e s' o,
  step s e = Some (s', o) -> In (OAccept SStartup) o -> exists res, ph s = PSignal res.
Proof.
  intros s e s' o H K. destruct e; step_cases H; split_vars; in_obs K; try discriminate K. eauto.
Qed.

Lemma handle_needs_loop : forall s e s' o,
  step s e = Some (s', o) -> handled o <> [] -> exists pc, ph s = PLoop pc.
Proof.
  intros s e s' o H K. destruct e; step_cases H; split_vars; eauto; exfalso; apply K; norm_trace; reflexivity.
Qed.

Lemma back_from_loop : forall s e s' o,
  step s e = Some (s', o) ->
  match ph s' with PDowngrade _ _ | PLoop _ => True | _ => False end ->
  match ph s with PDowngrade _ _ | PLoop _ => True | PSignal _ => True | _ => False end.
Proof.
  intros s e s' o H. destruct e; step_cases H; phs; auto.
  all: destruct (ph s); auto.
Qed.

Lemma handled_in_split : forall ta m tb, handled (ta ++ OHandle m :: tb) = handled ta ++ m :: handled tb.
Proof. intros. rewrite handled_app. reflexivity. Qed.

Lemma outside_finished : forall s m owned rest k,
  wf s -> ph s = PLoop (LHandle m owned rest k) -> inside m = false -> finished s = true.
Proof.
  intros s m owned rest k [[_ Wp _ _] _ _] Hp Hi. unfold at_phase in Wp. rewrite Hp in Wp.
  destruct Wp as (_ & _ & _ & _ & W & _). destruct (finished s); [reflexivity|].
  rewrite W in Hi by reflexivity. discriminate Hi.
Qed.

Lemma prio_step : forall s tr e s' o,
  wf s -> wf s' -> prio s tr -> step s e = Some (s', o) -> prio s' (tr ++ o).
Proof.
  intros s tr e s' o W W' (P1 & P2 & P3) H.
  assert (A2 : In (OAccept SStartup) (tr ++ o) -> no_stop_before_marker (tr ++ o) ->
      match ph s' with
      | PDowngrade _ _ | PLoop _ =>
          (finished s' = true -> incl (own_startup_msgs (tr ++ o)) (handled (tr ++ o)))
          /\ (finished s' = false ->
               exists q1 q2, queue s' = q1 ++ SStartup :: q2 /\ existsb is_stop_signal q1 = false
                 /\ markers q1 = 0
                 /\ incl (own_startup_msgs (tr ++ o)) (handled (tr ++ o) ++ inside_msgs (msgs_of q1)))
      | _ => True
      end).
  { intros KA KS. destruct (existsb accepts_marker tr) eqn:Em.
    - (* accepted earlier *)
      pose proof (proj1 (marker_existsb tr) Em) as Hm.
      unfold no_stop_before_marker, own_startup_msgs in *. rewrite before_app_hit in * by exact Em.
      specialize (P2 Hm KS).
      destruct (match ph s' with PDowngrade _ _ | PLoop _ => true | _ => false end) eqn:Es';
        [|destruct (ph s'); try exact I; discriminate Es'].
      assert (X' : match ph s' with PDowngrade _ _ | PLoop _ => True | _ => False end)
        by (destruct (ph s'); try discriminate Es'; exact I).
      assert (X : match ph s with PDowngrade _ _ | PLoop _ => True | _ => False end).
      { pose proof (back_from_loop _ _ _ _ H X') as B. destruct (ph s) eqn:Ep; auto.
        destruct P1 as (_ & _ & N); [reflexivity|]. exact (N Hm). }
      assert (G : (finished s' = true -> incl (own_startup_msgs tr) (handled tr ++ handled o))
        /\ (finished s' = false -> exists q1 q2, queue s' = q1 ++ SStartup :: q2
             /\ existsb is_stop_signal q1 = false /\ markers q1 = 0
             /\ incl (own_startup_msgs tr) ((handled tr ++ handled o) ++ inside_msgs (msgs_of q1)))).
      { apply (prio_loop_step s e s' o (own_startup_msgs tr) (handled tr)); auto.
        - intros m Hm'. eapply own_inside; eauto.
        - destruct (ph s); try contradiction; apply P2.
        - destruct (ph s); try contradiction; apply P2. }
      rewrite handled_app. destruct (ph s'); try exact I; exact G.
    - (* accepted now *)
      assert (Ko : In (OAccept SStartup) o).
      { apply in_app_or in KA. destruct KA as [KA|KA]; [|exact KA].
        apply marker_existsb in KA. congruence. }
      destruct (marker_only_at_signal _ _ _ _ H Ko) as (res & Hp).
      destruct P1 as (Q1 & Q2 & Q3); [rewrite Hp; reflexivity|].
      destruct (pre_marker_step _ _ _ _ H) as [(_ & _ & _ & N)|[(res' & Hp' & [(-> & E2 & E3)|(-> & _)])|(_ & _ & N)]];
        try contradiction; [rewrite Hp; reflexivity|].
      rewrite E2. destruct W' as [[_ Wp _ _] _ _]. unfold at_phase in Wp. rewrite E2 in Wp. split_ands.
      split; [congruence|]. intros _. exists (queue s), [].
      unfold no_stop_before_marker, own_startup_msgs in *.
      rewrite before_none_app in * by exact Em. cbn in *. rewrite app_nil_r in *.
      split; [exact E3|]. split.
      { destruct (existsb is_stop_signal (queue s)) eqn:Ex; [|reflexivity]. exfalso. apply KS.
        apply existsb_exists in Ex. destruct Ex as (x & X1 & X2). destruct x; try discriminate X2.
        rewrite <- Q1 in X1. apply accept_signal_in. exact X1. }
      split.
      { rewrite E3, markers_app in H3. cbn in H3. lia. }
      rewrite handled_app, Q2. cbn. rewrite accepted_of_signals, Q1. apply incl_refl. }
  split; [|split].
  - intro P'. destruct (pre_marker (ph s)) eqn:Ep.
    + destruct (P1 eq_refl) as (Q1 & Q2 & Q3).
      destruct (pre_marker_step _ _ _ _ H Ep) as [(_ & E1 & E2 & E3)|[(res & _ & [(-> & E & _)|(-> & sf & E)])|(E & _)]];
        try (rewrite E in P'; discriminate P').
      rewrite accepted_signals_app, handled_app, Q1, Q2, E1, E2. repeat split.
      intro K. apply in_app_or in K. tauto.
    + exfalso. clear - H P' Ep. destruct e; step_cases H; phs; try discriminate; congruence.
  - exact A2.
  - intros ta m tb E Hi KA KS.
    destruct (one_handle _ _ _ _ H) as [Ho|(m' & ow & rest & k & Ho & Hp')].
    + (* nothing handled in this step *)
      assert (T : exists tb', tr = ta ++ OHandle m :: tb').
      { clear - E Ho. revert ta E. induction tr as [|x tr' IH]; intros ta E.
        - cbn in E. subst o. rewrite handled_in_split in Ho. destruct (handled ta); discriminate Ho.
        - destruct ta as [|y ta]; cbn in E; injection E as -> E.
          + exists tr'. reflexivity.
          + destruct (IH _ E) as (tb' & ->). exists tb'. reflexivity. }
      destruct T as (tb' & ->).
      destruct (existsb accepts_marker (ta ++ OHandle m :: tb')) eqn:Em.
      * unfold no_stop_before_marker, own_startup_msgs in *. rewrite before_app_hit in * by exact Em.
        eapply P3; eauto. apply marker_existsb. exact Em.
      * exfalso. assert (Ko : In (OAccept SStartup) o).
        { apply in_app_or in KA. destruct KA as [KA|KA]; [|exact KA].
          apply marker_existsb in KA. congruence. }
        destruct (marker_only_at_signal _ _ _ _ H Ko) as (res & Hp).
        destruct P1 as (_ & Q2 & _); [rewrite Hp; reflexivity|].
        rewrite handled_in_split in Q2. destruct (handled ta); discriminate Q2.
    + destruct (handle_needs_loop _ _ _ _ H) as (pc & Hp); [rewrite Ho; discriminate|].
      assert (Em : existsb accepts_marker tr = true).
      { apply marker_existsb. apply in_app_or in KA. destruct KA as [KA|KA]; [exact KA|].
        destruct (marker_only_at_signal _ _ _ _ H KA) as (res & Hp2). congruence. }
      destruct (app_eq_app _ _ _ _ E) as (l & [[E1 E2]|[E1 E2]]).
      * destruct l as [|x l].
        -- (* the step's own handle comes first *)
           rewrite app_nil_r in E1. subst ta. cbn in E2. subst o.
           cbn in Ho. fold (handled tb) in Ho. injection Ho as <- Ho.
           specialize (A2 KA KS). rewrite Hp' in A2.
           destruct A2 as [A2 _]. specialize (A2 (outside_finished _ _ _ _ _ W' Hp' Hi)).
           intros x Hx. pose proof (A2 x Hx) as Hh. rewrite handled_app in Hh. cbn in Hh. fold (handled tb) in Hh.
           apply in_app_or in Hh. destruct Hh as [Hh|[<-|Hh]]; [exact Hh| |].
           ++ apply own_inside in Hx. congruence.
           ++ rewrite Ho in Hh. destruct Hh.
        -- injection E2 as <- E2. subst.
           unfold no_stop_before_marker, own_startup_msgs in *. rewrite before_app_hit in * by exact Em.
           eapply P3; eauto. apply marker_existsb. exact Em.
      * subst ta.
        assert (m = m' /\ handled l = []) as [-> Hl].
        { rewrite E2, handled_in_split in Ho. destruct (handled l) as [|z zs]; [|destruct zs; discriminate Ho].
          injection Ho as -> _. auto. }
        specialize (A2 KA KS). rewrite Hp' in A2.
        destruct A2 as [A2 _]. specialize (A2 (outside_finished _ _ _ _ _ W' Hp' Hi)).
        intros x Hx. pose proof (A2 x Hx) as Hh. rewrite handled_app, Ho in Hh.
        rewrite handled_app, Hl, app_nil_r.
        apply in_app_or in Hh. destruct Hh as [Hh|[<-|[]]]; [exact Hh|].
        apply own_inside in Hx. congruence.
Qed.

Lemma prio_exec : forall c es s tr, exec (init c) es = Some (s, tr) -> prio s tr.
Proof.
  intros c es s tr H.
  assert (G : wf s /\ prio s tr); [|tauto].
  revert H. apply (exec_invariant (fun s tr => wf s /\ prio s tr)).
  - split; [apply wf_init|]. split; [|split].
    + intros _. repeat split. intros [].
    + intros [].
    + intros ta m tb E. destruct ta; discriminate E.
  - intros s1 t e s' o [W P] H. split; [eapply wf_step; eauto|].
    eapply prio_step; eauto. eapply wf_step; eauto.
Qed.
