(** Proofs about the lifecycle model. *)
From Coq Require Import List Bool PeanoNat Permutation Lia.
Import ListNotations.
From Verif Require Import Lifecycle Lifecycle_spec.

(** ** Runs *)

Lemma exec_app : forall es1 es2 s,
  exec s (es1 ++ es2) =
  match exec s es1 with
  | None => None
  | Some (s1, o1) =>
      match exec s1 es2 with None => None | Some (s2, o2) => Some (s2, o1 ++ o2) end
  end.
Proof.
  induction es1 as [|e es1 IH]; intros es2 s; cbn [exec app].
  - destruct (exec s es2) as [[s2 o2]|]; reflexivity.
  - destruct (step s e) as [[s1 o1]|]; [|reflexivity].
    rewrite IH. destruct (exec s1 es1) as [[s2 o2]|]; [|reflexivity].
    destruct (exec s2 es2) as [[s3 o3]|]; [|reflexivity].
    rewrite app_assoc. reflexivity.
Qed.

Lemma exec_snoc : forall es e s s2 tr,
  exec s (es ++ [e]) = Some (s2, tr) ->
  exists s1 o1 o2, exec s es = Some (s1, o1) /\ step s1 e = Some (s2, o2) /\ tr = o1 ++ o2.
Proof.
  intros es e s s2 tr H. rewrite exec_app in H.
  destruct (exec s es) as [[s1 o1]|] eqn:E; [|discriminate].
  cbn [exec] in H. destruct (step s1 e) as [[s3 o3]|] eqn:E2; [|discriminate].
  inversion H; subst. exists s1, o1, o3. rewrite app_nil_r. auto.
Qed.

(** Invariant induction over runs, remembering the trace so far. *)
Lemma exec_invariant : forall (P : actor -> list obs -> Prop) s0,
  P s0 [] ->
  (forall s tr e s' o, P s tr -> step s e = Some (s', o) -> P s' (tr ++ o)) ->
  forall es s tr, exec s0 es = Some (s, tr) -> P s tr.
Proof.
  intros P s0 H0 Hstep es. induction es as [|e es IH] using rev_ind; intros s tr H.
  - cbn in H. inversion H; subst. exact H0.
  - apply exec_snoc in H. destruct H as (s1 & o1 & o2 & H1 & H2 & ->).
    eapply Hstep; eauto.
Qed.

(** ** Case analysis on a step *)

Ltac unfold_step H :=
  unfold step, handler_done, handler_failed, link_done, panic_done, abort_loop, on_signal,
    startup_finished, drain, begin_handle, shutdown_with, exit_loop, crash, close_mailbox,
    push in H.

(** Reduce projections of updated states. *)
Ltac simp_fields :=
  cbn [cap scoped threaded queue reserved rx_open ext in_reg aborted polling ph finished buf permit_adds startup_err shutdown_err links given next_mid set_cap set_scoped set_threaded set_queue set_reserved set_rx_open set_ext set_in_reg set_aborted set_polling set_ph set_finished set_buf set_permit_adds set_startup_err set_shutdown_err set_links set_given set_next_mid] in *.

Ltac step_cases H :=
  unfold_step H;
  repeat match type of H with
    | None = Some _ => discriminate H
    | Some (_, _) = Some _ => fail 1
    | context [match ?x with _ => _ end] =>
        lazymatch x with
        | context [match _ with _ => _ end] => fail
        | _ => destruct x eqn:?
        end; cbn beta iota zeta in H
    end;
  try discriminate H;
  match type of H with
  | Some _ = Some (?s', ?o) => injection H as <- <-
  end;
  repeat match goal with E : ?x = _ |- _ => is_var x;
    match type of x with loop_pc => subst x | signal => subst x | failure => subst x
                       | flow_res => subst x | hook_res => subst x | flow => subst x
                       | outcome => subst x | after_drain => subst x | reason => subst x end end;
  simp_fields.

Lemma step_count : forall s e s' o, step s e = Some (s', o) -> True.
Proof. intros s e s' o H. destruct e. all: step_cases H. all: exact I. Qed.

(** ** Structural invariant *)

Definition is_marker (sg : signal) : bool := match sg with SStartup => true | _ => false end.
Fixpoint markers (q : list signal) : nat :=
  match q with
  | [] => 0
  | SStartup :: q' => S (markers q')
  | _ :: q' => markers q'
  end.

Lemma markers_app : forall q1 q2, markers (q1 ++ q2) = markers q1 + markers q2.
Proof.
  induction q1 as [|sg q1 IH]; intro q2; cbn; [reflexivity|].
  destruct sg; cbn; rewrite ?IH; reflexivity.
Qed.

Lemma msgs_of_app : forall q1 q2, msgs_of (q1 ++ q2) = msgs_of q1 ++ msgs_of q2.
Proof.
  induction q1 as [|sg q1 IH]; intro q2; cbn; [reflexivity|].
  destruct sg; cbn; rewrite ?IH; reflexivity.
Qed.

Definition set_before (p : phase) : bool :=
  match p with PInit | PStarting | PStarted _ => true | _ => false end.
Definition pre_signal (p : phase) : bool :=
  match p with PInit | PStarting | PStarted _ | PSignal _ => true | _ => false end.
Definition may_have_set (p : phase) : bool :=
  match p with PClosing _ | PDone _ => true | _ => false end.

Definition all_outside (ms : list msg) : Prop := forall m, In m ms -> inside m = false.

(** What holds at each program point. *)
Definition at_phase (s : actor) : Prop :=
  match ph s with
  | PInit | PStarting | PStarted _ | PSignal _ =>
      finished s = false /\ buf s = [] /\ permit_adds s = 0 /\ markers (queue s) = 0
  | PDowngrade res sf =>
      finished s = false /\ buf s = [] /\ permit_adds s = 0
      /\ (if sf then markers (queue s) = 0 else markers (queue s) = 1)
  | PFailPanic _ | PFailStop _ | PFailSet _ _ => permit_adds s = 1 /\ buf s = []
  | PLoop LEntry =>
      finished s = false /\ buf s = [] /\ permit_adds s = 0 /\ markers (queue s) = 0
  | PLoop pc =>
      permit_adds s + markers (queue s) <= 1
      /\ (finished s = false -> permit_adds s = 0 /\ markers (queue s) = 1)
      /\ match pc with
         | LHandle m owned rest k =>
             (rest <> [] -> finished s = true) /\ all_outside rest
             /\ (finished s = false -> inside m = true)
             /\ (k <> ToRecv -> finished s = true) /\ k <> ToEntry
         | _ => True
         end
  | PCrashed | PDone _ => buf s = [] /\ queue s = []
  | _ => buf s = []
  end.

(** Startup state: permits, marker, buffer. *)
Record wf_start (s : actor) : Prop := mk_wf_start {
  ws_permits : permit_adds s <= 1;
  ws_phase : at_phase s;
  ws_fin : finished s = true -> buf s = [];
  ws_buf : all_outside (buf s)
}.

(** The two result cells and the receiver. *)
Record wf_cells (s : actor) : Prop := mk_wf_cells {
  wc_rx : rx_open s = negb (ended (ph s));
  wc_serr : startup_err s = None <-> set_before (ph s) = true;
  wc_derr : may_have_set (ph s) = false -> shutdown_err s = None;
  wc_derr2 : may_have_set (ph s) = true -> strong s > 0 -> shutdown_err s <> None
}.

(** Capacity. *)
Definition wf_cap (s : actor) : Prop :=
  match cap s with None => reserved s = 0 | Some c => length (queue s) + reserved s <= c end.

Lemma all_outside_nil : all_outside [].
Proof. intros m []. Qed.
Lemma all_outside_snoc : forall ms m,
  all_outside ms -> inside m = false -> all_outside (ms ++ [m]).
Proof. intros ms m H Hm x Hx. apply in_app_or in Hx. destruct Hx as [Hx|[->|[]]]; auto. Qed.
Lemma all_outside_cons : forall m ms, all_outside (m :: ms) -> all_outside ms.
Proof. intros m ms H x Hx. apply H. right. exact Hx. Qed.

Ltac bool_hyps :=
  repeat match goal with
    | H : _ && _ = true |- _ => apply andb_true_iff in H; destruct H
    | H : _ || _ = true |- _ => apply orb_true_iff in H
    | H : negb _ = true |- _ => apply negb_true_iff in H
    | H : negb _ = false |- _ => apply negb_false_iff in H
    | H : (_ <? _) = true |- _ => apply Nat.ltb_lt in H
    | H : (_ <? _) = false |- _ => apply Nat.ltb_ge in H
    | H : (_ =? _) = true |- _ => apply Nat.eqb_eq in H
    end.

Ltac bool_hyps_room :=
  bool_hyps;
  try match goal with E : has_room ?s = true |- _ =>
    unfold has_room in E; destruct (cap s) eqn:?; bool_hyps end.

Lemma wf_cap_init : forall c, wf_cap (init c).
Proof. intro c. unfold wf_cap. cbn. destruct (c_cap c); lia. Qed.

Lemma cap_const : forall s e s' o, step s e = Some (s', o) -> cap s' = cap s.
Proof.
  intros s e s' o H. destruct e; step_cases H; try reflexivity.
Qed.

Lemma wf_cap_step : forall s e s' o, wf_cap s -> step s e = Some (s', o) -> wf_cap s'.
Proof.
  intros s e s' o W H. pose proof (cap_const _ _ _ _ H) as Hc.
  unfold wf_cap in *. rewrite Hc. clear Hc.
  destruct e; step_cases H; bool_hyps_room; cbn; try assumption;
    repeat match goal with E : queue ?s = _ |- _ => rewrite E in W end; cbn in W;
    rewrite ?app_length; cbn; unfold is_bounded in *; 
    repeat match goal with E : cap ?s = _ |- _ => rewrite E in * end;
    try (destruct (cap s) eqn:?); try discriminate; try lia.
  all: match goal with E : queue ?s = _ |- _ => rewrite E end; cbn; lia.
Qed.

Ltac split_ands :=
  repeat match goal with H : _ /\ _ |- _ => destruct H end.

Lemma wf_start_init : forall c, wf_start (init c).
Proof. intro c. constructor; cbn; auto. apply all_outside_nil. Qed.

(** Environment events do not touch the control state. *)
Definition is_env (e : event) : bool :=
  match e with
  | ESend _ _ | EStop | ELinkSignal _ _ | EKill | EAcquire | EDrop | EReserve | ERelease
  | ELink _ | EUnlink _ | ERegister | EGivenReply _ _ | EGivenDrop _
  | EWaitStartup | EWaitShutdown => true
  | _ => false
  end.

Lemma env_frame : forall s e s' o,
  is_env e = true -> step s e = Some (s', o) ->
  ph s' = ph s /\ finished s' = finished s /\ buf s' = buf s
  /\ permit_adds s' = permit_adds s /\ polling s' = polling s /\ rx_open s' = rx_open s
  /\ startup_err s' = startup_err s /\ shutdown_err s' = shutdown_err s
  /\ scoped s' = scoped s /\ threaded s' = threaded s
  /\ (exists q, queue s' = queue s ++ q /\ markers q = 0 /\ accepted_signals o = q
                /\ (q <> [] -> rx_open s = true))
  /\ (strong s' > 0 -> strong s > 0).
Proof.
  intros s e s' o He H.
  destruct e; try discriminate; step_cases H; bool_hyps; cbn; repeat split;
    try reflexivity;
    try (unfold strong in *; cbn in *; intros; lia);
    try (exists []; rewrite app_nil_r; cbn; intuition; fail);
    try (eexists; cbn; intuition; fail).
  all: eexists; split; [reflexivity|]; auto.
Qed.

Lemma at_phase_env : forall s s' q,
  ph s' = ph s -> finished s' = finished s -> buf s' = buf s -> permit_adds s' = permit_adds s ->
  queue s' = queue s ++ q -> markers q = 0 -> (q <> [] -> ended (ph s) = false) ->
  at_phase s -> at_phase s'.
Proof.
  intros s s' q Hp Hf Hb Hpa Hq Hm Hopen H. unfold at_phase in *.
  rewrite Hp, Hf, Hb, Hpa, Hq, markers_app, Hm, Nat.add_0_r.
  destruct (ph s); try exact H; cbn in Hopen.
  all: destruct q; [rewrite app_nil_r; exact H | discriminate Hopen; discriminate].
Qed.

Lemma wf_start_step : forall s e s' o,
  wf_start s -> wf_cells s -> step s e = Some (s', o) -> wf_start s'.
Proof.
  intros s e s' o W WC H. destruct (is_env e) eqn:He.
  - destruct (env_frame _ _ _ _ He H)
      as (Hp & Hf & Hb & Hpa & _ & Hrx & _ & _ & _ & _ & (q & Hq & Hm & _ & Ho) & _).
    destruct W as [W1 W2 W3 W4]. constructor.
    + rewrite Hpa. exact W1.
    + eapply at_phase_env; eauto. intro Hn. specialize (Ho Hn).
      rewrite (wc_rx _ WC) in Ho. apply negb_true_iff in Ho. exact Ho.
    + rewrite Hf, Hb. exact W3.
    + rewrite Hb. exact W4.
  - destruct W as [W1 W2 W3 W4]. unfold at_phase in W2.
    destruct e; try discriminate He; clear He; step_cases H; bool_hyps.
    all: repeat match goal with E : ph ?s = _ |- _ => rewrite E in * end.
    all: try match goal with E : queue ?s = _ |- _ => rewrite E in * end.
    all: try match goal with E : buf ?s = _ |- _ => rewrite E in * end.
    all: cbn in W2, W3, W4; split_ands.
    all: constructor; unfold at_phase; cbn;
       repeat match goal with E : ph ?s = _ |- _ => rewrite E end; cbn;
       rewrite ?markers_app; cbn;
       try congruence; try lia; auto using all_outside_nil.
    all: try match goal with E : buf ?s = [] |- all_outside (buf ?s) =>
               rewrite E; apply all_outside_nil end.
    all: try (apply all_outside_snoc; assumption).
    all: try match goal with |- context [if ?b then _ else _] => destruct b eqn:? end.
    all: repeat match goal with |- _ /\ _ => split end; intros.
    all: try (solve [auto using all_outside_nil | congruence | lia | intuition congruence
                    | eapply all_outside_cons; eassumption]).
    + destruct WC as [Hrx _ _ _]. rewrite Heqp in Hrx. cbn in Hrx. congruence.
    + match goal with E : queue ?s = [] |- _ => rewrite E; assumption end.
    + match goal with E : negb (inside ?m) && negb (finished ?s) = false, F : finished ?s = false |- _ =>
        rewrite F, andb_true_r in E; apply negb_false_iff in E; exact E end.
Qed.

Lemma wf_cells_init : forall c, wf_cells (init c).
Proof. intro c. constructor; cbn; try tauto; try discriminate. Qed.

Lemma wf_cells_step : forall s e s' o, wf_cells s -> step s e = Some (s', o) -> wf_cells s'.
Proof.
  intros s e s' o W H. destruct (is_env e) eqn:He.
  - destruct (env_frame _ _ _ _ He H)
      as (Hp & Hf & Hb & Hpa & _ & Hrx & Hs & Hd & _ & _ & _ & Hst).
    destruct W as [W1 W2 W3 W4]. constructor; rewrite ?Hp, ?Hrx, ?Hs, ?Hd; auto.
  - destruct W as [W1 W2 W3 W4].
    destruct e; try discriminate He; clear He; step_cases H; bool_hyps.
    all: repeat match goal with E : ph ?s = _ |- _ => rewrite E in * end.
    all: cbn in W1, W2, W3, W4.
    all: constructor; simp_fields;
       repeat match goal with E : ph ?s = _ |- _ => rewrite E end; cbn;
       try assumption; try congruence; try tauto.
    all: intros; try congruence; auto.
    all: try match goal with E : shutdown_err ?s = Some _, W : false = false -> _ |- _ =>
               rewrite E in W; discriminate (W eq_refl) end.
    all: try match goal with W : Some _ = None <-> true = true |- _ =>
               discriminate (proj2 W eq_refl) end.
    all: try (split; discriminate).
    all: unfold strong in *; cbn in *;
      repeat match goal with E : ph ?s = _ |- _ => rewrite E in * end; cbn in *.
    all: try match goal with W : true = true -> _ -> _ |- _ => apply W; [reflexivity|] end.
    all: try (exfalso; lia).
    all: try match goal with W : false = false -> Some _ = None |- _ => discriminate (W eq_refl) end.
    destruct (threaded s); cbn in *; lia.
Qed.

Record wf (s : actor) : Prop := mk_wf {
  wf_s : wf_start s;
  wf_c : wf_cells s;
  wf_k : wf_cap s
}.

Lemma wf_init : forall c, wf (init c).
Proof.
  intro c. constructor; auto using wf_start_init, wf_cells_init, wf_cap_init.
Qed.

Lemma wf_step : forall s e s' o, wf s -> step s e = Some (s', o) -> wf s'.
Proof.
  intros s e s' o [W1 W2 W3] H.
  constructor; eauto using wf_start_step, wf_cells_step, wf_cap_step.
Qed.

Lemma wf_exec : forall es s s' tr, wf s -> exec s es = Some (s', tr) -> wf s'.
Proof.
  intros es s s' tr W. apply (exec_invariant (fun s _ => wf s)); [exact W|].
  intros. eapply wf_step; eauto.
Qed.

(** Trace invariants on top of well-formedness. *)
Lemma exec_invariant_wf : forall (P : actor -> list obs -> Prop) s0,
  wf s0 -> P s0 [] ->
  (forall s tr e s' o, wf s -> P s tr -> step s e = Some (s', o) -> P s' (tr ++ o)) ->
  forall es s tr, exec s0 es = Some (s, tr) -> P s tr.
Proof.
  intros P s0 W0 H0 Hstep es s tr H.
  apply (exec_invariant (fun s tr => wf s /\ P s tr) s0) with (es := es); auto.
  intros s1 tr1 e s' o [W HP] Hs. split; [eapply wf_step|eapply Hstep]; eauto.
Qed.

