(** When a task can be dropped. *)
From Coq Require Import List Bool PeanoNat Lia.
Import ListNotations.
From Verif Require Import Lifecycle Lifecycle_spec Lifecycle_proofs Lifecycle_order_proofs
  Lifecycle_room_spec Lifecycle_room_proofs Lifecycle_count_spec Lifecycle_count_proofs Cancel Cancel_spec.

Definition q_over (o : obs) : bool := match o with OReturn _ | OCrash => true | _ => false end.
Definition q_start (o : obs) : bool := match o with OStartEnd _ => true | _ => false end.
Definition q_fail (o : obs) : bool := match o with OStartEnd (HookFail _) => true | _ => false end.
Definition q_stop (o : obs) : bool := match o with OStopHookEnd _ => true | _ => false end.
Definition q_exit (o : obs) : bool := match o with OExit _ => true | _ => false end.
Definition p_down (e : event) : bool := match e with ADowngrade => true | _ => false end.
Definition p_reg (e : event) : bool := match e with ARegRemove => true | _ => false end.

Definition fails (res : hook_res) : bool := match res with HookFail _ => true | HookOk => false end.

(** What has been seen at each program point: the end of on_start, its failure, the downgrade, the end of
    on_stop, the end of the loop, the removal from the registry, the end of the task. *)
Definition seen_at (p : phase) (start fail down stop exit reg over : bool) : Prop :=
  match p with
  | PInit | PStarting => (start, fail, down, stop, exit, reg, over) = (false, false, false, false, false, false, false)
  | PStarted res | PSignal res | PDowngrade res _ =>
      (start, fail, down, stop, exit, reg, over) = (true, fails res, false, false, false, false, false)
  | PFailPanic _ | PFailStop _ => (start, fail, down, stop, exit, reg, over) = (true, true, true, false, false, false, false)
  | PFailSet _ _ => (start, fail, down, stop, exit, reg, over) = (true, true, true, true, false, false, false)
  | PLoop _ => (start, fail, down, stop, exit, reg, over) = (true, false, true, false, false, false, false)
  | PDrainLinks _ | PStop _ _ => (start, fail, down, stop, exit, reg, over) = (true, false, true, false, true, false, false)
  | PNotify _ _ _ | PRegRemove _ _ => (start, fail, down, stop, exit, reg, over) = (true, false, true, true, true, false, false)
  | PSet _ _ => (start, fail, down, stop, exit, reg, over) = (true, false, true, true, true, true, false)
  | PClosing _ => (start, fail, down, stop, exit, reg, over) = (true, false, true, true, true, true, false)
      \/ (start, fail, down, stop, exit, reg, over) = (true, true, true, true, false, false, false)
  | PDone _ | PCrashed => over = true
  end.

Lemma existsb_discard : forall f ms, (forall m, f (ODiscard m) = false) -> (forall i, f (OReplyDropped i) = false) ->
  existsb f (discard ms) = false.
Proof.
  intros f ms A B. induction ms as [|m ms IH]; [reflexivity|]. unfold discard in *. cbn [flat_map].
  cbn [app existsb]. rewrite A. cbn [orb]. rewrite existsb_app, IH. unfold drop_reply. destruct (ask m); cbn; rewrite ?B; reflexivity.
Qed.
Lemma d_over : forall ms, existsb q_over (discard ms) = false. Proof. intro. apply existsb_discard; reflexivity. Qed.
Lemma d_start : forall ms, existsb q_start (discard ms) = false. Proof. intro. apply existsb_discard; reflexivity. Qed.
Lemma d_fail : forall ms, existsb q_fail (discard ms) = false. Proof. intro. apply existsb_discard; reflexivity. Qed.
Lemma d_stop : forall ms, existsb q_stop (discard ms) = false. Proof. intro. apply existsb_discard; reflexivity. Qed.
Lemma d_exit : forall ms, existsb q_exit (discard ms) = false. Proof. intro. apply existsb_discard; reflexivity. Qed.

Ltac see := cbn [existsb app q_over q_start q_fail q_stop q_exit p_down p_reg];
  rewrite ?existsb_app, ?d_over, ?d_start, ?d_fail, ?d_stop, ?d_exit.

Lemma seen_step : forall s e s' o a1 a2 a3 a4 a5 a6 a7, step s e = Some (s', o) ->
  seen_at (ph s) a1 a2 a3 a4 a5 a6 a7 ->
  seen_at (ph s') (a1 || existsb q_start o) (a2 || existsb q_fail o) (a3 || existsb p_down [e]) (a4 || existsb q_stop o)
    (a5 || existsb q_exit o) (a6 || existsb p_reg [e]) (a7 || existsb q_over o).
Proof.
  intros s e s' o a1 a2 a3 a4 a5 a6 a7 H K.
  destruct e; step_cases H; step_rewrite; cbn [seen_at] in *;
    try match type of K with _ \/ _ => destruct K as [K|K] end;
    try (injection K as -> -> -> -> -> -> ->);
    split_vars; repeat (progress see); rewrite ?orb_false_r, ?orb_true_r, ?orb_false_l; cbn [orb fails];
    auto; try (rewrite K; reflexivity).
  all: try (destruct (ph s); cbn [seen_at] in *; auto; fail).
  all: try reflexivity.
Qed.

Lemma run_seen : forall c es s tr, exec (init c) es = Some (s, tr) ->
  seen_at (ph s) (existsb q_start tr) (existsb q_fail tr) (existsb p_down es) (existsb q_stop tr)
    (existsb q_exit tr) (existsb p_reg es) (existsb q_over tr).
Proof.
  intros c es. induction es as [|e es IH] using rev_ind; intros s tr H.
  - cbn in H. injection H as <- <-. reflexivity.
  - apply exec_snoc in H. destruct H as (s1 & o1 & o2 & H1 & H2 & ->). rewrite !existsb_app.
    exact (seen_step _ _ _ _ _ _ _ _ _ _ _ H2 (IH _ _ H1)).
Qed.

Lemma run_suspended : forall c es s tr, exec (init c) es = Some (s, tr) -> at_await s = suspended es tr.
Proof.
  intros c es s tr H. pose proof (run_seen _ _ _ _ H) as K. destruct (run_polled _ _ _ _ H) as (P & _).
  unfold suspended, saw, did. fold q_over q_start q_fail q_stop q_exit p_down p_reg. unfold at_await.
  revert K. generalize (existsb q_start tr) as b1, (existsb q_fail tr) as b2, (existsb p_down es) as b3, (existsb q_stop tr) as b4,
    (existsb q_exit tr) as b5, (existsb p_reg es) as b6, (existsb q_over tr) as b7. intros b1 b2 b3 b4 b5 b6 b7 K.
  destruct (ph s); cbn [seen_at] in K;
    try match type of K with _ \/ _ => destruct K as [K|K] end;
    try (injection K as -> -> -> -> -> -> ->); try rewrite K; cbn; try reflexivity.
  all: try (rewrite (P _ eq_refl); reflexivity).
Qed.

Lemma droppable_when : forall c es s tr, exec (init c) es = Some (s, tr) ->
  ((exists s' o, drop_task s = Some (s', o)) <-> c_threaded c = false /\ suspended es tr = true).
Proof.
  intros c es s tr H. rewrite <- (run_suspended _ _ _ _ H).
  assert (Ts : threaded s = c_threaded c).
  { revert H. apply (exec_invariant (fun s _ => threaded s = c_threaded c)); [reflexivity|].
    intros x t e x' o IH Hs. rewrite <- IH. clear - Hs. destruct e; step_cases Hs; reflexivity. }
  unfold drop_task. rewrite Ts. destruct (at_await s), (c_threaded c); cbn [andb negb].
  - split; [intros (x & o & Q); discriminate Q|intros [Q _]; discriminate Q].
  - split; [auto|intros _]. destruct (close_mailbox _). eauto.
  - split; [intros (x & o & Q); discriminate Q|intros [_ Q]; discriminate Q].
  - split; [intros (x & o & Q); discriminate Q|intros [_ Q]; discriminate Q].
Qed.

(** Which piece of user code is cut off. *)
Lemma not_discard : forall o ms, In o (discard ms) -> (exists m, o = ODiscard m) \/ (exists i, o = OReplyDropped i).
Proof.
  intros o ms I. unfold discard in I. apply in_flat_map in I. destruct I as (m & _ & [<-|I]); [eauto|].
  unfold drop_reply in I. destruct (ask m); [destruct I as [<-|[]]; eauto|destruct I].
Qed.

Lemma dropped_cuts : forall c es s tr s' o, exec (init c) es = Some (s, tr) -> drop_task s = Some (s', o) ->
  (In OLinkHookCut o <-> entered tr = Some ULink) /\ (In OPanicHookCut o <-> entered tr = Some UPanic)
  /\ ((exists m, In (OHandleCut m) o) <-> entered tr = Some UHandler).
Proof.
  intros c es s tr s' o H D. rewrite (run_code _ _ _ _ H).
  assert (E : exists ms, o = cut_loop (ph s) ++ discard (buf s) ++ OClosed :: discard ms).
  { unfold drop_task, close_mailbox in D. destruct (at_await s && negb (threaded s)); [|discriminate]. injection D as <- <-. eauto. }
  destruct E as (ms & E).
  assert (N : forall x, (forall m, x <> ODiscard m) -> (forall i, x <> OReplyDropped i) -> x <> OClosed ->
    (In x o <-> In x (cut_loop (ph s)))).
  { intros x N1 N2 N3. rewrite E, !in_app_iff. cbn [In]. split; [|auto].
    intros [Q|[Q|[Q|Q]]]; [exact Q| |congruence|]; destruct (not_discard _ _ Q) as [(m & ->)|(i & ->)]; exfalso; [eapply N1|eapply N2|eapply N1|eapply N2]; reflexivity. }
  assert (M : forall m, In (OHandleCut m) o <-> In (OHandleCut m) (cut_loop (ph s))) by (intro m; apply N; intros; discriminate).
  rewrite (N OLinkHookCut), (N OPanicHookCut) by (intros; discriminate).
  assert (K : forall x m owned rest, In x (OHandleCut m :: (if owned : bool then [OReplyDropped (mid m)] else []) ++ discard rest) ->
    x = OHandleCut m \/ (exists m, x = ODiscard m) \/ (exists i, x = OReplyDropped i)).
  { intros x m owned rest [Q|Q]; [auto|]. apply in_app_or in Q. destruct Q as [Q|Q]; [|right; exact (not_discard _ _ Q)].
    destruct owned; [destruct Q as [<-|[]]; eauto|destruct Q]. }
  assert (F : (exists m, In (OHandleCut m) o) <-> (exists m, In (OHandleCut m) (cut_loop (ph s)))).
  { split; intros (m & Q); exists m; apply M; exact Q. }
  rewrite F.
  destruct (ph s) as [| | | | | | | |pc| | | | | | | |]; cbn [cut_loop code_at] in *;
    try (split; [split; [intros []|discriminate]|]; split; [split; [intros []|discriminate]|]; split; [intros (m & [])|discriminate]).
  - split; [split; [intros [Q|[]]; discriminate Q|discriminate]|]. split; [split; [reflexivity|intros _; left; reflexivity]|].
    split; [intros (m & [Q|[]]); discriminate Q|discriminate].
  - destruct pc; cbn [cut_loop code_at] in *;
      try (split; [split; [intros []|discriminate]|]; split; [split; [intros []|discriminate]|]; split; [intros (m & [])|discriminate]).
    + split; [split; [intro Q|discriminate]|].
      { destruct (K _ _ _ _ Q) as [R|[(x & R)|(x & R)]]; discriminate R. }
      split; [split; [intro Q|discriminate]|].
      { destruct (K _ _ _ _ Q) as [R|[(x & R)|(x & R)]]; discriminate R. }
      split; [reflexivity|intros _; eexists; left; reflexivity].
    + split; [split; [reflexivity|intros _; left; reflexivity]|]. split; [split; [intros [Q|[]]; discriminate Q|discriminate]|].
      split; [intros (m & [Q|[]]); discriminate Q|discriminate].
    + split; [split; [intros [Q|[]]; discriminate Q|discriminate]|]. split; [split; [reflexivity|intros _; left; reflexivity]|].
      split; [intros (m & [Q|[]]); discriminate Q|discriminate].
Qed.

(** The references left after the drop: those outside and the registry's. *)
Lemma dropped_refs : forall c es s tr s' o, exec (init c) es = Some (s, tr) -> drop_task s = Some (s', o) ->
  strong s' + given_up es = c_refs c + acquired es + handed_to_on_start tr + (if registered es then 1 else 0).
Proof.
  intros c es s tr s' o H D. destruct (run_counted_parts _ _ _ _ H) as (_ & A & _ & _ & R & _). rewrite <- R.
  unfold drop_task, close_mailbox in D. destruct (at_await s && negb (threaded s)); [|discriminate].
  injection D as <- <-. unfold strong. simp_fields. cbn [ended phase_refs negb]. rewrite andb_false_r. cbn. lia.
Qed.
