(** Proofs about actors whose task is dropped. *)
From Coq Require Import List Bool PeanoNat Permutation Lia.
Import ListNotations.
From Verif Require Import Lifecycle Lifecycle_spec Lifecycle_proofs Lifecycle_order_proofs Lifecycle_wait_proofs
  Lifecycle_final_proofs Lifecycle_room_spec Lifecycle_room_proofs Cancel Cancel_spec.

(** ** After the drop *)

Record gone (s : actor) : Prop := {
  go_ph : ph s = PCrashed;
  go_rx : rx_open s = false;
  go_queue : queue s = [];
  go_buf : buf s = []
}.

(** What is seen of a task that is gone. *)
Definition late (o : obs) : bool :=
  match o with OReply _ _ | OReplyDropped _ | OKill | OSawStartup _ | OSawShutdown _ => true | _ => false end.

Lemma gone_step : forall s e s' o, gone s -> step s e = Some (s', o) ->
  gone s' /\ permit_adds s' = permit_adds s /\ startup_err s' = startup_err s /\ shutdown_err s' = shutdown_err s
  /\ (in_reg s = true -> in_reg s' = true) /\ incl (given s') (given s) /\ forallb late o = true
  /\ (forall v, In (OSawStartup v) o -> permit_adds s > 0 /\ v = startup_err s)
  /\ (forall v, In (OSawShutdown v) o -> v = shutdown_err s)
  /\ (NoDup (given s) -> Permutation (given s) (answered o ++ given s')).
Proof.
  intros s e s' o [P R Q B] H.
  destruct e; cbn in H; rewrite ?P, ?R, ?andb_false_r in H; cbn in H; rewrite ?andb_false_r in H; cbn in H; try discriminate H.
  all: repeat match type of H with context [if ?b then _ else _] => destruct b eqn:? end; try discriminate H.
  all: injection H as <- <-.
  all: split; [split; cbn; assumption|].
  all: cbn -[remove]; repeat (split; [auto; try (intros x I; apply in_remove in I; tauto)|]).
  all: try (split; [|split]); intros; cbn in *; repeat match goal with
    | J : _ \/ _ |- _ => destruct J as [J|J]
    | J : False |- _ => destruct J
    end; try discriminate; try reflexivity; auto.
  all: try match goal with J : OSawStartup _ = OSawStartup _ |- _ => injection J as <- end;
       try match goal with J : OSawShutdown _ = OSawShutdown _ |- _ => injection J as <- end; auto.
  all: try apply incl_refl.
  all: try (destruct (permit_adds s); [rewrite andb_false_r in *; discriminate|lia]).
  all: match goal with J : existsb _ _ = true |- _ => apply existsb_exists in J; destruct J as (y & I & E); apply Nat.eqb_eq in E; subst y end.
  all: apply remove_perm; assumption.
Qed.

Lemma late_accepted : forall o, forallb late o = true -> accepted o = [] /\ handled o = [] /\ discarded o = [].
Proof.
  induction o as [|x o IH]; intros H; [auto|]. cbn in H. apply andb_true_iff in H. destruct H as [A B].
  destruct (IH B) as (X & Y & Z). destruct x; cbn in *; try discriminate A; auto.
Qed.

Lemma gone_exec : forall es s s' o, gone s -> exec s es = Some (s', o) ->
  gone s' /\ permit_adds s' = permit_adds s /\ startup_err s' = startup_err s /\ shutdown_err s' = shutdown_err s
  /\ (in_reg s = true -> in_reg s' = true) /\ incl (given s') (given s) /\ forallb late o = true
  /\ (forall v, In (OSawStartup v) o -> permit_adds s > 0 /\ v = startup_err s)
  /\ (forall v, In (OSawShutdown v) o -> v = shutdown_err s)
  /\ (NoDup (given s) -> Permutation (given s) (answered o ++ given s')).
Proof.
  induction es as [|e es IH]; intros s s' o G H; cbn in H.
  - injection H as <- <-. split; [exact G|]. cbn. repeat (split; [try reflexivity; auto using incl_refl|]); try tauto.
    intros _. reflexivity.
  - destruct (step s e) as [[s1 o1]|] eqn:S; [|discriminate]. destruct (exec s1 es) as [[s2 o2]|] eqn:X; [|discriminate].
    injection H as <- <-. destruct (gone_step _ _ _ _ G S) as (G1 & A1 & A2 & A3 & A4 & A5 & A6 & A7 & A8 & A9).
    destruct (IH _ _ _ G1 X) as (G2 & B1 & B2 & B3 & B4 & B5 & B6 & B7 & B8 & B9).
    split; [exact G2|]. split; [congruence|]. split; [congruence|]. split; [congruence|]. split; [auto|].
    split; [eapply incl_tran; eassumption|]. split; [rewrite forallb_app, A6; exact B6|].
    split; [intros v I; apply in_app_or in I; destruct I as [I|I]; [auto|rewrite <- A1, <- A2; auto]|].
    split; [intros v I; apply in_app_or in I; destruct I as [I|I]; [auto|rewrite <- A3; auto]|].
    intros ND. specialize (A9 ND). rewrite answered_app, <- app_assoc.
    rewrite A9 at 1. apply Permutation_app_head. apply B9.
    apply (Permutation_NoDup A9) in ND. apply NoDup_app_r in ND. exact ND.
Qed.

(** ** The drop *)

Lemma drop_shape : forall s s' o, drop_task s = Some (s', o) ->
  at_await s = true /\ threaded s = false
  /\ s' = set_queue [] (set_rx_open false (set_buf [] (set_polling false (set_ph PCrashed s))))
  /\ o = cut_loop (ph s) ++ discard (buf s) ++ OClosed :: discard (msgs_of (queue s)).
Proof.
  unfold drop_task. intros s s' o H. destruct (at_await s && negb (threaded s)) eqn:A; [|discriminate].
  apply andb_true_iff in A. destruct A as [A B]. apply negb_true_iff in B. injection H as <- <-. auto.
Qed.

Lemma drop_gone : forall s s' o, drop_task s = Some (s', o) ->
  gone s' /\ permit_adds s' = permit_adds s /\ startup_err s' = startup_err s /\ shutdown_err s' = shutdown_err s
  /\ in_reg s' = in_reg s /\ given s' = given s.
Proof.
  intros s s' o H. destruct (drop_shape _ _ _ H) as (_ & _ & -> & _). split; [split; reflexivity|]. repeat split.
Qed.

Definition cut (o : obs) : bool :=
  match o with OHandleCut _ | OLinkHookCut | OPanicHookCut | OReplyDropped _ | ODiscard _ | OClosed => true | _ => false end.

Lemma discard_cut : forall ms, forallb cut (discard ms) = true.
Proof. induction ms as [|m ms IH]; [reflexivity|]. change (discard (m :: ms)) with (ODiscard m :: drop_reply m ++ discard ms). cbn [forallb cut andb]. rewrite forallb_app, IH. unfold drop_reply. destruct (ask m); reflexivity. Qed.

Lemma drop_cut : forall s s' o, drop_task s = Some (s', o) -> forallb cut o = true /\ In OClosed o.
Proof.
  intros s s' o H. destruct (drop_shape _ _ _ H) as (_ & _ & _ & ->). split.
  - rewrite !forallb_app, discard_cut. cbn. rewrite discard_cut.
    assert (C : forallb cut (cut_loop (ph s)) = true).
    { destruct (ph s) as [| | | | | | | |[]| | | | | | | |]; try reflexivity. cbn. rewrite forallb_app, discard_cut. destruct owned; reflexivity. }
    rewrite C. reflexivity.
  - apply in_or_app. right. apply in_or_app. right. left. reflexivity.
Qed.

(** ** Where the task was *)

Definition past_registry (p : phase) : bool :=
  match p with PSet _ _ | PClosing _ | PDone _ | PCrashed => true | _ => false end.
Definition past_result (p : phase) : bool :=
  match p with PClosing _ | PDone _ | PCrashed => true | _ => false end.

Record ends_inv (s : actor) (es : list event) (tr : list obs) : Prop := {
  ei_reg : In ERegister es -> in_reg s = true \/ past_registry (ph s) = true;
  ei_err : shutdown_err s <> None -> past_result (ph s) = true;
  ei_given : forall id, In id (given s) -> In (OReplyTaken id) tr
}.

Lemma ends_step : forall s es tr e s' o, ends_inv s es tr -> step s e = Some (s', o) -> ends_inv s' (es ++ [e]) (tr ++ o).
Proof.
  intros s es tr e s' o [R E G] H. split.
  - intros I. assert (J : In ERegister es \/ e = ERegister) by (apply in_app_or in I; destruct I as [I|[I|[]]]; auto). clear I E G.
    destruct e; step_cases H; cbn; auto; (destruct J as [J|J]; [|discriminate J]); destruct (R J) as [K|K]; auto;
      try (rewrite K); auto; cbn in *; try discriminate K; auto.
  - clear R G. destruct e; step_cases H; cbn in *; auto.
    all: rewrite Heqp; exact E.
  - intros id I. clear R E. rewrite in_app_iff. destruct e; step_cases H; cbn -[remove] in *; auto.
    all: try (apply in_remove in I; destruct I; auto). all: try (destruct I as [<-|I]; auto).
Qed.

Lemma ends_exec : forall c es s tr, exec (init c) es = Some (s, tr) -> ends_inv s es tr.
Proof.
  intros c es. induction es as [|e es IH] using rev_ind; intros s tr H.
  - cbn in H. injection H as <- <-. split; [intros []|intros N; destruct (N eq_refl)|intros id []].
  - apply exec_snoc in H. destruct H as (s1 & o1 & o2 & H1 & H2 & ->). eapply ends_step; [apply IH; exact H1|exact H2].
Qed.

Definition notifies (o : obs) : bool := match o with ONotify _ _ _ => true | _ => false end.

Lemma discard_no_notify : forall ms, existsb notifies (discard ms) = false.
Proof.
  induction ms as [|m ms IH]; [reflexivity|]. change (discard (m :: ms)) with (ODiscard m :: drop_reply m ++ discard ms).
  cbn [existsb notifies orb]. rewrite existsb_app, IH. unfold drop_reply. destruct (ask m); reflexivity.
Qed.

Lemma notify_step : forall s e s' o, step s e = Some (s', o) ->
  (existsb notifies o = true -> exists r res p, ph s = PNotify r res p)
  /\ (forall r res p, ph s' = PNotify r res p -> (exists q, ph s = PNotify r res q) \/ In (OStopHookEnd res) o).
Proof.
  intros s e s' o S. split.
  - destruct e; step_cases S; cbn; repeat (rewrite ?existsb_app, ?discard_no_notify; cbn); intros N; try discriminate N; eauto.
    all: repeat match type of N with context [match ?x with _ => _ end] => destruct x; cbn in N;
           repeat (rewrite ?existsb_app, ?discard_no_notify in N; cbn in N) end; try discriminate N.
  - intros r res p P. destruct e; step_cases S; cbn in P; try discriminate P; try congruence;
      try (injection P as <- <- <-); eauto; try (right; left; reflexivity).
Qed.

Lemma stop_then_notify : forall c es s tr, exec (init c) es = Some (s, tr) ->
  (forall r res p, ph s = PNotify r res p -> In (OStopHookEnd res) tr)
  /\ (forall id r d, In (ONotify id r d) tr -> exists res, In (OStopHookEnd res) tr).
Proof.
  intros c es s tr. apply (exec_invariant (fun s tr => (forall r res p, ph s = PNotify r res p -> In (OStopHookEnd res) tr)
    /\ (forall id r d, In (ONotify id r d) tr -> exists res, In (OStopHookEnd res) tr))).
  - split; [discriminate|intros id r d []].
  - intros x t e x' o [A B] S. destruct (notify_step _ _ _ _ S) as [N M]. split.
    + intros r res p P. apply in_or_app. destruct (M _ _ _ P) as [(q & Q)|Q]; [left; eapply A; exact Q|right; exact Q].
    + intros id r d I. apply in_app_or in I. destruct I as [I|I]; [destruct (B _ _ _ I) as (res & J); exists res; apply in_or_app; auto|].
      destruct N as (r0 & res & p & Q); [apply existsb_exists; exists (ONotify id r d); split; [exact I|reflexivity]|].
      exists res. apply in_or_app. left. eapply A. exact Q.
Qed.

(** ** The claims *)

Section Claims.
Variables (c : config) (es1 : list event) (s1 : actor) (t1 : list obs)
  (s2 : actor) (t2 : list obs) (es2 : list event) (s3 : actor) (t3 : list obs).
Hypothesis D : dropped c es1 s1 t1 s2 t2 es2 s3 t3.

Lemma d_gone : gone s2.
Proof. exact (proj1 (drop_gone _ _ _ (d_drop _ _ _ _ _ _ _ _ _ D))). Qed.

Lemma dropped_closed : In OClosed t2 /\ accepted_signals t3 = [] /\ (0 < ext s3 -> can_happen s3 EWaitShutdown)
  /\ forall e, In e [ESend false false; ESend false true; EStop] -> ~ can_happen s3 e.
Proof.
  destruct (gone_exec _ _ _ _ d_gone (d_after _ _ _ _ _ _ _ _ _ D)) as (G & _ & _ & _ & _ & _ & L & _).
  split; [exact (proj2 (drop_cut _ _ _ (d_drop _ _ _ _ _ _ _ _ _ D)))|]. split.
  - clear - L. induction t3 as [|o t IH]; [reflexivity|]. cbn in L. apply andb_true_iff in L. destruct L as [A B].
    destruct o; try discriminate A; cbn; auto.
  - split.
    + intros E. unfold can_happen. cbn [step]. rewrite (go_rx _ G). apply Nat.ltb_lt in E. rewrite E. cbn. eauto.
    + intros e I (s' & o & S). cbn in I. destruct I as [<-|[<-|[<-|[]]]]; cbn [step] in S; rewrite (go_rx _ G), andb_false_r in S; discriminate S.
Qed.

Lemma no_late : forall p : obs -> bool, (forall o, p o = true -> cut o = false) -> (forall o, p o = true -> late o = false) ->
  existsb p (t2 ++ t3) = false.
Proof.
  intros p H1 H2. destruct (gone_exec _ _ _ _ d_gone (d_after _ _ _ _ _ _ _ _ _ D)) as (_ & _ & _ & _ & _ & _ & L & _).
  pose proof (proj1 (drop_cut _ _ _ (d_drop _ _ _ _ _ _ _ _ _ D))) as C.
  destruct (existsb p (t2 ++ t3)) eqn:E; [|reflexivity]. apply existsb_exists in E. destruct E as (o & I & P).
  rewrite forallb_forall in L, C. apply in_app_or in I. destruct I as [I|I].
  - specialize (C o I). rewrite (H1 o P) in C. discriminate C.
  - specialize (L o I). rewrite (H2 o P) in L. discriminate L.
Qed.

Lemma dropped_silent : existsb begins_code (t2 ++ t3) = false /\ existsb returns (t2 ++ t3) = false.
Proof. split; apply no_late; intros []; cbn; congruence. Qed.

Lemma dropped_untold : forall id r d, ~ In (ONotify id r d) (t2 ++ t3).
Proof.
  intros id r d I. assert (E : existsb (fun o => match o with ONotify _ _ _ => true | _ => false end) (t2 ++ t3) = false)
    by (apply no_late; intros []; cbn; congruence).
  assert (F : existsb (fun o => match o with ONotify _ _ _ => true | _ => false end) (t2 ++ t3) = true)
    by (apply existsb_exists; eauto). congruence.
Qed.

Lemma dropped_told : forall id r d, In (ONotify id r d) (t1 ++ t2 ++ t3) ->
  In (ONotify id r d) t1 /\ exists res, In (OStopHookEnd res) t1.
Proof.
  intros id r d I. apply in_app_or in I. destruct I as [I|I]; [|destruct (dropped_untold _ _ _ I)].
  split; [exact I|]. exact (proj2 (stop_then_notify _ _ _ _ (d_run _ _ _ _ _ _ _ _ _ D)) _ _ _ I).
Qed.

Lemma drop_pend : Permutation (discarded t2) (pend s1) /\ accepted t2 = [] /\ handled t2 = []
  /\ Permutation (answered t2) (ask_ids (pend s1) ++ cur (ph s1)).
Proof.
  destruct (drop_shape _ _ _ (d_drop _ _ _ _ _ _ _ _ _ D)) as (_ & _ & _ & ->).
  assert (E : forall q, OClosed :: discard (msgs_of q) = [OClosed] ++ discard (msgs_of q)) by reflexivity. rewrite E.
  trace_simpl. cbn [accepted handled discarded answered flat_map app].
  assert (A : accepted (cut_loop (ph s1)) = [] /\ handled (cut_loop (ph s1)) = [] /\ discarded (cut_loop (ph s1)) = rest_of (ph s1)
    /\ Permutation (answered (cut_loop (ph s1))) (ask_ids (rest_of (ph s1)) ++ cur (ph s1))).
  { destruct (ph s1) as [| | | | | | | |[]| | | | | | | |]; try (repeat split; reflexivity).
    change (cut_loop (PLoop (LHandle m owned rest k))) with ([OHandleCut m] ++ (if owned then [OReplyDropped (mid m)] else []) ++ discard rest).
    trace_simpl. destruct owned; cbn; repeat split; rewrite ?app_nil_r; try reflexivity. apply Permutation_cons_append. }
  destruct A as (A1 & A2 & A3 & A4). rewrite A1, A2, A3. unfold pend. repeat split; try reflexivity.
  rewrite !ask_ids_app. rewrite A4. rewrite <- !app_assoc. apply Permutation_app_head.
  rewrite Permutation_app_comm, <- app_assoc. reflexivity.
Qed.

Lemma dropped_messages : Permutation (accepted (t1 ++ t2 ++ t3)) (handled (t1 ++ t2 ++ t3) ++ discarded (t1 ++ t2 ++ t3))
  /\ handled (t1 ++ t2 ++ t3) = handled t1.
Proof.
  destruct (gone_exec _ _ _ _ d_gone (d_after _ _ _ _ _ _ _ _ _ D)) as (_ & _ & _ & _ & _ & _ & L & _).
  destruct (late_accepted _ L) as (L1 & L2 & L3). destruct drop_pend as (P1 & P2 & P3 & _).
  pose proof (conserve_exec _ _ _ _ (d_run _ _ _ _ _ _ _ _ _ D)) as C. change (pend (init c)) with (@nil msg) in C. cbn [app] in C.
  rewrite !accepted_app, !handled_app, !discarded_app, L1, L2, L3, P2, P3, !app_nil_r. split; [|reflexivity].
  rewrite P1. exact C.
Qed.

Lemma dropped_asks : exists held, Permutation (ask_ids (accepted (t1 ++ t2 ++ t3))) (answered (t1 ++ t2 ++ t3) ++ held)
  /\ forall id, In id held -> In (OReplyTaken id) t1.
Proof.
  exists (given s3).
  destruct (gone_exec _ _ _ _ d_gone (d_after _ _ _ _ _ _ _ _ _ D)) as (_ & _ & _ & _ & _ & I & L & _ & _ & N).
  destruct (late_accepted _ L) as (L1 & _ & _). destruct drop_pend as (_ & P2 & _ & P4).
  destruct (asks_exec _ _ _ _ (d_run _ _ _ _ _ _ _ _ _ D)) as (A & ND).
  destruct (drop_gone _ _ _ (d_drop _ _ _ _ _ _ _ _ _ D)) as (_ & _ & _ & _ & _ & G).
  assert (N2 : NoDup (given s2)) by (rewrite G; do 3 apply NoDup_app_r in ND; exact ND). specialize (N N2). split.
  - rewrite !accepted_app, !answered_app, L1, P2, !app_nil_r, A, P4. rewrite <- !app_assoc. do 3 apply Permutation_app_head.
    rewrite <- G. exact N.
  - intros id J. apply (ei_given _ _ _ (ends_exec _ _ _ _ (d_run _ _ _ _ _ _ _ _ _ D))). rewrite <- G. apply I. exact J.
Qed.

Lemma dropped_startup : 0 < ext s1 -> 0 < ext s3 -> (can_happen s3 EWaitStartup <-> can_happen s1 EWaitStartup).
Proof.
  intros E1 E3. destruct (gone_exec _ _ _ _ d_gone (d_after _ _ _ _ _ _ _ _ _ D)) as (_ & B & _).
  destruct (drop_gone _ _ _ (d_drop _ _ _ _ _ _ _ _ _ D)) as (_ & B2 & _).
  unfold can_happen. cbn [step]. rewrite B, B2. apply Nat.ltb_lt in E1, E3. rewrite E1, E3. cbn [andb].
  destruct (0 <? permit_adds s1); split; intros (x & y & Q); try discriminate Q; eauto.
Qed.

Lemma dropped_unstarted : 0 < ext s1 -> ~ can_happen s1 EWaitStartup -> forall v, ~ In (OSawStartup v) t3.
Proof.
  intros E1 N v I. destruct (gone_exec _ _ _ _ d_gone (d_after _ _ _ _ _ _ _ _ _ D)) as (_ & _ & _ & _ & _ & _ & _ & S & _).
  destruct (drop_gone _ _ _ (d_drop _ _ _ _ _ _ _ _ _ D)) as (_ & B2 & _). destruct (S v I) as [P _]. rewrite B2 in P.
  apply N. unfold can_happen. cbn [step]. apply Nat.ltb_lt in E1, P. rewrite E1, P. cbn. eauto.
Qed.

Lemma await_not_past : past_result (ph s1) = false /\ past_registry (ph s1) = false.
Proof.
  destruct (drop_shape _ _ _ (d_drop _ _ _ _ _ _ _ _ _ D)) as (A & _). unfold at_await in A.
  destruct (ph s1); try discriminate A; auto.
Qed.

Lemma dropped_shutdown : forall v, In (OSawShutdown v) t3 -> v = None.
Proof.
  intros v I. destruct (gone_exec _ _ _ _ d_gone (d_after _ _ _ _ _ _ _ _ _ D)) as (_ & _ & _ & _ & _ & _ & _ & _ & S & _).
  destruct (drop_gone _ _ _ (d_drop _ _ _ _ _ _ _ _ _ D)) as (_ & _ & _ & E & _). rewrite (S v I), E.
  pose proof (ei_err _ _ _ (ends_exec _ _ _ _ (d_run _ _ _ _ _ _ _ _ _ D))) as X. rewrite (proj1 await_not_past) in X.
  destruct (shutdown_err s1); [|reflexivity]. discriminate X. discriminate.
Qed.

Lemma dropped_registered : In ERegister es1 -> 0 < strong s3 /\ can_happen s3 EAcquire.
Proof.
  intros R. destruct (gone_exec _ _ _ _ d_gone (d_after _ _ _ _ _ _ _ _ _ D)) as (_ & _ & _ & _ & B & _).
  destruct (drop_gone _ _ _ (d_drop _ _ _ _ _ _ _ _ _ D)) as (_ & _ & _ & _ & E & _).
  destruct (ei_reg _ _ _ (ends_exec _ _ _ _ (d_run _ _ _ _ _ _ _ _ _ D)) R) as [K|K]; [|rewrite (proj2 await_not_past) in K; discriminate K].
  rewrite <- E in K. specialize (B K).
  assert (P : 0 < strong s3) by (unfold strong; rewrite B; lia). split; [exact P|].
  unfold can_happen. cbn [step]. apply Nat.ltb_lt in P. rewrite P. eauto.
Qed.

End Claims.

(** ** When it can be dropped *)

Lemma code_droppable : forall c es s tr, exec (init c) es = Some (s, tr) -> c_threaded c = false -> entered tr <> None ->
  polled es = false \/ entered tr = Some UStart \/ entered tr = Some UStop ->
  exists s' o, drop_task s = Some (s', o).
Proof.
  intros c es s tr H T E P. rewrite (run_code _ _ _ _ H) in *.
  assert (Ts : threaded s = false).
  { rewrite <- T. revert H. apply (exec_invariant (fun s _ => threaded s = c_threaded c)); [reflexivity|].
    intros x t e x' o IH Hs. rewrite <- IH. clear - Hs. destruct e; step_cases Hs; reflexivity. }
  assert (A : at_await s = true).
  { unfold at_await. destruct (run_polled _ _ _ _ H) as (Q & _).
    destruct (ph s) as [| | | | | | | |pc| | | | | | | |]; cbn in E; try congruence. rewrite (Q _ eq_refl).
    destruct P as [->|P]; [reflexivity|]. destruct pc; cbn in P; destruct P; discriminate. }
  unfold drop_task. rewrite A, Ts. cbn [andb negb]. destruct (close_mailbox _). eauto.
Qed.
