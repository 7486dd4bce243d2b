(** Every run follows the lifecycle protocol of Lifecycle_spec. *)
From Coq Require Import List Bool PeanoNat Permutation Lia.
Import ListNotations.
From Verif Require Import Lifecycle Lifecycle_spec Lifecycle_proofs Lifecycle_order_proofs.

Lemma proto_run_app : forall t1 t2 q,
  proto_run q (t1 ++ t2) = match proto_run q t1 with Some q' => proto_run q' t2 | None => None end.
Proof.
  induction t1 as [|o t1 IH]; intros t2 q; cbn; [reflexivity|].
  destruct (proto_step q o); [apply IH|reflexivity].
Qed.

(** States that demand nothing immediately. *)
Definition calm (q : proto) : bool :=
  match q with QMustReply _ _ | QDropThenFail _ _ | QDropThenExit _ => false | _ => true end.

Lemma proto_run_discard : forall ms q, calm q = true -> proto_run q (discard ms) = Some q.
Proof.
  induction ms as [|m ms IH]; intros q C; cbn; [reflexivity|].
  unfold drop_reply. destruct q; try discriminate C; cbn; destruct (ask m); cbn; apply IH; exact C.
Qed.

Lemma nat_beq_refl : forall n, internal_nat_beq n n = true.
Proof. intro n. apply internal_nat_dec_lb. reflexivity. Qed.
Lemma reply_beq_refl : forall v, reply_beq v v = true.
Proof. intro n. apply internal_reply_dec_lb. reflexivity. Qed.
Lemma reply_beq_eq : forall f g, reply_beq f g = true -> f = g.
Proof. intros f g. apply internal_reply_dec_bl. Qed.
Lemma failure_beq_refl : forall f, failure_beq f f = true.
Proof. intro f. apply internal_failure_dec_lb. reflexivity. Qed.
Lemma reason_beq_refl : forall r, reason_beq r r = true.
Proof. intro r. apply internal_reason_dec_lb. reflexivity. Qed.
Lemma failure_beq_eq : forall f g, failure_beq f g = true -> f = g.
Proof. intros f g. apply internal_failure_dec_bl. Qed.
Lemma reason_beq_eq : forall f g, reason_beq f g = true -> f = g.
Proof. intros f g. apply internal_reason_dec_bl. Qed.

Definition q_of_start (res : hook_res) : proto :=
  match res with HookOk => QReady | HookFail f => QStartFailed f end.

(** Which protocol states a program point may be in. *)
Definition at_proto (p : phase) (q : proto) : Prop :=
  match p with
  | PInit => q = QFresh
  | PStarting => q = QInStart
  | PStarted res | PSignal res | PDowngrade res _ => q = q_of_start res
  | PFailPanic f => q = QInFailPanic f
  | PFailStop r => q = QInStop r false
  | PFailSet r res => q = QStopped r false
  | PLoop LEntry | PLoop LRecv => q = QReady \/ q = QAfterLink (FlowOk Continue)
  | PLoop (LHandle m owned _ _) => q = QInHandler m owned
  | PLoop (LLink _ _) => q = QInLink
  | PLoop (LLinkRm _ res) => q = QAfterLink res
  | PLoop (LPanic f) => q = QInPanic f
  | PDrainLinks r => q = QExited r
  | PStop r _ => q = QInStop r true
  | PNotify r _ _ | PRegRemove r _ | PSet r _ => q = QStopped r true
  | PClosing r => exists b, q = QStopped r b
  | PDone _ | PCrashed => q = QEnd
  end.

Lemma at_proto_calm : forall p q, at_proto p q -> calm q = true.
Proof.
  intros p q H. destruct p; cbn in H;
    try match goal with P : loop_pc |- _ => destruct P end; cbn in H;
    try match goal with R : hook_res |- _ => destruct R end;
    try match type of H with
        | _ \/ _ => destruct H as [H|H]
        | ex _ => destruct H as [? H]
        end; subst; reflexivity.
Qed.

Lemma proto_step_sound : forall s e s' o q,
  wf s -> NoDup (cur (ph s) ++ given s) -> at_proto (ph s) q -> step s e = Some (s', o) ->
  exists q', proto_run q o = Some q' /\ at_proto (ph s') q'.
Proof.
  intros s e s' o q W ND Q H.
  destruct W as [[Wp Wph Wfin _] [Wrx Wse Wde Wde2] _]. unfold at_phase in Wph.
  destruct (is_env e) eqn:He.
  - destruct (env_frame _ _ _ _ He H) as (Hp & _). rewrite Hp.
    exists q. split; [|exact Q].
    pose proof (at_proto_calm _ _ Q) as C.
    destruct e; try discriminate He; step_cases H; bool_hyps; cbn;
      try (destruct q; try discriminate C; reflexivity).
    + destruct q; try discriminate C; try reflexivity. destruct owned; [|reflexivity]. cbn.
      destruct (Nat.eqb_spec id (mid m)) as [->|Hne]; [|reflexivity].
      exfalso. apply existsb_eqb in Heqb.
      destruct (ph s); cbn in Q; try discriminate Q; try (destruct Q; discriminate);
        try match goal with R : hook_res |- _ => destruct R; discriminate Q end;
        match goal with P : loop_pc |- _ => destruct P end;
        try discriminate Q; try (destruct Q; discriminate).
      injection Q as <- <-. cbn in ND. inversion ND; auto.
    + destruct q; try discriminate C; try reflexivity; exfalso.
      all: destruct (ph s); cbn in Q; try discriminate Q; try (destruct Q; discriminate);
        try match goal with R : hook_res |- _ => destruct R; discriminate Q end;
        try match goal with P : loop_pc |- _ => destruct P end;
        try discriminate Q; try (destruct Q; discriminate).
      all: lia.
    + rewrite Wrx in H0. apply negb_false_iff in H0.
      destruct (ph s); try discriminate H0; cbn in Q; subst; reflexivity.
  - destruct e; try discriminate He; clear He; step_cases H; bool_hyps.
    all: repeat match goal with E : ph ?s = _ |- _ => rewrite E in * end; cbn in Q, Wph, Wse;
      try (exfalso; tauto).
    all: try match goal with E : startup_err ?s = Some _, F : startup_err ?s = None <-> true = true |- _ =>
      rewrite (proj2 F eq_refl) in E; discriminate E end.
    all: try match goal with E : shutdown_err ?s = Some _, F : _ -> shutdown_err ?s = None |- _ =>
      rewrite (F eq_refl) in E; discriminate E end.
    all: try match type of Q with
           match ?x with _ => _ end => is_var x; destruct x; cbn in Q, Wph end.
    all: match type of Q with
         | _ \/ _ => destruct Q as [Q|Q]
         | ex _ => destruct Q as [? Q]
         | _ => idtac
         end; subst q.
    all: cbn; split_vars; cbn; rewrite ?Nat.eqb_refl; cbn;
      rewrite ?proto_run_app, ?proto_run_discard by reflexivity; cbn;
      rewrite ?failure_beq_refl, ?reason_beq_refl, ?Nat.eqb_refl, ?reply_beq_refl; cbn; rewrite ?proto_run_discard by reflexivity; cbn;
      rewrite ?failure_beq_refl, ?reason_beq_refl; cbn; 
      rewrite ?proto_run_app, ?proto_run_discard by reflexivity; cbn;
      try (eexists; split; [reflexivity|cbn; eauto]; fail).
    all: try match goal with F : Some _ = None <-> true = true |- _ =>
      discriminate (proj2 F eq_refl) end.
    all: try match goal with F : _ = false -> Some _ = None |- _ =>
      discriminate (F eq_refl) end.
    all: try (rewrite nat_beq_refl; eexists; split; reflexivity).
    all: try (rewrite proto_run_discard by reflexivity; eexists; split; reflexivity).
    destruct res; eexists; split; reflexivity.
Qed.

(** Every run is accepted by the protocol automaton. *)
Lemma proto_exec : forall c es s tr,
  exec (init c) es = Some (s, tr) ->
  exists q, proto_run QFresh tr = Some q /\ at_proto (ph s) q.
Proof.
  intros c es. induction es as [|e es IH] using rev_ind; intros s tr H.
  - cbn in H. inversion H; subst. exists QFresh. split; reflexivity.
  - apply exec_snoc in H. destruct H as (s1 & t & o & H1 & H2 & ->).
    destruct (IH _ _ H1) as (q & Hq & Hat).
    assert (ND : NoDup (cur (ph s1) ++ given s1)).
    { destruct (asks_exec _ _ _ _ H1) as [_ ND].
      rewrite (app_assoc (answered t)) in ND. apply NoDup_app_r in ND. exact ND. }
    destruct (proto_step_sound _ _ _ _ _ (wf_exec _ _ _ _ (wf_init c) H1) ND Hat H2)
      as (q' & Hr & Hat').
    exists q'. rewrite proto_run_app, Hq. auto.
Qed.

