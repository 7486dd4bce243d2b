(** Conservation and order of messages, asks and their answers. *)
From Coq Require Import List Bool PeanoNat Permutation Lia.
Import ListNotations.
From Verif Require Import Lifecycle Lifecycle_spec Lifecycle_proofs.

(** ** Lists *)

Lemma subseq_refl : forall A (l : list A), subseq l l.
Proof. induction l; constructor; auto. Qed.

Lemma subseq_nil_l : forall A (l : list A), subseq [] l.
Proof. induction l; constructor; auto. Qed.

Lemma subseq_app : forall A (l1 l2 k1 k2 : list A),
  subseq l1 l2 -> subseq k1 k2 -> subseq (l1 ++ k1) (l2 ++ k2).
Proof. intros A l1 l2 k1 k2 H K. induction H; cbn; auto; constructor; auto. Qed.

Lemma subseq_trans : forall A (l1 l2 l3 : list A), subseq l1 l2 -> subseq l2 l3 -> subseq l1 l3.
Proof.
  intros A l1 l2 l3 H1 H2. revert l1 H1. induction H2; intros l0 H1; auto.
  - inversion H1; subst; constructor; auto.
  - constructor; auto.
Qed.

Lemma subseq_filter : forall A (p : A -> bool) l1 l2,
  subseq l1 l2 -> subseq (filter p l1) (filter p l2).
Proof. intros A p l1 l2 H. induction H; cbn; [constructor| |]; destruct (p x); try constructor; auto. Qed.

Lemma subseq_app_l : forall A (l1 l2 k : list A), subseq l1 l2 -> subseq l1 (l2 ++ k).
Proof.
  intros. rewrite <- (app_nil_r l1). apply subseq_app; auto using subseq_nil_l.
Qed.

Lemma subseq_app_r : forall A (l1 l2 k : list A), subseq l1 l2 -> subseq l1 (k ++ l2).
Proof. intros. change l1 with ([] ++ l1). apply subseq_app; auto using subseq_nil_l. Qed.

Lemma subseq_In : forall A (l1 l2 : list A) x, subseq l1 l2 -> In x l1 -> In x l2.
Proof. intros A l1 l2 x H. induction H; cbn; auto. intros [->|K]; auto. Qed.

Lemma subseq_prefix : forall A (l1 l2 k : list A), subseq (l1 ++ k) l2 -> subseq l1 l2.
Proof.
  intros A l1 l2 k H. eapply subseq_trans; [|exact H]. apply subseq_app_l, subseq_refl.
Qed.

(** ** Trace projections distribute over concatenation *)

Lemma accepted_app : forall t1 t2, accepted (t1 ++ t2) = accepted t1 ++ accepted t2.
Proof. intros. apply flat_map_app. Qed.
Lemma accepted_signals_app : forall t1 t2,
  accepted_signals (t1 ++ t2) = accepted_signals t1 ++ accepted_signals t2.
Proof. intros. apply flat_map_app. Qed.
Lemma handled_app : forall t1 t2, handled (t1 ++ t2) = handled t1 ++ handled t2.
Proof. intros. apply flat_map_app. Qed.
Lemma discarded_app : forall t1 t2, discarded (t1 ++ t2) = discarded t1 ++ discarded t2.
Proof. intros. apply flat_map_app. Qed.
Lemma answered_app : forall t1 t2, answered (t1 ++ t2) = answered t1 ++ answered t2.
Proof. intros. apply flat_map_app. Qed.
Lemma ask_ids_app : forall t1 t2, ask_ids (t1 ++ t2) = ask_ids t1 ++ ask_ids t2.
Proof. intros. unfold ask_ids. rewrite filter_app, map_app. reflexivity. Qed.
Lemma discard_app : forall t1 t2, discard (t1 ++ t2) = discard t1 ++ discard t2.
Proof. intros. apply flat_map_app. Qed.

Lemma accepted_discard : forall ms, accepted (discard ms) = [].
Proof. induction ms as [|m ms IH]; cbn; [reflexivity|]. unfold drop_reply. destruct (ask m); exact IH. Qed.
Lemma accepted_signals_discard : forall ms, accepted_signals (discard ms) = [].
Proof. induction ms as [|m ms IH]; cbn; [reflexivity|]. unfold drop_reply. destruct (ask m); exact IH. Qed.
Lemma handled_discard : forall ms, handled (discard ms) = [].
Proof. induction ms as [|m ms IH]; cbn; [reflexivity|]. unfold drop_reply. destruct (ask m); exact IH. Qed.
Lemma discarded_discard : forall ms, discarded (discard ms) = ms.
Proof.
  induction ms as [|m ms IH]; cbn; [reflexivity|]. unfold drop_reply.
  destruct (ask m); cbn; f_equal; exact IH.
Qed.
Lemma answered_discard : forall ms, answered (discard ms) = ask_ids ms.
Proof.
  induction ms as [|m ms IH]; cbn; [reflexivity|]. unfold drop_reply, ask_ids in *. cbn.
  destruct (ask m); cbn; [f_equal|]; exact IH.
Qed.

Lemma accepted_of_signals : forall tr, accepted tr = msgs_of (accepted_signals tr).
Proof.
  induction tr as [|o tr IH]; [reflexivity|]. cbn.
  change (flat_map _ tr) with (accepted tr) at 1.
  destruct o; cbn; try exact IH. destruct sg; cbn; rewrite ?IH; reflexivity.
Qed.

(** ** Pending messages *)

Definition rest_of (p : phase) : list msg :=
  match p with PLoop (LHandle _ _ rest _) => rest | _ => [] end.
(** Messages accepted but neither handled nor dropped yet, in the order in which
    they are due. *)
Definition pend (s : actor) : list msg := rest_of (ph s) ++ buf s ++ msgs_of (queue s).

Ltac trace_simpl :=
  rewrite ?accepted_app, ?handled_app, ?discarded_app, ?answered_app,
    ?accepted_discard, ?handled_discard, ?discarded_discard, ?answered_discard,
    ?msgs_of_app, ?ask_ids_app, ?app_nil_r in *.


Ltac split_vars :=
  repeat match goal with
    | |- context [match ?x with _ => _ end] => is_var x; destruct x
    end.

Ltac step_rewrite :=
  repeat match goal with E : ph ?s = _ |- _ => rewrite E in * end;
  repeat match goal with E : queue ?s = _ |- _ => rewrite E in * end;
  repeat match goal with E : buf ?s = _ |- _ => rewrite E in * end.

Ltac norm_trace :=
  cbn; trace_simpl; cbn; trace_simpl; cbn; rewrite <- ?app_assoc; cbn.

(** One step moves messages between the classes and creates only accepted ones. *)
Lemma conserve_step : forall s e s' o,
  step s e = Some (s', o) ->
  Permutation (pend s ++ accepted o) (handled o ++ discarded o ++ pend s').
Proof.
  intros s e s' o H. unfold pend.
  destruct e; step_cases H; bool_hyps; step_rewrite.
  all: cbn; split_vars; norm_trace.
  all: try reflexivity.
  all: try (rewrite Permutation_app_comm; reflexivity).
  all: try (symmetry; apply Permutation_middle).
Qed.

(** ... and keeps their order, within each class. *)
Lemma order_step : forall s e s' o,
  wf s -> step s e = Some (s', o) ->
  subseq (outside_msgs (handled o ++ pend s')) (outside_msgs (pend s ++ accepted o))
  /\ subseq (inside_msgs (handled o ++ pend s')) (inside_msgs (pend s ++ accepted o)).
Proof.
  intros s e s' o W H. unfold pend.
  destruct e; step_cases H; bool_hyps; step_rewrite.
  all: cbn; split_vars; norm_trace.
  all: try (split; apply subseq_refl).
  all: try (split; apply subseq_filter; auto using subseq_nil_l, subseq_refl, subseq_app_r; fail).
  all: try (split; apply subseq_nil_l).
  - (* a message taken from the queue and handled at once *)
    destruct W as [[_ _ Wf Wb] _ _]. simp_fields.
    destruct (finished s) eqn:Ef.
    + rewrite (Wf eq_refl). cbn. split; apply subseq_refl.
    + rewrite andb_true_r in Heqb0. apply negb_false_iff in Heqb0. rewrite Heqb0. cbn.
      rewrite !filter_app. cbn. rewrite Heqb0. cbn.
      replace (filter inside (buf s)) with (@nil msg); [split; apply subseq_refl|].
      symmetry. clear -Wb. induction (buf s) as [|x l IH]; [reflexivity|]. cbn.
      rewrite (Wb x (or_introl eq_refl)). apply IH. intros y Hy. apply Wb. right. exact Hy.
  - rewrite !filter_app. split; apply subseq_app_l, subseq_refl.
Qed.

(** ** Invariants over runs *)

Lemma conserve_exec : forall es s s' tr,
  exec s es = Some (s', tr) ->
  Permutation (pend s ++ accepted tr) (handled tr ++ discarded tr ++ pend s').
Proof.
  intros es s0 s' tr.
  apply (exec_invariant
    (fun s tr => Permutation (pend s0 ++ accepted tr) (handled tr ++ discarded tr ++ pend s))).
  - cbn. rewrite app_nil_r. reflexivity.
  - intros s t e s1 o IH H. apply conserve_step in H. trace_simpl.
    rewrite app_assoc, IH.
    transitivity (handled t ++ discarded t ++ (pend s ++ accepted o)).
    { rewrite <- !app_assoc. reflexivity. }
    rewrite H. rewrite <- !app_assoc. apply Permutation_app_head.
    rewrite !app_assoc. apply Permutation_app_tail. rewrite <- !app_assoc.
    rewrite (app_assoc (discarded t)), (Permutation_app_comm (discarded t)), <- app_assoc.
    reflexivity.
Qed.

Lemma outside_app : forall a b, outside_msgs (a ++ b) = outside_msgs a ++ outside_msgs b.
Proof. intros. apply filter_app. Qed.
Lemma inside_app : forall a b, inside_msgs (a ++ b) = inside_msgs a ++ inside_msgs b.
Proof. intros. apply filter_app. Qed.

Lemma order_exec : forall es s s' tr,
  wf s -> exec s es = Some (s', tr) ->
  subseq (outside_msgs (handled tr ++ pend s')) (outside_msgs (pend s ++ accepted tr))
  /\ subseq (inside_msgs (handled tr ++ pend s')) (inside_msgs (pend s ++ accepted tr)).
Proof.
  intros es s0 s' tr W.
  apply (exec_invariant_wf
    (fun s tr => subseq (outside_msgs (handled tr ++ pend s)) (outside_msgs (pend s0 ++ accepted tr))
              /\ subseq (inside_msgs (handled tr ++ pend s)) (inside_msgs (pend s0 ++ accepted tr)))).
  - exact W.
  - cbn. rewrite app_nil_r. split; apply subseq_refl.
  - intros s t e s1 o Ws [IH1 IH2] H. apply order_step in H; [|exact Ws]. destruct H as [H1 H2].
    trace_simpl. rewrite <- app_assoc, (app_assoc (pend s0)).
    rewrite !outside_app, !inside_app in *. split.
    + eapply subseq_trans; [apply subseq_app; [apply subseq_refl|exact H1]|].
      rewrite app_assoc. apply subseq_app; [exact IH1|apply subseq_refl].
    + eapply subseq_trans; [apply subseq_app; [apply subseq_refl|exact H2]|].
      rewrite app_assoc. apply subseq_app; [exact IH2|apply subseq_refl].
Qed.

(** Message identities are unique. *)
Lemma ids_step : forall s e s' o,
  step s e = Some (s', o) ->
  (accepted o = [] /\ next_mid s' = next_mid s)
  \/ exists m, accepted o = [m] /\ mid m = next_mid s /\ next_mid s' = S (next_mid s).
Proof.
  intros s e s' o H.
  destruct e; step_cases H; cbn; split_vars; norm_trace; eauto.
Qed.

Lemma ids_exec : forall c es s tr,
  exec (init c) es = Some (s, tr) ->
  NoDup (map mid (accepted tr)) /\ (forall m, In m (accepted tr) -> mid m < next_mid s).
Proof.
  intros c es s tr.
  apply (exec_invariant (fun s tr => NoDup (map mid (accepted tr))
                          /\ (forall m, In m (accepted tr) -> mid m < next_mid s))).
  - cbn. split; [constructor|intros m []].
  - intros s1 t e s' o [ND LT] H. apply ids_step in H. rewrite accepted_app, map_app.
    destruct H as [[-> ->]|(m & -> & Hm & ->)].
    + rewrite !app_nil_r. auto.
    + split.
      * cbn. apply Permutation_NoDup with (l := mid m :: map mid (accepted t)).
        { rewrite Permutation_app_comm. reflexivity. }
        constructor; [|exact ND]. rewrite in_map_iff. intros (x & Hx & Hin).
        apply LT in Hin. lia.
      * intros x Hx. apply in_app_or in Hx. destruct Hx as [Hx|[<-|[]]]; [apply LT in Hx|]; lia.
Qed.

(** ** Asks *)

Lemma NoDup_app_r : forall A (l1 l2 : list A), NoDup (l1 ++ l2) -> NoDup l2.
Proof. induction l1; cbn; intros l2 H; auto. inversion H; auto. Qed.
Lemma NoDup_app_l : forall A (l1 l2 : list A), NoDup (l1 ++ l2) -> NoDup l1.
Proof.
  intros A l1 l2 H. apply (NoDup_app_r A l2).
  eapply Permutation_NoDup; [apply Permutation_app_comm|exact H].
Qed.

(** The reply sender still owned by the running handler's context. *)
Definition cur (p : phase) : list nat :=
  match p with PLoop (LHandle m true _ _) => [mid m] | _ => [] end.

Lemma remove_perm : forall x l, NoDup l -> In x l ->
  Permutation l (x :: remove Nat.eq_dec x l).
Proof.
  intros x l ND Hin. induction l as [|y l IH]; [destruct Hin|].
  cbn. destruct (Nat.eq_dec x y) as [->|Hne].
  - rewrite notin_remove; [reflexivity|]. inversion ND; assumption.
  - destruct Hin as [->|Hin]; [congruence|]. inversion ND; subst.
    rewrite perm_swap. constructor. apply IH; assumption.
Qed.

Lemma existsb_eqb : forall x l, existsb (Nat.eqb x) l = true <-> In x l.
Proof.
  intros x l. rewrite existsb_exists. split.
  - intros (y & Hy & E). apply Nat.eqb_eq in E. subst. exact Hy.
  - intro H. exists x. split; [exact H|apply Nat.eqb_refl].
Qed.

(** Permutations of lists of naturals, by counting. *)
Ltac perm_count :=
  apply (Permutation_count_occ Nat.eq_dec); let x := fresh "x" in intro x;
  repeat match goal with
    | H : Permutation ?a ?b |- _ =>
        let K := fresh in
        pose proof (proj1 (Permutation_count_occ Nat.eq_dec a b) H x) as K; clear H
    end;
  repeat (rewrite count_occ_app in * || cbn [count_occ] in * );
  repeat match goal with
    | |- context [Nat.eq_dec ?a ?b] => destruct (Nat.eq_dec a b)
    | H : context [Nat.eq_dec ?a ?b] |- _ => destruct (Nat.eq_dec a b)
    end; try lia.

Lemma asks_step : forall s e s' o,
  NoDup (given s) -> step s e = Some (s', o) ->
  Permutation (ask_ids (pend s) ++ ask_ids (accepted o) ++ cur (ph s) ++ given s)
              (answered o ++ ask_ids (pend s') ++ cur (ph s') ++ given s').
Proof.
  intros s e s' o ND H. unfold pend.
  destruct e; step_cases H; bool_hyps; step_rewrite.
  all: cbn; split_vars; norm_trace.
  all: try reflexivity.
  all: unfold ask_ids; cbn.
  all: try (apply existsb_eqb in Heqb; apply (remove_perm _ _ ND) in Heqb).
  all: rewrite ?filter_app, ?map_app; cbn.
  all: repeat match goal with |- context [if ?b then _ else _] => destruct b end; cbn;
    rewrite ?filter_app, ?map_app; cbn; rewrite ?map_app.
  all: perm_count.
Qed.

Lemma asks_exec : forall c es s tr,
  exec (init c) es = Some (s, tr) ->
  Permutation (ask_ids (accepted tr)) (answered tr ++ ask_ids (pend s) ++ cur (ph s) ++ given s)
  /\ NoDup (answered tr ++ ask_ids (pend s) ++ cur (ph s) ++ given s).
Proof.
  intros c es s tr H.
  enough (K : Permutation (ask_ids (accepted tr))
      (answered tr ++ ask_ids (pend s) ++ cur (ph s) ++ given s)).
  { split; [exact K|]. eapply Permutation_NoDup; [exact K|].
    destruct (ids_exec _ _ _ _ H) as [ND _]. clear -ND. unfold ask_ids.
    induction (accepted tr) as [|m l IH]; cbn; [constructor|]. inversion ND; subst.
    destruct (ask m); cbn; [|auto]. constructor; [|auto].
    rewrite in_map_iff in *. intros (y & Hy & Hin). apply filter_In in Hin.
    apply H1. exists y. tauto. }
  revert s tr H. induction es as [|e es IH] using rev_ind; intros s tr H.
  - cbn in H. inversion H; subst. reflexivity.
  - pose proof (ids_exec _ _ _ _ H) as [ND _].
    apply exec_snoc in H. destruct H as (s1 & t & o & H1 & H2 & ->).
    specialize (IH _ _ H1).
    assert (NDg : NoDup (given s1)).
    { destruct (ids_exec _ _ _ _ H1) as [ND1 _].
      assert (NDa : NoDup (ask_ids (accepted t))).
      { clear -ND1. unfold ask_ids.
        induction (accepted t) as [|m l IH]; cbn; [constructor|]. inversion ND1; subst.
        destruct (ask m); cbn; [|auto]. constructor; [|auto].
        rewrite in_map_iff in *. intros (y & Hy & Hin). apply filter_In in Hin.
        apply H1. exists y. tauto. }
      eapply Permutation_NoDup in NDa; [|exact IH].
      rewrite !app_assoc in NDa. apply NoDup_app_r in NDa. exact NDa. }
    pose proof (asks_step _ _ _ _ NDg H2) as K. clear -IH K.
    rewrite accepted_app, answered_app, ask_ids_app. perm_count.
Qed.
