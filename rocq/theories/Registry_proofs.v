(** Lemmas about the registry. *)
From Coq Require Import List Bool String PeanoNat Lia.
Import ListNotations.
From Verif Require Import Registry Registry_spec.
Local Open Scope string_scope.
Local Open Scope list_scope.

Lemma get_remove_same : forall n m, map_get n (map_remove n m) = None.
Proof.
  induction m as [|[k r] m IH]; [reflexivity|]. unfold map_remove in *. cbn. destruct (k =? n) eqn:E; cbn; [exact IH|].
  now rewrite E.
Qed.

Lemma get_remove_other : forall n k m, k <> n -> map_get n (map_remove k m) = map_get n m.
Proof.
  intros n k m NE. induction m as [|[j r] m IH]; [reflexivity|].
  unfold map_remove in *. cbn.
  destruct (j =? k) eqn:E; cbn.
  - apply String.eqb_eq in E. subst j. rewrite (proj2 (String.eqb_neq k n) NE). exact IH.
  - now rewrite IH.
Qed.

Lemma get_insert_same : forall n r m, map_get n (map_insert n r m) = Some r.
Proof. intros. cbn. now rewrite String.eqb_refl. Qed.

Lemma get_insert_other : forall n k r m, k <> n -> map_get n (map_insert k r m) = map_get n m.
Proof.
  intros n k r m NE. cbn. rewrite (proj2 (String.eqb_neq k n) NE). now apply get_remove_other.
Qed.

Lemma run_app : forall ops1 ops2 m,
  reg_run m (ops1 ++ ops2) =
  let '(m1, o1) := reg_run m ops1 in
  let '(m2, o2) := reg_run m1 ops2 in (m2, o1 ++ o2).
Proof.
  induction ops1 as [|op ops1 IH]; intros ops2 m; cbn.
  - destruct (reg_run m ops2). reflexivity.
  - destruct (reg_step m op) as [m1 o]. rewrite IH.
    destruct (reg_run m1 ops1) as [m2 o2]. destruct (reg_run m2 ops2). reflexivity.
Qed.

Definition final (ops : list reg_op) : registry := fst (reg_run reg_new ops).

Lemma final_snoc : forall ops op, final (ops ++ [op]) = fst (reg_step (final ops) op).
Proof.
  intros ops op. unfold final. rewrite run_app. destruct (reg_run reg_new ops) as [m o]. cbn.
  destruct (reg_step m op). reflexivity.
Qed.

Lemma last_snoc : forall n ops op r,
  last_registered n (ops ++ [op]) r <->
  (op = OpRegister n r \/ op = OpInsert n r) \/ (leaves n op /\ last_registered n ops r).
Proof.
  intros n ops op r. split.
  - intros (b & x & a & E & X & F). destruct a as [|y a] using rev_ind.
    + change (ops ++ [op] = b ++ [x]) in E. apply app_inj_tail in E. destruct E as [<- <-]. auto.
    + clear IHa. change (x :: a ++ [y]) with ((x :: a) ++ [y]) in E. rewrite app_assoc in E.
      apply app_inj_tail in E. destruct E as [-> ->]. apply Forall_app in F. destruct F as [F1 F2].
      inversion F2; subst. right. split; [assumption|]. exists b, x, a. auto.
  - intros [X|[L (b & x & a & -> & X & F)]].
    + exists ops, op, []. auto.
    + exists b, x, (a ++ [op])%list. rewrite <- app_assoc. cbn. split; [reflexivity|]. split; [exact X|].
      apply Forall_app. auto.
Qed.

Lemma get_last : forall ops n r, map_get n (final ops) = Some r <-> last_registered n ops r.
Proof.
  induction ops as [|op ops IH] using rev_ind; intros n r.
  - split; [discriminate|]. intros (b & x & a & E & _). destruct b; discriminate.
  - rewrite final_snoc, last_snoc.
    destruct op as [k s|k s|k| |A k|A k]; cbn [reg_step reg_insert reg_remove reg_clear fst leaves].
    + destruct (string_dec k n) as [->|NE].
      * rewrite get_insert_same. split; [intros [= ->]; auto|].
        intros [[[= ->]|[=]]|[[] _]]; auto.
      * rewrite get_insert_other by exact NE. rewrite IH. split; [auto|].
        intros [[[= ? ?]|[=]]|[_ H]]; [congruence|exact H].
    + destruct (string_dec k n) as [->|NE].
      * rewrite get_insert_same. split; [intros [= ->]; auto|].
        intros [[[=]|[= ->]]|[[] _]]; auto.
      * rewrite get_insert_other by exact NE. rewrite IH. split; [auto|].
        intros [[[=]|[= ? ?]]|[_ H]]; [congruence|exact H].
    + destruct (string_dec k n) as [->|NE].
      * rewrite get_remove_same. split; [discriminate|]. intros [[[=]|[=]]|[[] _]]; auto.
      * rewrite get_remove_other by exact NE. rewrite IH. split; [auto|].
        intros [[[=]|[=]]|[_ H]]; exact H.
    + split; [discriminate|]. intros [[[=]|[=]]|[[] _]].
    + rewrite IH. split; [auto|]. intros [[[=]|[=]]|[_ H]]; exact H.
    + rewrite IH. split; [auto|]. intros [[[=]|[=]]|[_ H]]; exact H.
Qed.

Lemma contains_last : forall ops n,
  (exists r, last_registered n ops r) /\ reg_contains n (final ops) = true
  \/ (forall r, ~ last_registered n ops r) /\ reg_contains n (final ops) = false.
Proof.
  intros ops n. unfold reg_contains. destruct (map_get n (final ops)) as [r|] eqn:E.
  - left. split; [|reflexivity]. exists r. now apply get_last.
  - right. split; [|reflexivity]. intros r H. apply get_last in H. congruence.
Qed.

Lemma answer_right : forall ops op, right_answer ops op (snd (reg_step (final ops) op)).
Proof.
  intros ops op.
  destruct op as [k s|k s|k| |A k|A k]; cbn [reg_step right_answer reg_insert reg_remove snd fst]; try reflexivity.
  - destruct (contains_last ops k) as [[H ->]|[H ->]]; auto.
  - destruct (contains_last ops k) as [[H ->]|[H ->]]; auto.
  - unfold reg_get. destruct (map_get k (final ops)) as [[B a]|] eqn:E; cbn.
    + apply get_last in E. destruct (Nat.eqb_spec B A) as [->|NE]; [left; eauto|right; left; eauto].
    + right. right. split; [|reflexivity]. intros r H. apply get_last in H. congruence.
  - unfold reg_get. destruct (map_get k (final ops)) as [[B a]|] eqn:E; cbn.
    + apply get_last in E. destruct (Nat.eqb_spec B A) as [->|NE]; [left; eauto|right; left; eauto].
    + right. right. split; [|reflexivity]. intros r H. apply get_last in H. congruence.
Qed.

Lemma answers_right : forall ops1 op ops2 o,
  nth_error (snd (reg_run reg_new (ops1 ++ op :: ops2))) (List.length ops1) = Some o ->
  right_answer ops1 op o.
Proof.
  intros ops1 op ops2 o H. rewrite run_app in H.
  destruct (reg_run reg_new ops1) as [m1 o1] eqn:E1.
  assert (L : List.length o1 = List.length ops1).
  { clear H. revert m1 o1 E1. generalize reg_new. induction ops1 as [|x l IH]; intros m m1 o1 E; cbn in E.
    - now injection E as <- <-.
    - destruct (reg_step m x). destruct (reg_run r l) eqn:E2. injection E as <- <-. cbn. f_equal. eauto. }
  cbn in H. destruct (reg_step m1 op) as [m2 o2] eqn:E2. destruct (reg_run m2 ops2) as [m3 o3].
  cbn in H. rewrite nth_error_app2 in H by lia. rewrite L, Nat.sub_diag in H. injection H as <-.
  assert (F : final ops1 = m1) by (unfold final; now rewrite E1).
  assert (A := answer_right ops1 op). rewrite F, E2 in A. exact A.
Qed.

Lemma answers_total : forall ops m, List.length (snd (reg_run m ops)) = List.length ops.
Proof.
  induction ops as [|op ops IH]; intros m; [reflexivity|]. cbn.
  destruct (reg_step m op) as [m1 o]. specialize (IH m1). destruct (reg_run m1 ops). cbn in *. now rewrite IH.
Qed.

Lemma names_nodup_remove : forall n m, NoDup (map fst m) -> NoDup (map fst (map_remove n m)) /\ ~ In n (map fst (map_remove n m)).
Proof.
  intros n m. induction m as [|[k r] m IH]; intros ND; [split; [constructor|intros []]|].
  inversion ND as [|? ? NI ND']; subst. destruct (IH ND') as [A B]. cbn.
  destruct (k =? n) eqn:E; cbn; [auto|]. apply String.eqb_neq in E. split.
  - constructor; [|exact A]. intros H. apply NI. apply in_map_iff in H. destruct H as (x & Fx & Hx).
    apply filter_In in Hx. cbn in Fx. apply in_map_iff. exists x. tauto.
  - intros [H|H]; [congruence|tauto].
Qed.

Lemma names_nodup : forall ops, NoDup (reg_names (final ops)).
Proof.
  induction ops as [|op ops IH] using rev_ind; [constructor|].
  rewrite final_snoc. destruct op; cbn; try assumption; try constructor;
    try (apply names_nodup_remove; assumption).
Qed.

Lemma names_exact : forall ops n, In n (reg_names (final ops)) <-> exists r, last_registered n ops r.
Proof.
  intros ops n. transitivity (exists r, map_get n (final ops) = Some r).
  - unfold reg_names. induction (final ops) as [|[k r] m IH]; cbn.
    + split; [intros []|intros [? [=]]].
    + destruct (k =? n) eqn:E.
      * apply String.eqb_eq in E. subst. split; eauto.
      * apply String.eqb_neq in E. rewrite <- IH. split; [intros [?|?]; [congruence|auto]|auto].
  - split; intros (r & H); exists r; now apply get_last.
Qed.

Lemma len_exact : forall ops, exists l, NoDup l /\ List.length l = reg_len (final ops) /\
  (forall n, In n l <-> exists r, last_registered n ops r).
Proof.
  intros ops. exists (reg_names (final ops)). split; [apply names_nodup|].
  split; [unfold reg_names; apply map_length|]. intros n. apply names_exact.
Qed.
