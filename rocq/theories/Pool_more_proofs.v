(** More proofs about the actor pool (Pool.v), for P_Pool.v. *)
From Coq Require Import List Bool PeanoNat Lia.
From Verif Require Import Pool Pool_spec Pool_proofs.
Import ListNotations.

(** *** Choices *)

Lemma step_chosen : forall l0 s tr e s' o w m,
  INV l0 s tr -> step s e = Some (s', o) -> In (OChosen w m) o ->
  o = [OChosen w m] /\ first_least (outstanding tr) (slots s) w.
Proof.
  intros l0 s tr e s' o w m I E H. destruct e as [x| |up c| | |k|k|v|v ok|v|v|v]; cbn [step] in E.
  - destruct (_ && has_room (pcap s) (inbox s)); [|discriminate]. injection E as <- <-. destruct H.
  - assert (X : forall v, ~ In (OChosen w m) (link_obs (wk s) v)).
    { intros v. unfold link_obs. destruct (st (wk s v)); [intros [Z|[]]; discriminate|intros []|intros []]. }
    destruct (ph s); try discriminate; [destruct (nth_error (slots s) k); [|discriminate]|];
      injection E as <- <-; destruct (X _ H).
  - destruct (ph s) eqn:P; try discriminate. destruct (inbox s) as [|x q]; [discriminate|].
    destruct x as [x|x|id|].
    + destruct (next_round _ x (length (slots s))) as [s1 o1] eqn:NR. injection E as <- <-.
      apply next_round_inv with (l0 := l0) (tr := tr) in NR; [|rewrite <- (app_nil_r tr); apply inv_ph; auto; try exact Logic.I|reflexivity].
      2:{ intros v. unfold waiting. rewrite P. reflexivity. }
      destruct NR as [_ NR]. destruct (NR _ _ H) as (A & -> & B). auto.
    + injection E as <- <-. destruct H as [H|[]]; discriminate.
    + unfold on_link_died in E. destruct up; [|injection E as <- <-; destruct H].
      cbn [slots] in E. destruct (position id (slots s)); [|injection E as <- <-; destruct H].
      destruct (bad_cap c); injection E as <- <-; cbn in H; intuition discriminate.
    + injection E as <- <-. destruct H.
  - destruct (ph s); try discriminate. destruct (st (wk s w0)); try discriminate;
      (destruct (has_room _ _); [|discriminate]; injection E as <- <-; cbn in H; intuition discriminate).
  - destruct (ph s) as [| |x k v| | |] eqn:P; try discriminate. destruct (st (wk s v)); try discriminate.
    destruct (snd x).
    + injection E as <- <-. cbn in H; intuition discriminate.
    + destruct (next_round _ x k) as [s1 o1] eqn:NR. injection E as <- <-.
      apply next_round_inv with (l0 := l0) (tr := tr) in NR; [| |reflexivity].
      2:{ rewrite <- (app_nil_r tr). apply (refused_inv _ _ _ _ _ _ I P). left; auto. }
      destruct NR as [_ NR]. destruct (NR _ _ H) as (A & -> & B). auto.
  - destruct (ph s) as [| | |x rs| |]; try discriminate. destruct (nth_error rs k) as [[v [b|]]|]; try discriminate.
    unfold after_cast in E. destruct (st (wk s v)); try discriminate;
    (destruct (has_room _ _); [|discriminate]; destruct (results _); injection E as <- <-; cbn in H; intuition discriminate).
  - destruct (ph s) as [| | |x rs| |]; try discriminate. destruct (nth_error rs k) as [[v [b|]]|]; try discriminate.
    unfold after_cast in E. destruct (st (wk s v)); try discriminate.
    destruct (results _); injection E as <- <-; cbn in H; intuition discriminate.
  - destruct (st (wk s v)); try discriminate. destruct (busy (wk s v)); try discriminate.
    destruct (queue (wk s v)); try discriminate. injection E as <- <-. destruct H.
  - destruct (st (wk s v)); try discriminate. destruct (busy (wk s v)) as [x|]; try discriminate.
    destruct (snd x); injection E as <- <-; cbn in H; intuition discriminate.
  - destruct (st (wk s v)); try discriminate. injection E as <- <-.
    destruct (busy (wk s v)); cbn in H; intuition discriminate.
  - destruct (st (wk s v)); try discriminate. destruct (to_tell (wk s v)); try discriminate.
    destruct (ph s); try (destruct (has_room _ _); [|discriminate]); injection E as <- <-; destruct H.
  - destruct (st (wk s v)); try discriminate. destruct (to_tell (wk s v)); try discriminate.
    injection E as <- <-. apply in_map_iff in H. destruct H as (y & Y & _). discriminate.
Qed.

Lemma chosen_least : forall caps c es s t1 w m t2,
  reaches caps c es s (t1 ++ OChosen w m :: t2) ->
  first_least (outstanding t1) (workers_after (seq 0 (length caps)) t1) w.
Proof.
  intros caps c es s t1 w m t2 (s0 & N & R). apply run_split in R.
  destruct R as (es1 & e & es2 & sa & sb & ta & oa & ob & tb & -> & R1 & ST & R2 & -> & ->).
  assert (I : INV (seq 0 (length caps)) sa ta) by (apply (reaches_inv caps c es1); exists s0; auto).
  destruct (step_chosen _ _ _ _ _ _ w m I ST) as [A B]; [apply in_elt|].
  assert (oa = []) as ->.
  { destruct oa as [|x oa]; [reflexivity|]. injection A as _ A. destruct oa; discriminate. }
  rewrite app_nil_r. rewrite (i_slots _ _ _ I) in B. exact B.
Qed.

Lemma load_known : forall caps c es s tr w,
  reaches caps c es s tr -> load (wk s w) = outstanding tr w + waiting s w.
Proof.
  intros caps c es s tr w R. apply reaches_inv in R. unfold outstanding.
  rewrite (i_given _ _ _ R w), (i_load _ _ _ R w). lia.
Qed.

Lemma accounted : forall caps c es s tr w,
  reaches caps c es s tr ->
  given w tr = done_with w tr + length (queue (wk s w)) + match busy (wk s w) with Some _ => 1 | None => 0 end.
Proof.
  intros caps c es s tr w R. apply reaches_inv in R.
  rewrite (i_given _ _ _ R w). unfold holds. lia.
Qed.

(** *** Workers *)

Ltac fin Z := repeat split; intros; try tauto; try congruence;
  try (match goal with H : _ |- _ => destruct (Z H) end).

(** How a step changes worker [w]. *)
Lemma step_worker : forall s e s' o w, step s e = Some (s', o) -> w < fresh s ->
  fresh s <= fresh s'
  /\ (st (wk s w) = WGone -> st (wk s' w) = WGone)
  /\ (st (wk s w) <> WUp -> st (wk s' w) <> WUp)
  /\ (linked (wk s w) = true -> st (wk s' w) = WUp -> linked (wk s' w) = true)
  /\ (st (wk s w) <> WUp -> to_tell (wk s' w) = true -> to_tell (wk s w) = true)
  /\ (st (wk s w) = WUp -> st (wk s' w) <> WUp -> linked (wk s w) = to_tell (wk s' w))
  /\ (linked (wk s w) = false -> linked (wk s' w) = true -> In (OLinked w) o)
  /\ (In (OLinked w) o -> st (wk s' w) = WUp /\ linked (wk s' w) = true).
Proof.
  intros s e s' o w E W.
  assert (KEEP : forall f x, (forall v, st (f v) = st (wk s v) /\ linked (f v) = linked (wk s v) /\ to_tell (f v) = to_tell (wk s v)) ->
     (forall z, In (OLinked z) x -> False) ->
     fresh s <= fresh s
     /\ (st (wk s w) = WGone -> st (f w) = WGone)
     /\ (st (wk s w) <> WUp -> st (f w) <> WUp)
     /\ (linked (wk s w) = true -> st (f w) = WUp -> linked (f w) = true)
     /\ (st (wk s w) <> WUp -> to_tell (f w) = true -> to_tell (wk s w) = true)
     /\ (st (wk s w) = WUp -> st (f w) <> WUp -> linked (wk s w) = to_tell (f w))
     /\ (linked (wk s w) = false -> linked (f w) = true -> In (OLinked w) x)
     /\ (In (OLinked w) x -> st (f w) = WUp /\ linked (f w) = true)).
  { intros f x F X. destruct (F w) as (A & B & C). rewrite A, B, C.
    split; [lia|]. fin (X w). }
  assert (PUT : forall v x, st x = st (wk s v) -> linked x = linked (wk s v) -> to_tell x = to_tell (wk s v) ->
     forall y, st (put (wk s) v x y) = st (wk s y) /\ linked (put (wk s) v x y) = linked (wk s y) /\ to_tell (put (wk s) v x y) = to_tell (wk s y)).
  { intros v x A B C y. destruct (Nat.eq_dec y v) as [ -> |N]; [rewrite put_same; auto|rewrite put_other by assumption; auto]. }
  assert (SAME : forall y, st (wk s y) = st (wk s y) /\ linked (wk s y) = linked (wk s y) /\ to_tell (wk s y) = to_tell (wk s y)) by auto.
  assert (NR : forall s1 m k, slots s1 = slots s -> fresh s1 = fresh s ->
     (forall v, st (wk s1 v) = st (wk s v) /\ linked (wk s1 v) = linked (wk s v) /\ to_tell (wk s1 v) = to_tell (wk s v)) ->
     next_round s1 m k = (s', o) ->
     (forall v, st (wk s' v) = st (wk s v) /\ linked (wk s' v) = linked (wk s v) /\ to_tell (wk s' v) = to_tell (wk s v))
     /\ fresh s' = fresh s /\ (forall z, In (OLinked z) o -> False)).
  { intros s1 m k SL F K N. unfold next_round in N. destruct k.
    - injection N as <- <-. cbn. split; [exact K|split; [exact F|intros z; intuition discriminate]].
    - destruct (first_min _ _) as [v|]; injection N as <- <-; cbn; (split; [|split; [exact F|intros z; intuition discriminate]]); auto.
      intros y. destruct (K y) as (A & B & C). unfold add_load.
      destruct (Nat.eq_dec y v) as [ -> |NE]; [rewrite put_same; cbn; auto|rewrite put_other by assumption; auto]. }
  destruct e as [x| |up c| | |k|k|v|v ok|v|v|v]; cbn [step] in E.
  - destruct (_ && has_room (pcap s) (inbox s)); [|discriminate]. injection E as <- <-.
    apply KEEP; auto.
  - assert (X : forall v p o, o = link_obs (wk s) v ->
      let s1 := mk_pool (slots s) (link (wk s) v) (fresh s) (inbox s) (pcap s) p in
      fresh s <= fresh s1
      /\ (st (wk s w) = WGone -> st (wk s1 w) = WGone)
      /\ (st (wk s w) <> WUp -> st (wk s1 w) <> WUp)
      /\ (linked (wk s w) = true -> st (wk s1 w) = WUp -> linked (wk s1 w) = true)
      /\ (st (wk s w) <> WUp -> to_tell (wk s1 w) = true -> to_tell (wk s w) = true)
      /\ (st (wk s w) = WUp -> st (wk s1 w) <> WUp -> linked (wk s w) = to_tell (wk s1 w))
      /\ (linked (wk s w) = false -> linked (wk s1 w) = true -> In (OLinked w) o)
      /\ (In (OLinked w) o -> st (wk s1 w) = WUp /\ linked (wk s1 w) = true)).
    { intros v p x -> s1. subst s1. cbn [wk fresh]. unfold link, link_obs. destruct (st (wk s v)) eqn:S.
      - destruct (Nat.eq_dec w v) as [ -> |N].
        + rewrite put_same. cbn. split; [lia|]. repeat split; intros; auto; congruence.
        + rewrite put_other by assumption. split; [lia|].
          assert (Z : In (OLinked w) [OLinked v] -> False) by (intros [Z|[]]; injection Z as ->; congruence). fin Z.
      - split; [lia|]. cbn. fin (fun z : False => z).
      - split; [lia|]. cbn. fin (fun z : False => z). }
    destruct (ph s); try discriminate; [destruct (nth_error (slots s) k); [|discriminate]|];
      injection E as <- <-; apply X; reflexivity.
  - destruct (ph s) eqn:P; try discriminate. destruct (inbox s) as [|x q]; [discriminate|].
    destruct x as [x|x|id|].
    + destruct (next_round _ x (length (slots s))) as [s1 o1] eqn:N. injection E as <- <-.
      apply NR in N; auto. destruct N as (A & B & C).
      specialize (KEEP (wk s1) o1 A C). rewrite B. exact KEEP.
    + injection E as <- <-. apply KEEP; [|cbn; intuition discriminate].
            assert (forall l f v, st (fold_left add_load l f v) = st (f v) /\ linked (fold_left add_load l f v) = linked (f v) /\ to_tell (fold_left add_load l f v) = to_tell (f v)) as H.
      { induction l as [|y l IH]; intros g v; cbn; auto. destruct (IH (add_load g y) v) as (A & B & C). rewrite A, B, C.
        unfold add_load. destruct (Nat.eq_dec v y) as [ -> |N]; [rewrite put_same; auto|rewrite put_other by assumption; auto]. }
      intros v. apply H.
    + unfold on_link_died in E. destruct up; [|injection E as <- <-; apply KEEP; auto].
      cbn [slots] in E. destruct (position id (slots s)); [|injection E as <- <-; apply KEEP; auto].
      destruct (bad_cap c); injection E as <- <-; [apply KEEP; [auto|cbn; intuition discriminate]|].
      cbn [wk fresh]. rewrite put_other by lia. split; [lia|].
      assert (Z : In (OLinked w) [OReplaced n id (fresh s)] -> False) by (cbn; intuition discriminate). fin Z.
    + injection E as <- <-. apply KEEP; auto.
  - destruct (ph s); try discriminate. destruct (st (wk s w0)) eqn:S; try discriminate;
      (destruct (has_room _ _); [|discriminate]; injection E as <- <-; apply KEEP; [apply PUT; auto|cbn; intuition discriminate]).
  - destruct (ph s) as [| |x k v| | |] eqn:P; try discriminate. destruct (st (wk s v)) eqn:S; try discriminate.
    destruct (snd x).
    + injection E as <- <-. apply KEEP; [apply PUT; auto|cbn; intuition discriminate].
    + destruct (next_round _ x k) as [s1 o1] eqn:N. injection E as <- <-.
      apply NR in N; auto; [|apply PUT; auto]. destruct N as (A & B & C).
      specialize (KEEP (wk s1) o1 A C). rewrite B. exact KEEP.
  - destruct (ph s) as [| | |x rs| |]; try discriminate. destruct (nth_error rs k) as [[v [b|]]|]; try discriminate.
    unfold after_cast in E. destruct (st (wk s v)) eqn:S; try discriminate;
    (destruct (has_room _ _); [|discriminate]; destruct (results _); injection E as <- <-; apply KEEP;
     [apply PUT; auto|cbn; intuition discriminate|apply PUT; auto|cbn; intuition discriminate]).
  - destruct (ph s) as [| | |x rs| |]; try discriminate. destruct (nth_error rs k) as [[v [b|]]|]; try discriminate.
    unfold after_cast in E. destruct (st (wk s v)) eqn:S; try discriminate.
    destruct (results _); injection E as <- <-; apply KEEP; [apply PUT; auto|cbn; intuition discriminate|apply PUT; auto|cbn; intuition discriminate].
  - destruct (st (wk s v)) eqn:S; try discriminate. destruct (busy (wk s v)); try discriminate.
    destruct (queue (wk s v)); try discriminate. injection E as <- <-. apply KEEP; [apply PUT; auto|auto].
  - destruct (st (wk s v)) eqn:S; try discriminate. destruct (busy (wk s v)) as [x|]; try discriminate.
    destruct (snd x); [injection E as <- <-; apply KEEP; [apply PUT; auto|cbn; intuition discriminate]|].
    destruct ok; [injection E as <- <-; apply KEEP; [apply PUT; auto|cbn; intuition discriminate]|].
    injection E as <- <-. cbn [with_worker wk fresh]. split; [lia|].
    assert (Z : In (OLinked w) [OFinished v x false] -> False) by (cbn; intuition discriminate).
    destruct (Nat.eq_dec w v) as [ -> |N]; [rewrite put_same; cbn|rewrite put_other by assumption];
      fin Z.
  - destruct (st (wk s v)) eqn:S; try discriminate. injection E as <- <-. cbn [with_worker wk fresh]. split; [lia|].
    assert (Z : In (OLinked w) (match busy (wk s v) with Some m => [ODropped v m] | None => [] end) -> False).
    { destruct (busy (wk s v)); cbn; intuition discriminate. }
    destruct (Nat.eq_dec w v) as [ -> |N]; [rewrite put_same; cbn|rewrite put_other by assumption];
      fin Z.
  - destruct (st (wk s v)) eqn:S; try discriminate. destruct (to_tell (wk s v)) eqn:T; try discriminate.
    assert (X : forall ib p, let s1 := mk_pool (slots s) (put (wk s) v (mk_worker WEnding (cap (wk s v)) (queue (wk s v)) (busy (wk s v)) (load (wk s v)) (linked (wk s v)) false)) (fresh s) ib (pcap s) p in
      fresh s <= fresh s1
      /\ (st (wk s w) = WGone -> st (wk s1 w) = WGone)
      /\ (st (wk s w) <> WUp -> st (wk s1 w) <> WUp)
      /\ (linked (wk s w) = true -> st (wk s1 w) = WUp -> linked (wk s1 w) = true)
      /\ (st (wk s w) <> WUp -> to_tell (wk s1 w) = true -> to_tell (wk s w) = true)
      /\ (st (wk s w) = WUp -> st (wk s1 w) <> WUp -> linked (wk s w) = to_tell (wk s1 w))
      /\ (linked (wk s w) = false -> linked (wk s1 w) = true -> In (OLinked w) [])
      /\ (In (OLinked w) [] -> st (wk s1 w) = WUp /\ linked (wk s1 w) = true)).
    { intros ib p s1. subst s1. cbn [wk fresh]. split; [lia|].
      destruct (Nat.eq_dec w v) as [ -> |N]; [rewrite put_same; cbn|rewrite put_other by assumption];
      fin (fun z : False => z). }
    destruct (ph s); try (destruct (has_room _ _); [|discriminate]); injection E as <- <-; apply X.
  - destruct (st (wk s v)) eqn:S; try discriminate. destruct (to_tell (wk s v)) eqn:T; try discriminate.
    injection E as <- <-. cbn [with_worker wk fresh]. split; [lia|].
    assert (Z : In (OLinked w) (map (ODropped v) (queue (wk s v))) -> False).
    { intros H. apply in_map_iff in H. destruct H as (y & Y & _). discriminate. }
    destruct (Nat.eq_dec w v) as [ -> |N]; [rewrite put_same; cbn|rewrite put_other by assumption];
      fin Z.
Qed.

(** *** Reports *)

Lemma put_cases : forall A (P : A -> Prop) f v (x : A) w, (w = v -> P x) -> (w <> v -> P (f w)) -> P (put f v x w).
Proof.
  intros A P f v x w H1 H2. destruct (Nat.eq_dec w v) as [E|N]; [rewrite E, put_same; auto|rewrite put_other; auto].
Qed.

Ltac cases E :=
  repeat match type of E with
  | context [match ?x with _ => _ end] => destruct x eqn:?; try discriminate
  end; injection E as <- <-;
  repeat match goal with
  | H : (match ?x with _ => _ end) = (_, _) |- _ => destruct x eqn:?; injection H as <- <-
  end.

Lemma loads_tell : forall l f v, to_tell (fold_left add_load l f v) = to_tell (f v).
Proof.
  induction l as [|y l IH]; intros g v; cbn; auto. rewrite IH. unfold add_load.
  destruct (Nat.eq_dec v y) as [ -> |N]; [rewrite put_same; auto|rewrite put_other by assumption; auto].
Qed.

Lemma sub_load_tell : forall f v w, to_tell (sub_load f v w) = to_tell (f w).
Proof. intros. unfold sub_load. apply put_cases; [intros ->; reflexivity|reflexivity]. Qed.
Lemma add_load_tell : forall f v w, to_tell (add_load f v w) = to_tell (f w).
Proof. intros. unfold add_load. apply put_cases; [intros ->; reflexivity|reflexivity]. Qed.
Lemma push_tell : forall f v m w, to_tell (push f v m w) = to_tell (f w).
Proof. intros. unfold push. apply put_cases; [intros ->; reflexivity|reflexivity]. Qed.
Lemma link_tell : forall f v w, to_tell (link f v w) = to_tell (f w).
Proof. intros. unfold link. destruct (st (f v)); auto. apply put_cases; [intros ->; reflexivity|reflexivity]. Qed.

Lemma step_new_report : forall s e s' o w, step s e = Some (s', o) -> In (PReport w) (inbox s') ->
  In (PReport w) (inbox s) \/ (st (wk s w) = WEnding /\ to_tell (wk s w) = true).
Proof.
  intros s e s' o w E H.
  destruct e as [x| |up c| | |k|k|v|v ok|v|v|v]; cbn [step] in E;
    unfold next_round, after_cast, on_link_died, with_worker in E; cbn [slots wk fresh inbox pcap ph] in E;
    cases E; cbn [inbox] in H; auto; try (left; right; assumption).
  all: apply in_app_iff in H; destruct H as [H|[H|[]]]; auto; try discriminate.
  all: first [subst; discriminate|injection H as <-; auto].
Qed.

Lemma step_report_kept : forall l0 s tr e s' o w,
  INV l0 s tr -> step s e = Some (s', o) -> report_due s w ->
  report_due s' w \/ ~ In w (slots s') \/ ph s' = PStopped \/ (exists c, e = EHandle false c).
Proof.
  intros l0 s tr e s' o w I E [H|H]; unfold report_due.
  - (* it has still to tell *)
    assert (W : w < fresh s).
    { destruct (Nat.le_gt_cases (fresh s) w) as [Z|Z]; [|assumption]. rewrite (i_new _ _ _ I w Z) in H. discriminate. }
    assert (WE : st (wk s w) = WEnding).
    { destruct (st (wk s w)) eqn:S; auto; rewrite (i_up _ _ _ I) in H; congruence. }
    destruct e as [x| |up c| | |k|k|v|v ok|v|v|v]; cbn [step] in E;
    unfold next_round, after_cast, on_link_died, with_worker in E; cbn [slots wk fresh inbox pcap ph] in E;
    cases E; cbn [wk inbox ph]; rewrite ?link_tell, ?add_load_tell, ?sub_load_tell, ?push_tell, ?loads_tell; auto.
    all: try (left; left; rewrite put_other by (try lia; congruence); assumption).
    all: destruct (Nat.eq_dec w v) as [ -> |N]; [|left; left; rewrite put_other by assumption; assumption].
    all: try (left; right; apply in_elt).
    all: try congruence.
    all: auto.
  - (* it has told *)
    destruct e as [x| |up c| | |k|k|v|v ok|v|v|v]; cbn [step] in E;
    unfold next_round, after_cast, on_link_died, with_worker in E; cbn [slots wk fresh inbox pcap ph] in E;
    cases E; cbn [wk inbox ph slots]; auto; try (left; right; apply in_or_app; auto).
    all: try (match goal with Q : inbox _ = _ :: _ |- _ => rewrite Q in H end).
    all: destruct H as [H|H]; try discriminate; auto.
    all: try (injection H as ->).
    all: eauto.
    + right; left. match goal with H : position _ _ = _ |- _ => rename H into PS end. apply position_some in PS. apply set_nth_gone; auto; [apply (i_nodup _ _ _ I)|].
      intros Z. apply nth_error_In in PS. apply (i_old _ _ _ I) in PS. lia.
    + right; left. apply position_none; assumption.
Qed.

Lemma step_slots : forall l0 s tr e s' o, INV l0 s tr -> step s e = Some (s', o) ->
  slots s' = slots s /\ fresh s' = fresh s
  \/ exists i w c, nth_error (slots s) i = Some w /\ In (PReport w) (inbox s)
       /\ slots s' = replace_at i (fresh s) (slots s) /\ fresh s' = S (fresh s)
       /\ wk s' = put (wk s) (fresh s) (new_worker c) /\ o = [OReplaced i w (fresh s)] /\ ph s' = PLinking (fresh s).
Proof.
  intros l0 s tr e s' o I E.
  destruct e as [x| |up c| | |k|k|v|v ok|v|v|v]; cbn [step] in E;
  unfold next_round, after_cast, on_link_died, with_worker in E; cbn [slots wk fresh inbox pcap ph] in E;
  cases E; cbn [slots fresh wk ph]; auto.
  right. match goal with H : position _ _ = _ |- _ => rename H into PS end.
  apply position_some in PS. rewrite set_nth_eq by (apply nth_error_Some; congruence).
  do 3 eexists. repeat split; eauto. left; reflexivity.
Qed.

Lemma step_stopped : forall s e s' o, step s e = Some (s', o) -> ph s = PStopped -> ph s' = PStopped.
Proof.
  intros s e s' o E P. destruct e as [x| |up c| | |k|k|v|v ok|v|v|v]; cbn [step] in E; rewrite ?P in E; try discriminate;
  unfold with_worker in E; cases E; cbn [ph]; auto. 
Qed.

Lemma step_phase : forall s e s' o, step s e = Some (s', o) ->
  match ph s with
  | PStarting k => ph s' = PStarting k
      \/ exists v, nth_error (slots s) k = Some v /\ wk s' = link (wk s) v
                   /\ slots s' = slots s /\ ph s' = start_at (S k) (length (slots s))
  | PLinking v => ph s' = PLinking v \/ (wk s' = link (wk s) v /\ ph s' = PIdle)
  | _ => True
  end.
Proof.
  intros s e s' o E. destruct (ph s) eqn:P; auto.
  - destruct e as [x| |up c| | |k'|k'|v|v ok|v|v|v]; cbn [step] in E; rewrite ?P in E; try discriminate;
    unfold with_worker in E; cases E; cbn [ph wk slots]; auto.
    right; eauto.
  - destruct e as [x| |up c| | |k'|k'|v|v ok|v|v|v]; cbn [step] in E; rewrite ?P in E; try discriminate;
    unfold with_worker in E; cases E; cbn [ph wk slots]; auto.
Qed.

Record JNV (s : pool) (tr : list obs) : Prop := {
  j_old : forall w, In (OLinked w) tr -> w < fresh s;
  j_report : forall w, In (PReport w) (inbox s) -> w < fresh s /\ st (wk s w) <> WUp;
  j_due : forall w, In w (slots s) -> st (wk s w) = WUp -> ph s <> PStopped ->
    linked (wk s w) = true \/ ph s = PLinking w
    \/ exists k i, ph s = PStarting k /\ k <= i /\ nth_error (slots s) i = Some w
}.

Lemma linked_obs_old : forall l0 s tr e s' o w, INV l0 s tr -> step s e = Some (s', o) -> In (OLinked w) o -> w < fresh s.
Proof.
  intros l0 s tr e s' o w I E H.
  destruct e as [x| |up c| | |k|k|v|v ok|v|v|v]; cbn [step] in E;
  unfold next_round, after_cast, on_link_died, with_worker, link_obs in E; cbn [slots wk fresh inbox pcap ph] in E;
  cases E; cbn in H; intuition try discriminate.
  - match goal with X : OLinked _ = _ |- _ => injection X as -> end.
    match goal with X : nth_error _ _ = Some _ |- _ => apply nth_error_In in X; exact (i_old _ _ _ I _ X) end.
  - match goal with X : OLinked _ = _ |- _ => injection X as -> end.
    match goal with X : ph s = PLinking _ |- _ => exact (i_old _ _ _ I _ (i_link _ _ _ I _ X)) end.
  - match goal with X : In _ (map _ _) |- _ => apply in_map_iff in X; destruct X as (y & Y & _); discriminate end.
Qed.

Lemma init_jnv : forall caps c s0, new_pool caps c = Some s0 -> JNV s0 [].
Proof.
  intros caps c s0 E. assert (X : inbox s0 = [] /\ ph s0 = PStarting 0).
  { unfold new_pool in E. destruct caps; [discriminate|]. destruct (existsb _ _); [discriminate|]. injection E as <-. auto. }
  destruct X as [X1 X2]. constructor.
  - intros w [].
  - rewrite X1. intros w [].
  - intros w W _ _. right; right. apply In_nth_error in W. destruct W as [i W]. exists 0, i. split; [exact X2|split; [lia|exact W]].
Qed.

Lemma step_jnv : forall l0 s tr e s' o, INV l0 s tr -> JNV s tr -> step s e = Some (s', o) -> JNV s' (tr ++ o).
Proof.
  intros l0 s tr e s' o I J E.
  assert (FR : fresh s <= fresh s').
  { destruct (step_slots _ _ _ _ _ _ I E) as [[_ -> ]|(i & w & c & _ & _ & _ & -> & _)]; lia. }
  constructor.
  - intros w H. apply in_app_iff in H. destruct H as [H|H].
    + apply (j_old _ _ J) in H. lia.
    + apply (linked_obs_old _ _ _ _ _ _ _ I E) in H. lia.
  - intros w H. destruct (step_new_report _ _ _ _ _ E H) as [H1|[H1 H2]].
    + destruct (j_report _ _ J w H1) as [A B]. split; [lia|].
      apply (step_worker _ _ _ _ _ E A). assumption.
    + assert (A : w < fresh s).
      { destruct (Nat.le_gt_cases (fresh s) w) as [Z|Z]; [|assumption]. rewrite (i_new _ _ _ I w Z) in H1. discriminate. }
      split; [lia|]. apply (step_worker _ _ _ _ _ E A). congruence.
  - intros w W SU P.
    assert (P0 : ph s <> PStopped) by (intros Z; apply P; eapply step_stopped; eassumption).
    destruct (step_slots _ _ _ _ _ _ I E) as [[SL F]|(i & v & c & A1 & A2 & A3 & A4 & A5 & A6 & A7)].
    + rewrite SL in W. pose proof (i_old _ _ _ I w W) as WF.
      destruct (step_worker _ _ _ _ _ E WF) as (_ & _ & K1 & K2 & _).
      assert (S0 : st (wk s w) = WUp). { destruct (st (wk s w)) eqn:Q; auto; destruct K1; congruence. }
      pose proof (step_phase _ _ _ _ E) as PH.
      destruct (j_due _ _ J w W S0 P0) as [L|[L|(k & i & L & LE & N)]].
      * left. auto.
      * rewrite L in PH. destruct PH as [PH|[PH1 PH2]]; [auto|].
        left. rewrite PH1. unfold link. rewrite S0. rewrite put_same. reflexivity.
      * rewrite L in PH. rewrite SL. destruct PH as [PH|(v & N' & PH1 & PH2 & PH3)]; [right; right; eauto|].
        destruct (Nat.eq_dec i k) as [ -> |NE].
        -- assert (v = w) as -> by congruence. left. rewrite PH1. unfold link. rewrite S0. rewrite put_same. reflexivity.
        -- right; right. exists (S k), i. split; [|split; [lia|assumption]]. rewrite PH3. unfold start_at.
           assert (LT : i < length (slots s)) by (apply nth_error_Some; congruence).
           destruct (Nat.ltb_spec (S k) (length (slots s))); [reflexivity|lia].
    + rewrite A3 in W. assert (LI : i < length (slots s)) by (apply nth_error_Some; congruence).
      rewrite <- set_nth_eq in W by assumption. apply set_nth_in in W. destruct W as [ -> |W]; [auto|].
      pose proof (i_old _ _ _ I w W) as WF.
      destruct (step_worker _ _ _ _ _ E WF) as (_ & _ & K1 & K2 & _).
      assert (S0 : st (wk s w) = WUp). { destruct (st (wk s w)) eqn:Q; auto; destruct K1; congruence. }
      pose proof (step_phase _ _ _ _ E) as PH.
      destruct (j_due _ _ J w W S0 P0) as [L|[L|(k & j & L & LE & N)]].
      * left. auto.
      * rewrite L in PH. destruct PH as [PH|[PH1 PH2]]; [|congruence].
        rewrite PH in A7. injection A7 as ->. lia.
      * rewrite L in PH. destruct PH as [PH|(u & N' & PH1 & PH2 & PH3)]; [congruence|].
        rewrite A7 in PH3. unfold start_at in PH3. destruct (S k <? length (slots s)); discriminate.
Qed.

Lemma run_jnv : forall l0 es s tr s' o, INV l0 s tr -> JNV s tr -> run s es = Some (s', o) -> JNV s' (tr ++ o).
Proof.
  intros l0. induction es as [|e es IH]; intros s tr s' o I J R; cbn in R.
  - injection R as <- <-. rewrite app_nil_r; assumption.
  - destruct (step s e) as [[s1 o1]|] eqn:E; [|discriminate].
    destruct (run s1 es) as [[s2 o2]|] eqn:R2; [|discriminate]. injection R as <- <-.
    rewrite app_assoc. eapply IH; [| |eassumption]; [eapply step_inv|eapply step_jnv]; eassumption.
Qed.

Lemma reaches_jnv : forall caps c es s tr, reaches caps c es s tr -> JNV s tr.
Proof.
  intros caps c es s tr (s0 & N & R). apply (run_jnv (seq 0 (length caps)) es s0 [] s tr); [| |assumption].
  - eapply init_inv; eassumption.
  - eapply init_jnv; eassumption.
Qed.

(** *** C40 *)

Lemma size_kept : forall caps c es s tr, reaches caps c es s tr ->
  length (slots s) = length caps /\ NoDup (slots s) /\ slots s = workers_after (seq 0 (length caps)) tr.
Proof.
  intros caps c es s tr R. apply reaches_inv in R. split; [|split].
  - rewrite (i_len _ _ _ R). apply seq_length.
  - apply (i_nodup _ _ _ R).
  - apply (i_slots _ _ _ R).
Qed.

Lemma replaced_one : forall caps c es s tr e s' o, reaches caps c es s tr -> step s e = Some (s', o) ->
  slots s' = slots s \/
  exists i w k, nth_error (slots s) i = Some w /\ st (wk s w) <> WUp
    /\ slots s' = replace_at i (fresh s) (slots s) /\ ~ In (fresh s) (slots s) /\ given (fresh s) tr = 0
    /\ wk s' (fresh s) = mk_worker WUp k [] None 0 false false
    /\ (forall v, v <> fresh s -> wk s' v = wk s v)
    /\ o = [OReplaced i w (fresh s)] /\ ph s' = PLinking (fresh s).
Proof.
  intros caps c es s tr e s' o R E. pose proof (reaches_inv _ _ _ _ _ R) as I. pose proof (reaches_jnv _ _ _ _ _ R) as J.
  destruct (step_slots _ _ _ _ _ _ I E) as [[SL F]|(i & v & k & A1 & A2 & A3 & A4 & A5 & A6 & A7)]; [auto|right].
  exists i, v, k. split; [assumption|]. split; [apply (j_report _ _ J v A2)|]. split; [assumption|].
  split; [intros H; apply (i_old _ _ _ I) in H; lia|]. split.
  { pose proof (i_given _ _ _ I (fresh s)) as G. rewrite (i_new _ _ _ I (fresh s)) in G by lia.
    clear - R I G. unfold holds in G; cbn in G.
    assert (Z : done_with (fresh s) tr = 0).
    { destruct R as (s0 & N & R). 
      assert (GEN : forall es s0 t0 s tr, INV (seq 0 (length caps)) s0 t0 -> (forall w, fresh s0 <= w -> done_with w t0 = 0) ->
         run s0 es = Some (s, tr) -> forall w, fresh s <= w -> done_with w (t0 ++ tr) = 0).
      { clear. induction es as [|e es IH]; intros s0 t0 s tr I Z R w W; cbn in R.
        - injection R as <- <-. rewrite app_nil_r. auto.
        - destruct (step s0 e) as [[s1 o1]|] eqn:E; [|discriminate].
          destruct (run s1 es) as [[s2 o2]|] eqn:R2; [|discriminate]. injection R as <- <-.
          rewrite app_assoc. apply (IH s1 (t0 ++ o1) s2 o2); auto; [eapply step_inv; eassumption|].
          intros v V. rewrite done_app.
          assert (V0 : fresh s0 <= v).
          { destruct (step_slots _ _ _ _ _ _ I E) as [[_ F]|(i & x & c & _ & _ & _ & F & _)]; lia. }
          rewrite (Z v V0). pose proof (i_new _ _ _ I v V0) as NV.
          destruct e as [x| |up c| | |k|k|u|u ok|u|u|u]; cbn [step] in E;
          unfold next_round, after_cast, on_link_died, with_worker, link_obs in E; cbn [slots wk fresh inbox pcap ph] in E;
          cases E; cbn; auto; try rewrite done_dropped; destruct (Nat.eqb_spec u v); auto; subst; rewrite NV in *; cbn in *; congruence. }
      apply (GEN es s0 [] s tr); auto. apply init_inv in N. exact N. }
    lia. }
  rewrite A5. rewrite put_same. split; [reflexivity|]. split; [intros u U; rewrite put_other; auto|auto].
Qed.

Lemma up_is_linked : forall caps c es s tr w, reaches caps c es s tr ->
  In w (slots s) -> st (wk s w) = WUp -> ph s <> PStopped ->
  linked (wk s w) = true \/ ph s = PLinking w
  \/ exists k i, ph s = PStarting k /\ k <= i /\ nth_error (slots s) i = Some w.
Proof. intros caps c es s tr w R. apply reaches_jnv in R. apply (j_due _ _ R). Qed.

(** Reports are not lost. *)
Lemma report_kept : forall caps c es s tr w, reaches caps c es s tr -> referenced es ->
  In (OLinked w) tr -> In w (slots s) -> ph s <> PStopped ->
  (st (wk s w) = WUp -> linked (wk s w) = true) /\ (st (wk s w) <> WUp -> report_due s w).
Proof.
  intros caps c es s tr w (s0 & N & R) RF.
  assert (GEN : forall es s0 t0 s tr, INV (seq 0 (length caps)) s0 t0 -> JNV s0 t0 -> referenced es ->
    (In (OLinked w) t0 -> In w (slots s0) -> ph s0 <> PStopped ->
       (st (wk s0 w) = WUp -> linked (wk s0 w) = true) /\ (st (wk s0 w) <> WUp -> report_due s0 w)) ->
    run s0 es = Some (s, tr) ->
    In (OLinked w) (t0 ++ tr) -> In w (slots s) -> ph s <> PStopped ->
       (st (wk s w) = WUp -> linked (wk s w) = true) /\ (st (wk s w) <> WUp -> report_due s w)).
  { clear. induction es as [|e es IH]; intros s0 t0 s tr I J RF H R; cbn in R.
    - injection R as <- <-. rewrite app_nil_r. exact H.
    - destruct (step s0 e) as [[s1 o1]|] eqn:E; [|discriminate].
      destruct (run s1 es) as [[s2 o2]|] eqn:R2; [|discriminate]. injection R as <- <-.
      rewrite app_assoc. apply (IH s1 (t0 ++ o1) s2 o2); auto;
        [eapply step_inv; eassumption|eapply step_jnv; eassumption|intros c IC; apply (RF c); right; exact IC|].
      intros L W P. clear IH R2.
      assert (P0 : ph s0 <> PStopped) by (intros Z; apply P; eapply step_stopped; eassumption).
      assert (WF : w < fresh s0).
      { apply in_app_iff in L. destruct L as [L|L]; [apply (j_old _ _ J); assumption|].
        eapply linked_obs_old; eassumption. }
      assert (W0 : In w (slots s0)).
      { destruct (step_slots _ _ _ _ _ _ I E) as [[ <- _ ]|(i & v & c & A1 & A2 & A3 & A4 & A5 & A6 & A7)]; auto.
        rewrite A3 in W. rewrite <- set_nth_eq in W by (apply nth_error_Some; congruence).
        apply set_nth_in in W. destruct W as [ -> |W]; [lia|assumption]. }
      destruct (step_worker _ _ _ _ _ E WF) as (_ & _ & K1 & K2 & _ & K3 & _ & K5).
      apply in_app_iff in L. destruct L as [L|L].
      2:{ destruct (K5 L) as [Z1 Z2]. split; [auto|congruence]. }
      destruct (H L W0 P0) as [H1 H2].
      destruct (st (wk s0 w)) eqn:S0.
      + split; [auto|]. intros S1. left. rewrite <- K3; auto.
      + split; [intros Z; destruct K1; congruence|]. intros _.
        destruct (step_report_kept _ _ _ _ _ _ w I E) as [D|[D|[D|[c D]]]]; auto; try contradiction.
        * apply H2. discriminate.
        * exfalso. apply (RF c). left. auto.
      + split; [intros Z; destruct K1; congruence|]. intros _.
        destruct (step_report_kept _ _ _ _ _ _ w I E) as [D|[D|[D|[c D]]]]; auto; try contradiction.
        * apply H2. discriminate.
        * exfalso. apply (RF c). left. auto. }
  apply (GEN es s0 [] s tr); auto; [eapply init_inv; eassumption|eapply init_jnv; eassumption|intros []].
Qed.

(** A worker that ended unnoticed is never replaced. *)
Lemma missed_for_good : forall caps c es s tr w, reaches caps c es s tr ->
  In w (slots s) -> st (wk s w) <> WUp -> ~ report_due s w ->
  forall es' s' tr', run s es' = Some (s', tr') -> In w (slots s') /\ st (wk s' w) <> WUp /\ ~ report_due s' w.
Proof.
  intros caps c es s tr w R. pose proof (reaches_inv _ _ _ _ _ R) as I. clear R.
  intros W S N es'. revert s tr I W S N. induction es' as [|e es' IH]; intros s tr I W S N s' tr' R; cbn in R.
  - injection R as <- <-. auto.
  - destruct (step s e) as [[s1 o1]|] eqn:E; [|discriminate].
    destruct (run s1 es') as [[s2 o2]|] eqn:R2; [|discriminate]. injection R as <- <-.
    pose proof (i_old _ _ _ I w W) as WF. destruct (step_worker _ _ _ _ _ E WF) as (_ & _ & K1 & _ & K2 & _).
    apply (IH s1 (tr ++ o1)) with (tr' := o2); auto.
    + eapply step_inv; eassumption.
    + destruct (step_slots _ _ _ _ _ _ I E) as [[ -> _ ]|(i & v & k & A1 & A2 & A3 & _)]; auto.
      rewrite A3, <- set_nth_eq by (apply nth_error_Some; congruence).
      apply set_nth_keeps with (y := v); auto. intros ->. apply N. right. assumption.
    + intros [D|D]; apply N; [left; auto|].
      destruct (step_new_report _ _ _ _ _ E D) as [D'|[_ D']]; [right|left]; assumption.
Qed.

(** What pools there are. *)
Lemma created_when : forall caps c, (exists es s tr, reaches caps c es s tr) <-> caps <> [] /\ ~ In (Some 0) caps.
Proof.
  intros caps c.
  assert (B : existsb bad_cap caps = true <-> In (Some 0) caps).
  { rewrite existsb_exists. split.
    - intros ([[|n]|] & I & E); cbn in E; try discriminate. exact I.
    - intros I. exists (Some 0). auto. }
  split.
  - intros (es & s & tr & s0 & N & _). unfold new_pool in N. destruct caps as [|x l]; [discriminate|].
    split; [discriminate|]. intros I. apply B in I. rewrite I in N. discriminate.
  - intros (NE & NB). destruct caps as [|x l] eqn:C; [congruence|]. rewrite <- C in *.
    assert (E : existsb bad_cap caps = false).
    { destruct (existsb bad_cap caps) eqn:E; [|reflexivity]. exfalso. now apply NB, B. }
    exists []. eexists. exists []. eexists. split; [|reflexivity].
    unfold new_pool. rewrite C at 1. rewrite E. reflexivity.
Qed.

(** What the report of a worker's death does. *)
Lemma report_handled : forall caps c es s tr w q up k, reaches caps c es s tr ->
  ph s = PIdle -> inbox s = PReport w :: q ->
  exists s' o, step s (EHandle up k) = Some (s', o) /\ inbox s' = q /\
    ((up = false \/ ~ In w (slots s)) /\ o = [] /\ slots s' = slots s /\ ph s' = PIdle
     \/ up = true /\ In w (slots s) /\ k = Some 0 /\ o = [OPanicked; OStopped] /\ ph s' = PStopped
     \/ up = true /\ k <> Some 0 /\ exists i v, nth_error (slots s) i = Some w /\ ~ In v (slots s)
          /\ o = [OReplaced i w v] /\ slots s' = replace_at i v (slots s)
          /\ wk s' v = mk_worker WUp k [] None 0 false false /\ ph s' = PLinking v).
Proof.
  intros caps c es s tr w q up k R P B. pose proof (reaches_inv _ _ _ _ _ R) as I.
  destruct (step s (EHandle up k)) as [[s' o]|] eqn:T; cbn [step] in T; rewrite P, B in T; [|discriminate].
  exists s', o. split; [reflexivity|]. injection T as T.
  unfold on_link_died in T. cbn [slots wk fresh inbox pcap] in T. destruct up.
  2:{ injection T as <- <-. split; [reflexivity|]. left. repeat split; auto. }
  destruct (position w (slots s)) as [i|] eqn:E.
  - apply position_some in E. pose proof (nth_error_In _ _ E) as IN.
    destruct (bad_cap k) eqn:K; injection T as <- <-; (split; [reflexivity|]).
    + right. left. destruct k as [[|k]|]; try discriminate. repeat split; auto.
    + right. right. split; [reflexivity|]. split; [intros ->; discriminate|].
      exists i, (fresh s). repeat split; auto.
      * intros Q. apply (i_old _ _ _ I) in Q. lia.
      * cbn. apply set_nth_eq. apply nth_error_Some. congruence.
      * cbn. now rewrite put_same.
  - apply position_none in E. injection T as <- <-. split; [reflexivity|]. left. repeat split; auto.
Qed.
