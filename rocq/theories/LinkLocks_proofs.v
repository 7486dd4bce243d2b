(** Invariants and lemmas about the locking of link maps. *)
From Coq Require Import List Bool PeanoNat Lia.
From Verif Require Import LinkLocks LinkLocks_spec.
Import ListNotations.

Lemma lrun_app : forall es1 es2 s,
  lrun s (es1 ++ es2) =
  match lrun s es1 with
  | None => None
  | Some (s1, o1) =>
      match lrun s1 es2 with None => None | Some (s2, o2) => Some (s2, o1 ++ o2) end
  end.
Proof.
  induction es1 as [|e es1 IH]; intros es2 s; cbn [lrun app].
  - destruct (lrun s es2) as [[s2 o2]|]; reflexivity.
  - destruct (lstep s e) as [[s1 o1]|]; [|reflexivity]. rewrite IH.
    destruct (lrun s1 es1) as [[s2 o2]|]; [|reflexivity].
    destruct (lrun s2 es2) as [[s3 o3]|]; [|reflexivity]. rewrite app_assoc. reflexivity.
Qed.

(** An invariant that may depend on which events occurred. *)
Lemma lrun_ind : forall (P : list levent -> lsys -> list lobs -> Prop),
  P [] linit [] ->
  (forall es s t e s' o, lrun linit es = Some (s, t) -> P es s t -> lstep s e = Some (s', o) ->
     P (es ++ [e]) s' (t ++ o)) ->
  forall es s t, lrun linit es = Some (s, t) -> P es s t.
Proof.
  intros P P0 PS es. induction es as [|e es IH] using rev_ind; intros s t H.
  - inversion H; subst. exact P0.
  - rewrite lrun_app in H. destruct (lrun linit es) as [[s1 o1]|] eqn:E; [|discriminate].
    cbn [lrun] in H. destruct (lstep s1 e) as [[s2 o2]|] eqn:E2; [|discriminate].
    inversion H; subst. rewrite app_nil_r. eapply PS; eauto.
Qed.

Lemma put_same : forall (A : Type) (f : nat -> A) k v, put f k v k = v.
Proof. intros. unfold put. rewrite Nat.eqb_refl. reflexivity. Qed.
Lemma put_other : forall (A : Type) (f : nat -> A) k v k', k' <> k -> put f k v k' = f k'.
Proof. intros. unfold put. destruct (Nat.eqb_spec k' k); congruence. Qed.

Lemma locks_nodup : forall o, NoDup (locks_of o).
Proof.
  destruct o; cbn [locks_of]; try (repeat constructor; cbn; tauto);
    destruct (Nat.eqb_spec a b); repeat constructor; cbn; intuition.
Qed.
Lemma locks_two : forall o, length (locks_of o) <= 2.
Proof. destruct o; cbn; try lia; destruct (a =? b); cbn; lia. Qed.
Lemma effect_outside : forall o l m, ~ In l (locks_of o) -> effect o l m = m.
Proof.
  intros o l m H. destruct o; cbn [effect locks_of] in *;
    try (destruct (a =? b); [reflexivity|]);
    repeat match goal with |- context [l =? ?x] => destruct (Nat.eqb_spec l x); [subst; cbn in H; tauto|] end;
    reflexivity.
Qed.

Lemma enqueue_in : forall ls w c l d, In d (enqueue w ls c l) <-> In d (w l) \/ (d = c /\ In l ls).
Proof.
  induction ls as [|x ls IH]; intros w c l d; cbn [enqueue In].
  - intuition.
  - rewrite IH. unfold put. destruct (Nat.eqb_spec l x) as [->|N].
    + rewrite in_app_iff. cbn. intuition.
    + intuition congruence.
Qed.
Lemma enqueue_val : forall ls w c l, NoDup ls ->
  enqueue w ls c l = if in_dec Nat.eq_dec l ls then w l ++ [c] else w l.
Proof.
  induction ls as [|x ls IH]; intros w c l N; cbn [enqueue].
  - destruct (in_dec _ _ _) as [[]|]; reflexivity.
  - inversion N; subst. rewrite IH by assumption. unfold put.
    destruct (Nat.eqb_spec l x) as [->|NE].
    + destruct (in_dec Nat.eq_dec x ls); [contradiction|].
      destruct (in_dec Nat.eq_dec x (x :: ls)) as [|K]; [reflexivity|exfalso; apply K; left; reflexivity].
    + destruct (in_dec Nat.eq_dec l ls) as [I|I]; destruct (in_dec Nat.eq_dec l (x :: ls)) as [J|J]; try reflexivity.
      * exfalso. apply J. right. exact I.
      * exfalso. destruct J as [J|J]; congruence.
Qed.

(** Where a call is. *)
Definition call_ok (s : lsys) (c : nat) (k : lcall) : Prop :=
  (towrite k = locks_of (what k) /\ asked k ++ want k = locks_of (what k))
  \/ (want k = [] /\ (exists d ds, (d :: ds) ++ towrite k = locks_of (what k))
      /\ (forall l, In l (asked k) -> owns s c l = true)
      /\ NoDup (asked k) /\ (forall l, In l (asked k) -> In l (locks_of (what k)))
      /\ (towrite k <> [] -> asked k = locks_of (what k))).

Fixpoint called (c : nat) (t : list lobs) : list lop :=
  match t with
  | [] => []
  | OCall d o :: t' => if d =? c then o :: called c t' else called c t'
  | _ :: t' => called c t'
  end.
Fixpoint returned (c : nat) (t : list lobs) : bool :=
  match t with
  | [] => false
  | OReturn d :: t' => (d =? c) || returned c t'
  | _ :: t' => returned c t'
  end.
Fixpoint wrote (c : nat) (t : list lobs) : list nat :=
  match t with
  | [] => []
  | OWrite d l _ :: t' => if d =? c then l :: wrote c t' else wrote c t'
  | _ :: t' => wrote c t'
  end.
Lemma called_app : forall c t u, called c (t ++ u) = called c t ++ called c u.
Proof. induction t as [|o t IH]; intro u; cbn; [reflexivity|]. destruct o; rewrite ?IH; try reflexivity. destruct (c0 =? c); reflexivity. Qed.
Lemma returned_app : forall c t u, returned c (t ++ u) = returned c t || returned c u.
Proof. induction t as [|o t IH]; intro u; cbn; [reflexivity|]. destruct o; rewrite ?IH; try reflexivity. apply orb_assoc. Qed.
Lemma wrote_app : forall c t u, wrote c (t ++ u) = wrote c t ++ wrote c u.
Proof. induction t as [|o t IH]; intro u; cbn; [reflexivity|]. destruct o; rewrite ?IH; try reflexivity. destruct (c0 =? c); reflexivity. Qed.
Lemma in_called : forall c o t, In o (called c t) <-> In (OCall c o) t.
Proof.
  induction t as [|x t IH]; [reflexivity|]. destruct x as [d o'| |]; cbn [called In].
  - destruct (Nat.eqb_spec d c) as [->|]; cbn [In]; rewrite IH; intuition congruence.
  - rewrite IH. intuition congruence.
  - rewrite IH. intuition congruence.
Qed.
Lemma in_returned : forall c t, returned c t = true <-> In (OReturn c) t.
Proof.
  induction t as [|x t IH]; [cbn; intuition congruence|]. destruct x as [| |d]; cbn [returned In].
  - rewrite IH. intuition congruence.
  - rewrite IH. intuition congruence.
  - rewrite orb_true_iff, IH, Nat.eqb_eq. intuition congruence.
Qed.
Lemma in_wrote : forall c l t, In l (wrote c t) <-> exists m, In (OWrite c l m) t.
Proof.
  induction t as [|x t IH]; [cbn; split; [tauto|intros [m []]]|]. destruct x as [d o|d l' m'|d]; cbn [wrote].
  - rewrite IH. split; intros [m H]; exists m; [right; exact H|destruct H as [H|H]; [discriminate|exact H]].
  - destruct (Nat.eqb_spec d c) as [->|NE]; cbn [In]; rewrite IH; split.
    + intros [->|[m H]]; [exists m'; left; reflexivity|exists m; right; exact H].
    + intros [m [H|H]]; [left; congruence|right; eauto].
    + intros [m H]. exists m. right. exact H.
    + intros [m [H|H]]; [congruence|eauto].
  - rewrite IH. split; intros [m H]; exists m; [right; exact H|destruct H as [H|H]; [discriminate|exact H]].
Qed.

Definition linv (s : lsys) (t : list lobs) : Prop :=
  (forall l, NoDup (waiters s l)) /\
  (forall c, match call s c with
     | None => called c t = [] /\ returned c t = false /\ wrote c t = [] /\ forall l, ~ In c (waiters s l)
     | Some k =>
         called c t = [what k]
         /\ (forall l, In c (waiters s l) <-> In l (asked k))
         /\ call_ok s c k
         /\ wrote c t ++ towrite k = locks_of (what k)
         /\ (returned c t = true <-> want k = [] /\ asked k = [])
     end).

Lemma nodup_app_one : forall (l : list nat) c, NoDup l -> ~ In c l -> NoDup (l ++ [c]).
Proof.
  induction l as [|x l IH]; intros c N I; cbn; [repeat constructor; cbn; tauto|].
  inversion N; subst. constructor.
  - rewrite in_app_iff. cbn. cbn in I. intuition congruence.
  - apply IH; [assumption|]. cbn in I. tauto.
Qed.
Lemma nodup_filter : forall (f : nat -> bool) l, NoDup l -> NoDup (filter f l).
Proof.
  intros f l H. induction H; cbn; [constructor|]. destruct (f x) eqn:E; [constructor|]; auto.
  rewrite filter_In. tauto.
Qed.

Lemma owns_true : forall s c l, owns s c l = true <-> exists w, waiters s l = c :: w.
Proof.
  intros s c l. unfold owns. destruct (waiters s l) as [|d w].
  - split; [discriminate|intros [w E]; discriminate].
  - rewrite Nat.eqb_eq. split; [intros ->; eauto|intros [w' E]; congruence].
Qed.
Lemma all_owned_spec : forall s c k, all_owned s c k = true <-> forall l, In l (asked k) -> owns s c l = true.
Proof. intros. unfold all_owned. apply forallb_forall. Qed.

Lemma remove_head : forall c w, NoDup (c :: w) -> filter (fun d => negb (d =? c)) (c :: w) = w.
Proof.
  intros c w N. inversion N; subst. cbn. rewrite Nat.eqb_refl. cbn.
  induction w as [|x w IH]; [reflexivity|]. cbn. destruct (Nat.eqb_spec x c) as [->|NE].
  - exfalso. apply H1. left. reflexivity.
  - cbn. f_equal. apply IH; [inversion N; inversion H4; subst; constructor; [intro K; apply H1; right; exact K|assumption]| |].
    + intro K. apply H1. right. exact K.
    + inversion H2; assumption.
Qed.

(** What the steps do to the queues: a queue only grows at its end, except that the
    owner leaves it when it is done. *)
Lemma owner_stays : forall s t e s' o c l, linv s t -> lstep s e = Some (s', o) ->
  owns s c l = true -> (forall l', e <> LRelease c l') \/ e <> LRelease c l -> owns s' c l = true.
Proof.
  intros s t e s' o c l [N I] H O NR.
  assert (NR' : e <> LRelease c l) by (destruct NR; auto).
  apply owns_true in O. destruct O as [w O]. apply owns_true.
  destruct e as [x p|x|x|x|x y]; cbn [lstep] in H.
  - destruct (call s x); inversion H; subst. eauto.
  - destruct (call s x) as [k|]; [|discriminate]. destruct (want k) as [|y ys]; [discriminate|].
    destruct (eager (what k) || all_owned s x k); inversion H; subst. cbn. unfold put.
    destruct (Nat.eqb_spec l y) as [->|]; [|eauto]. rewrite O. eexists. reflexivity.
  - destruct (call s x) as [k|]; [|discriminate]. destruct (want k) as [|y ys] eqn:W; [discriminate|].
    destruct (eager (what k) || _); inversion H; subst. cbn [waiters].
    change (exists w0, enqueue (waiters s) (y :: ys) x l = c :: w0).
    assert (G : forall ls q, (exists w0, q l = c :: w0) -> exists w0, enqueue q ls x l = c :: w0).
    { induction ls as [|z ls IH]; intros q K; cbn [enqueue]; [exact K|]. apply IH. unfold put.
      destruct (Nat.eqb_spec l z) as [->|]; [|exact K]. destruct K as [w0 K]. rewrite K. eexists. reflexivity. }
    apply G. eauto.
  - destruct (call s x) as [k|]; [|discriminate]. destruct (want k) as [|]; [|discriminate].
    destruct (towrite k) as [|y ys]; [discriminate|]. destruct (all_owned s x k); inversion H; subst. eauto.
  - destruct (call s x) as [k|] eqn:C; [|discriminate]. destruct (want k) eqn:W; [|discriminate].
    destruct (towrite k) eqn:TW; [|discriminate]. destruct (existsb (Nat.eqb y) (asked k)) eqn:E; inversion H; subst.
    cbn [waiters]. unfold put. destruct (Nat.eqb_spec l y) as [->|]; [|eauto].
    assert (NE : x <> c) by congruence. rewrite O. cbn.
    destruct (Nat.eqb_spec c x); [congruence|]. cbn. eauto.
Qed.

(** The parts of [linv] about a call other than the one that takes the step. *)
Lemma linv_other : forall s t e s' o c x, linv s t -> lstep s e = Some (s', o) ->
  (match e with LStart y _ | LRequest y | LRequestAll y | LWrite y | LRelease y _ => y end) = x -> c <> x ->
  call s' c = call s c /\ called c o = [] /\ returned c o = false /\ wrote c o = []
  /\ (forall l, In c (waiters s' l) <-> In c (waiters s l)).
Proof.
  intros s t e s' o c x [N I] H E NE.
  destruct e as [y p|y|y|y|y z]; subst y; cbn [lstep] in H.
  - destruct (call s x) eqn:C; inversion H; subst. cbn [call waiters called returned wrote].
    rewrite put_other by assumption. destruct (Nat.eqb_spec x c); [congruence|].
    destruct (locks_of p); cbn; destruct (Nat.eqb_spec x c); try congruence; repeat split; auto.
  - destruct (call s x) as [k|] eqn:C; [|discriminate]. destruct (want k) as [|y ys]; [discriminate|].
    destruct (eager (what k) || all_owned s x k); inversion H; subst. cbn [call waiters].
    rewrite put_other by assumption. repeat split; auto; unfold put; destruct (Nat.eqb_spec l y); subst; auto;
      rewrite in_app_iff; cbn; intuition congruence.
  - destruct (call s x) as [k|] eqn:C; [|discriminate]. destruct (want k) as [|y ys]; [discriminate|].
    destruct (eager (what k) || _); inversion H; subst. cbn [call waiters].
    rewrite put_other by assumption. split; [reflexivity|]. do 3 (split; [reflexivity|]). intro l.
    refine (iff_trans (enqueue_in (y :: ys) (waiters s) x l c) _). intuition congruence.
  - destruct (call s x) as [k|] eqn:C; [|discriminate]. destruct (want k) as [|]; [|discriminate].
    destruct (towrite k) as [|y ys]; [discriminate|]. destruct (all_owned s x k); inversion H; subst.
    cbn [call waiters called returned wrote]. rewrite put_other by assumption.
    destruct (Nat.eqb_spec x c); [congruence|]. repeat split; auto.
  - destruct (call s x) as [k|] eqn:C; [|discriminate]. destruct (want k) eqn:W; [|discriminate].
    destruct (towrite k) eqn:TW; [|discriminate]. destruct (existsb (Nat.eqb z) (asked k)) eqn:E; inversion H; subst.
    cbn [call waiters]. rewrite put_other by assumption.
    assert (K : forall u, called c (match u : list nat with [] => [OReturn x] | _ => [] end) = []
       /\ returned c (match u with [] => [OReturn x] | _ => [] end) = false
       /\ wrote c (match u with [] => [OReturn x] | _ => [] end) = []).
    { intros [|]; cbn; destruct (Nat.eqb_spec x c); try congruence; auto. }
    destruct (K (filter (fun x0 => negb (x0 =? z)) (asked k))) as (K1 & K2 & K3).
    repeat split; auto; unfold put; destruct (Nat.eqb_spec l z); subst; auto;
      rewrite filter_In, ?negb_true_iff, ?Nat.eqb_neq; intuition.
Qed.

Lemma wrote_nil_first : forall s t c k, linv s t -> call s c = Some k ->
  want k <> [] -> towrite k = locks_of (what k) /\ asked k ++ want k = locks_of (what k).
Proof.
  intros s t c k [_ I] C W. specialize (I c). rewrite C in I. destruct I as (_ & _ & [K|K] & _); [exact K|].
  destruct K as (K & _). contradiction.
Qed.

Lemma app_same_nil : forall (A : Type) (l m : list A), l ++ m = m -> l = [].
Proof.
  intros A l m H. destruct l; [reflexivity|]. apply (f_equal (@length A)) in H. cbn in H.
  rewrite app_length in H. lia.
Qed.

Lemma linv_step : forall s t e s' o, linv s t -> lstep s e = Some (s', o) -> linv s' (t ++ o).
Proof.
  intros s t e s' o LI H. pose proof LI as [N I].
  set (x := match e with LStart y _ | LRequest y | LRequestAll y | LWrite y | LRelease y _ => y end).
  assert (OTH : forall c, c <> x -> match call s' c with
     | None => called c (t ++ o) = [] /\ returned c (t ++ o) = false /\ wrote c (t ++ o) = [] /\ forall l, ~ In c (waiters s' l)
     | Some k =>
         called c (t ++ o) = [what k]
         /\ (forall l, In c (waiters s' l) <-> In l (asked k))
         /\ call_ok s' c k
         /\ wrote c (t ++ o) ++ towrite k = locks_of (what k)
         /\ (returned c (t ++ o) = true <-> want k = [] /\ asked k = [])
     end).
  { intros c NE. destruct (linv_other _ _ _ _ _ c x LI H eq_refl NE) as (E1 & E2 & E3 & E4 & E5).
    rewrite called_app, returned_app, wrote_app, E1, E2, E3, E4, !app_nil_r, orb_false_r.
    specialize (I c). destruct (call s c) as [k|].
    - destruct I as (I1 & I2 & I3 & I4 & I5). split; [exact I1|]. split; [intro l; rewrite E5; apply I2|].
      split; [|auto]. destruct I3 as [I3|(J1 & J2 & J3 & J4)]; [left; exact I3|right].
      split; [exact J1|]. split; [exact J2|]. split; [|exact J4].
      intros l Hl. eapply owner_stays; eauto. left. intros l'. subst x. destruct e; cbn in NE; congruence.
    - destruct I as (I1 & I2 & I3 & I4). repeat split; auto. intro l. rewrite E5. apply I4. }
  assert (ME : (forall l, NoDup (waiters s' l)) /\ match call s' x with
     | None => called x (t ++ o) = [] /\ returned x (t ++ o) = false /\ wrote x (t ++ o) = [] /\ forall l, ~ In x (waiters s' l)
     | Some k =>
         called x (t ++ o) = [what k]
         /\ (forall l, In x (waiters s' l) <-> In l (asked k))
         /\ call_ok s' x k
         /\ wrote x (t ++ o) ++ towrite k = locks_of (what k)
         /\ (returned x (t ++ o) = true <-> want k = [] /\ asked k = [])
     end).
  { clear OTH. rewrite called_app, returned_app, wrote_app.
    destruct e as [y p|y|y|y|y z]; subst x; cbn [lstep] in H.
    - destruct (call s y) eqn:C; [discriminate|]. inversion H; subst s' o. clear H. cbn [call waiters].
      rewrite put_same. pose proof (I y) as Ix; rewrite C in Ix; destruct Ix as (I1 & I2 & I3 & I4). rewrite I1, I2, I3.
      cbn [called returned wrote what asked want towrite]. rewrite Nat.eqb_refl. split; [exact N|].
      destruct (locks_of p) eqn:L; cbn; rewrite ?Nat.eqb_refl; cbn.
      + split; [reflexivity|]. split; [intro l; specialize (I4 l); tauto|].
        split; [left; cbn; auto|]. split; [reflexivity|]. intuition.
      + split; [reflexivity|]. split; [intro l0; specialize (I4 l0); tauto|].
        split; [left; cbn; auto|]. split; [reflexivity|]. split; [discriminate|intros [E _]; discriminate].
    - destruct (call s y) as [k|] eqn:C; [|discriminate]. destruct (want k) as [|z zs] eqn:W; [discriminate|].
      destruct (eager (what k) || all_owned s y k); inversion H; subst s' o. clear H.
      destruct (wrote_nil_first _ _ _ _ LI C) as [TW AW]; [rewrite W; discriminate|].
      cbn [call waiters]. rewrite put_same. cbn [what asked want towrite called returned wrote].
      pose proof (I y) as Ix; rewrite C in Ix; destruct Ix as (I1 & I2 & I3 & I4 & I5). rewrite !app_nil_r, orb_false_r.
      assert (NZ : ~ In z (asked k)).
      { pose proof (locks_nodup (what k)) as LN. rewrite <- AW, W in LN. apply NoDup_remove_2 in LN.
        intro K. apply LN, in_or_app. left. exact K. }
      assert (R : returned y t = false).
      { destruct (returned y t); [|reflexivity]. destruct I5 as [I5 _]. destruct I5 as [I5 _]; [reflexivity|].
        rewrite W in I5. discriminate. }
      split.
      { intro l. unfold put. destruct (Nat.eqb_spec l z) as [->|]; [|apply N].
        apply nodup_app_one; [apply N|]. rewrite I2. exact NZ. }
      split; [exact I1|]. split.
      { intro l. unfold put. rewrite in_app_iff. destruct (Nat.eqb_spec l z) as [->|NE].
        - rewrite in_app_iff. cbn. tauto.
        - rewrite I2. cbn. intuition congruence. }
      split; [left; cbn; rewrite <- app_assoc, TW; cbn; rewrite <- AW, W; auto|].
      split; [exact I4|]. rewrite R. split; [discriminate|]. intros [_ E]. destruct (asked k); discriminate.
    - destruct (call s y) as [k|] eqn:C; [|discriminate]. destruct (want k) as [|z zs] eqn:W; [discriminate|].
      destruct (eager (what k) || _); inversion H; subst s' o. clear H.
      destruct (wrote_nil_first _ _ _ _ LI C) as [TW AW]; [rewrite W; discriminate|].
      cbn [call waiters]. rewrite put_same. cbn [what asked want towrite called returned wrote].
      pose proof (I y) as Ix; rewrite C in Ix; destruct Ix as (I1 & I2 & I3 & I4 & I5). rewrite !app_nil_r, orb_false_r.
      pose proof (locks_nodup (what k)) as LN. rewrite <- AW, W in LN.
      assert (NZ : NoDup (z :: zs) /\ forall l, In l (z :: zs) -> ~ In l (asked k)).
      { clear - LN. induction (asked k) as [|v vs IH]; cbn in LN; [split; auto|].
        inversion LN; subst. destruct (IH H2) as [A B]. split; [exact A|]. intros l Hl [E|E]; [|eapply B; eauto].
        subst. apply H1, in_or_app. right. exact Hl. }
      destruct NZ as [NZ1 NZ2].
      assert (R : returned y t = false).
      { destruct (returned y t); [|reflexivity]. destruct I5 as [I5 _]. destruct I5 as [I5 _]; [reflexivity|].
        rewrite W in I5. discriminate. }
      split.
      { intro l. change (NoDup (enqueue (waiters s) (z :: zs) y l)).
        rewrite enqueue_val by assumption. destruct (in_dec Nat.eq_dec l (z :: zs)) as [J|J]; [|apply N].
        apply nodup_app_one; [apply N|]. rewrite I2. apply NZ2. exact J. }
      split; [exact I1|]. split.
      { intro l. refine (iff_trans (enqueue_in (z :: zs) (waiters s) y l y) _).
        rewrite in_app_iff, I2. intuition. }
      split; [left; cbn [what asked want towrite]; rewrite app_nil_r, TW, <- AW, W; auto|].
      split; [exact I4|]. rewrite R. split; [discriminate|]. intros [_ E]. destruct (asked k); discriminate.
    - destruct (call s y) as [k|] eqn:C; [|discriminate]. destruct (want k) as [|] eqn:W; [|discriminate].
      destruct (towrite k) as [|z zs] eqn:TW; [discriminate|].
      destruct (all_owned s y k) eqn:AO; inversion H; subst s' o. clear H.
      rewrite all_owned_spec in AO.
      cbn [call waiters]. rewrite put_same. cbn [what asked want towrite called returned wrote]. rewrite Nat.eqb_refl.
      pose proof (I y) as Ix; rewrite C in Ix; destruct Ix as (I1 & I2 & I3 & I4 & I5). rewrite !app_nil_r, orb_false_r. split; [exact N|].
      assert (AK : asked k = locks_of (what k)).
      { destruct I3 as [[_ A]|(_ & _ & _ & _ & _ & A)].
        - rewrite W, app_nil_r in A. exact A.
        - apply A. rewrite TW. discriminate. }
      split; [exact I1|]. split; [exact I2|]. split.
      { right. split; [reflexivity|]. split.
        - cbn [towrite what]. destruct I3 as [[A _]|(_ & (d & ds & A) & _)].
          + exists z, []. rewrite <- A, TW. reflexivity.
          + exists d, (ds ++ [z]). rewrite <- A, TW. cbn. rewrite <- app_assoc. reflexivity.
        - cbn [asked towrite what]. split; [exact AO|]. rewrite AK. split; [apply locks_nodup|]. split; auto. }
      split; [rewrite <- app_assoc; rewrite <- I4, ?TW; reflexivity|]. rewrite I5. rewrite W. tauto.
    - destruct (call s y) as [k|] eqn:C; [|discriminate]. destruct (want k) eqn:W; [|discriminate].
      destruct (towrite k) eqn:TW; [|discriminate].
      destruct (existsb (Nat.eqb z) (asked k)) eqn:E; inversion H; subst s' o. clear H.
      apply existsb_exists in E. destruct E as (z' & Z & E). apply Nat.eqb_eq in E. subst z'.
      cbn [call waiters]. rewrite put_same. cbn [what asked want towrite].
      pose proof (I y) as Ix; rewrite C in Ix; destruct Ix as (I1 & I2 & I3 & I4 & I5).
      set (rest := filter (fun x => negb (x =? z)) (asked k)) in *.
      assert (RI : forall l, In l rest <-> In l (asked k) /\ l <> z).
      { intro l. subst rest. rewrite filter_In, negb_true_iff, Nat.eqb_neq. tauto. }
      assert (OB : called y (match rest with [] => [OReturn y] | _ => [] end) = []
        /\ wrote y (match rest with [] => [OReturn y] | _ => [] end) = []
        /\ (returned y (match rest with [] => [OReturn y] | _ => [] end) = true <-> rest = [])).
      { destruct rest; cbn; rewrite ?Nat.eqb_refl; cbn; intuition congruence. }
      destruct OB as (O1 & O2 & O3). rewrite O1, O2, !app_nil_r.
      split; [intro l; unfold put; destruct (l =? z); [apply nodup_filter|]; apply N|].
      split; [exact I1|]. split.
      { intro l. rewrite RI. unfold put. destruct (Nat.eqb_spec l z) as [->|NE].
        - rewrite filter_In, negb_true_iff, Nat.eqb_neq. tauto.
        - rewrite I2. tauto. }
      split.
      { destruct I3 as [[A B]|(A1 & A2 & A3 & A4 & A5 & A6)].
        - exfalso. rewrite TW in A. rewrite W, app_nil_r, <- A in B. rewrite B in Z. contradiction.
        - right. split; [reflexivity|]. cbn [towrite what asked]. rewrite TW in A2. split; [exact A2|].
          split; [|split; [apply nodup_filter; exact A4|split; [|congruence]]].
          + intros l L. apply RI in L. destruct L as [L NE]. apply A3 in L. apply owns_true in L.
            destruct L as [w L]. apply owns_true. exists w. cbn [waiters]. rewrite put_other by assumption. exact L.
          + intros l L. apply RI in L. apply A5. tauto. }
      split; [rewrite TW, app_nil_r in I4; rewrite ?app_nil_r; exact I4|].
      rewrite orb_true_iff, O3, I5, W. split.
      + intros [[_ B]|B]; [rewrite B in Z; contradiction|auto].
      + intros [_ B]. right. exact B. }
  destruct ME as [M1 M2]. split; [exact M1|].
  intro c. destruct (Nat.eq_dec c x) as [->|NE]; [exact M2|apply OTH; exact NE].
Qed.

Lemma linv_run : forall es s t, lrun linit es = Some (s, t) -> linv s t.
Proof.
  apply (lrun_ind (fun _ s t => linv s t)).
  - split; cbn; [constructor|]. auto.
  - intros. eapply linv_step; eauto.
Qed.

(** ** A call takes at most six steps *)
Definition left_to_do (k : option lcall) : nat :=
  match k with
  | None => 6
  | Some k => 2 * length (want k) + length (towrite k) + length (asked k)
  end.
Lemma filter_shorter : forall (f : nat -> bool) l x, In x l -> f x = false -> length (filter f l) < length l.
Proof.
  intros f l x. induction l as [|y l IH]; intros I E; [contradiction|]. cbn.
  assert (K : length (filter f l) <= length l).
  { clear. induction l as [|z l IH]; cbn; [lia|]. destruct (f z); cbn; lia. }
  destruct I as [->|I].
  - rewrite E. lia.
  - specialize (IH I E). destruct (f y); cbn; lia.
Qed.
Lemma left_step : forall s e s' o c, lstep s e = Some (s', o) ->
  left_to_do (call s' c) + (if step_of c e then 1 else 0) <= left_to_do (call s c).
Proof.
  intros s e s' o c H. destruct e as [x p|x|x|x|x z]; cbn [lstep] in H; cbn [step_of].
  - destruct (call s x) eqn:C; inversion H; subst. cbn [call]. unfold put.
    destruct (Nat.eqb_spec c x) as [->|]; [|lia]. rewrite C. cbn. pose proof (locks_two p). lia.
  - destruct (call s x) as [k|] eqn:C; [|discriminate]. destruct (want k) as [|y ys] eqn:W; [discriminate|].
    destruct (eager (what k) || all_owned s x k); inversion H; subst. cbn [call]. unfold put. rewrite (Nat.eqb_sym x c).
    destruct (Nat.eqb_spec c x) as [->|]; [|lia]. rewrite C. cbn. rewrite W, app_length. cbn. lia.
  - destruct (call s x) as [k|] eqn:C; [|discriminate]. destruct (want k) as [|y ys] eqn:W; [discriminate|].
    destruct (eager (what k) || _); inversion H; subst. cbn [call]. unfold put. rewrite (Nat.eqb_sym x c).
    destruct (Nat.eqb_spec c x) as [->|]; [|lia]. rewrite C. cbn. rewrite W, app_length. cbn. lia.
  - destruct (call s x) as [k|] eqn:C; [|discriminate]. destruct (want k) as [|] eqn:W; [|discriminate].
    destruct (towrite k) as [|y ys] eqn:T; [discriminate|]. destruct (all_owned s x k); inversion H; subst.
    cbn [call]. unfold put. rewrite (Nat.eqb_sym x c).
    destruct (Nat.eqb_spec c x) as [->|]; [|lia]. rewrite C. cbn. rewrite W, T. cbn. lia.
  - destruct (call s x) as [k|] eqn:C; [|discriminate]. destruct (want k) eqn:W; [|discriminate].
    destruct (towrite k) eqn:TW; [|discriminate]. destruct (existsb (Nat.eqb z) (asked k)) eqn:E; inversion H; subst.
    cbn [call]. unfold put. rewrite (Nat.eqb_sym x c).
    destruct (Nat.eqb_spec c x) as [->|]; [|lia]. rewrite C. cbn [left_to_do want towrite asked]. rewrite W, TW.
    apply existsb_exists in E. destruct E as (z' & Z & E). apply Nat.eqb_eq in E. subst z'.
    pose proof (filter_shorter (fun x => negb (x =? z)) (asked k) z Z) as F.
    cbn beta in F. rewrite Nat.eqb_refl in F. specialize (F eq_refl). cbn [length]. lia.
Qed.
Lemma at_most_six : forall es s t c, lrun linit es = Some (s, t) -> length (filter (step_of c) es) <= 6.
Proof.
  assert (G : forall es s s' t c, lrun s es = Some (s', t) ->
    length (filter (step_of c) es) <= left_to_do (call s c)).
  { induction es as [|e es IH]; cbn [lrun]; intros s s' t c H; [cbn; lia|].
    destruct (lstep s e) as [[s1 o1]|] eqn:S1; [|discriminate].
    destruct (lrun s1 es) as [[s2 o2]|] eqn:S2; [|discriminate].
    pose proof (left_step _ _ _ _ c S1). specialize (IH _ _ _ c S2). cbn [filter].
    destruct (step_of c e); cbn; lia. }
  intros es s t c H. apply (G _ _ _ _ c H).
Qed.

(** ** Who waits for whom at rest *)
Lemma in_call_some : forall s t c o, linv s t -> In (OCall c o) t -> exists k, call s c = Some k /\ what k = o.
Proof.
  intros s t c o [_ I] H. apply in_called in H. specialize (I c). destruct (call s c) as [k|].
  - exists k. split; [reflexivity|]. destruct I as (I & _). rewrite I in H. destruct H as [H|[]]. exact H.
  - destruct I as (I & _). rewrite I in H. contradiction.
Qed.

(** A call that has not returned does not own something it has requested. *)
Lemma not_all_owned : forall s c k, all_owned s c k = false -> exists l, In l (asked k) /\ owns s c l = false.
Proof.
  intros s c k AO. unfold all_owned in AO. induction (asked k) as [|l ls IH]; [discriminate|]. cbn in AO.
  destruct (owns s c l) eqn:E; [|exists l; cbn; auto]. destruct (IH AO) as (x & X & O). exists x. cbn. auto.
Qed.
Lemma rest_waits : forall s c k, at_rest s -> call s c = Some k ->
  ~ (want k = [] /\ asked k = []) -> exists l, In l (asked k) /\ owns s c l = false.
Proof.
  intros s c k R C A. apply not_all_owned. destruct (all_owned s c k) eqn:AO; [|reflexivity]. exfalso.
  destruct (R c) as (RQ & _ & RW & RR). cbn [lstep] in RQ, RW. rewrite C, AO in RQ. rewrite C, AO in RW.
  rewrite orb_true_r in RQ. destruct (want k) as [|w ws] eqn:W; [|discriminate].
  destruct (towrite k) as [|z zs] eqn:T; [|discriminate].
  destruct (asked k) as [|l ls] eqn:E; [tauto|]. specialize (RR l). cbn [lstep] in RR.
  rewrite C, W, T, E in RR. cbn [existsb] in RR. rewrite Nat.eqb_refl in RR. discriminate.
Qed.

(** ** Locks taken one after the other in one order: no deadlock *)
Definition max_rank (rank : nat -> nat) (t : list lobs) : nat :=
  list_max (map rank (flat_map (fun o => match o with OCall _ p => locks_of p | _ => [] end) t)).
Lemma max_rank_ge : forall rank t c o l, In (OCall c o) t -> In l (locks_of o) -> rank l <= max_rank rank t.
Proof.
  intros rank t c o l H L. unfold max_rank.
  assert (K : In (rank l) (map rank (flat_map (fun o => match o with OCall _ p => locks_of p | _ => [] end) t))).
  { apply in_map. apply in_flat_map. exists (OCall c o). split; assumption. }
  pose proof (list_max_le (map rank (flat_map (fun o => match o with OCall _ p => locks_of p | _ => [] end) t))
    (list_max (map rank (flat_map (fun o => match o with OCall _ p => locks_of p | _ => [] end) t)))) as [F _].
  specialize (F (Nat.le_refl _)). rewrite Forall_forall in F. apply F. exact K.
Qed.

(** A lazy call owns all it has requested but the last. *)
Definition lazy_ok (s : lsys) (c : nat) (k : lcall) : Prop :=
  eager (what k) = false ->
  forall ls l, asked k = ls ++ [l] -> forall l', In l' ls -> owns s c l' = true.
Lemma lazy_inv : forall es s t, lrun linit es = Some (s, t) -> forall c k, call s c = Some k -> lazy_ok s c k.
Proof.
  apply (lrun_ind (fun es s t => forall c k, call s c = Some k -> lazy_ok s c k)).
  - cbn. discriminate.
  - intros es s t e s' o RUN IH H c k' C'. pose proof (linv_run _ _ _ RUN) as LI.
    set (x := match e with LStart y _ | LRequest y | LRequestAll y | LWrite y | LRelease y _ => y end).
    destruct (Nat.eq_dec c x) as [->|NE].
    + destruct e as [y p|y|y|y|y z]; subst x; cbn [lstep] in H.
      * destruct (call s y) eqn:C; inversion H; subst s' o. cbn [call] in C'. rewrite put_same in C'.
        inversion C'; subst. intros _ ls l A. cbn in A. destruct ls; discriminate.
      * destruct (call s y) as [k|] eqn:C; [|discriminate]. destruct (want k) as [|z zs] eqn:W; [discriminate|].
        destruct (eager (what k) || all_owned s y k) eqn:G; [|discriminate]. pose proof H as H0. inversion H; subst s' o.
        cbn [call] in C'. rewrite put_same in C'. inversion C'; subst k'. clear C'.
        intros EG ls l A l' L. cbn [asked what] in *. rewrite EG in G. cbn in G. rewrite all_owned_spec in G.
        apply app_inj_tail in A. destruct A as [A _]. subst ls.
        eapply (owner_stays s t (LRequest y)); [exact LI| |apply G; exact L|left; intros; discriminate].
        cbn [lstep]. rewrite C, W. destruct (eager (what k) || all_owned s y k) eqn:G2; [reflexivity|].
        exfalso. clear - G G2. apply orb_false_iff in G2. destruct G2 as [_ G2].
        assert (all_owned s y k = true) by (apply all_owned_spec; exact G). congruence.
      * destruct (call s y) as [k|] eqn:C; [|discriminate]. destruct (want k) as [|z zs] eqn:W; [discriminate|].
        destruct (eager (what k)) eqn:EG; cbn [orb] in H.
        { inversion H; subst s' o. cbn [call] in C'. rewrite put_same in C'. inversion C'; subst k'.
          intro E. cbn in E. congruence. }
        destruct (all_owned s y k) eqn:G; cbn [andb] in H; [|discriminate]. destruct zs; [|discriminate].
        inversion H; subst s' o. cbn [call] in C'. rewrite put_same in C'. inversion C'; subst k'. clear C'.
        intros _ ls l A l' L. cbn [asked what] in *. rewrite all_owned_spec in G.
        apply app_inj_tail in A. destruct A as [A _]. subst ls.
        eapply (owner_stays s t (LRequestAll y)); [exact LI| |apply G; exact L|left; intros; discriminate].
        cbn [lstep]. rewrite C, W, EG. cbn [orb].
        assert (G2 : all_owned s y k = true) by (apply all_owned_spec; exact G). rewrite G2. reflexivity.
      * destruct (call s y) as [k|] eqn:C; [|discriminate]. destruct (want k) as [|] eqn:W; [|discriminate].
        destruct (towrite k) as [|z zs] eqn:T; [discriminate|]. destruct (all_owned s y k) eqn:G; inversion H; subst s' o.
        cbn [call] in C'. rewrite put_same in C'. inversion C'; subst k'.
        intros EG ls l A l' L. cbn [asked what] in *. exact (IH _ _ C EG ls l A l' L).
      * destruct (call s y) as [k|] eqn:C; [|discriminate]. destruct (want k) eqn:W; [|discriminate].
        destruct (towrite k) eqn:TW; [|discriminate]. destruct (existsb (Nat.eqb z) (asked k)) eqn:E; [|discriminate].
        pose proof H as H0. inversion H; subst s' o.
        cbn [call] in C'. rewrite put_same in C'. inversion C'; subst k'. clear C'.
        intros EG ls l A l' L. cbn [asked what] in *.
        assert (K : In l' (filter (fun x => negb (x =? z)) (asked k))) by (rewrite A; apply in_or_app; left; exact L).
        apply filter_In in K. destruct K as [K1 K2]. apply negb_true_iff, Nat.eqb_neq in K2.
        destruct LI as [N I]. pose proof (I y) as Iy. rewrite C in Iy. destruct Iy as (_ & _ & [[A1 A2]|(_ & _ & A3 & _)] & _).
        { exfalso. rewrite TW in A1. rewrite W, app_nil_r, <- A1 in A2. rewrite A2 in K1. contradiction. }
        apply A3 in K1. apply owns_true in K1. destruct K1 as [w K1]. apply owns_true. exists w.
        cbn [waiters]. rewrite put_other by assumption. exact K1.
    + destruct (linv_other _ _ _ _ _ c x LI H eq_refl NE) as (E1 & _). rewrite E1 in C'.
      intros EG ls l A l' L. eapply owner_stays; eauto; [exact (IH _ _ C' EG ls l A l' L)|].
      left. intros m. subst x. destruct e; cbn in NE; congruence.
Qed.

Lemma rank_sorted : forall rank o l1 l2 u v, in_rank_order rank o -> eager o = false ->
  locks_of o = u ++ v -> In l1 u -> In l2 v -> rank l1 < rank l2.
Proof.
  intros rank o l1 l2 u v OK EG E I1 I2. destruct o; cbn in *; try discriminate.
  - destruct (Nat.eqb_spec a b) as [->|NE]; [destruct u; [contradiction|discriminate]|].
    destruct u as [|x [|y [|z u]]]; inversion E; subst; cbn in *; intuition; subst; congruence.
  - destruct (Nat.eqb_spec a b) as [->|NE]; [destruct u; [contradiction|discriminate]|].
    destruct u as [|x [|y [|z u]]]; inversion E; subst; cbn in *; intuition; subst; congruence.
  - destruct u as [|x [|y u]]; inversion E; subst; cbn in *; intuition.
  - destruct u as [|x [|y u]]; inversion E; subst; cbn in *; intuition.
  - destruct u as [|x [|y u]]; inversion E; subst; cbn in *; intuition.
Qed.

Lemma rank_eager : forall rank o, in_rank_order rank o -> locks_of o <> [] -> eager o = false.
Proof.
  intros rank o OK L. destruct o; try reflexivity; cbn in *; subst; rewrite Nat.eqb_refl in L; congruence.
Qed.

Lemma ordered_no_deadlock : forall rank es s t, lrun linit es = Some (s, t) -> at_rest s ->
  (forall c o, In (OCall c o) t -> in_rank_order rank o) -> all_returned t.
Proof.
  intros rank es s t H R OK. pose proof (linv_run _ _ _ H) as LI. pose proof (lazy_inv _ _ _ H) as LZ.
  pose proof LI as [N I].
  assert (FACT : forall c k, call s c = Some k -> In (OCall c (what k)) t).
  { intros c k C. apply in_called. specialize (I c). rewrite C in I. destruct I as (I & _). rewrite I. left. reflexivity. }
  assert (SUB : forall c k l, call s c = Some k -> In l (asked k) -> In l (locks_of (what k))).
  { intros c k l C L. specialize (I c). rewrite C in I. destruct I as (_ & _ & [[_ A]|(_ & _ & _ & _ & A & _)] & _).
    - rewrite <- A. apply in_or_app. left. exact L.
    - apply A. exact L. }
  (* nobody waits for anything: by induction on how far the rank is from the greatest *)
  assert (NW : forall n c k l, call s c = Some k -> In l (asked k) -> owns s c l = false ->
    max_rank rank t - rank l < n -> False).
  { induction n as [|n IH]; intros c k l C L O B; [lia|].
    assert (IC : In c (waiters s l)) by (specialize (I c); rewrite C in I; destruct I as (_ & I & _); apply I; exact L).
    destruct (waiters s l) as [|d w] eqn:WQ; [contradiction|].
    assert (OD : owns s d l = true) by (apply owns_true; eauto).
    pose proof (I d) as Id. destruct (call s d) as [kd|] eqn:CD.
    2:{ destruct Id as (_ & _ & _ & Id). apply (Id l). rewrite WQ. left. reflexivity. }
    assert (LD : In l (asked kd)).
    { destruct Id as (_ & Id & _). apply Id. rewrite WQ. left. reflexivity. }
    destruct (rest_waits s d kd R CD) as (l' & L' & O').
    { intros [_ E]. rewrite E in LD. contradiction. }
    assert (NE : l <> l') by congruence.
    assert (LOCK : In l (locks_of (what kd))) by eauto. assert (LOCK' : In l' (locks_of (what kd))) by eauto.
    assert (EG : eager (what kd) = false).
    { eapply rank_eager; [apply (OK d); apply FACT; exact CD|]. intro E. rewrite E in LOCK. contradiction. }
    assert (RK : rank l < rank l').
    { destruct (@exists_last _ (asked kd)) as (zs & z & A); [intro E; rewrite E in LD; contradiction|].
      rewrite A in LD, L'.
      assert (Z : l' = z).
      { apply in_app_or in L'. destruct L' as [L'|[L'|[]]]; [|congruence].
        rewrite (LZ d kd CD EG zs z A l' L') in O'. discriminate. }
      subst z. apply in_app_or in LD. destruct LD as [LD|[LD|[]]]; [|congruence].
      destruct Id as (_ & _ & [[_ A2]|(_ & _ & A3 & _)] & _).
      - rewrite A, <- app_assoc in A2. eapply (rank_sorted rank (what kd) l l' zs ([l'] ++ want kd)); eauto.
        cbn. auto.
      - exfalso. rewrite (A3 l') in O' by (rewrite A; apply in_or_app; right; left; reflexivity). discriminate. }
    eapply (IH d kd l'); eauto.
    pose proof (max_rank_ge rank t d (what kd) l' (FACT _ _ CD) LOCK'). lia. }
  intros c o IC. destruct (in_call_some _ _ _ _ LI IC) as (k & C & _). apply in_returned.
  pose proof (I c) as Ic. rewrite C in Ic. destruct Ic as (_ & _ & _ & _ & RET). apply RET.
  destruct (want k) as [|w ws] eqn:W; destruct (asked k) as [|a as'] eqn:A; auto; exfalso;
    (destruct (rest_waits s c k R C) as (l & L & O);
     [rewrite W, A; intros [E1 E2]; congruence|eapply (NW (S (max_rank rank t - rank l)) c k l); eauto; lia]).
Qed.

(** ** Both locks requested in one go: no deadlock *)
Definition has_asked (s : lsys) (l c : nat) : bool :=
  match call s c with Some k => existsb (Nat.eqb l) (asked k) | None => false end.
Definition ordered (s : lsys) (order : list nat) : Prop :=
  NoDup order
  /\ (forall l, waiters s l = filter (has_asked s l) order)
  /\ (forall c, In c order -> exists k, call s c = Some k /\ want k = [])
  /\ (forall c k, call s c = Some k -> want k <> [] -> asked k = []).

Lemma filter_ext_on : forall (f g : nat -> bool) l, (forall x, In x l -> f x = g x) -> filter f l = filter g l.
Proof.
  intros f g l. induction l as [|x l IH]; intro H; [reflexivity|]. cbn.
  rewrite (H x (or_introl eq_refl)), IH; [reflexivity|]. intros y I. apply H. right. exact I.
Qed.
Lemma filter_filter : forall (f g : nat -> bool) l, filter f (filter g l) = filter (fun x => g x && f x) l.
Proof.
  intros f g l. induction l as [|x l IH]; [reflexivity|]. cbn. destruct (g x); cbn; rewrite IH; reflexivity.
Qed.
Lemma existsb_in : forall l m, existsb (Nat.eqb l) m = true <-> In l m.
Proof.
  intros l m. rewrite existsb_exists. split.
  - intros (x & I & E). apply Nat.eqb_eq in E. subst. exact I.
  - intro I. exists l. rewrite Nat.eqb_refl. auto.
Qed.

Lemma ordered_inv : forall es s t, lrun linit es = Some (s, t) -> (forall c, ~ In (LRequest c) es) ->
  exists order, ordered s order.
Proof.
  apply (lrun_ind (fun es s t => (forall c, ~ In (LRequest c) es) -> exists order, ordered s order)).
  - intros _. exists []. repeat split; cbn; try constructor; try contradiction; intros; discriminate.
  - intros es s t e s' o RUN IH H NR.
    destruct IH as (ord & O1 & O2 & O3 & O4).
    { intros c I. apply (NR c), in_or_app. left. exact I. }
    assert (NRe : forall c, e <> LRequest c).
    { intros c E. apply (NR c), in_or_app. right. left. exact E. }
    pose proof (linv_run _ _ _ RUN) as LI.
    destruct e as [x p|x|x|x|x z]; cbn [lstep] in H.
    + destruct (call s x) eqn:C; inversion H; subst s' o. clear H.
      assert (NX : ~ In x ord) by (intro I; destruct (O3 x I) as (k & K & _); congruence).
      exists ord. split; [exact O1|]. split; [|split].
      * intro l. cbn [waiters]. rewrite O2. apply filter_ext_on. intros c I. unfold has_asked. cbn [call].
        rewrite put_other by congruence. reflexivity.
      * intros c I. cbn [call]. rewrite put_other by congruence. auto.
      * intros c k. cbn [call]. unfold put. destruct (Nat.eqb_spec c x); [|apply O4].
        intro E. inversion E; subst. reflexivity.
    + exfalso. apply (NRe x). reflexivity.
    + destruct (call s x) as [k|] eqn:C; [|discriminate]. destruct (want k) as [|z zs] eqn:W; [discriminate|].
      destruct (eager (what k) || _); inversion H; subst s' o. clear H.
      assert (A : asked k = []) by (apply (O4 x k C); rewrite W; discriminate).
      assert (NX : ~ In x ord) by (intro I; destruct (O3 x I) as (k' & K & K2); congruence).
      destruct (wrote_nil_first _ _ _ _ LI C) as [TW AW]; [rewrite W; discriminate|].
      assert (ND : NoDup (z :: zs)).
      { pose proof (locks_nodup (what k)) as LN. rewrite <- AW, A, W in LN. exact LN. }
      exists (ord ++ [x]). split; [apply nodup_app_one; assumption|]. split; [|split].
      * intro l. change (waiters _ l) with (enqueue (waiters s) (z :: zs) x l).
        rewrite enqueue_val by exact ND. rewrite filter_app. cbn [filter].
        assert (F : filter (has_asked {| call := put (call s) x
                     (Some {| what := what k; want := []; asked := asked k ++ z :: zs; towrite := towrite k |});
                     waiters := enqueue (waiters s) (z :: zs) x; map_of := map_of s |} l) ord = waiters s l).
        { rewrite O2. apply filter_ext_on. intros c I. unfold has_asked. cbn [call].
          rewrite put_other by congruence. reflexivity. }
        change (enqueue (put (waiters s) z (waiters s z ++ [x])) zs x) with (enqueue (waiters s) (z :: zs) x).
        rewrite F. unfold has_asked at 1. cbn [call]. rewrite put_same. cbn [asked]. rewrite A. cbn [app].
        destruct (in_dec Nat.eq_dec l (z :: zs)) as [J|J].
        -- apply existsb_in in J. rewrite J. reflexivity.
        -- destruct (existsb (Nat.eqb l) (z :: zs)) eqn:E; [apply existsb_in in E; contradiction|].
           rewrite app_nil_r. reflexivity.
      * intros c I. cbn [call]. unfold put. destruct (Nat.eqb_spec c x); [eauto|].
        apply in_app_or in I. destruct I as [I|[I|[]]]; [auto|congruence].
      * intros c k'. cbn [call]. unfold put. destruct (Nat.eqb_spec c x); [|apply O4].
        intro E. inversion E; subst. cbn. congruence.
    + destruct (call s x) as [k|] eqn:C; [|discriminate]. destruct (want k) as [|] eqn:W; [|discriminate].
      destruct (towrite k) as [|z zs] eqn:T; [discriminate|]. destruct (all_owned s x k); inversion H; subst s' o. clear H.
      exists ord. split; [exact O1|]. split; [|split].
      * intro l. cbn [waiters]. rewrite O2. apply filter_ext_on. intros c I. unfold has_asked. cbn [call].
        unfold put. destruct (Nat.eqb_spec c x) as [->|]; [rewrite C|]; reflexivity.
      * intros c I. cbn [call]. unfold put. destruct (Nat.eqb_spec c x) as [->|]; [eauto|auto].
      * intros c k'. cbn [call]. unfold put. destruct (Nat.eqb_spec c x); [|apply O4].
        intro E. inversion E; subst. cbn. congruence.
    + destruct (call s x) as [k|] eqn:C; [|discriminate]. destruct (want k) eqn:W; [|discriminate].
      destruct (towrite k) eqn:TW; [|discriminate]. destruct (existsb (Nat.eqb z) (asked k)) eqn:E; inversion H; subst s' o.
      clear H. exists ord. split; [exact O1|]. split; [|split].
      * intro l. cbn [waiters]. unfold put. destruct (Nat.eqb_spec l z) as [->|NE].
        -- rewrite O2, filter_filter. apply filter_ext_on. intros c I. unfold has_asked. cbn [call].
           unfold put. destruct (Nat.eqb_spec c x) as [->|]; [|rewrite andb_true_r; reflexivity].
           rewrite andb_false_r. symmetry. cbn [asked].
           destruct (existsb (Nat.eqb z) (filter (fun x0 => negb (x0 =? z)) (asked k))) eqn:F; [|reflexivity].
           apply existsb_in, filter_In in F. destruct F as [_ F]. rewrite Nat.eqb_refl in F. discriminate.
        -- rewrite O2. apply filter_ext_on. intros c I. unfold has_asked. cbn [call]. unfold put.
           destruct (Nat.eqb_spec c x) as [->|]; [|reflexivity]. rewrite C. cbn [asked].
           apply eq_true_iff_eq. rewrite !existsb_in, filter_In, negb_true_iff, Nat.eqb_neq. tauto.
      * intros c I. cbn [call]. unfold put. destruct (Nat.eqb_spec c x) as [->|]; [eauto|auto].
      * intros c k'. cbn [call]. unfold put. destruct (Nat.eqb_spec c x); [|apply O4].
        intro E'. inversion E'; subst. cbn. congruence.
Qed.

Lemma first_busy : forall (s : lsys) ord, (exists c, In c ord /\ exists l, has_asked s l c = true) ->
  exists u c v, ord = u ++ c :: v /\ (exists l, has_asked s l c = true)
    /\ forall d, In d u -> forall l, has_asked s l d = false.
Proof.
  intros s ord. induction ord as [|x ord IH]; intros (c & I & l & A); [contradiction|].
  assert (D : (exists m, has_asked s m x = true) \/ (forall m, has_asked s m x = false)).
  { unfold has_asked. destruct (call s x) as [k|]; [|right; reflexivity].
    destruct (asked k) as [|y ys]; [right; reflexivity|left]. exists y. cbn. rewrite Nat.eqb_refl. reflexivity. }
  destruct D as [D|D].
  - exists [], x, ord. split; [reflexivity|]. split; [exact D|intros d []].
  - destruct I as [I|I]; [subst; rewrite D in A; discriminate|].
    destruct (IH (ex_intro _ c (conj I (ex_intro _ l A)))) as (u & c' & v & E & B & F).
    exists (x :: u), c', v. subst. split; [reflexivity|]. split; [exact B|].
    intros d [->|J]; [exact D|apply F; exact J].
Qed.

Lemma filter_none : forall (f : nat -> bool) u, (forall d, In d u -> f d = false) -> filter f u = [].
Proof.
  intros f u. induction u as [|x u IH]; intro H; [reflexivity|]. cbn. rewrite H by (left; reflexivity).
  apply IH. intros d I. apply H. right. exact I.
Qed.

Lemma atomic_no_deadlock : forall es s t, lrun linit es = Some (s, t) -> at_rest s ->
  (forall c, ~ In (LRequest c) es) -> all_returned t.
Proof.
  intros es s t H R NR. pose proof (linv_run _ _ _ H) as LI. pose proof LI as [N I].
  destruct (ordered_inv _ _ _ H NR) as (ord & O1 & O2 & O3 & O4).
  assert (W : forall c k, call s c = Some k -> want k = []).
  { intros c k C. destruct (want k) as [|w ws] eqn:W; [reflexivity|]. exfalso.
    assert (A : asked k = []) by (apply (O4 c k C); rewrite W; discriminate).
    destruct (R c) as (RQ & _). cbn [lstep] in RQ. unfold all_owned in RQ. rewrite C, W, A in RQ. cbn in RQ.
    rewrite orb_true_r in RQ. discriminate. }
  intros c o IC. destruct (in_call_some _ _ _ _ LI IC) as (k & C & _). apply in_returned.
  pose proof (I c) as Ic. rewrite C in Ic. destruct Ic as (_ & WI & _ & _ & RET). apply RET.
  split; [eapply W; eauto|]. destruct (asked k) as [|l ls] eqn:A; [reflexivity|]. exfalso.
  assert (Q : has_asked s l c = true) by (unfold has_asked; rewrite C, A; cbn; rewrite Nat.eqb_refl; reflexivity).
  assert (CO : In c ord).
  { assert (K : In c (waiters s l)) by (apply WI; left; reflexivity). rewrite O2 in K. apply filter_In in K. tauto. }
  destruct (first_busy s ord) as (u & d & v & E & (m & B) & F); [eauto|].
  unfold has_asked in B. destruct (call s d) as [kd|] eqn:CD; [|discriminate].
  destruct (rest_waits s d kd R CD) as (l' & L' & O').
  { intros [_ X]. rewrite X in B. discriminate. }
  assert (HW : waiters s l' = d :: filter (has_asked s l') v).
  { rewrite O2, E, filter_app, (filter_none _ u) by (intros; apply F; assumption). cbn.
    assert (G : has_asked s l' d = true) by (unfold has_asked; rewrite CD; apply existsb_in; exact L').
    rewrite G. reflexivity. }
  unfold owns in O'. rewrite HW, Nat.eqb_refl in O'. discriminate.
Qed.

(** ** The operations behave as if done one at a time *)
Definition one_at_a_time (os : list lop) : nat -> list nat :=
  fold_left (fun m o => fun l => effect o l (m l)) os (fun _ => []).

Lemma in_key_add : forall b m x, In x (key_add b m) <-> x = b \/ In x m.
Proof.
  intros b m x. unfold key_add. destruct (existsb (Nat.eqb b) m) eqn:E; cbn; [|intuition].
  apply existsb_in in E. intuition. subst. exact E.
Qed.
Lemma in_key_del : forall b m x, In x (key_del b m) <-> x <> b /\ In x m.
Proof. intros. unfold key_del. rewrite filter_In, negb_true_iff, Nat.eqb_neq. tauto. Qed.
Lemma one_snoc : forall os o l, one_at_a_time (os ++ [o]) l = effect o l (one_at_a_time os l).
Proof. intros. unfold one_at_a_time. rewrite fold_left_app. reflexivity. Qed.
Lemma one_linked : forall os l x, In x (one_at_a_time os l) <-> linked (rev os) l x.
Proof.
  intros os. induction os as [|o os IH] using rev_ind; intros l x; [cbn; tauto|].
  rewrite one_snoc, rev_app_distr. cbn [rev app]. specialize (IH l x).
  destruct o as [a b|a b|a b|a b|a b|a b|a]; cbn [effect linked]; rewrite <- ?IH; clear IH;
    try (destruct (Nat.eqb_spec a b); [tauto|]);
    repeat match goal with |- context [l =? ?y] => destruct (Nat.eqb_spec l y) end;
    rewrite ?in_key_add, ?in_key_del; subst; cbn [In]; try tauto;
    match goal with |- context [x <> ?y] => destruct (Nat.eq_dec x y); subst; tauto | _ => idtac end;
    intuition congruence.
Qed.

Definition did (t : list lobs) (p : nat * lop) (l : nat) (m : list nat) : list nat :=
  if existsb (Nat.eqb l) (wrote (fst p) t) then effect (snd p) l m else m.
Definition partly (t : list lobs) (os : list (nat * lop)) (l : nat) (m : list nat) : list nat :=
  fold_left (fun m p => did t p l m) os m.

Definition lin (s : lsys) (t : list lobs) (os : list (nat * lop)) : Prop :=
  NoDup (map fst os)
  /\ (forall c o, In (c, o) os <-> In (OCall c o) t /\ wrote c t <> [])
  /\ (forall l, map_of s l = partly t os l [])
  /\ (forall u p v q l, os = u ++ p :: v -> In q v -> In l (locks_of (snd p)) ->
        ~ In l (wrote (fst p) t) -> ~ In l (locks_of (snd q)))
  /\ (forall c l m, In (OWrite c l m) t ->
        exists u o v, os = u ++ (c, o) :: v /\ m = one_at_a_time (map snd u) l)
  /\ (forall u v c o d o', t = u ++ v -> In (OReturn c) u -> In (OCall d o') v ->
        In (c, o) os -> In (d, o') os -> exists os1 os2, os = os1 ++ (c, o) :: os2 /\ In (d, o') os2).

Lemma called_one : forall s t c o, linv s t -> In (OCall c o) t ->
  exists k, call s c = Some k /\ what k = o /\ called c t = [o].
Proof.
  intros s t c o LI H. destruct (in_call_some _ _ _ _ LI H) as (k & C & W).
  exists k. split; [exact C|]. split; [exact W|]. destruct LI as [_ I]. specialize (I c). rewrite C in I. subst. tauto.
Qed.
Lemma wrote_locks : forall s t c k, linv s t -> call s c = Some k ->
  forall l, In l (wrote c t) -> In l (locks_of (what k)).
Proof.
  intros s t c k [_ I] C l W. specialize (I c). rewrite C in I. destruct I as (_ & _ & _ & E & _).
  rewrite <- E. apply in_or_app. left. exact W.
Qed.

Lemma partly_app : forall t a b l m, partly t (a ++ b) l m = partly t b l (partly t a l m).
Proof. intros. unfold partly. apply fold_left_app. Qed.
Lemma partly_same : forall t t' os l m, (forall p, In p os -> did t p l = did t' p l) ->
  partly t os l m = partly t' os l m.
Proof.
  intros t t' os l. induction os as [|p os IH]; intros m H; [reflexivity|]. unfold partly. cbn [fold_left].
  rewrite (H p (or_introl eq_refl)). apply IH. intros q I. apply H. right. exact I.
Qed.
Lemma partly_none : forall t os l m, (forall p, In p os -> ~ In l (wrote (fst p) t)) -> partly t os l m = m.
Proof.
  intros t os l. induction os as [|p os IH]; intros m H; [reflexivity|]. unfold partly. cbn [fold_left].
  unfold did at 2. destruct (existsb (Nat.eqb l) (wrote (fst p) t)) eqn:E.
  - apply existsb_in in E. exfalso. apply (H p (or_introl eq_refl)). exact E.
  - apply IH. intros q I. apply H. right. exact I.
Qed.
Lemma partly_all : forall t os l, (forall p, In p os -> In l (locks_of (snd p)) -> In l (wrote (fst p) t)) ->
  partly t os l [] = one_at_a_time (map snd os) l.
Proof.
  intros t os l. induction os as [|p os IH] using rev_ind; intro H; [reflexivity|].
  rewrite partly_app, map_app, IH by (intros q I; apply H, in_or_app; left; exact I).
  cbn [map]. rewrite one_snoc. unfold partly. cbn [fold_left]. unfold did.
  destruct (existsb (Nat.eqb l) (wrote (fst p) t)) eqn:E; [reflexivity|]. symmetry. apply effect_outside. intro I.
  assert (K : In l (wrote (fst p) t)) by (apply H; [apply in_or_app; right; left; reflexivity|exact I]).
  apply existsb_in in K. congruence.
Qed.

Lemma app_split : forall (A : Type) (t o u v : list A), t ++ o = u ++ v ->
  (exists v', t = u ++ v' /\ v = v' ++ o) \/ (exists o1, u = t ++ o1 /\ o = o1 ++ v).
Proof.
  intros A t o u. revert t. induction u as [|x u IH]; intros t v H.
  - left. exists t. auto.
  - destruct t as [|y t]; [right; exists (x :: u); auto|]. cbn in H. inversion H; subst.
    destruct (IH _ _ H2) as [(v' & -> & ->)|(o1 & -> & ->)].
    + left. exists v'. auto.
    + right. exists o1. auto.
Qed.

(** Steps that neither write nor make a call. *)
Lemma lin_quiet : forall s t s' o os, lin s t os -> (forall l, map_of s' l = map_of s l) ->
  (forall x, In x o -> exists c, x = OReturn c) -> lin s' (t ++ o) os.
Proof.
  intros s t s' o os (I1 & I2 & I3 & I4 & I5 & I6) M Q.
  assert (NC : forall c p, ~ In (OCall c p) o) by (intros c p I; destruct (Q _ I); discriminate).
  assert (NW : forall c l m, ~ In (OWrite c l m) o) by (intros c l m I; destruct (Q _ I); discriminate).
  assert (WS : forall c, wrote c (t ++ o) = wrote c t).
  { intro c. rewrite wrote_app. destruct (wrote c o) as [|z zs] eqn:E; [apply app_nil_r|].
    assert (K : In z (wrote c o)) by (rewrite E; left; reflexivity). apply in_wrote in K. destruct K as [m K].
    exfalso. eapply NW; eauto. }
  split; [exact I1|]. split; [|split; [|split; [|split]]].
  - intros c p. rewrite I2, WS, in_app_iff. specialize (NC c p). tauto.
  - intro l. rewrite M, I3. apply partly_same. intros p _. unfold did. rewrite WS. reflexivity.
  - intros u p v q l E J L W. rewrite WS in W. eapply I4; eauto.
  - intros c l m J. apply in_app_or in J. destruct J as [J|J]; [auto|exfalso; eapply NW; eauto].
  - intros u v c p d p' E R C J1 J2. destruct (app_split _ _ _ _ _ E) as [(v' & -> & ->)|(o1 & -> & ->)].
    + apply in_app_or in C. destruct C as [C|C]; [|exfalso; eapply NC; eauto]. eapply I6; eauto.
    + exfalso. eapply NC. apply in_or_app. right. exact C.
Qed.

Lemma lin_step : forall s t e s' o os, linv s t -> linv s' (t ++ o) -> lin s t os -> lstep s e = Some (s', o) ->
  exists os', lin s' (t ++ o) os'.
Proof.
  intros s t e s' o os LI LI' LN H. pose proof LI as [N I]. pose proof LN as (I1 & I2 & I3 & I4 & I5 & I6).
  destruct e as [x p|x|x|x|x z]; cbn [lstep] in H.
  - (* start *)
    destruct (call s x) eqn:C; inversion H; subst s' o. clear H. exists os.
    set (o := OCall x p :: match locks_of p with [] => [OReturn x] | _ => [] end) in *.
    assert (Ix := I x). rewrite C in Ix. destruct Ix as (X1 & X2 & X3 & X4).
    assert (NX : forall q, ~ In (x, q) os) by (intros q J; apply I2 in J; rewrite X3 in J; tauto).
    assert (NC : forall c q, In (OCall c q) o -> c = x).
    { intros c q J. unfold o in J. destruct J as [J|J]; [congruence|]. destruct (locks_of p); [|contradiction].
      destruct J as [J|[]]. discriminate. }
    assert (NW : forall c l m, ~ In (OWrite c l m) o).
    { intros c l m J. unfold o in J. destruct J as [J|J]; [discriminate|]. destruct (locks_of p); [|contradiction].
      destruct J as [J|[]]. discriminate. }
    assert (WS : forall c, wrote c (t ++ o) = wrote c t).
    { intro c. rewrite wrote_app. destruct (wrote c o) as [|z zs] eqn:E; [apply app_nil_r|].
      assert (K : In z (wrote c o)) by (rewrite E; left; reflexivity). apply in_wrote in K. destruct K as [m K].
      exfalso. eapply NW; eauto. }
    split; [exact I1|]. split; [|split; [|split; [|split]]].
    + intros c q. rewrite I2, WS, in_app_iff. split; [tauto|]. intros [[A|A] B]; [tauto|].
      apply NC in A. subst. congruence.
    + intro l. cbn [map_of]. rewrite I3. apply partly_same. intros q _. unfold did. rewrite WS. reflexivity.
    + intros u q v q' l E J L W. rewrite WS in W. eapply I4; eauto.
    + intros c l m J. apply in_app_or in J. destruct J as [J|J]; [auto|exfalso; eapply NW; eauto].
    + intros u v c q d q' E R CC J1 J2. destruct (app_split _ _ _ _ _ E) as [(v' & E1 & ->)|(o1 & -> & E1)].
      * apply in_app_or in CC. destruct CC as [CC|CC]; [eapply I6; eauto|]. apply NC in CC. subst d.
        exfalso. eapply NX; eauto.
      * assert (K : In (OCall d q') o) by (rewrite E1; apply in_or_app; right; exact CC). apply NC in K. subst d.
        exfalso. eapply NX; eauto.
  - destruct (call s x) as [k|]; [|discriminate]. destruct (want k); [discriminate|].
    destruct (eager (what k) || all_owned s x k); inversion H; subst. exists os.
    apply (lin_quiet s); [exact LN|reflexivity|intros y []].
  - destruct (call s x) as [k|]; [|discriminate]. destruct (want k); [discriminate|].
    destruct (eager (what k) || _); inversion H; subst. exists os.
    apply (lin_quiet s); [exact LN|reflexivity|intros y []].
  - (* write *)
    destruct (call s x) as [k|] eqn:C; [|discriminate]. destruct (want k) as [|] eqn:W; [|discriminate].
    destruct (towrite k) as [|z zs] eqn:T; [discriminate|]. destruct (all_owned s x k) eqn:AO; inversion H; subst s' o. clear H.
    pose proof (I x) as Ix. rewrite C in Ix. destruct Ix as (X1 & X2 & X3 & X4 & X5).
    assert (CX : In (OCall x (what k)) t) by (apply in_called; rewrite X1; left; reflexivity).
    assert (AL : asked k = locks_of (what k)).
    { destruct X3 as [[_ X]|(_ & _ & _ & _ & _ & X)]; [rewrite W, app_nil_r in X; exact X|]. apply X. rewrite T. discriminate. }
    rewrite all_owned_spec in AO. rewrite AL in AO. rewrite T in X4.
    assert (ZL : In z (locks_of (what k))) by (rewrite <- X4; apply in_or_app; right; left; reflexivity).
    assert (ZN : ~ In z (wrote x t)).
    { pose proof (locks_nodup (what k)) as ND. rewrite <- X4 in ND. apply NoDup_remove_2 in ND.
      intro J. apply ND, in_or_app. left. exact J. }
    assert (NRX : ~ In (OReturn x) t).
    { intro J. apply in_returned in J. apply X5 in J. destruct J as [_ J]. rewrite AL in J. rewrite J in ZL. contradiction. }
    set (ob := OWrite x z (map_of s z)) in *.
    assert (WS : forall c, c <> x -> wrote c (t ++ [ob]) = wrote c t).
    { intros c NE. rewrite wrote_app. cbn. destruct (Nat.eqb_spec x c); [congruence|]. apply app_nil_r. }
    assert (WX : wrote x (t ++ [ob]) = wrote x t ++ [z]).
    { rewrite wrote_app. cbn. rewrite Nat.eqb_refl. reflexivity. }
    assert (DS : forall q l, fst q <> x -> did (t ++ [ob]) q l = did t q l).
    { intros q l NE. unfold did. rewrite WS by exact NE. reflexivity. }
    assert (DL : forall q l, l <> z -> did (t ++ [ob]) q l = did t q l).
    { intros q l NE. destruct (Nat.eq_dec (fst q) x) as [E|NE2]; [|apply DS; exact NE2].
      unfold did. rewrite E, WX. rewrite existsb_app. cbn. destruct (Nat.eqb_spec l z); [congruence|].
      rewrite orb_false_r. reflexivity. }
    (* a call in the order that still has to write a map owns its lock *)
    assert (OWN : forall q l, In q os -> In l (locks_of (snd q)) -> ~ In l (wrote (fst q) t) ->
              fst q <> x -> ~ In l (locks_of (what k))).
    { intros [c q] l J L NW NE LX. cbn in *. apply I2 in J. destruct J as [J1 J2].
      destruct (called_one _ _ _ _ LI J1) as (kc & CC & WK & _).
      pose proof (I c) as Ic. rewrite CC in Ic. destruct Ic as (_ & _ & K3 & K4 & _).
      assert (LT : In l (towrite kc)).
      { rewrite WK in K4. rewrite <- K4 in L. apply in_app_or in L. tauto. }
      assert (OC : owns s c l = true).
      { destruct K3 as [[TW _]|(_ & _ & OW & _ & _ & AS)].
        - exfalso. rewrite TW in K4. rewrite <- (app_nil_l (locks_of (what kc))) in K4 at 2.
          apply app_inv_tail in K4. contradiction.
        - apply OW. rewrite AS, WK; [|intro E; rewrite E in LT; contradiction]. exact L. }
      pose proof (AO l LX) as OX. apply owns_true in OC. apply owns_true in OX.
      destruct OC as [w1 OC]. destruct OX as [w2 OX]. congruence. }
    destruct (wrote x t) as [|y ys] eqn:WR.
    + (* its first write: it comes last *)
      assert (NX : forall q, ~ In (x, q) os) by (intros q J; apply I2 in J; rewrite WR in J; tauto).
      assert (NXF : forall q, In q os -> fst q <> x).
      { intros [c q] J E. cbn in E. subst. eapply NX; eauto. }
      assert (ALLZ : forall q, In q os -> In z (locks_of (snd q)) -> In z (wrote (fst q) t)).
      { intros q J L. destruct (in_dec Nat.eq_dec z (wrote (fst q) t)) as [K|K]; [exact K|].
        exfalso. eapply (OWN q z J L K); eauto. }
      exists (os ++ [(x, what k)]). split; [|split; [|split; [|split; [|split]]]].
      * rewrite map_app. apply nodup_app_one; [exact I1|]. rewrite in_map_iff. intros (q & E & J). eapply NXF; eauto.
      * intros c q. rewrite !in_app_iff, I2. destruct (Nat.eq_dec c x) as [->|NE].
        -- rewrite WX. split.
           ++ intros [[_ J]|[J|[]]]; [congruence|]. inversion J; subst. split; [auto|discriminate].
           ++ intros [[J|[J|[]]] _]; [|discriminate]. right. left. apply in_called in J. rewrite X1 in J.
              destruct J as [J|[]]. congruence.
        -- rewrite WS by exact NE. split.
           ++ intros [J|[J|[]]]; [tauto|congruence].
           ++ intros [[J|[J|[]]] K]; [tauto|discriminate].
      * intro l. rewrite partly_app. cbn [map_of]. unfold put. destruct (Nat.eqb_spec l z) as [->|NE].
        -- rewrite (partly_same _ t os) by (intros q J; apply DS, NXF; exact J). rewrite <- I3.
           unfold partly. cbn [fold_left]. unfold did. cbn [fst snd]. rewrite WX. cbn. rewrite Nat.eqb_refl. reflexivity.
        -- rewrite (partly_same _ t os) by (intros q J; apply DS, NXF; exact J). rewrite <- I3.
           unfold partly. cbn [fold_left]. unfold did. cbn [fst snd]. rewrite WX. cbn.
           destruct (Nat.eqb_spec l z); [congruence|]. reflexivity.
      * intros u q v q' l E J L NW. destruct (app_split _ _ _ _ _ E) as [(v' & E1 & E2)|(o1 & E1 & E2)].
        -- assert (QO : In q os).
           { destruct v' as [|q0 v']; cbn in E2; [|inversion E2; subst; apply in_or_app; right; left; reflexivity].
             inversion E2; subst. contradiction. }
           assert (NQ := NXF q QO). rewrite WS in NW by exact NQ.
           destruct v' as [|q0 v']; cbn in E2; inversion E2; subst.
           ++ contradiction.
           ++ apply in_app_or in J. destruct J as [J|[J|[]]].
              ** eapply I4; eauto.
              ** subst q'. eapply OWN; eauto.
        -- destruct o1 as [|q0 o1]; cbn in E2; inversion E2; subst; [contradiction|]. destruct o1; discriminate.
      * intros c l m J. apply in_app_or in J. destruct J as [J|[J|[]]].
        -- destruct (I5 _ _ _ J) as (u & q & v & -> & E). exists u, q, (v ++ [(x, what k)]).
           rewrite <- app_assoc. auto.
        -- unfold ob in J. inversion J; subst. exists os, (what k), []. split; [reflexivity|].
           rewrite I3. apply partly_all. exact ALLZ.
      * intros u v c q d q' E R CC J1 J2.
        assert (CX' : forall r, In (OReturn r) (t ++ [ob]) -> In (OReturn r) t).
        { intros r J. apply in_app_or in J. destruct J as [J|[J|[]]]; [exact J|discriminate]. }
        assert (CT : In (OReturn c) t) by (apply CX'; rewrite E; apply in_or_app; left; exact R).
        assert (NE : c <> x) by (intro; subst; contradiction).
        apply in_app_or in J1. destruct J1 as [J1|[J1|[]]]; [|congruence].
        apply in_app_or in J2. destruct J2 as [J2|[J2|[]]].
        -- destruct (app_split _ _ _ _ _ E) as [(v' & E1 & ->)|(o1 & -> & E1)].
           ++ apply in_app_or in CC. destruct CC as [CC|[CC|[]]]; [|discriminate].
              destruct (I6 _ _ _ _ _ _ E1 R CC J1 J2) as (os1 & os2 & -> & K).
              exists os1, (os2 ++ [(x, what k)]). rewrite <- app_assoc. split; [reflexivity|].
              apply in_or_app. left. exact K.
           ++ exfalso. assert (K : In (OCall d q') [ob]) by (rewrite E1; apply in_or_app; right; exact CC).
              destruct K as [K|[]]. discriminate.
        -- apply in_split in J1. destruct J1 as (os1 & os2 & ->). exists os1, (os2 ++ [(x, what k)]).
           rewrite <- app_assoc. split; [reflexivity|]. apply in_or_app. right. left. congruence.
    + (* a further write *)
      rewrite <- WR in *.
      assert (JX : In (x, what k) os).
      { apply I2. split; [exact CX|]. rewrite WR. discriminate. }
      destruct (in_split _ _ JX) as (u0 & v0 & OE).
      assert (NU : forall q, In q u0 -> fst q <> x).
      { intros q J E. rewrite OE, map_app in I1. cbn in I1. apply NoDup_remove_2 in I1.
        apply I1, in_or_app. left. rewrite <- E. apply in_map. exact J. }
      assert (NV : forall q, In q v0 -> fst q <> x).
      { intros q J E. rewrite OE, map_app in I1. cbn in I1. apply NoDup_remove_2 in I1.
        apply I1, in_or_app. right. rewrite <- E. apply in_map. exact J. }
      assert (ALLZ : forall q, In q u0 -> In z (locks_of (snd q)) -> In z (wrote (fst q) t)).
      { intros q J L. destruct (in_dec Nat.eq_dec z (wrote (fst q) t)) as [K|K]; [exact K|]. exfalso.
        assert (QO : In q os) by (rewrite OE; apply in_or_app; left; exact J).
        eapply (OWN q z QO L K); eauto. }
      assert (NONE : forall q, In q v0 -> ~ In z (wrote (fst q) t)).
      { intros [c q] J K. cbn in K.
        assert (QO : In (c, q) os) by (rewrite OE; apply in_or_app; right; right; exact J).
        apply I2 in QO. destruct QO as [QO _]. destruct (called_one _ _ _ _ LI QO) as (kc & CC & WK & _).
        apply (I4 u0 (x, what k) v0 (c, q) z OE J ZL ZN). cbn. rewrite <- WK. exact (wrote_locks s t c kc LI CC z K). }
      assert (BASE : map_of s z = partly t u0 z []).
      { rewrite I3, OE, partly_app. change ((x, what k) :: v0) with ([(x, what k)] ++ v0). rewrite partly_app.
        rewrite (partly_none t v0) by exact NONE. apply partly_none. intros q [J|[]]. subst. cbn. exact ZN. }
      exists os. split; [exact I1|]. split; [|split; [|split; [|split]]].
      * intros c q. rewrite in_app_iff, I2. destruct (Nat.eq_dec c x) as [->|NE].
        -- rewrite WX. split; intros [A B].
           ++ split; [auto|]. destruct (wrote x t); discriminate.
           ++ destruct A as [A|[A|[]]]; [|discriminate]. split; [exact A|]. rewrite WR. discriminate.
        -- rewrite WS by exact NE. split; [tauto|]. intros [[A|[A|[]]] B]; [tauto|discriminate].
      * intro l. cbn [map_of]. unfold put. destruct (Nat.eqb_spec l z) as [->|NE].
        -- rewrite OE, partly_app. change ((x, what k) :: v0) with ([(x, what k)] ++ v0). rewrite partly_app.
           rewrite (partly_none _ v0) by (intros q J; rewrite WS by (apply NV; exact J); apply NONE; exact J).
           rewrite (partly_same _ t u0) by (intros q J; apply DS, NU; exact J). rewrite <- BASE.
           unfold partly. cbn [fold_left]. unfold did. cbn [fst snd]. rewrite WX, existsb_app. cbn.
           rewrite Nat.eqb_refl. rewrite orb_true_r. reflexivity.
        -- rewrite I3. apply partly_same. intros q J. symmetry. apply DL. exact NE.
      * intros u q v q' l E J L NW.
        assert (NW' : ~ In l (wrote (fst q) t)).
        { intro K. apply NW. rewrite wrote_app. apply in_or_app. left. exact K. }
        eapply I4; eauto.
      * intros c l m J. apply in_app_or in J. destruct J as [J|[J|[]]]; [auto|]. unfold ob in J. inversion J; subst.
        exists u0, (what k), v0. split; [reflexivity|]. rewrite BASE. apply partly_all. exact ALLZ.
      * intros u v c q d q' E R CC J1 J2. destruct (app_split _ _ _ _ _ E) as [(v' & E1 & ->)|(o1 & -> & E1)].
        -- apply in_app_or in CC. destruct CC as [CC|[CC|[]]]; [eapply I6; eauto|discriminate].
        -- exfalso. assert (K : In (OCall d q') [ob]) by (rewrite E1; apply in_or_app; right; exact CC).
           destruct K as [K|[]]. discriminate.
  - destruct (call s x) as [k|] eqn:C; [|discriminate]. destruct (want k) eqn:W; [|discriminate].
    destruct (towrite k) eqn:TW; [|discriminate]. destruct (existsb (Nat.eqb z) (asked k)) eqn:E; inversion H; subst s' o.
    exists os. apply (lin_quiet s); [exact LN|reflexivity|].
    intros y J. destruct (filter _ (asked k)); [|contradiction]. destruct J as [J|[]]. eauto.
Qed.

Lemma lin_run : forall es s t, lrun linit es = Some (s, t) -> exists os, lin s t os.
Proof.
  apply (lrun_ind (fun es s t => exists os, lin s t os)).
  - exists []. split; [constructor|]. split; [cbn; tauto|]. split; [reflexivity|]. split.
    + intros u p v q l E. destruct u; discriminate.
    + split; [intros c l m []|]. intros u v c o d o' E R. destruct u; [contradiction|discriminate].
  - intros es s t e s' o RUN [os LN] H. pose proof (linv_run _ _ _ RUN) as LI.
    eapply lin_step; eauto. eapply linv_step; eauto.
Qed.

Lemma linearizable : forall es s t, lrun linit es = Some (s, t) ->
  exists os, explains os t
    /\ (writers_returned t -> forall l x, In x (map_of s l) <-> linked (rev (map snd os)) l x).
Proof.
  intros es s t H. pose proof (linv_run _ _ _ H) as LI. destruct (lin_run _ _ _ H) as (os & I1 & I2 & I3 & I4 & I5 & I6).
  assert (WW : forall c, wrote c t <> [] <-> writes t c).
  { intro c. unfold writes. split.
    - destruct (wrote c t) as [|l ls] eqn:E; [congruence|]. intros _. exists l. apply in_wrote. rewrite E. left. reflexivity.
    - intros [l K]. apply in_wrote in K. intro E. rewrite E in K. contradiction. }
  exists os. split.
  - split; [exact I1|]. split; [|split; [exact I6|]].
    + intros c o. rewrite I2, WW. reflexivity.
    + intros c l m J. destruct (I5 _ _ _ J) as (u & o & v & E & M). exists u, o, v. split; [exact E|].
      intro x. rewrite M. apply one_linked.
  - intros WR l x. rewrite I3, partly_all, one_linked; [reflexivity|].
    intros [c o] J L. cbn in *. apply I2 in J. destruct J as [J1 J2].
    destruct (called_one _ _ _ _ LI J1) as (k & C & W & _). destruct LI as [_ I]. specialize (I c). rewrite C in I.
    destruct I as (_ & _ & K3 & K4 & K5). rewrite W in K4.
    assert (R : want k = [] /\ asked k = []).
    { apply K5, in_returned, WR, WW. exact J2. }
    destruct R as [R1 R2].
    assert (T : towrite k = []).
    { destruct K3 as [[TW A]|(_ & (y & ys & D) & _ & _ & _ & AS)].
      - rewrite TW, <- A, R1, R2. reflexivity.
      - destruct (towrite k) as [|z zs] eqn:T; [reflexivity|]. rewrite R2 in AS.
        rewrite <- AS in D by discriminate. destruct ys; discriminate. }
    rewrite T, app_nil_r in K4. rewrite K4. exact L.
Qed.

(** ** Two calls that wait for each other *)
Definition stuck (s : lsys) (c d a b : nat) : Prop :=
  c <> d /\ owns s c a = true /\ owns s d b = true
  /\ (exists k, call s c = Some k /\ want k = [] /\ towrite k <> [] /\ In b (asked k))
  /\ (exists k, call s d = Some k /\ want k = [] /\ towrite k <> [] /\ In a (asked k)).

Lemma stuck_sym : forall s c d a b, stuck s c d a b -> stuck s d c b a.
Proof. intros s c d a b (A & B & C & D & E). repeat split; auto. Qed.

Lemma one_owner : forall s c d l, owns s c l = true -> owns s d l = true -> c = d.
Proof.
  intros s c d l A B. apply owns_true in A. apply owns_true in B. destruct A as [u A]. destruct B as [v B]. congruence.
Qed.

Lemma stuck_idle : forall s c d a b e, stuck s c d a b -> step_of c e = true -> lstep s e = None.
Proof.
  intros s c d a b e (NE & O1 & O2 & (k & C & W & T & A) & _) H.
  assert (AO : all_owned s c k = false).
  { destruct (all_owned s c k) eqn:E; [|reflexivity]. rewrite all_owned_spec in E. exfalso. apply NE.
    eapply one_owner; [apply E; exact A|exact O2]. }
  destruct e as [x p|x|x|x|x z]; cbn in H; try discriminate; apply Nat.eqb_eq in H; subst x; cbn [lstep];
    rewrite C, W; try reflexivity; destruct (towrite k); try reflexivity; try congruence.
  rewrite AO. reflexivity.
Qed.

Lemma other_call : forall s e s' o c, lstep s e = Some (s', o) -> call s c <> None -> step_of c e = false ->
  call s' c = call s c /\ ~ In (OReturn c) o.
Proof.
  intros s e s' o c H N S. destruct e as [x p|x|x|x|x z]; cbn [lstep step_of] in *.
  - destruct (call s x) eqn:C; inversion H; subst. cbn. assert (c <> x) by congruence. rewrite put_other by auto.
    split; [reflexivity|]. intros [J|J]; [discriminate|]. destruct (locks_of p); cbn in J; [destruct J as [J|[]]; congruence|contradiction].
  - apply Nat.eqb_neq in S. destruct (call s x) as [k|]; [|discriminate]. destruct (want k); [discriminate|].
    destruct (eager (what k) || all_owned s x k); inversion H; subst. cbn. rewrite put_other by auto. auto.
  - apply Nat.eqb_neq in S. destruct (call s x) as [k|]; [|discriminate]. destruct (want k); [discriminate|].
    destruct (eager (what k) || _); inversion H; subst. cbn. rewrite put_other by auto. auto.
  - apply Nat.eqb_neq in S. destruct (call s x) as [k|]; [|discriminate]. destruct (want k); [|discriminate].
    destruct (towrite k); [discriminate|]. destruct (all_owned s x k); inversion H; subst. cbn.
    rewrite put_other by auto. split; [reflexivity|]. intros [J|[]]. discriminate.
  - apply Nat.eqb_neq in S. destruct (call s x) as [k|]; [|discriminate]. destruct (want k); [|discriminate].
    destruct (towrite k); [|discriminate]. destruct (existsb (Nat.eqb z) (asked k)); inversion H; subst. cbn.
    rewrite put_other by auto. split; [reflexivity|]. intro J. destruct (filter _ (asked k)); cbn in J; [destruct J as [J|[]]; congruence|contradiction].
Qed.

Lemma stuck_step : forall s t c d a b e s' o, linv s t -> stuck s c d a b -> lstep s e = Some (s', o) ->
  stuck s' c d a b /\ ~ In (OReturn c) o /\ ~ In (OReturn d) o.
Proof.
  intros s t c d a b e s' o LI ST H. pose proof ST as (NE & O1 & O2 & (k & C & W) & (k' & C' & W')).
  assert (SC : step_of c e = false).
  { destruct (step_of c e) eqn:E; [|reflexivity]. rewrite (stuck_idle _ _ _ _ _ _ ST E) in H. discriminate. }
  assert (SD : step_of d e = false).
  { destruct (step_of d e) eqn:E; [|reflexivity]. rewrite (stuck_idle _ _ _ _ _ _ (stuck_sym _ _ _ _ _ ST) E) in H. discriminate. }
  destruct (other_call _ _ _ _ c H) as [E1 R1]; [congruence|exact SC|].
  destruct (other_call _ _ _ _ d H) as [E2 R2]; [congruence|exact SD|].
  split; [|auto]. split; [exact NE|]. split; [|split; [|split]].
  - eapply owner_stays; eauto. left. intros l' ->. cbn in SC. rewrite Nat.eqb_refl in SC. discriminate.
  - eapply owner_stays; eauto. left. intros l' ->. cbn in SD. rewrite Nat.eqb_refl in SD. discriminate.
  - rewrite E1. eauto.
  - rewrite E2. eauto.
Qed.

Lemma linv_from : forall es s t s' o, linv s t -> lrun s es = Some (s', o) -> linv s' (t ++ o).
Proof.
  induction es as [|e es IH]; intros s t s' o LI H; cbn in H.
  - inversion H; subst. rewrite app_nil_r. exact LI.
  - destruct (lstep s e) as [[s1 o1]|] eqn:E; [|discriminate]. destruct (lrun s1 es) as [[s2 o2]|] eqn:R; [|discriminate].
    inversion H; subst. rewrite app_assoc. eapply IH; [|exact R]. eapply linv_step; eauto.
Qed.

Lemma stuck_run : forall es s t c d a b s' o, linv s t -> stuck s c d a b -> lrun s es = Some (s', o) ->
  stuck s' c d a b /\ ~ In (OReturn c) o /\ ~ In (OReturn d) o.
Proof.
  induction es as [|e es IH]; intros s t c d a b s' o LI ST H; cbn in H.
  - inversion H; subst. auto.
  - destruct (lstep s e) as [[s1 o1]|] eqn:E; [|discriminate]. destruct (lrun s1 es) as [[s2 o2]|] eqn:R; [|discriminate].
    inversion H; subst. destruct (stuck_step _ _ _ _ _ _ _ _ _ LI ST E) as (S1 & R1 & R2).
    destruct (IH _ (t ++ o1) _ _ _ _ _ _ (linv_step _ _ _ _ _ LI E) S1 R) as (S2 & R3 & R4).
    rewrite !in_app_iff. tauto.
Qed.

(** A call that has yet to get lock [a] never gets it. *)
Definition before_writes (s : lsys) (x a : nat) : Prop :=
  match call s x with None => True | Some k => towrite k = locks_of (what k) /\ In a (locks_of (what k)) end.

Lemma behind_step : forall s t c d a b x e s' o, linv s t -> stuck s c d a b -> x <> c ->
  (forall p, e = LStart x p -> In a (locks_of p)) -> before_writes s x a ->
  lstep s e = Some (s', o) -> before_writes s' x a /\ ~ In (OReturn x) o.
Proof.
  intros s t c d a b x e s' o LI ST NX ST1 B H. pose proof LI as [N I].
  destruct (call s x) as [k|] eqn:C.
  - destruct (step_of x e) eqn:S.
    + unfold before_writes in B. rewrite C in B. destruct B as [B1 B2].
      destruct e as [y p|y|y|y|y z]; cbn in S; try discriminate; apply Nat.eqb_eq in S; subst y; cbn [lstep] in H; rewrite C in H.
      * destruct (want k); [discriminate|]. destruct (eager (what k) || all_owned s x k); inversion H; subst.
        unfold before_writes. cbn. rewrite put_same. cbn. auto.
      * destruct (want k); [discriminate|]. destruct (eager (what k) || _); inversion H; subst.
        unfold before_writes. cbn. rewrite put_same. cbn. auto.
      * exfalso. destruct (want k) eqn:W; [|discriminate]. destruct (towrite k) eqn:T; [discriminate|].
        destruct (all_owned s x k) eqn:AO; [|discriminate]. rewrite all_owned_spec in AO.
        specialize (I x). rewrite C in I. destruct I as (_ & _ & K & _ & _).
        assert (AL : asked k = locks_of (what k)).
        { destruct K as [[_ K]|(_ & _ & _ & _ & _ & K)]; [rewrite W, app_nil_r in K; exact K|]. apply K. rewrite T. discriminate. }
        rewrite AL in AO. destruct ST as (_ & O & _). apply NX. eapply one_owner; [apply AO; exact B2|exact O].
      * exfalso. destruct (want k) eqn:W; [|discriminate]. destruct (towrite k) eqn:T; [|discriminate].
        rewrite <- B1 in B2. contradiction.
    + destruct (other_call _ _ _ _ x H) as [E R]; [congruence|exact S|]. split; [|exact R].
      unfold before_writes in *. rewrite E. exact B.
  - destruct e as [y p|y|y|y|y z]; cbn [lstep] in H.
    + destruct (call s y) eqn:CY; inversion H; subst. destruct (Nat.eq_dec x y) as [->|NE].
      * specialize (ST1 p eq_refl). unfold before_writes. cbn [call]. rewrite put_same. cbn. split; [auto|].
        intros [J|J]; [discriminate|]. destruct (locks_of p); contradiction.
      * unfold before_writes. cbn [call]. rewrite put_other, C by exact NE. split; [auto|].
        intros [J|J]; [discriminate|]. destruct (locks_of p); cbn in J; [destruct J as [J|[]]; congruence|contradiction].
    + destruct (call s y) as [k|] eqn:CY; [|discriminate]. destruct (want k); [discriminate|].
      destruct (eager (what k) || _); inversion H; subst. unfold before_writes. cbn.
      rewrite put_other, C by congruence. auto.
    + destruct (call s y) as [k|] eqn:CY; [|discriminate]. destruct (want k); [discriminate|].
      destruct (eager (what k) || _); inversion H; subst. unfold before_writes. cbn.
      rewrite put_other, C by congruence. auto.
    + destruct (call s y) as [k|] eqn:CY; [|discriminate]. destruct (want k); [|discriminate].
      destruct (towrite k); [discriminate|]. destruct (all_owned s y k); inversion H; subst. unfold before_writes. cbn.
      rewrite put_other, C by congruence. split; [auto|]. intros [J|[]]. discriminate.
    + destruct (call s y) as [k|] eqn:CY; [|discriminate]. destruct (want k); [|discriminate].
      destruct (towrite k); [|discriminate]. destruct (existsb (Nat.eqb z) (asked k)); inversion H; subst.
      unfold before_writes. cbn. rewrite put_other, C by congruence. split; [auto|].
      intro J. destruct (filter _ (asked k)); cbn in J; [destruct J as [J|[]]; congruence|contradiction].
Qed.

Lemma behind_run : forall es s t c d a b x s' o, linv s t -> stuck s c d a b -> x <> c ->
  (forall p, In (LStart x p) es -> In a (locks_of p)) -> before_writes s x a ->
  lrun s es = Some (s', o) -> ~ In (OReturn x) o.
Proof.
  induction es as [|e es IH]; intros s t c d a b x s' o LI ST NX ST1 B H; cbn in H.
  - inversion H; subst. cbn. tauto.
  - destruct (lstep s e) as [[s1 o1]|] eqn:E; [|discriminate]. destruct (lrun s1 es) as [[s2 o2]|] eqn:R; [|discriminate].
    inversion H; subst. rewrite in_app_iff.
    assert (S1 : forall p, e = LStart x p -> In a (locks_of p)) by (intros p ->; apply ST1; left; reflexivity).
    destruct (behind_step _ _ _ _ _ _ _ _ _ _ LI ST NX S1 B E) as [K1 K2]. intros [J|J]; [auto|].
    destruct (stuck_step _ _ _ _ _ _ _ _ _ LI ST E) as (S2 & _).
    revert J. eapply (IH s1 (t ++ o1) c d a b x); eauto; [eapply linv_step; eauto|]. intros p J'. apply ST1. right. exact J'.
Qed.

Lemma started : forall es s s' o x p, lrun s es = Some (s', o) -> In (LStart x p) es -> In (OCall x p) o.
Proof.
  intros es s s' o x p H J. apply in_split in J. destruct J as (e1 & e2 & ->). rewrite lrun_app in H.
  destruct (lrun s e1) as [[s1 o1]|]; [|discriminate]. cbn [lrun lstep] in H.
  destruct (call s1 x); [discriminate|].
  match type of H with context [lrun ?a e2] => destruct (lrun a e2) as [[s2 o2]|] end; [|discriminate].
  inversion H; subst. apply in_or_app. right. left. reflexivity.
Qed.

Lemma never_returns : forall es s t c d a b, lrun linit es = Some (s, t) -> stuck s c d a b ->
  forall es' s' t', lrun s es' = Some (s', t') ->
    ~ In (OReturn c) t' /\ ~ In (OReturn d) t'
    /\ forall x o, In (OCall x o) t' -> In a (locks_of o) -> ~ In (OReturn x) t'.
Proof.
  intros es s t c d a b H ST es' s' t' H'. pose proof (linv_run _ _ _ H) as LI.
  pose proof (linv_from _ _ _ _ _ LI H') as LI'.
  destruct (stuck_run _ _ _ _ _ _ _ _ _ LI ST H') as (_ & R1 & R2). split; [exact R1|]. split; [exact R2|].
  intros x o J L. assert (J' : In (OCall x o) (t ++ t')) by (apply in_or_app; right; exact J).
  destruct (called_one _ _ _ _ LI' J') as (k & _ & _ & C1).
  assert (N : call s x = None).
  { destruct (call s x) as [k'|] eqn:C; [|reflexivity]. exfalso. destruct LI as [_ I]. specialize (I x). rewrite C in I.
    destruct I as (C2 & _). rewrite called_app, C2 in C1. apply in_called in J.
    destruct (called x t'); [contradiction|discriminate]. }
  assert (NX : x <> c) by (destruct ST as (_ & _ & _ & (kc & C & _) & _); congruence).
  eapply (behind_run es' s t c d a b x); eauto.
  - intros p S. apply (started _ _ _ _ _ _ H') in S.
    assert (K : In p (called x (t ++ t'))) by (apply in_called, in_or_app; right; exact S).
    rewrite C1 in K. destruct K as [K|[]]. congruence.
  - unfold before_writes. rewrite N. exact Logic.I.
Qed.

Lemma two_links_stuck : forall a b, a <> b -> exists es s t,
  lrun linit es = Some (s, t) /\ t = [OCall 0 (OpLink a b); OCall 1 (OpLink a b)] /\ stuck s 0 1 a b.
Proof.
  intros a b NE. pose proof NE as E. apply Nat.eqb_neq in E. assert (E' : (b =? a) = false) by (apply Nat.eqb_neq; auto).
  exists [LStart 0 (OpLink a b); LStart 1 (OpLink a b); LRequest 0; LRequest 1; LRequest 1; LRequest 0].
  cbn. rewrite E. cbn. do 2 eexists. split; [reflexivity|]. split; [reflexivity|].
  unfold stuck, owns. cbn. unfold put. cbn. rewrite !Nat.eqb_refl, E, E'. cbn.
  split; [discriminate|]. split; [reflexivity|]. split; [reflexivity|].
  split; eexists; (split; [reflexivity|]); cbn; (split; [reflexivity|]); (split; [discriminate|]); auto.
Qed.

Lemma opposite_stuck : forall a b, a <> b -> exists es s t,
  lrun linit es = Some (s, t) /\ t = [OCall 0 (OpBlockingLink a b); OCall 1 (OpBlockingLink b a)] /\ stuck s 0 1 a b.
Proof.
  intros a b NE. pose proof NE as E. apply Nat.eqb_neq in E. assert (E' : (b =? a) = false) by (apply Nat.eqb_neq; auto).
  exists [LStart 0 (OpBlockingLink a b); LStart 1 (OpBlockingLink b a); LRequest 0; LRequest 1; LRequest 0; LRequest 1].
  cbn. rewrite E, E'. cbn. unfold all_owned, owns. cbn. unfold put. cbn. rewrite ?Nat.eqb_refl, ?E, ?E'. cbn.
  rewrite ?Nat.eqb_refl, ?E, ?E'. cbn.
  do 2 eexists. split; [reflexivity|]. split; [reflexivity|].
  unfold stuck, owns. cbn. rewrite ?Nat.eqb_refl, ?E, ?E'. cbn.
  split; [discriminate|]. split; [reflexivity|]. split; [reflexivity|].
  split; eexists; (split; [reflexivity|]); cbn; (split; [reflexivity|]); (split; [discriminate|]); auto.
Qed.

Lemma needs_locks : forall o l, needs o l <-> In l (locks_of o).
Proof.
  intros o l. destruct o; cbn [needs locks_of]; try (cbn; intuition congruence);
    destruct (Nat.eqb_spec a b); cbn; intuition congruence.
Qed.

Lemma stuck_dead : forall es s t c d a b, lrun linit es = Some (s, t) -> stuck s c d a b -> dead_for_ever s c d a b.
Proof.
  intros es s t c d a b H ST es' s' t' H'.
  destruct (never_returns _ _ _ _ _ _ _ H ST _ _ _ H') as (A & B & C).
  destruct (never_returns _ _ _ _ _ _ _ H (stuck_sym _ _ _ _ _ ST) _ _ _ H') as (_ & _ & D).
  split; [exact A|]. split; [exact B|]. intros x o J [N|N]; apply needs_locks in N; eauto.
Qed.

Lemma two_links_dead : forall a b, a <> b -> exists es s t,
  lrun linit es = Some (s, t) /\ t = [OCall 0 (OpLink a b); OCall 1 (OpLink a b)] /\ dead_for_ever s 0 1 a b.
Proof.
  intros a b NE. destruct (two_links_stuck a b NE) as (es & s & t & H & T & ST).
  exists es, s, t. split; [exact H|]. split; [exact T|]. eapply stuck_dead; eauto.
Qed.
Lemma opposite_dead : forall a b, a <> b -> exists es s t,
  lrun linit es = Some (s, t) /\ t = [OCall 0 (OpBlockingLink a b); OCall 1 (OpBlockingLink b a)] /\ dead_for_ever s 0 1 a b.
Proof.
  intros a b NE. destruct (opposite_stuck a b NE) as (es & s & t & H & T & ST).
  exists es, s, t. split; [exact H|]. split; [exact T|]. eapply stuck_dead; eauto.
Qed.

(** Enough for a state to be at rest. *)
Lemma all_done_rest : forall s,
  (forall c, match call s c with None => True | Some k => want k = [] /\ towrite k = [] /\ asked k = [] end) -> at_rest s.
Proof.
  intros s H c. specialize (H c). cbn [lstep]. destruct (call s c) as [k|]; [|auto].
  destruct H as (W & T & A). rewrite W, T, A. auto.
Qed.
