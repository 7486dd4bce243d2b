(** Proofs about the actor pool (Pool.v), for P_Pool.v. *)
From Coq Require Import List Bool PeanoNat Lia.
From Verif Require Import Pool Pool_spec.
Import ListNotations.

Lemma put_same : forall A (f : nat -> A) k v, put f k v k = v.
Proof. intros; unfold put; rewrite Nat.eqb_refl; reflexivity. Qed.
Lemma put_other : forall A (f : nat -> A) k v k', k' <> k -> put f k v k' = f k'.
Proof. intros; unfold put. destruct (Nat.eqb_spec k' k); [contradiction|reflexivity]. Qed.

Lemma run_app : forall es1 es2 s,
  run s (es1 ++ es2) = match run s es1 with
                       | Some (s1, o1) => match run s1 es2 with Some (s2, o2) => Some (s2, o1 ++ o2) | None => None end
                       | None => None end.
Proof.
  induction es1 as [|e es1 IH]; intros es2 s; cbn.
  - destruct (run s es2) as [[s2 o2]|]; reflexivity.
  - destruct (step s e) as [[s1 o1]|]; [|reflexivity]. rewrite IH.
    destruct (run s1 es1) as [[s2 o2]|]; [|reflexivity].
    destruct (run s2 es2) as [[s3 o3]|]; [|reflexivity]. rewrite app_assoc; reflexivity.
Qed.

(** The step at which an observation is made. *)
Lemma run_split : forall es s s' t1 o t2,
  run s es = Some (s', t1 ++ o :: t2) ->
  exists es1 e es2 sa sb ta oa ob tb,
    es = es1 ++ e :: es2 /\ run s es1 = Some (sa, ta) /\ step sa e = Some (sb, oa ++ o :: ob)
    /\ run sb es2 = Some (s', tb) /\ t1 = ta ++ oa /\ t2 = ob ++ tb.
Proof.
  induction es as [|e es IH]; intros s s' t1 o t2 R; cbn in R.
  - injection R as _ R. destruct t1; discriminate.
  - destruct (step s e) as [[s1 o1]|] eqn:ST; [|discriminate].
    destruct (run s1 es) as [[s2 o2]|] eqn:R2; [|discriminate]. injection R as <- R.
    assert (H : (exists ob, o1 = t1 ++ o :: ob /\ t2 = ob ++ o2) \/ (exists t1', t1 = o1 ++ t1' /\ o2 = t1' ++ o :: t2)).
    { clear - R. revert o1 R. induction t1 as [|x t1 IH]; intros [|y o1] R; cbn in R.
      - right; exists []; auto.
      - injection R as -> R; left; exists o1; auto.
      - right; exists (x :: t1); auto.
      - injection R as -> R. destruct (IH _ R) as [(ob & -> & ->)|(t1' & -> & ->)]; [left; exists ob; auto|right; exists t1'; auto]. }
    destruct H as [(ob & -> & ->)|(t1' & -> & ->)].
    + exists [], e, es, s, s1, [], t1, ob, o2. auto 10.
    + destruct (IH _ _ _ _ _ R2) as (es1 & e' & es2 & sa & sb & ta & oa & ob & tb & -> & A & B & C & -> & ->).
      exists (e :: es1), e', es2, sa, sb, (o1 ++ ta), oa, ob, tb. cbn. rewrite ST, A.
      rewrite app_assoc. auto 10.
Qed.

(** *** Lists *)

Lemma first_min_some : forall f l w, first_min f l = Some w -> first_least f l w.
Proof.
  induction l as [|x l IH]; intros w E; [discriminate|]. cbn in E.
  destruct (first_min f l) as [v|] eqn:F.
  - destruct (IH v eq_refl) as (l1 & l2 & -> & A & B).
    destruct (Nat.leb_spec (f x) (f v)) as [L|L]; injection E as <-.
    + exists [], (l1 ++ v :: l2). split; [reflexivity|split; [intros ? []|]].
      intros y Y. apply in_app_iff in Y. destruct Y as [Y|[<-|Y]]; [|assumption|].
      * specialize (A y Y); lia.
      * specialize (B y Y); lia.
    + exists (x :: l1), l2. split; [reflexivity|split; [|assumption]].
      intros y [<-|Y]; auto.
  - injection E as <-. destruct l as [|y l]; [|cbn in F; destruct (first_min f l); [destruct (f y <=? f n)|]; discriminate].
    exists [], []. split; [reflexivity|split; intros ? []].
Qed.

Lemma first_min_none : forall f l, first_min f l = None -> l = [].
Proof.
  intros f [|x l] E; [reflexivity|]. cbn in E.
  destruct (first_min f l); [destruct (f x <=? f n)|]; discriminate.
Qed.

Lemma first_least_unique : forall f l v w, NoDup l -> first_least f l v -> first_least f l w -> v = w.
Proof.
  intros f l v w ND (l1 & l2 & E & A & B) (k1 & k2 & E' & A' & B').
  destruct (Nat.eq_dec v w) as [|N]; [assumption|exfalso]. subst l.
  assert (IV : In v (k1 ++ w :: k2)) by (rewrite <- E'; apply in_elt).
  assert (IW : In w (l1 ++ v :: l2)) by (rewrite E'; apply in_elt).
  apply in_app_iff in IV; apply in_app_iff in IW.
  destruct IV as [IV|[X|IV]]; [|congruence|]; destruct IW as [IW|[X|IW]]; try congruence.
  - specialize (A' v IV); specialize (A w IW); lia.
  - specialize (A' v IV); specialize (B w IW). lia.
  - specialize (B' v IV); specialize (A w IW); lia.
  - (* v before w in one, w before v in the other *)
    clear A B A' B'. revert k1 E'. induction l1 as [|x l1 IH]; intros [|y k1] E'; cbn in E'.
    + injection E' as -> _; congruence.
    + injection E' as <- E'. subst l2. inversion ND as [|? ? H _]; subst.
      apply H. apply in_or_app. right; right; assumption.
    + injection E' as -> E'. inversion ND as [|? ? H _]; subst. apply H. apply in_or_app. right; right; assumption.
    + injection E' as -> E'. inversion ND; subst. eapply IH; eassumption.
Qed.

Lemma first_least_eq : forall f g l w, (forall v, In v l -> f v = g v) -> first_least f l w -> first_least g l w.
Proof.
  intros f g l w E (l1 & l2 & -> & A & B). exists l1, l2. split; [reflexivity|].
  assert (W : f w = g w) by (apply E, in_elt).
  split; intros v V; rewrite <- W, <- E; auto; apply in_or_app; [left|right; right]; assumption.
Qed.

Lemma first_least_in : forall f l w, first_least f l w -> In w l.
Proof. intros f l w (l1 & l2 & -> & _). apply in_elt. Qed.

Lemma first_min_ext : forall f g l, (forall v, In v l -> f v = g v) -> first_min f l = first_min g l.
Proof.
  induction l as [|x l IH]; intros E; [reflexivity|]. cbn. rewrite IH by (intros; apply E; right; assumption).
  destruct (first_min g l) as [v|] eqn:F; [|reflexivity].
  rewrite (E x) by (left; reflexivity). rewrite (E v); [reflexivity|].
  right. apply (first_least_in g), first_min_some, F.
Qed.

Lemma position_some : forall id l i, position id l = Some i -> nth_error l i = Some id.
Proof.
  induction l as [|x l IH]; intros i E; [discriminate|]. cbn in E.
  destruct (Nat.eqb_spec x id).
  - injection E as <-; subst; reflexivity.
  - destruct (position id l); [|discriminate]. injection E as <-. cbn; auto.
Qed.
Lemma position_none : forall id l, position id l = None -> ~ In id l.
Proof.
  induction l as [|x l IH]; intros E; [intros []|]. cbn in E.
  destruct (Nat.eqb_spec x id); [discriminate|]. destruct (position id l); [discriminate|].
  intros [<-|I]; [congruence|]. apply IH; auto.
Qed.

Lemma set_nth_eq : forall l i v, i < length l -> set_nth i v l = replace_at i v l.
Proof.
  unfold replace_at. induction l as [|x l IH]; intros [|i] v L; cbn in *; try lia; [reflexivity|].
  rewrite IH by lia. reflexivity.
Qed.
Lemma set_nth_length : forall l i v, length (set_nth i v l) = length l.
Proof. induction l as [|x l IH]; intros [|i] v; cbn; auto. Qed.
Lemma set_nth_in : forall l i v x, In x (set_nth i v l) -> x = v \/ In x l.
Proof.
  induction l as [|y l IH]; intros [|i] v x I; cbn in I; auto.
  - destruct I as [<-|I]; [left; reflexivity|right; right; assumption].
  - destruct I as [<-|I]; [right; left; reflexivity|]. destruct (IH _ _ _ I); [left; assumption|right; right; assumption].
Qed.
Lemma set_nth_nodup : forall l i v, NoDup l -> ~ In v l -> NoDup (set_nth i v l).
Proof.
  induction l as [|y l IH]; intros [|i] v ND N; cbn; try constructor; inversion ND; subst; auto.
  - intros I; apply N; right; assumption.
  - intros I. apply set_nth_in in I. destruct I as [->|I]; [apply N; left; reflexivity|contradiction].
  - apply IH; [assumption|]. intros I; apply N; right; assumption.
Qed.
Lemma set_nth_nth : forall l i v j, nth_error (set_nth i v l) j
  = if (j =? i) && (i <? length l) then Some v else nth_error l j.
Proof.
  induction l as [|y l IH]; intros [|i] v [|j]; cbn; auto.
  - rewrite andb_false_r; reflexivity.
  - rewrite IH. reflexivity.
Qed.
Lemma set_nth_gone : forall l i v x, NoDup l -> nth_error l i = Some x -> v <> x -> ~ In x (set_nth i v l).
Proof.
  intros l i v x ND E N I. apply In_nth_error in I. destruct I as [j J].
  rewrite set_nth_nth in J. destruct (Nat.eq_dec j i) as [Q|D].
  - subst j. rewrite Nat.eqb_refl in J. cbn [andb] in J. destruct (Nat.ltb_spec i (length l)) as [L|L]; [congruence|].
    apply nth_error_None in L. congruence.
  - apply Nat.eqb_neq in D. rewrite D in J. cbn [andb] in J. apply Nat.eqb_neq in D. apply D. eapply NoDup_nth_error; [eassumption| |congruence]. apply nth_error_Some; congruence.
Qed.
Lemma set_nth_keeps : forall l i v x y, nth_error l i = Some y -> In x l -> x <> y -> In x (set_nth i v l).
Proof.
  induction l as [|z l IH]; intros [|i] v x y E I N; cbn in *; try discriminate.
  - injection E as ->. destruct I as [I|I]; [congruence|right; assumption].
  - destruct I as [->|I]; [left; reflexivity|right; eauto].
Qed.

(** *** Counting *)

Lemma given_app : forall w a b, given w (a ++ b) = given w a + given w b.
Proof. induction a as [|o a IH]; intros b; cbn; auto. destruct o; cbn; auto. rewrite IH; lia. Qed.
Lemma done_app : forall w a b, done_with w (a ++ b) = done_with w a + done_with w b.
Proof. induction a as [|o a IH]; intros b; cbn; auto. destruct o; cbn; auto; rewrite IH; lia. Qed.
Lemma workers_app : forall l a b, workers_after l (a ++ b) = workers_after (workers_after l a) b.
Proof. intros; unfold workers_after; apply fold_left_app. Qed.
Lemma given_dropped : forall w v q, given w (map (ODropped v) q) = 0.
Proof. induction q; cbn; auto. Qed.
Lemma done_dropped : forall w v q, done_with w (map (ODropped v) q) = if v =? w then length q else 0.
Proof. induction q; cbn; [destruct (v =? w); reflexivity|]. rewrite IHq. destruct (v =? w); lia. Qed.
Lemma workers_dropped : forall l v q, workers_after l (map (ODropped v) q) = l.
Proof. intros l v q; unfold workers_after. induction q; cbn; auto. Qed.

(** The messages a worker holds. *)
Definition holds (x : worker) : nat := length (queue x) + match busy x with Some _ => 1 | None => 0 end.

(** The pending sends of a broadcast. *)
Definition pending (rs : list (nat * option bool)) (w : nat) : nat :=
  length (filter (fun r => (fst r =? w) && match snd r with None => true | _ => false end) rs).

Lemma pending_start : forall l w, NoDup l ->
  pending (map (fun v => (v, None)) l) w = if existsb (Nat.eqb w) l then 1 else 0.
Proof.
  unfold pending. induction l as [|x l IH]; intros w ND; [reflexivity|]. cbn.
  inversion ND as [|? ? NI ND']; subst. rewrite (Nat.eqb_sym w x).
  destruct (Nat.eqb_spec x w) as [->|N]; cbn; [|apply IH; assumption].
  rewrite IH by assumption. f_equal.
  destruct (existsb (Nat.eqb w) l) eqn:E; [|reflexivity].
  apply existsb_exists in E. destruct E as (y & I & Y). apply Nat.eqb_eq in Y. subst. contradiction.
Qed.

Lemma loads_start : forall l f w, NoDup l ->
  load (fold_left add_load l f w) = load (f w) + (if existsb (Nat.eqb w) l then 1 else 0)
  /\ st (fold_left add_load l f w) = st (f w)
  /\ cap (fold_left add_load l f w) = cap (f w)
  /\ queue (fold_left add_load l f w) = queue (f w)
  /\ busy (fold_left add_load l f w) = busy (f w)
  /\ linked (fold_left add_load l f w) = linked (f w)
  /\ to_tell (fold_left add_load l f w) = to_tell (f w).
Proof.
  induction l as [|x l IH]; intros f w ND; cbn [fold_left existsb].
  - repeat split; lia.
  - inversion ND as [|? ? NI ND']; subst. destruct (IH (add_load f x) w ND') as (A & B & C & D & E & F & G).
    rewrite A, B, C, D, E, F, G. unfold add_load.
    destruct (Nat.eqb_spec w x) as [->|N].
    + rewrite put_same. cbn. repeat split.
      destruct (existsb (Nat.eqb x) l) eqn:Q; [|lia].
      apply existsb_exists in Q. destruct Q as (y & I & Y). apply Nat.eqb_eq in Y. subst. contradiction.
    + rewrite put_other by assumption. cbn. auto 10.
Qed.

Lemma settle_fst : forall rs k b, map fst (settle rs k b) = map fst rs.
Proof. induction rs as [|[w r] rs IH]; intros [|k] b; cbn; auto. rewrite IH; reflexivity. Qed.

Lemma settle_pending : forall rs k b w v, nth_error rs k = Some (w, None) ->
  pending (settle rs k b) v + (if w =? v then 1 else 0) = pending rs v.
Proof.
  unfold pending. induction rs as [|[x r] rs IH]; intros [|k] b w v E; cbn in *; try discriminate.
  - injection E as -> ->. rewrite andb_false_r, andb_true_r. destruct (w =? v); cbn; lia.
  - specialize (IH _ b _ v E). destruct ((x =? v) && match r with None => true | _ => false end); cbn; lia.
Qed.

(** The sends of a broadcast to [w] that were accepted. *)
Definition accepted (rs : list (nat * option bool)) (w : nat) : nat :=
  length (filter (fun r => (fst r =? w) && match snd r with Some true => true | _ => false end) rs).

Lemma settle_accepted : forall rs k b w v, nth_error rs k = Some (w, None) ->
  accepted (settle rs k b) v = accepted rs v + (if (w =? v) && b then 1 else 0).
Proof.
  unfold accepted. induction rs as [|[x r] rs IH]; intros [|k] b w v E; cbn in *; try discriminate.
  - injection E as -> ->. rewrite andb_false_r. destruct (w =? v), b; cbn; lia.
  - specialize (IH _ b _ v E). destruct ((x =? v) && match r with Some true => true | _ => false end); cbn; lia.
Qed.

Lemma accepted_start : forall l w, accepted (map (fun v => (v, None)) l) w = 0.
Proof. unfold accepted; induction l as [|x l IH]; intros w; cbn; auto. rewrite andb_false_r; auto. Qed.

Lemma results_some : forall rs l, results rs = Some l -> rs = map (fun r => (fst r, Some (snd r))) l.
Proof.
  induction rs as [|[w [b|]] rs IH]; intros l E; cbn in E; try discriminate.
  - injection E as <-; reflexivity.
  - destruct (results rs); [|discriminate]. injection E as <-. cbn. rewrite <- IH by reflexivity. reflexivity.
Qed.
Lemma results_pending : forall rs l w, results rs = Some l -> pending rs w = 0.
Proof.
  intros rs l w E. apply results_some in E. subst. unfold pending.
  induction l as [|[v b] l IH]; cbn; auto. rewrite andb_false_r; assumption.
Qed.

(** *** The invariant *)

Record INV (l0 : list nat) (s : pool) (tr : list obs) : Prop := {
  i_slots : slots s = workers_after l0 tr;
  i_nodup : NoDup (slots s);
  i_old : forall w, In w (slots s) -> w < fresh s;
  i_len : length (slots s) = length l0;
  i_pos : l0 <> [];
  i_load : forall w, load (wk s w) = holds (wk s w) + waiting s w;
  i_given : forall w, given w tr = done_with w tr + holds (wk s w);
  i_new : forall w, fresh s <= w -> wk s w = no_worker;
  i_ending : forall w, st (wk s w) <> WUp -> busy (wk s w) = None /\ linked (wk s w) = false;
  i_up : forall w, st (wk s w) <> WEnding -> to_tell (wk s w) = false;
  i_gone : forall w, st (wk s w) = WGone -> queue (wk s w) = [];
  i_send : forall m k w, ph s = PSending m k w -> In w (slots s);
  i_cast : forall m rs, ph s = PCasting m rs -> map fst rs = slots s /\ results rs = None;
  i_link : forall w, ph s = PLinking w -> In w (slots s)
}.

Lemma init_inv : forall caps c s0, new_pool caps c = Some s0 -> INV (seq 0 (length caps)) s0 [].
Proof.
  intros l c s0 E.
  assert (EL : l <> []) by (intros ->; discriminate).
  assert (E2 : s0 = mk_pool (seq 0 (length l))
                 (fun w => match nth_error l w with Some k => new_worker k | None => no_worker end)
                 (length l) [] c (PStarting 0)).
  { unfold new_pool in E. destruct l; [congruence|]. destruct (existsb _ _); [discriminate|]. congruence. }
  subst s0. clear E.
  assert (X : forall w, match nth_error l w with Some k => new_worker k | None => no_worker end = no_worker
                        \/ exists k, match nth_error l w with Some k => new_worker k | None => no_worker end = new_worker k).
  { intros w. destruct (nth_error l w); eauto. }
  constructor; cbn [slots wk fresh inbox pcap ph].
  - reflexivity.
  - apply seq_NoDup.
  - intros w W. apply in_seq in W. lia.
  - reflexivity.
  - destruct l; [congruence|discriminate].
  - intros w. destruct (X w) as [-> | [z ->]]; reflexivity.
  - intros w. destruct (X w) as [-> | [z ->]]; reflexivity.
  - intros w W. apply nth_error_None in W. rewrite W. reflexivity.
  - intros w. destruct (X w) as [-> | [z ->]]; auto.
  - intros w. destruct (X w) as [-> | [z ->]]; auto.
  - intros w. destruct (X w) as [-> | [z ->]]; auto.
  - discriminate.
  - discriminate.
  - discriminate.
Qed.

Definition ph_ok (l : list nat) (p : phase) : Prop :=
  match p with
  | PSending _ _ w => In w l
  | PCasting _ rs => map fst rs = l /\ results rs = None
  | PLinking w => In w l
  | _ => True
  end.

Lemma inv_upd : forall l0 s tr o w x ib p,
  INV l0 s tr -> w < fresh s -> workers_after (slots s) o = slots s ->
  load x = holds x + waiting (mk_pool (slots s) (put (wk s) w x) (fresh s) ib (pcap s) p) w ->
  (forall v, v <> w -> waiting (mk_pool (slots s) (put (wk s) w x) (fresh s) ib (pcap s) p) v = waiting s v) ->
  given w o + holds (wk s w) = done_with w o + holds x ->
  (forall v, v <> w -> given v o = done_with v o) ->
  (st x <> WUp -> busy x = None /\ linked x = false) ->
  (st x <> WEnding -> to_tell x = false) -> (st x = WGone -> queue x = []) ->
  ph_ok (slots s) p ->
  INV l0 (mk_pool (slots s) (put (wk s) w x) (fresh s) ib (pcap s) p) (tr ++ o).
Proof.
  intros l0 s tr o w x ib p I W SL L LV G GV X1 X2 X3 P.
  constructor; cbn [slots wk fresh inbox pcap ph].
  - rewrite workers_app, <- (i_slots _ _ _ I). auto.
  - apply (i_nodup _ _ _ I).
  - apply (i_old _ _ _ I).
  - apply (i_len _ _ _ I).
  - apply (i_pos _ _ _ I).
  - intros v. destruct (Nat.eq_dec v w) as [->|N]; [rewrite put_same; assumption|].
    rewrite put_other, LV by assumption. apply (i_load _ _ _ I).
  - intros v. rewrite given_app, done_app. pose proof (i_given _ _ _ I v) as H.
    destruct (Nat.eq_dec v w) as [->|N]; [rewrite put_same; lia|].
    rewrite put_other by assumption. specialize (GV v N). lia.
  - intros v V. rewrite put_other by lia. apply (i_new _ _ _ I); assumption.
  - intros v. destruct (Nat.eq_dec v w) as [->|N]; [rewrite put_same; assumption|].
    rewrite put_other by assumption. apply (i_ending _ _ _ I).
  - intros v. destruct (Nat.eq_dec v w) as [->|N]; [rewrite put_same; assumption|].
    rewrite put_other by assumption. apply (i_up _ _ _ I).
  - intros v. destruct (Nat.eq_dec v w) as [->|N]; [rewrite put_same; assumption|].
    rewrite put_other by assumption. apply (i_gone _ _ _ I).
  - intros m k v ->. exact P.
  - intros m rs ->. exact P.
  - intros v ->. exact P.
Qed.

Lemma inv_ph : forall l0 s tr o ib p,
  INV l0 s tr -> workers_after (slots s) o = slots s ->
  (forall v, waiting (mk_pool (slots s) (wk s) (fresh s) ib (pcap s) p) v = waiting s v) ->
  (forall v, given v o = done_with v o) ->
  ph_ok (slots s) p ->
  INV l0 (mk_pool (slots s) (wk s) (fresh s) ib (pcap s) p) (tr ++ o).
Proof.
  intros l0 s tr o ib p I SL LV GV P. destruct I as [I1 I2 I3 I4 I5 I6 I7 I8 I9 I10 I11 I12 I13 I14].
  constructor; cbn [slots wk fresh inbox pcap ph]; auto.
  - rewrite workers_app, <- I1. auto.
  - intros v. rewrite LV. apply I6.
  - intros v. rewrite given_app, done_app, GV. specialize (I7 v). lia.
  - intros m k v ->. exact P.
  - intros m rs ->. exact P.
  - intros v ->. exact P.
Qed.

Lemma loads_are : forall l0 s tr w, INV l0 s tr -> waiting s w = 0 -> load (wk s w) = outstanding tr w.
Proof.
  intros l0 s tr w I W. unfold outstanding. rewrite (i_given _ _ _ I w), (i_load _ _ _ I w). lia.
Qed.

Lemma next_round_inv : forall l0 s tr m k s' o,
  INV l0 s tr -> ph s = PIdle -> next_round s m k = (s', o) ->
  INV l0 s' (tr ++ o)
  /\ (forall w m', In (OChosen w m') o -> o = [OChosen w m] /\ m' = m /\ first_least (outstanding tr) (slots s) w).
Proof.
  intros l0 s tr m k s' o I P E.
  assert (W0 : forall v, waiting s v = 0) by (intros; unfold waiting; rewrite P; reflexivity).
  unfold next_round in E. destruct k as [|k].
  - injection E as <- <-. split.
    + apply inv_ph; auto; try reflexivity; try exact Logic.I; intros v; rewrite ?W0; reflexivity.
    + intros w m' [H|[H|[]]]; discriminate.
  - destruct (first_min _ (slots s)) as [w|] eqn:F; injection E as <- <-.
    + apply first_min_some in F. pose proof (first_least_in _ _ _ F) as IW. split.
      * apply inv_upd; auto.
        -- apply (i_old _ _ _ I), IW.
        -- cbn. rewrite Nat.eqb_refl, (i_load _ _ _ I w), W0. unfold holds; cbn. lia.
        -- intros v N. rewrite W0. cbn. destruct (Nat.eqb_spec w v); first [congruence|reflexivity].
        -- apply (i_ending _ _ _ I).
        -- apply (i_up _ _ _ I).
        -- apply (i_gone _ _ _ I).
      * intros v m' [H|[]]. injection H as <- <-. split; [reflexivity|split; [reflexivity|]].
        apply (first_least_eq (fun w => load (wk s w))); [|assumption].
        intros v _. exact (loads_are _ _ _ _ I (W0 v)).
    + split.
      * apply inv_ph; auto; try reflexivity; try exact Logic.I; intros v; rewrite ?W0; reflexivity.
      * intros w m' [H|[H|[]]]; discriminate.
Qed.

Lemma after_cast_inv : forall l0 s tr m rs k w b x s' o o0,
  INV l0 s tr -> ph s = PCasting m rs -> nth_error rs k = Some (w, None) ->
  after_cast s (put (wk s) w x) m (settle rs k b) = (s', o) ->
  workers_after (slots s) o0 = slots s ->
  load x = holds x + pending (settle rs k b) w ->
  given w o0 + holds (wk s w) = done_with w o0 + holds x ->
  (forall v, v <> w -> given v o0 = done_with v o0) ->
  (st x <> WUp -> busy x = None /\ linked x = false) ->
  (st x <> WEnding -> to_tell x = false) -> (st x = WGone -> queue x = []) ->
  INV l0 s' (tr ++ o0 ++ o).
Proof.
  intros l0 s tr m rs k w b x s' o o0 I P N E SL L G GV X1 X2 X3.
  destruct (i_cast _ _ _ I _ _ P) as [FS _].
  assert (IW : In w (slots s)).
  { rewrite <- FS. change w with (fst (w, @None bool)). apply in_map. eapply nth_error_In; eassumption. }
  assert (WV : forall v, v <> w -> pending (settle rs k b) v = waiting s v).
  { intros v D. unfold waiting. rewrite P. pose proof (settle_pending _ _ b _ v N) as H.
    destruct (Nat.eqb_spec w v); [congruence|]. fold (pending rs v). lia. }
  unfold after_cast in E. destruct (results (settle rs k b)) as [l|] eqn:R; injection E as <- <-.
  - pose proof (results_pending _ _ w R) as Z.
    apply inv_upd; auto; cbn [ph_ok]; try exact Logic.I.
    + apply (i_old _ _ _ I), IW.
    + rewrite workers_app, SL. reflexivity.
    + cbn. lia.
    + intros v D. rewrite <- WV by assumption. cbn. symmetry; apply (results_pending _ _ v R).
    + rewrite given_app, done_app. cbn. lia.
    + intros v D. rewrite given_app, done_app. cbn. specialize (GV v D). lia.
  - apply inv_upd; auto; cbn [ph_ok]; try exact Logic.I.
    + apply (i_old _ _ _ I), IW.
    + rewrite app_nil_r; assumption.
    + rewrite app_nil_r; assumption.
    + intros v D. rewrite app_nil_r; auto.
    + rewrite settle_fst; auto.
Qed.

Lemma refused_inv : forall l0 s tr m k w, INV l0 s tr -> ph s = PSending m k w ->
  forall p o, (p = PIdle /\ o = []) \/ (p = PStopped /\ o = [OPanicked; OStopped]) ->
  INV l0 (mk_pool (slots s) (sub_load (wk s) w) (fresh s) (inbox s) (pcap s) p) (tr ++ o).
Proof.
  intros l0 s tr m k w I P. pose proof (i_send _ _ _ I _ _ _ P) as IW.
  intros p o1 H. apply inv_upd; auto.
  - apply (i_old _ _ _ I), IW.
  - destruct H as [[ -> -> ]|[ -> -> ]]; reflexivity.
  - pose proof (i_load _ _ _ I w) as L; unfold waiting in L; rewrite P, Nat.eqb_refl in L.
    destruct H as [[ -> _ ]|[ -> _ ]]; unfold holds in *; cbn; lia.
  - intros v N. unfold waiting at 2. rewrite P. destruct (Nat.eqb_spec w v); [congruence|].
    destruct H as [[ -> _ ]|[ -> _ ]]; reflexivity.
  - destruct H as [[ _ -> ]|[ _ -> ]]; reflexivity.
  - intros v N. destruct H as [[ _ -> ]|[ _ -> ]]; reflexivity.
  - apply (i_ending _ _ _ I).
  - apply (i_up _ _ _ I).
  - apply (i_gone _ _ _ I).
  - destruct H as [[ -> _ ]|[ -> _ ]]; exact Logic.I.
Qed.

Lemma step_inv : forall l0 s tr e s' o, INV l0 s tr -> step s e = Some (s', o) -> INV l0 s' (tr ++ o).
Proof.
  intros l0 s tr e s' o I E. destruct e as [m| |up c| | |k|k|w|w ok|w|w|w]; cbn [step] in E.
  - (* submit *)
    destruct (_ && has_room (pcap s) (inbox s)); [|discriminate]. injection E as <- <-.
    apply inv_ph; auto. destruct (ph s) eqn:P; cbn; auto.
    + apply (i_send _ _ _ I _ _ _ P).
    + apply (i_cast _ _ _ I _ _ P).
    + apply (i_link _ _ _ I _ P).
  - (* link *)
    assert (X : forall w p, In w (slots s) -> ph_ok (slots s) p -> (forall v, waiting s v = 0) ->
      (forall f ib v, waiting (mk_pool (slots s) f (fresh s) ib (pcap s) p) v = 0) ->
      INV l0 (mk_pool (slots s) (link (wk s) w) (fresh s) (inbox s) (pcap s) p) (tr ++ link_obs (wk s) w)).
    { intros w p IW PO W0 W1. unfold link, link_obs. destruct (st (wk s w)) eqn:S.
      - apply inv_upd; auto; cbn.
        + apply (i_old _ _ _ I), IW.
        + rewrite W1. rewrite (i_load _ _ _ I w), W0. reflexivity.
        + intros v _. rewrite W1, W0. reflexivity.
        + congruence.
        + intros _. apply (i_up _ _ _ I). congruence.
        + discriminate.
      - apply inv_ph; auto. intros v; rewrite W1, W0; reflexivity.
      - apply inv_ph; auto. intros v; rewrite W1, W0; reflexivity. }
    destruct (ph s) eqn:P; try discriminate.
    + destruct (nth_error (slots s) k) as [w|] eqn:N; [|discriminate]. injection E as <- <-.
      apply nth_error_In in N. unfold start_at.
      apply X; auto; intros; unfold waiting; try rewrite P; cbn [ph]; destruct (S k <? length (slots s)); cbn; auto.
    + injection E as <- <-. apply X; auto; intros; unfold waiting; try rewrite P; cbn; auto.
      apply (i_link _ _ _ I _ P).
  - (* handle *)
    destruct (ph s) eqn:P; try discriminate. destruct (inbox s) as [|m q] eqn:Q; [discriminate|].
    assert (W0 : forall v, waiting s v = 0) by (intros; unfold waiting; rewrite P; reflexivity).
    destruct m as [m|m|id|]; [| | |injection E as <- <-; apply inv_ph; auto; exact Logic.I].
    + destruct (next_round _ m (length (slots s))) as [s1 o1] eqn:NR. injection E as <- <-.
      apply next_round_inv with (l0 := l0) (tr := tr) in NR; [apply NR| |reflexivity].
      rewrite <- (app_nil_r tr). apply inv_ph; auto; exact Logic.I.
    + injection E as <- <-. pose proof (i_nodup _ _ _ I) as ND.
      constructor; cbn [slots wk fresh inbox pcap ph].
      * rewrite workers_app, <- (i_slots _ _ _ I). reflexivity.
      * assumption.
      * apply (i_old _ _ _ I).
      * apply (i_len _ _ _ I).
      * apply (i_pos _ _ _ I).
      * intros w. destruct (loads_start (slots s) (wk s) w ND) as (A & B & C & D & F & G & H).
        unfold holds. rewrite A, D, F. cbn. fold (pending (map (fun w => (w, None)) (slots s)) w).
        rewrite pending_start by assumption. pose proof (i_load _ _ _ I w) as L. rewrite W0 in L. unfold holds in L. lia.
      * intros w. destruct (loads_start (slots s) (wk s) w ND) as (A & B & C & D & F & G & H).
        unfold holds. rewrite D, F. rewrite given_app, done_app. cbn. pose proof (i_given _ _ _ I w) as L. unfold holds in L. lia.
      * intros w W. pose proof (i_new _ _ _ I w W) as NW.
        destruct (loads_start (slots s) (wk s) w ND) as (A & B & C & D & F & G & H).
        assert (Z : existsb (Nat.eqb w) (slots s) = false).
        { destruct (existsb (Nat.eqb w) (slots s)) eqn:X; [|reflexivity]. apply existsb_exists in X.
          destruct X as (y & Y & Z). apply Nat.eqb_eq in Z. subst y. apply (i_old _ _ _ I) in Y. lia. }
        rewrite Z in A. rewrite NW in *. destruct (fold_left add_load (slots s) (wk s) w) as [a b c0 d e f g].
        cbn in *. subst. reflexivity.
      * intros w. destruct (loads_start (slots s) (wk s) w ND) as (A & B & C & D & F & G & H).
        rewrite B, F, G. apply (i_ending _ _ _ I).
      * intros w. destruct (loads_start (slots s) (wk s) w ND) as (A & B & C & D & F & G & H).
        rewrite B, H. apply (i_up _ _ _ I).
      * intros w. destruct (loads_start (slots s) (wk s) w ND) as (A & B & C & D & F & G & H).
        rewrite B, D. apply (i_gone _ _ _ I).
      * discriminate.
      * intros m' rs H. injection H as <- <-. split.
        -- rewrite map_map. cbn. apply map_id.
        -- destruct (slots s) eqn:SS; [|reflexivity]. pose proof (i_len _ _ _ I) as L. rewrite SS in L.
           destruct l0; [|discriminate]. destruct (i_pos _ _ _ I eq_refl).
      * discriminate.
    + unfold on_link_died in E. destruct up; cbn [slots wk fresh inbox pcap ph] in E.
      2:{ injection E as <- <-. apply inv_ph; auto; exact Logic.I. }
      destruct (position id (slots s)) as [i|] eqn:PS.
      2:{ injection E as <- <-. apply inv_ph; auto; exact Logic.I. }
      destruct (bad_cap c); injection E as <- <-.
      { apply inv_ph; auto; exact Logic.I. }
      apply position_some in PS. assert (LI : i < length (slots s)) by (apply nth_error_Some; congruence).
      assert (NF : ~ In (fresh s) (slots s)).
      { intros H. apply (i_old _ _ _ I) in H. lia. }
      constructor; cbn [slots wk fresh inbox pcap ph].
      * rewrite workers_app, <- (i_slots _ _ _ I). cbn. apply set_nth_eq; assumption.
      * apply set_nth_nodup; [apply (i_nodup _ _ _ I)|assumption].
      * intros w W. apply set_nth_in in W. destruct W as [ -> |W]; [lia|]. apply (i_old _ _ _ I) in W. lia.
      * rewrite set_nth_length. apply (i_len _ _ _ I).
      * apply (i_pos _ _ _ I).
      * intros w. cbn. destruct (Nat.eq_dec w (fresh s)) as [ -> |N]; [rewrite put_same; reflexivity|].
        rewrite put_other by assumption. rewrite (i_load _ _ _ I w), W0. lia.
      * intros w. rewrite given_app, done_app. pose proof (i_given _ _ _ I w) as G. cbn.
        destruct (Nat.eq_dec w (fresh s)) as [ -> |N]; [rewrite put_same|rewrite put_other by assumption; lia].
        rewrite (i_new _ _ _ I (fresh s)) in G by lia. cbn in *. lia.
      * intros w W. rewrite put_other by lia. apply (i_new _ _ _ I). lia.
      * intros w. destruct (Nat.eq_dec w (fresh s)) as [ -> |N]; [rewrite put_same; cbn; congruence|].
        rewrite put_other by assumption. apply (i_ending _ _ _ I).
      * intros w. destruct (Nat.eq_dec w (fresh s)) as [ -> |N]; [rewrite put_same; reflexivity|].
        rewrite put_other by assumption. apply (i_up _ _ _ I).
      * intros w. destruct (Nat.eq_dec w (fresh s)) as [ -> |N]; [rewrite put_same; reflexivity|].
        rewrite put_other by assumption. apply (i_gone _ _ _ I).
      * discriminate.
      * discriminate.
      * intros w H. injection H as <-. apply nth_error_In with (n := i). rewrite set_nth_nth, Nat.eqb_refl.
        apply Nat.ltb_lt in LI. rewrite LI. reflexivity.
  - (* sent *)
    destruct (ph s) as [| |m k w| | |] eqn:P; try discriminate.
    assert (IW : In w (slots s)) by (apply (i_send _ _ _ I _ _ _ P)).
    assert (X : INV l0 (mk_pool (slots s) (push (wk s) w m) (fresh s) (inbox s) (pcap s) PIdle) (tr ++ [OSent w m; OForwarded m]) \/ st (wk s w) = WGone).
    { destruct (st (wk s w)) eqn:S; [left|left|right; reflexivity];
      (apply inv_upd; auto; cbn;
       [apply (i_old _ _ _ I), IW
       |pose proof (i_load _ _ _ I w) as L; unfold waiting in L; rewrite P, Nat.eqb_refl in L;
        unfold holds in *; cbn; rewrite app_length; cbn; lia
       |intros v N; unfold waiting; rewrite P; destruct (Nat.eqb_spec w v); first [congruence|reflexivity]
       |unfold holds; cbn; rewrite app_length, Nat.eqb_refl; cbn; lia
       |intros v N; destruct (Nat.eqb_spec w v); first [congruence|reflexivity]
       |apply (i_ending _ _ _ I)
       |apply (i_up _ _ _ I)
       |congruence
       |exact Logic.I]). }
    destruct (st (wk s w)) eqn:S; try discriminate;
      (destruct (has_room _ _); [|discriminate]; injection E as <- <-; destruct X; [assumption|congruence]).
  - (* refused *)
    destruct (ph s) as [| |m k w| | |] eqn:P; try discriminate.
    destruct (st (wk s w)) eqn:S; try discriminate.
    assert (IW : In w (slots s)) by (apply (i_send _ _ _ I _ _ _ P)).
    assert (X := refused_inv _ _ _ _ _ _ I P).
    destruct (snd m).
    + injection E as <- <-. cbn. apply X. right; auto.
    + destruct (next_round _ m k) as [s1 o1] eqn:NR. injection E as <- <-.
      apply next_round_inv with (l0 := l0) (tr := tr) in NR; [apply NR| |reflexivity].
      rewrite <- (app_nil_r tr). apply X. left; auto.
  - (* cast sent *)
    destruct (ph s) as [| | |m rs| |] eqn:P; try discriminate.
    destruct (nth_error rs k) as [[w [b|]]|] eqn:N; try discriminate.
    assert (X : st (wk s w) <> WGone -> forall s' o,
      after_cast s (push (wk s) w (m, None)) m (settle rs k true) = (s', o) -> INV l0 s' (tr ++ [OSent w (m, None)] ++ o)).
    { intros NG s1 o1 E1. unfold push in E1.
      pose proof (settle_pending _ _ true _ w N) as SP. rewrite Nat.eqb_refl in SP.
      pose proof (i_load _ _ _ I w) as L. unfold waiting in L. rewrite P in L. fold (pending rs w) in L.
      eapply after_cast_inv; try eassumption; cbn; auto.
      - unfold holds in *; cbn; rewrite app_length; cbn; lia.
      - unfold holds; cbn; rewrite app_length, Nat.eqb_refl; cbn; lia.
      - intros v D; destruct (Nat.eqb_spec w v); first [congruence|reflexivity].
      - apply (i_ending _ _ _ I).
      - apply (i_up _ _ _ I).
      - congruence. }
    destruct (st (wk s w)) eqn:S; try discriminate;
      (destruct (has_room _ _); [|discriminate]; destruct (after_cast _ _ _ _) as [s1 o1] eqn:AC;
       injection E as <- <-; exact (X ltac:(congruence) s1 o1 eq_refl)).
  - (* cast refused *)
    destruct (ph s) as [| | |m rs| |] eqn:P; try discriminate.
    destruct (nth_error rs k) as [[w [b|]]|] eqn:N; try discriminate.
    destruct (st (wk s w)) eqn:S; try discriminate. injection E as E. unfold sub_load in E.
    pose proof (settle_pending _ _ false _ w N) as SP. rewrite Nat.eqb_refl in SP.
    pose proof (i_load _ _ _ I w) as L. unfold waiting in L. rewrite P in L. fold (pending rs w) in L.
    change o with ([] ++ o). eapply after_cast_inv; try eassumption; cbn; auto.
    + unfold holds in *; cbn; lia.
    + apply (i_ending _ _ _ I).
    + apply (i_up _ _ _ I).
    + apply (i_gone _ _ _ I).
  - (* take *)
    destruct (st (wk s w)) eqn:S; try discriminate. destruct (busy (wk s w)) eqn:B; try discriminate.
    destruct (queue (wk s w)) as [|m q] eqn:Q; [discriminate|]. injection E as <- <-.
    assert (W : w < fresh s). { destruct (Nat.le_gt_cases (fresh s) w) as [H|H]; [|assumption]. rewrite (i_new _ _ _ I w H) in S. discriminate. }
    apply inv_upd; auto; cbn.
    + pose proof (i_load _ _ _ I w) as L. unfold holds in *. rewrite Q, B in L. cbn in *. unfold waiting in *; cbn in *. lia.
    + unfold holds. rewrite Q, B. cbn. lia.
    + congruence.
    + intros _. apply (i_up _ _ _ I). congruence.
    + discriminate.
    + destruct (ph s) eqn:P; cbn; auto; [apply (i_send _ _ _ I _ _ _ P)|apply (i_cast _ _ _ I _ _ P)|apply (i_link _ _ _ I _ P)].
  - (* finish *)
    destruct (st (wk s w)) eqn:S; try discriminate. destruct (busy (wk s w)) as [m|] eqn:B; try discriminate.
    assert (W : w < fresh s). { destruct (Nat.le_gt_cases (fresh s) w) as [H|H]; [|assumption]. rewrite (i_new _ _ _ I w H) in S. discriminate. }
    assert (PO : ph_ok (slots s) (ph s)).
    { destruct (ph s) eqn:P; cbn; auto; [apply (i_send _ _ _ I _ _ _ P)|apply (i_cast _ _ _ I _ _ P)|apply (i_link _ _ _ I _ P)]. }
    pose proof (i_load _ _ _ I w) as L. unfold holds in L. rewrite B in L.
    destruct (snd m) as [ch|].
    + injection E as <- <-. apply inv_upd; auto; cbn.
      * unfold holds; cbn. unfold waiting in *; cbn in *. lia.
      * unfold holds. rewrite B, Nat.eqb_refl. cbn. lia.
      * intros v N. destruct (Nat.eqb_spec w v); first [congruence|reflexivity].
      * congruence.
      * intros _. apply (i_up _ _ _ I). congruence.
      * discriminate.
    + injection E as <- <-. apply inv_upd; auto; destruct ok; cbn.
      * unfold holds; cbn. unfold waiting in *; cbn in *. lia.
      * unfold holds; cbn. unfold waiting in *; cbn in *. lia.
      * unfold holds. rewrite B, Nat.eqb_refl. cbn. lia.
      * unfold holds. rewrite B, Nat.eqb_refl. cbn. lia.
      * intros v N. destruct (Nat.eqb_spec w v); first [congruence|reflexivity].
      * intros v N. destruct (Nat.eqb_spec w v); first [congruence|reflexivity].
      * congruence.
      * auto.
      * intros _. apply (i_up _ _ _ I). congruence.
      * congruence.
      * discriminate.
      * discriminate.
  - (* leave *)
    destruct (st (wk s w)) eqn:S; try discriminate. injection E as <- <-.
    assert (W : w < fresh s). { destruct (Nat.le_gt_cases (fresh s) w) as [H|H]; [|assumption]. rewrite (i_new _ _ _ I w H) in S. discriminate. }
    assert (PO : ph_ok (slots s) (ph s)).
    { destruct (ph s) eqn:P; cbn; auto; [apply (i_send _ _ _ I _ _ _ P)|apply (i_cast _ _ _ I _ _ P)|apply (i_link _ _ _ I _ P)]. }
    pose proof (i_load _ _ _ I w) as L. unfold holds in L.
    apply inv_upd; auto; cbn.
    + destruct (busy (wk s w)); reflexivity.
    + unfold holds; cbn. destruct (busy (wk s w)); unfold waiting in *; cbn in *; lia.
    + unfold holds. destruct (busy (wk s w)); cbn; rewrite ?Nat.eqb_refl; lia.
    + intros v N. destruct (busy (wk s w)); cbn; destruct (Nat.eqb_spec w v); first [congruence|reflexivity].
    + congruence.
    + discriminate.
  - (* tell *)
    destruct (st (wk s w)) eqn:S; try discriminate. destruct (to_tell (wk s w)) eqn:T; try discriminate.
    assert (W : w < fresh s). { destruct (Nat.le_gt_cases (fresh s) w) as [H|H]; [|assumption]. rewrite (i_new _ _ _ I w H) in S. discriminate. }
    assert (PO : ph_ok (slots s) (ph s)).
    { destruct (ph s) eqn:P; cbn; auto; [apply (i_send _ _ _ I _ _ _ P)|apply (i_cast _ _ _ I _ _ P)|apply (i_link _ _ _ I _ P)]. }
    pose proof (i_load _ _ _ I w) as L. pose proof (i_ending _ _ _ I w) as EN. rewrite S in EN.
    assert (X : forall ib, INV l0 (mk_pool (slots s) (put (wk s) w (mk_worker WEnding (cap (wk s w)) (queue (wk s w)) (busy (wk s w))
        (load (wk s w)) (linked (wk s w)) false)) (fresh s) ib (pcap s) (ph s)) (tr ++ [])).
    { intros ib. apply inv_upd; auto; cbn; discriminate. }
    destruct (ph s) eqn:P; try (destruct (has_room _ _); [|discriminate]); injection E as <- <-; try apply X.
    unfold with_worker. rewrite P. apply X.
  - (* gone *)
    destruct (st (wk s w)) eqn:S; try discriminate. destruct (to_tell (wk s w)) eqn:T; try discriminate.
    assert (W : w < fresh s). { destruct (Nat.le_gt_cases (fresh s) w) as [H|H]; [|assumption]. rewrite (i_new _ _ _ I w H) in S. discriminate. }
    assert (PO : ph_ok (slots s) (ph s)).
    { destruct (ph s) eqn:P; cbn; auto; [apply (i_send _ _ _ I _ _ _ P)|apply (i_cast _ _ _ I _ _ P)|apply (i_link _ _ _ I _ P)]. }
    injection E as <- <-. pose proof (i_load _ _ _ I w) as L. pose proof (i_ending _ _ _ I w) as EN. rewrite S in EN.
    destruct EN as [E1 E2]; [discriminate|]. unfold holds in L. rewrite E1 in L.
    apply inv_upd; auto; cbn.
    + apply workers_dropped.
    + rewrite E1. unfold holds; cbn. unfold waiting in *; cbn in *. lia.
    + rewrite given_dropped, done_dropped, Nat.eqb_refl, E1. unfold holds. rewrite E1. cbn. lia.
    + intros v N. rewrite given_dropped, done_dropped. destruct (Nat.eqb_spec w v); first [congruence|reflexivity].
Qed.

Lemma run_inv : forall l0 es s tr s' o, INV l0 s tr -> run s es = Some (s', o) -> INV l0 s' (tr ++ o).
Proof.
  intros l0. induction es as [|e es IH]; intros s tr s' o I R; cbn in R.
  - injection R as <- <-. rewrite app_nil_r; assumption.
  - destruct (step s e) as [[s1 o1]|] eqn:E; [|discriminate].
    destruct (run s1 es) as [[s2 o2]|] eqn:R2; [|discriminate]. injection R as <- <-.
    rewrite app_assoc. eapply IH; [|eassumption]. eapply step_inv; eassumption.
Qed.

Lemma reaches_inv : forall caps c es s tr, reaches caps c es s tr -> INV (seq 0 (length caps)) s tr.
Proof.
  intros caps c es s tr (s0 & N & R). apply (run_inv _ es s0 [] s tr); [|assumption].
  eapply init_inv; eassumption.
Qed.
