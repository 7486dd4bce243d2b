(** Proofs about [PubSub]. *)
From Coq Require Import List Bool PeanoNat Lia.
Import ListNotations.
From Verif Require Import Errors Delivery PubSub Delivery_spec PubSub_spec Delivery_proofs.

Set Implicit Arguments.

Section Proofs.
  Context {fil msg : Type}.
  Variable call : fil -> msg -> option (bool * fil).
  Local Notation pobs := (@pobs fil msg).
  Local Notation pstate := (@pstate fil msg).
  Local Notation pevent := (@pevent fil msg).
  Local Notation pstep := (@pstep fil msg call).
  Local Notation prun := (@prun fil msg call).
  Local Notation filter_after := (@filter_after fil msg call).
  Local Notation advance := (@advance fil msg call).
  Local Notation accepts := (@accepts fil msg call).
  Local Notation wants := (@wants fil msg call).
  Local Notation subscribers := (@subscribers fil).

  (** *** The map *)

  Lemma lookup_in : forall (l : subscribers) a f, NoDup (map fst l) -> (lookup a l = Some f <-> In (a, f) l).
  Proof.
    induction l as [|[a' f'] l IH]; intros a f N; cbn; [split; [discriminate|tauto]|].
    inversion N as [|? ? NI N']; subst. destruct (Nat.eqb_spec a' a) as [->|D].
    - split; [intro H; injection H as ->; auto|]. intros [H|H]; [congruence|]. exfalso. apply NI.
      change a with (fst (a, f)). now apply in_map.
    - rewrite IH by assumption. split; [auto|]. intros [H|H]; [congruence|assumption].
  Qed.

  Lemma lookup_none : forall (l : subscribers) a, lookup a l = None <-> ~ In a (map fst l).
  Proof.
    induction l as [|[a' f'] l IH]; intros a; cbn; [tauto|].
    destruct (Nat.eqb_spec a' a) as [->|D]; [split; [discriminate|tauto]|]. rewrite IH. tauto.
  Qed.

  Lemma lookup_insert : forall (l : subscribers) a f b, lookup b (insert a f l) = if a =? b then Some f else lookup b l.
  Proof.
    induction l as [|[a' f'] l IH]; intros a f b; cbn; [reflexivity|].
    destruct (Nat.eqb_spec a' a) as [->|D]; cbn.
    - destruct (Nat.eqb_spec a b); reflexivity.
    - destruct (Nat.eqb_spec a' b) as [->|D']; [destruct (Nat.eqb_spec a b); congruence|apply IH].
  Qed.

  Lemma in_insert : forall (l : subscribers) a f b, In b (map fst (insert a f l)) <-> b = a \/ In b (map fst l).
  Proof.
    induction l as [|[a' f'] l IH]; intros a f b; cbn; [intuition|].
    destruct (Nat.eqb_spec a' a) as [->|D]; cbn; [intuition|]. rewrite IH. intuition.
  Qed.

  Lemma nodup_insert : forall (l : subscribers) a f, NoDup (map fst l) -> NoDup (map fst (insert a f l)).
  Proof.
    induction l as [|[a' f'] l IH]; intros a f N; cbn; [constructor; [intros []|constructor]|].
    inversion N as [|? ? NI N']; subst. destruct (Nat.eqb_spec a' a) as [->|D]; cbn; [assumption|].
    constructor; [|auto]. rewrite in_insert. intuition.
  Qed.

  Lemma lookup_remove : forall (l : subscribers) a b, lookup b (remove a l) = if a =? b then None else lookup b l.
  Proof.
    induction l as [|[a' f'] l IH]; intros a b; cbn; [now destruct (a =? b)|].
    destruct (Nat.eqb_spec a' a) as [->|D]; cbn [negb].
    - fold (remove a l). rewrite IH. destruct (Nat.eqb_spec a b); reflexivity.
    - cbn. fold (remove a l). rewrite IH. destruct (Nat.eqb_spec a' b) as [->|]; [|reflexivity].
      destruct (Nat.eqb_spec a b); congruence.
  Qed.

  Lemma nodup_remove : forall (l : subscribers) a, NoDup (map fst l) -> NoDup (map fst (remove a l)).
  Proof.
    induction l as [|[a' f'] l IH]; intros a N; cbn; [constructor|].
    inversion N as [|? ? NI N']; subst. destruct (a' =? a); cbn; [apply IH; assumption|].
    constructor; [|apply IH; assumption]. intro I. apply NI. apply in_map_iff in I. destruct I as ([b g] & Q & I).
    cbn in Q. subst b. apply filter_In in I. apply in_map_iff. exists (a', g). split; [reflexivity|tauto].
  Qed.

  Lemma lookup_removes : forall d (l : subscribers) b,
    lookup b (fold_left (fun l a => remove a l) d l) = if existsb (Nat.eqb b) d then None else lookup b l.
  Proof.
    induction d as [|a d IH]; intros l b; cbn; [reflexivity|]. rewrite IH, lookup_remove, (Nat.eqb_sym a b).
    destruct (b =? a); cbn; [now destruct (existsb (Nat.eqb b) d)|reflexivity].
  Qed.

  Lemma nodup_removes : forall d (l : subscribers), NoDup (map fst l) -> NoDup (map fst (fold_left (fun l a => remove a l) d l)).
  Proof. induction d as [|a d IH]; intros l N; cbn; [assumption|]. apply IH. now apply nodup_remove. Qed.

  Lemma swap_perm : forall (A : Type) i (l : list A) x, In x (swap_at i l) <-> In x l.
  Proof.
    intros A. induction i as [|i IH]; intros [|y l] x; cbn; try tauto.
    - destruct l as [|z l]; cbn; tauto.
    - rewrite IH. tauto.
  Qed.

  Lemma map_swap : forall (A B : Type) (f : A -> B) i l, map f (swap_at i l) = swap_at i (map f l).
  Proof.
    intros A B f. induction i as [|i IH]; intros [|y l]; cbn; try reflexivity.
    - destruct l; reflexivity.
    - now rewrite IH.
  Qed.

  Lemma nodup_swap : forall (A : Type) i (l : list A), NoDup l -> NoDup (swap_at i l).
  Proof.
    intros A. induction i as [|i IH]; intros [|y l] N; cbn; try assumption.
    - destruct l as [|z l]; [assumption|]. inversion N as [|? ? NI N']; subst. inversion N' as [|? ? NI' N'']; subst.
      constructor; [|constructor; [|assumption]]; cbn in *; [intuition congruence|tauto].
    - inversion N as [|? ? NI N']; subst. constructor; [|auto]. now rewrite swap_perm.
  Qed.

  Lemma lookup_swap : forall i (l : subscribers) a, NoDup (map fst l) -> lookup a (swap_at i l) = lookup a l.
  Proof.
    intros i l a N. assert (N' : NoDup (map fst (swap_at i l))) by (rewrite map_swap; now apply nodup_swap).
    destruct (lookup a l) as [f|] eqn:L.
    - apply lookup_in; [assumption|]. rewrite swap_perm. now apply lookup_in.
    - apply lookup_none. rewrite map_swap, swap_perm. now apply lookup_none.
  Qed.

  (** *** The filters *)

  Lemma call_fn_advance : forall f m b f', call_fn call f m = Some (b, f') -> f' = advance m f /\ (b = true <-> accepts m f).
  Proof.
    intros [|f] m b f' C; cbn in *; [injection C as <- <-; split; [reflexivity|tauto]|].
    destruct (call f m) as [[b0 f0]|] eqn:Q; [|discriminate]. injection C as <- <-. split; [reflexivity|].
    split; [intros ->; eauto|]. intros [f1 E]. congruence.
  Qed.

  Lemma call_all_out : forall m (l l' : subscribers) acc, call_all call m l = inl (l', acc) ->
    map fst l' = map fst l /\ (forall a, lookup a l' = option_map (advance m) (lookup a l)) /\
    (NoDup (map fst l) -> NoDup acc /\ (forall a, In a acc -> In a (map fst l)) /\
       forall a, In a acc <-> exists f, lookup a l = Some f /\ accepts m f).
  Proof.
    intros m. induction l as [|[a f] l IH]; intros l' acc C; cbn in C.
    - injection C as <- <-. split; [reflexivity|]. split; [reflexivity|]. intros _. split; [constructor|].
      split; [intros a []|]. intro a. split; [intros []|]. intros (f & Q & _). discriminate.
    - destruct (call_fn call f m) as [[b f']|] eqn:CF; [|discriminate]. apply call_fn_advance in CF. destruct CF as [-> BA].
      destruct (call_all call m l) as [[l0 acc0]|] eqn:CA; [|discriminate]. injection C as <- <-.
      destruct (IH _ _ eq_refl) as (M & L & R). split; [cbn; congruence|].
      split; [intro x; cbn; destruct (a =? x); [reflexivity|apply L]|].
      intro N. inversion N as [|? ? NI N']; subst. destruct (R N') as (R1 & R2 & R3).
      split; [|split].
      + destruct b; [|assumption]. constructor; [|assumption]. intro I. apply NI. now apply R2.
      + intros x I. cbn. destruct b; [destruct I as [I|I]; auto|auto].
      + intro x. cbn [lookup]. destruct (Nat.eqb_spec a x) as [->|D].
        * destruct b.
          -- split; [|now left]. intros _. exists f. tauto.
          -- split; [intro I; exfalso; apply NI; now apply R2|].
             intros (f1 & Q & A). injection Q as <-. apply BA in A. discriminate.
        * rewrite <- R3. destruct b; [|tauto]. cbn. intuition congruence.
  Qed.

  (** *** Histories *)

  Lemma filter_after_snoc : forall h h' a,
    filter_after (h ++ h') a =
    fold_left (fun c o =>
      match o with
      | POSubscribed a' f => if a' =? a then Some f else c
      | POPublished _ m => option_map (advance m) c
      | POExpired a' => if a' =? a then None else c
      | _ => c
      end) h' (filter_after h a).
  Proof. intros. unfold PubSub_spec.filter_after. now rewrite fold_left_app. Qed.

  Lemma sent_app : forall n a (x y : list pobs), sent n a (x ++ y) = sent n a x + sent n a y.
  Proof. intros. unfold sent. now rewrite filter_app, app_length. Qed.
  Lemma pubs_app : forall (x y : list pobs), publications (x ++ y) = publications x + publications y.
  Proof. intros. unfold publications. now rewrite filter_app, app_length. Qed.

  (** Neither changes the map nor begins, ends or settles anything. *)
  Definition plain (o : pobs) : Prop :=
    match o with PORead _ _ | POEnded _ => True | _ => False end.
  (** What may be observed while a publication is under way. *)
  Definition pinner (o : pobs) : Prop :=
    match o with PORead _ _ | POEnded _ | POSettled _ _ _ => True | _ => False end.
  Definition pnum (o : pobs) : option nat :=
    match o with POPublished n _ | POPanicked n _ | POSettled n _ _ | POFinished n => Some n | _ => None end.

  Lemma split_snoc : forall (A : Type) (x y : list A) u z v, x ++ y = u ++ z :: v -> ~ In z y ->
    exists v', x = u ++ z :: v' /\ v = v' ++ y.
  Proof.
    intros A. induction x as [|c x IH]; intros y u z v E N.
    - cbn in E. exfalso. apply N. rewrite E. apply in_or_app. right. now left.
    - destruct u as [|d u]; cbn in E; injection E as -> E.
      + exists x. auto.
      + destruct (IH _ _ _ _ E N) as (v' & -> & ->). exists v'. auto.
  Qed.

  Lemma split_unique : forall (A : Type) (f : A -> bool) (x y : list A) p q u v,
    x ++ p :: u = y ++ q :: v -> f p = true -> f q = true -> length (filter f x) = length (filter f y) ->
    x = y /\ p = q /\ u = v.
  Proof.
    intros A f. induction x as [|c x IH]; intros [|d y] p q u v E P Q L; cbn in *.
    - injection E. auto.
    - injection E as -> E. rewrite P in L. cbn in L. discriminate.
    - injection E as -> E. rewrite Q in L. cbn in L. discriminate.
    - injection E as -> E. destruct (f d); cbn in L; destruct (IH y p q u v E P Q) as (-> & -> & ->); auto; lia.
  Qed.

  Definition current (s : pstate) (tr : list pobs) : Prop :=
    match pph s with
    | Publishing n m sends =>
        published s = S n /\ ~ In (POFinished n) tr /\
        exists T1 T2, tr = T1 ++ POPublished n m :: T2 /\ Forall pinner T2 /\
          NoDup (map fst sends) /\ (forall a, In a (map fst sends) <-> wants T1 m a) /\
          (forall a x, In (a, Some x) sends <-> In (POSettled n a x) tr) /\
          (forall a, sent n a tr = if existsb (fun e => (fst e =? a) && match snd e with Some _ => true | None => false end) sends then 1 else 0)
    | _ => True
    end.

  Definition history (tr : list pobs) : Prop :=
    forall T1 n m T2, tr = T1 ++ POPublished n m :: T2 ->
      n = publications T1 /\ forall a,
        sent n a tr <= 1 /\ (sent n a tr = 1 -> wants T1 m a) /\
        (In (POFinished n) tr -> wants T1 m a -> sent n a tr = 1).

  Record PINV (s : pstate) (tr : list pobs) : Prop := mk_PINV {
    p_nodup : NoDup (map fst (psubs s));
    p_table : pph s <> PStopped -> forall a, lookup a (psubs s) = filter_after tr a;
    p_num : publications tr = published s;
    p_bound : forall o n, In o tr -> pnum o = Some n -> n < published s;
    p_cur : current s tr;
    p_hist : history tr
  }.

  Lemma filter_after_calm : forall l h a, Forall (fun o => plain o \/ pinner o) l -> filter_after (h ++ l) a = filter_after h a.
  Proof.
    intros l h a F. rewrite filter_after_snoc. generalize (filter_after h a).
    induction F as [|o l [P|P] F IH]; intro c; [reflexivity| |]; cbn; destruct o; cbn in P; try tauto; apply IH.
  Qed.

  Lemma plain_sent : forall l n a, Forall plain l -> sent n a l = 0.
  Proof.
    intros l n a F. unfold sent. induction F as [|o l P F IH]; [reflexivity|]. cbn. destruct o; cbn in P; tauto.
  Qed.
  Lemma inner_pubs : forall l, Forall pinner l -> publications l = 0.
  Proof.
    intros l F. unfold publications. induction F as [|o l P F IH]; [reflexivity|]. cbn. destruct o; cbn in P; tauto.
  Qed.
  Lemma plain_inner : forall l, Forall plain l -> Forall pinner l.
  Proof. intros l F. eapply Forall_impl; [|exact F]. intros []; cbn; tauto. Qed.
  Lemma not_in_inner : forall l (o : pobs), Forall pinner l -> ~ pinner o -> ~ In o l.
  Proof. intros l o F N I. rewrite Forall_forall in F. auto. Qed.

  Lemma sent_unborn : forall tr k n a, (forall o n, In o tr -> pnum o = Some n -> n < k) -> k <= n -> sent n a tr = 0.
  Proof.
    intros tr k n a B L. unfold sent. induction tr as [|o tr IH]; [reflexivity|].
    assert (IH' := IH (fun o n I => B o n (or_intror I))). cbn. destruct o; try exact IH'.
    destruct (Nat.eqb_spec n0 n) as [->|]; [|exact IH']. specialize (B (POSettled n a0 x) n (or_introl eq_refl) eq_refl). lia.
  Qed.

  Lemma hist_plain : forall tr o, history tr -> Forall plain o -> history (tr ++ o).
  Proof.
    intros tr o H F T1 n m T2 E. apply split_snoc in E; [|apply not_in_inner; [now apply plain_inner|cbn; tauto]].
    destruct E as (v & -> & ->). destruct (H _ _ _ _ eq_refl) as [N A]. split; [assumption|]. intro a.
    rewrite sent_app, (plain_sent _ _ F), Nat.add_0_r. destruct (A a) as (A1 & A2 & A3). repeat split; auto.
    intros I W. apply in_app_or in I. destruct I as [I|I]; [auto|]. exfalso. revert I.
    apply not_in_inner; [now apply plain_inner|cbn; tauto].
  Qed.

  Lemma inv_plain : forall s tr s' o, PINV s tr ->
    psubs s' = psubs s \/ (exists i, psubs s' = swap_at i (psubs s)) ->
    pph s' = pph s \/ pph s' = PStopped -> published s' = published s -> Forall plain o -> PINV s' (tr ++ o).
  Proof.
    intros s tr s' o [ND TB NM BD CU HI] SU PH PB F.
    assert (FA : forall a, filter_after (tr ++ o) a = filter_after tr a).
    { intro a. apply filter_after_calm. eapply Forall_impl; [|exact F]. auto. }
    constructor.
    - destruct SU as [->|[i ->]]; [assumption|]. rewrite map_swap. now apply nodup_swap.
    - intros NS a. rewrite FA. assert (NS0 : pph s <> PStopped) by (destruct PH; congruence).
      rewrite <- TB by assumption. destruct SU as [->|[i ->]]; [reflexivity|]. now apply lookup_swap.
    - rewrite pubs_app, (inner_pubs (plain_inner F)). lia.
    - rewrite PB. intros x n I N. apply in_app_or in I. destruct I as [I|I]; [eauto|].
      rewrite Forall_forall in F. specialize (F _ I). destruct x; cbn in F; try tauto; discriminate.
    - unfold current in *. destruct PH as [-> | ->]; [|exact Logic.I].
      destruct (pph s) as [|n m sends|]; auto. destruct CU as (C1 & C2 & T1 & T2 & -> & C3 & C4 & C5 & C6 & C7).
      rewrite PB. split; [assumption|]. split.
      { intro I. apply in_app_or in I. destruct I as [I|I]; [tauto|]. revert I.
        apply not_in_inner; [now apply plain_inner|cbn; tauto]. }
      exists T1, (T2 ++ o). split; [now rewrite <- app_assoc|]. split; [apply Forall_app; split; [assumption|now apply plain_inner]|].
      split; [assumption|]. split; [assumption|]. split.
      + intros a x. rewrite C6. split; [intro I; apply in_or_app; auto|]. intro I. apply in_app_or in I.
        destruct I as [I|I]; [assumption|]. rewrite Forall_forall in F. destruct (F _ I).
      + intro a. rewrite sent_app, (plain_sent _ _ F), Nat.add_0_r. apply C7.
    - now apply hist_plain.
  Qed.

  (** *** The sends of a publication *)

  Lemma nth_split_set : forall (A : Type) i (l : list A) x y, nth_error l i = Some x ->
    exists l1 l2, l = l1 ++ x :: l2 /\ set_nth i y l = l1 ++ y :: l2.
  Proof.
    intros A. induction i as [|i IH]; intros [|z l] x y E; cbn in *; try discriminate.
    - injection E as ->. exists [], l. auto.
    - destruct (IH _ _ y E) as (l1 & l2 & -> & Q). exists (z :: l1), l2. cbn. now rewrite Q.
  Qed.

  Lemma existsb_none : forall (a : nat) (l : list (nat * option (told msg))), ~ In a (map fst l) ->
    existsb (fun e => (fst e =? a) && match snd e with Some _ => true | None => false end) l = false.
  Proof.
    intros a l N. destruct (existsb _ l) eqn:E; [|reflexivity]. apply existsb_exists in E. destruct E as ([b x] & I & E).
    cbn in E. apply andb_true_iff in E. destruct E as [E _]. apply Nat.eqb_eq in E. subst b. exfalso. apply N.
    change a with (fst (a, x)). now apply in_map.
  Qed.

  Lemma step_settle : forall s tr n m sends i a b x, PINV s tr -> pph s = Publishing n m sends ->
    nth_error sends i = Some (a, None) ->
    PINV (mk_pstate (psubs s) (Publishing n m (set_nth i (a, Some x) sends)) (pinbox s) (upd (pboxes s) a b) (published s))
         (tr ++ [POSettled n a x]).
  Proof.
    intros s tr n m sends i a b x [ND TB NM BD CU HI] P NE. unfold current in CU. rewrite P in CU.
    destruct CU as (C1 & C2 & T1 & T2 & E & C3 & C4 & C5 & C6 & C7).
    destruct (@nth_split_set _ i sends (a, None) (a, Some x) NE) as (l1 & l2 & SE & SN). rewrite SN.
    assert (MF : map fst (l1 ++ (a, Some x) :: l2) = map fst sends) by (rewrite SE, !map_app; reflexivity).
    assert (N12 : ~ In a (map fst l1) /\ ~ In a (map fst l2)).
    { rewrite SE, map_app in C4. cbn in C4. apply NoDup_remove in C4. destruct C4 as [_ C4]. split; intro I; apply C4; apply in_or_app; auto. }
    assert (S0 : sent n a tr = 0).
    { rewrite C7, SE, existsb_app. cbn [existsb]. rewrite (existsb_none _ _ (proj1 N12)), (existsb_none _ _ (proj2 N12)).
      cbn. now rewrite andb_false_r. }
    assert (SX : forall n' a', sent n' a' ([POSettled n a x] : list pobs) = if (n =? n') && (a =? a') then 1 else 0).
    { intros n' a'. unfold sent. cbn. now destruct ((n =? n') && (a =? a')). }
    constructor; cbn [psubs pph published].
    - assumption.
    - intros _ a'. rewrite filter_after_snoc. cbn. apply TB. congruence.
    - rewrite pubs_app. cbn. unfold publications in *. cbn. lia.
    - intros o n' I N. apply in_app_or in I. destruct I as [I|[<-|[]]]; [eauto|]. cbn in N. injection N as <-. lia.
    - unfold current. cbn [pph published]. split; [assumption|]. split.
      { intro I. apply in_app_or in I. destruct I as [I|[I|[]]]; [tauto|discriminate]. }
      exists T1, (T2 ++ [POSettled n a x]). split; [rewrite E; now rewrite <- app_assoc|].
      split; [apply Forall_app; split; [assumption|repeat constructor]|]. rewrite MF. split; [assumption|]. split; [assumption|]. split.
      + intros a' x'. rewrite !in_app_iff, <- C6, SE, in_app_iff. cbn. split.
        * intros [I|[I|I]]; [auto|injection I as <- <-; auto|auto].
        * intros [[I|[I|I]]|[I|[]]]; auto; [discriminate|injection I as <- <-; auto].
      + intro a'. rewrite sent_app, SX, Nat.eqb_refl, C7, SE, !existsb_app. cbn [existsb fst snd].
        rewrite andb_false_r, andb_true_r. cbn [andb orb].
        destruct (Nat.eqb_spec a a') as [->|D].
        * now rewrite (existsb_none _ _ (proj1 N12)), (existsb_none _ _ (proj2 N12)).
        * cbn [orb]. apply Nat.add_0_r.
    - intros T1' n' m' T2' E'. apply split_snoc in E'; [|intros [I|[]]; discriminate].
      destruct E' as (v & E' & ->). destruct (HI _ _ _ _ E') as [N A]. split; [assumption|]. intro a'.
      rewrite sent_app, SX. destruct (A a') as (A1 & A2 & A3).
      destruct (Nat.eqb_spec n n') as [->|D].
      + destruct (Nat.eqb_spec a a') as [->|D']; cbn [andb].
        * rewrite S0. split; [lia|]. split; [|reflexivity]. intros _.
          rewrite E in E'. destruct (HI _ _ _ _ E) as [N0 _].
          apply (@split_unique _ (fun o => match o with POPublished _ _ => true | _ => false end)) in E'; try reflexivity;
            [|unfold publications in *; congruence].
          destruct E' as (<- & Q & _). injection Q as <-. apply C5. rewrite <- MF, map_app. apply in_or_app. right. now left.
        * rewrite Nat.add_0_r. repeat split; auto. intros I W. apply in_app_or in I. destruct I as [I|[I|[]]]; [auto|discriminate].
      + cbn [andb]. rewrite Nat.add_0_r. repeat split; auto. intros I W. apply in_app_or in I. destruct I as [I|[I|[]]]; [auto|discriminate].
  Qed.

  (** *** The end of a publication *)

  Lemma expired_fa : forall d h a, filter_after (h ++ map POExpired d) a = if existsb (Nat.eqb a) d then None else filter_after h a.
  Proof.
    intros d h a. rewrite filter_after_snoc. generalize (filter_after h a).
    induction d as [|b d IH]; intro c; cbn; [reflexivity|]. rewrite IH, (Nat.eqb_sym b a).
    destruct (a =? b); cbn; [now destruct (existsb (Nat.eqb a) d)|reflexivity].
  Qed.

  Lemma expired_sent : forall d n a k, sent n a (map POExpired d ++ [POFinished k] : list pobs) = 0.
  Proof. intros d n a k. unfold sent. induction d; cbn; auto. Qed.
  Lemma expired_pubs : forall d k, publications (map POExpired d ++ [POFinished k] : list pobs) = 0.
  Proof. intros d k. unfold publications. induction d; cbn; auto. Qed.

  Lemma step_finish : forall s tr n m sends, PINV s tr -> pph s = Publishing n m sends -> all_settled sends = true ->
    PINV (mk_pstate (fold_left (fun l a => remove a l) (dead_of sends) (psubs s)) PIdle (pinbox s) (pboxes s) (published s))
         (tr ++ map POExpired (dead_of sends) ++ [POFinished n]).
  Proof.
    intros s tr n m sends [ND TB NM BD CU HI] P AS. unfold current in CU. rewrite P in CU.
    destruct CU as (C1 & C2 & T1 & T2 & E & C3 & C4 & C5 & C6 & C7).
    constructor; cbn [psubs pph published].
    - now apply nodup_removes.
    - intros _ a. rewrite lookup_removes, TB by congruence. rewrite app_assoc, filter_after_snoc. cbn. now rewrite expired_fa.
    - rewrite pubs_app, expired_pubs. lia.
    - intros o n' I N. apply in_app_or in I. destruct I as [I|I]; [eauto|]. apply in_app_or in I. destruct I as [I|[<-|[]]].
      + apply in_map_iff in I. destruct I as (x & <- & _). discriminate.
      + cbn in N. injection N as <-. lia.
    - exact Logic.I.
    - intros T1' n' m' T2' E'. apply split_snoc in E'.
      2:{ intro I. apply in_app_or in I. destruct I as [I|[I|[]]]; [|discriminate]. apply in_map_iff in I. destruct I as (x & Q & _). discriminate. }
      destruct E' as (v & E' & ->). destruct (HI _ _ _ _ E') as [N A]. split; [assumption|]. intro a.
      rewrite sent_app, expired_sent, Nat.add_0_r. destruct (A a) as (A1 & A2 & A3). repeat split; auto.
      intros I W. apply in_app_or in I. destruct I as [I|I]; [auto|].
      apply in_app_or in I. destruct I as [I|[I|[]]]; [apply in_map_iff in I; destruct I as (x & Q & _); discriminate|].
      injection I as <-.
      rewrite E in E'. destruct (HI _ _ _ _ E) as [N0 _].
      apply (@split_unique _ (fun o => match o with POPublished _ _ => true | _ => false end)) in E'; try reflexivity;
        [|unfold publications in *; congruence].
      destruct E' as (<- & Q & _). injection Q as <-. apply C5 in W. rewrite C7.
      apply in_map_iff in W. destruct W as ([b y] & Q & W). cbn in Q. subst b.
      unfold all_settled in AS. rewrite forallb_forall in AS. specialize (AS _ W). cbn in AS.
      replace (existsb _ sends) with true; [reflexivity|]. symmetry. apply existsb_exists. exists (a, y).
      split; [assumption|]. cbn. rewrite Nat.eqb_refl. now destruct y.
  Qed.

  (** *** The beginning of a publication *)

  Lemma hist_publish : forall s tr m o, PINV s tr -> history tr -> (o = [] \/ exists a, o = [POPanicked (published s) a]) ->
    history (tr ++ POPublished (published s) m :: o).
  Proof.
    intros s tr m o [ND TB NM BD CU HI] _ O T1 n m' T2 E.
    assert (SO : forall n a, sent n a (POPublished (published s) m :: o) = 0) by (intros; destruct O as [->|[? ->]]; reflexivity).
    assert (NF : forall k, In (POFinished k) (tr ++ POPublished (published s) m :: o) -> In (POFinished k) tr).
    { intros k I. apply in_app_or in I. destruct I as [I|I]; [assumption|].
      destruct O as [->|[? ->]]; repeat (destruct I as [I|I]; [discriminate|]); destruct I. }
    assert (LAST : {n = published s /\ m' = m /\ T1 = tr} + {exists v, tr = T1 ++ POPublished n m' :: v}).
    { destruct (Nat.eq_dec (publications T1) (publications tr)) as [Q|Q].
      - left. symmetry in E. apply (@split_unique _ (fun o => match o with POPublished _ _ => true | _ => false end)) in E; try reflexivity; [|exact Q].
        destruct E as (-> & X & _). injection X as -> ->. auto.
      - right. replace (tr ++ POPublished (published s) m :: o) with ((tr ++ [POPublished (published s) m]) ++ o) in E by now rewrite <- app_assoc.
        apply split_snoc in E; [|destruct O as [->|[? ->]]; [intros []|intros [I|[]]; discriminate]].
        destruct E as (v & E & _). destruct v as [|y v] using rev_ind.
        + exfalso. apply Q. apply app_inj_tail in E. destruct E as [-> _]. reflexivity.
        + rewrite app_comm_cons, app_assoc in E. apply app_inj_tail in E. destruct E as [-> _]. eauto. }
    destruct LAST as [(-> & -> & ->)|[v E']].
    - split; [congruence|]. intro a. rewrite sent_app, SO, (@sent_unborn tr (published s) (published s) a BD (le_n _)).
      split; [cbn; lia|]. split; [discriminate|]. intros I. apply NF in I. exfalso.
      specialize (BD _ _ I eq_refl). lia.
    - destruct (HI _ _ _ _ E') as [N A]. split; [assumption|]. intro a. rewrite sent_app, SO, Nat.add_0_r.
      destruct (A a) as (A1 & A2 & A3). repeat split; auto.
  Qed.

  Lemma step_publish : forall s tr m l acc ib, PINV s tr -> pph s = PIdle -> call_all call m (psubs s) = inl (l, acc) ->
    PINV (mk_pstate l (Publishing (published s) m (map (fun a => (a, None)) acc)) ib (pboxes s) (S (published s)))
         (tr ++ [POPublished (published s) m]).
  Proof.
    intros s tr m l acc ib H P CA. pose proof H as [ND TB NM BD CU HI].
    destruct (call_all_out _ _ CA) as (M & L & R). destruct (R ND) as (R1 & R2 & R3).
    assert (MM : map fst (map (fun a : nat => (a, @None (told msg))) acc) = acc).
    { rewrite map_map. cbn. apply map_id. }
    constructor; cbn [psubs pph published].
    - congruence.
    - intros _ a. rewrite L, filter_after_snoc. cbn. f_equal. apply TB. congruence.
    - rewrite pubs_app. unfold publications in *. cbn. lia.
    - intros o n I N. apply in_app_or in I. destruct I as [I|[<-|[]]].
      + specialize (BD _ _ I N). lia.
      + cbn in N. injection N as <-. lia.
    - unfold current. cbn [pph published]. split; [reflexivity|]. split.
      { intro I. apply in_app_or in I. destruct I as [I|[I|[]]]; [|discriminate]. specialize (BD _ _ I eq_refl). lia. }
      exists tr, []. split; [reflexivity|]. split; [constructor|]. rewrite MM. split; [assumption|]. split.
      { intro a. rewrite R3. unfold PubSub_spec.wants. setoid_rewrite <- TB; [reflexivity|congruence]. }
      split.
      + intros a x. split.
        * intro I. apply in_map_iff in I. destruct I as (? & Q & _). discriminate.
        * intro I. apply in_app_or in I. destruct I as [I|[I|[]]]; [|discriminate]. specialize (BD _ _ I eq_refl). lia.
      + intro a. rewrite sent_app, (@sent_unborn tr (published s) (published s) a BD (le_n _)).
        replace (existsb _ (map (fun a0 : nat => (a0, None)) acc)) with false; [reflexivity|].
        symmetry. clear. induction acc as [|b acc IH]; [reflexivity|]. cbn. now rewrite andb_false_r.
    - eapply hist_publish; eauto.
  Qed.

  Lemma step_pinv : forall s e s' o tr, PINV s tr -> pstep s e = Some (s', o) -> PINV s' (tr ++ o).
  Proof.
    intros s e s' o tr H E. pose proof H as [ND TB NM BD CU HI].
    destruct e; cbn in E.
    - destruct (bopen (pinbox s) && room (pinbox s)); [|discriminate]. injection E as <- <-.
      eapply inv_plain; cbn; eauto.
    - destruct (pph s) eqn:P; try discriminate. destruct (items (pinbox s)) as [|[a f|m] q]; try discriminate.
      + injection E as <- <-. constructor; cbn [psubs pph published].
        * now apply nodup_insert.
        * intros _ x. rewrite lookup_insert, filter_after_snoc. cbn. rewrite TB by congruence. reflexivity.
        * rewrite pubs_app. unfold publications in *. cbn. lia.
        * intros o n I N. apply in_app_or in I. destruct I as [I|[<-|[]]]; [eauto|discriminate].
        * exact Logic.I.
        * intros T1 n m T2 E. apply split_snoc in E; [|intros [I|[]]; discriminate]. destruct E as (v & -> & ->).
          destruct (HI _ _ _ _ eq_refl) as [N A]. split; [assumption|]. intro x. rewrite sent_app.
          change (sent n x [POSubscribed a f]) with 0. rewrite Nat.add_0_r. destruct (A x) as (A1 & A2 & A3). repeat split; auto.
          intros I W. apply in_app_or in I. destruct I as [I|[I|[]]]; [auto|discriminate].
      + destruct (call_all call m (psubs s)) as [[l acc]|a] eqn:CA.
        * injection E as <- <-. now apply step_publish.
        * injection E as <- <-. constructor; cbn [psubs pph published].
          -- assumption.
          -- congruence.
          -- rewrite pubs_app. unfold publications in *. cbn. lia.
          -- intros o n I N. apply in_app_or in I. destruct I as [I|[<-|[<-|[]]]]; try (cbn in N; injection N as <-; lia).
             specialize (BD _ _ I N). lia.
          -- exact Logic.I.
          -- eapply hist_publish; eauto.
    - destruct (pph s) as [|n m sends|] eqn:P; try discriminate. destruct (nth_error sends i) as [[a [x|]]|] eqn:NE; try discriminate.
      destruct (poll_tell false (pboxes s a) (Copy n m) m) as [[b x]|].
      + injection E as <- <-. eapply step_settle; eassumption.
      + injection E as <- <-. now rewrite app_nil_r.
    - destruct (pph s) as [|n m sends|] eqn:P; try discriminate. destruct (all_settled sends) eqn:AS; [|discriminate].
      injection E as <- <-. eapply step_finish; eassumption.
    - injection E as <- <-. eapply inv_plain; cbn; eauto.
    - destruct (bopen (pboxes s a) && room (pboxes s a)); [|discriminate]. injection E as <- <-. eapply inv_plain; cbn; eauto.
    - destruct (items (pboxes s a)) as [|i q]; [discriminate|]. injection E as <- <-. eapply inv_plain; cbn; eauto. repeat constructor.
    - injection E as <- <-. eapply inv_plain; cbn; eauto. repeat constructor.
    - destruct (bopen (pboxes s a) && room (pboxes s a)); [|discriminate]. injection E as <- <-. eapply inv_plain; cbn; eauto.
    - destruct (held (pboxes s a)) as [|h]; [discriminate|]. injection E as <- <-. eapply inv_plain; cbn; eauto.
    - destruct (pph s) eqn:P; try discriminate. injection E as <- <-. eapply inv_plain; cbn; eauto.
  Qed.

  Lemma init_pinv : forall cap caps, PINV (pinit cap caps) [].
  Proof.
    intros. constructor; cbn; try reflexivity; try (intros; contradiction); try exact Logic.I.
    - constructor.
    - intros T1 n m T2 E. destruct T1; discriminate.
  Qed.

  Lemma prun_app : forall es1 s es2,
    prun s (es1 ++ es2) =
    match prun s es1 with
    | Some (s1, o1) => match prun s1 es2 with Some (s2, o2) => Some (s2, o1 ++ o2) | None => None end
    | None => None
    end.
  Proof.
    induction es1 as [|e es1 IH]; intros s es2; cbn.
    - destruct (prun s es2) as [[s2 o2]|]; reflexivity.
    - destruct (pstep s e) as [[s1 o1]|]; [|reflexivity]. rewrite IH.
      destruct (prun s1 es1) as [[s2 o2]|]; [|reflexivity].
      destruct (prun s2 es2) as [[s3 o3]|]; [|reflexivity]. now rewrite app_assoc.
  Qed.

  (** Induction over runs from the end. *)
  Lemma run_ind : forall (P : list pevent -> pstate -> list pobs -> Prop) cap caps,
    P [] (pinit cap caps) [] ->
    (forall es s tr e s' o, prun (pinit cap caps) es = Some (s, tr) -> P es s tr -> pstep s e = Some (s', o) ->
       P (es ++ [e]) s' (tr ++ o)) ->
    forall es s tr, prun (pinit cap caps) es = Some (s, tr) -> P es s tr.
  Proof.
    intros P cap caps H0 HS. induction es as [|e es IH] using rev_ind; intros s tr R.
    - cbn in R. injection R as <- <-. assumption.
    - rewrite prun_app in R. destruct (prun (pinit cap caps) es) as [[s1 tr1]|] eqn:R1; [|discriminate].
      cbn in R. destruct (pstep s1 e) as [[s2 o]|] eqn:ST; [|discriminate]. injection R as <- <-. rewrite app_nil_r.
      eapply HS; [exact R1|apply IH; reflexivity|exact ST].
  Qed.

  Lemma reach_pinv : forall cap caps es s tr, prun (pinit cap caps) es = Some (s, tr) -> PINV s tr.
  Proof.
    intros cap caps. apply (run_ind (fun _ s tr => PINV s tr)); [apply init_pinv|].
    intros es s tr e s' o _ H E. eapply step_pinv; eassumption.
  Qed.

  Lemma copies_app : forall (l l' : list (@ditem msg)), copies (l ++ l') = copies l ++ copies l'.
  Proof. intros. unfold copies. apply flat_map_app. Qed.
  Lemma preads_app : forall a (l l' : list pobs), preads a (l ++ l') = preads a l ++ preads a l'.
  Proof. intros. unfold preads. apply flat_map_app. Qed.
  Lemma psends_app : forall a (l l' : list pobs), psends a (l ++ l') = psends a l ++ psends a l'.
  Proof. intros. unfold psends. apply flat_map_app. Qed.

  (** Case analysis of a step. *)
  Ltac pcases E :=
    repeat (match type of E with
            | (if ?b then _ else _) = _ => destruct b eqn:?
            | (match ?x with _ => _ end) = _ => destruct x eqn:?
            end; try discriminate E); try discriminate E;
    try (injection E as <- <-).

  (** *** What is read *)

  Record PBOX (s : pstate) (tr : list pobs) : Prop := mk_PBOX {
    pb_sent : forall a, exists lost, psends a tr = copies (preads a tr ++ items (pboxes s a)) ++ lost /\
      (~ In (POEnded a) tr -> lost = []);
    pb_ended : forall a, In (POEnded a) tr <-> bopen (pboxes s a) = false;
    pb_empty : forall a, In (POEnded a) tr -> items (pboxes s a) = [];
    pb_item : forall a n m, In (Copy n m) (items (pboxes s a)) -> In (POPublished n m) tr;
    pb_read : forall a n m, In (PORead a (Copy n m)) tr -> In (POPublished n m) tr
  }.

  (** How a step changes one mailbox. *)
  Inductive pchange (s s' : pstate) (o : list pobs) (a : nat) : Prop :=
  | PSame : pboxes s' a = pboxes s a -> psends a o = [] -> preads a o = [] -> ~ In (POEnded a) o -> pchange s s' o a
  | PCopy : forall n m sends, pph s = Publishing n m sends -> bopen (pboxes s a) = true ->
      pboxes s' a = put (Copy n m) (pboxes s a) -> o = [POSettled n a (Ok tt)] -> pchange s s' o a
  | POtherIn : forall v, bopen (pboxes s a) = true -> pboxes s' a = put (Foreign v) (pboxes s a) -> o = [] -> pchange s s' o a
  | PTaken : forall i, items (pboxes s a) = i :: items (pboxes s' a) -> bopen (pboxes s' a) = bopen (pboxes s a) ->
      o = [PORead a i] -> pchange s s' o a
  | PPlaces : items (pboxes s' a) = items (pboxes s a) -> bopen (pboxes s' a) = bopen (pboxes s a) -> o = [] -> pchange s s' o a
  | PEnded : items (pboxes s' a) = [] -> bopen (pboxes s' a) = false -> o = [POEnded a] -> pchange s s' o a.

  Lemma step_pchange : forall s e s' o a, pstep s e = Some (s', o) -> pchange s s' o a.
  Proof.
    intros s e s' o a E. destruct e; cbn in E.
    - pcases E. apply PSame; auto.
    - pcases E; apply PSame; cbn; auto; intuition discriminate.
    - pcases E; [|apply PSame; auto].
      match goal with H : poll_tell _ _ _ _ = _ |- _ => apply poll_tell_out in H; rename H into PT end.
      destruct (Nat.eq_dec n0 a) as [->|D].
      + destruct PT as [(-> & -> & PO & PR)|[(-> & -> & _ & _ & PF)|(-> & -> & PO)]]; [|discriminate|].
        * eapply PCopy; cbn; eauto. apply upd_same.
        * apply PSame; cbn; auto; [apply upd_same|intuition discriminate].
      + apply PSame; cbn; auto; [apply upd_other; congruence| |intuition discriminate].
        destruct (Nat.eqb_spec n0 a); [congruence|]. now destruct t.
    - pcases E. apply PSame; cbn; auto.
      + unfold psends. induction (dead_of sends); auto.
      + unfold preads. induction (dead_of sends); auto.
      + intro I. apply in_app_or in I. destruct I as [I|[I|[]]]; [|discriminate]. apply in_map_iff in I. destruct I as (? & Q & _). discriminate.
    - pcases E. apply PSame; auto.
    - pcases E. match goal with H : _ && _ = true |- _ => apply andb_true_iff in H; destruct H end.
      destruct (Nat.eq_dec a0 a) as [->|D]; [|apply PSame; cbn; auto; apply upd_other; congruence].
      eapply POtherIn; cbn; auto. apply upd_same.
    - pcases E. destruct (Nat.eq_dec a0 a) as [->|D].
      + eapply PTaken; cbn; auto; now rewrite upd_same.
      + apply PSame; cbn; auto; [apply upd_other; congruence| |intuition discriminate].
        destruct (Nat.eqb_spec a0 a); [congruence|reflexivity].
    - pcases E. destruct (Nat.eq_dec a0 a) as [->|D].
      + apply PEnded; cbn; auto; now rewrite upd_same.
      + apply PSame; cbn; auto; [apply upd_other; congruence|]. intros [I|[]]. congruence.
    - pcases E. destruct (Nat.eq_dec a0 a) as [->|D]; [|apply PSame; cbn; auto; apply upd_other; congruence].
      apply PPlaces; cbn; auto; now rewrite upd_same.
    - pcases E. destruct (Nat.eq_dec a0 a) as [->|D]; [|apply PSame; cbn; auto; apply upd_other; congruence].
      apply PPlaces; cbn; auto; now rewrite upd_same.
    - pcases E. apply PSame; auto.
  Qed.

  Lemma step_pbox : forall s e s' o tr, PINV s tr -> PBOX s tr -> pstep s e = Some (s', o) -> PBOX s' (tr ++ o).
  Proof.
    intros s e s' o tr HI [B1 B2 B3 B4 B5] E.
    assert (KEEP : forall n m, In (POPublished n m) tr -> In (POPublished n m) (tr ++ o)) by (intros; apply in_or_app; auto).
    constructor.
    - intro a. destruct (B1 a) as (lost & Q & L). rewrite psends_app, preads_app.
      destruct (@step_pchange s e s' o a E) as [X1 X2 X3 X4|n m sends X1 X2 X3 ->|v X2 X3 ->|i X1 X2 ->|X1 X2 ->|X1 X2 ->].
      + exists lost. rewrite X1, X2, X3, !app_nil_r. split; [assumption|]. intro N. apply L. intro I. apply N. apply in_or_app. auto.
      + assert (lost = []) as -> by (apply L; intro I; apply B2 in I; congruence). rewrite app_nil_r in Q.
        exists []. rewrite X3. cbn. rewrite Nat.eqb_refl, !app_nil_r, Q. split; [|auto].
        rewrite app_assoc, (copies_app _ [_]). reflexivity.
      + assert (lost = []) as -> by (apply L; intro I; apply B2 in I; congruence). rewrite app_nil_r in Q.
        exists []. rewrite X3. cbn. rewrite !app_nil_r, Q. split; [|auto]. rewrite app_assoc, (copies_app _ [_]). cbn. now rewrite app_nil_r.
      + exists lost. cbn. rewrite Nat.eqb_refl, app_nil_r, <- app_assoc. cbn. rewrite <- X1. split; [assumption|].
        intro N. apply L. intro I. apply N. apply in_or_app. auto.
      + exists lost. rewrite X1. cbn. rewrite !app_nil_r. split; assumption.
      + exists (copies (items (pboxes s a)) ++ lost). rewrite X1. cbn. rewrite !app_nil_r, app_assoc, <- copies_app. split; [assumption|].
        intro N. exfalso. apply N. apply in_or_app. right. now left.
    - intro a. rewrite in_app_iff, B2.
      destruct (@step_pchange s e s' o a E) as [X1 X2 X3 X4|n m sends X1 X2 X3 ->|v X2 X3 ->|i X1 X2 ->|X1 X2 ->|X1 X2 ->].
      + rewrite X1. tauto.
      + rewrite X3. cbn. intuition discriminate.
      + rewrite X3. cbn. tauto.
      + rewrite X2. cbn. intuition discriminate.
      + rewrite X2. cbn. tauto.
      + rewrite X2. cbn. tauto.
    - intros a I. apply in_app_or in I.
      destruct (@step_pchange s e s' o a E) as [X1 X2 X3 X4|n m sends X1 X2 X3 ->|v X2 X3 ->|i X1 X2 ->|X1 X2 ->|X1 X2 ->].
      + rewrite X1. destruct I; [auto|tauto].
      + exfalso. destruct I as [I|[I|[]]]; [|discriminate]. apply B2 in I. congruence.
      + exfalso. destruct I as [I|[]]. apply B2 in I. congruence.
      + destruct I as [I|[I|[]]]; [|discriminate]. apply B3 in I. rewrite I in X1. discriminate.
      + rewrite X1. destruct I as [I|[]]. auto.
      + assumption.
    - intros a n m I.
      destruct (@step_pchange s e s' o a E) as [X1 X2 X3 X4|n' m' sends X1 X2 X3 ->|v X2 X3 ->|i X1 X2 ->|X1 X2 ->|X1 X2 ->].
      + rewrite X1 in I. eauto.
      + rewrite X3 in I. cbn in I. apply in_app_or in I. destruct I as [I|[I|[]]]; [eauto|]. injection I as <- <-.
        apply KEEP. pose proof (p_cur HI) as C. unfold current in C. rewrite X1 in C. destruct C as (_ & _ & T1 & T2 & -> & _).
        apply in_or_app. right. now left.
      + rewrite X3 in I. cbn in I. apply in_app_or in I. destruct I as [I|[I|[]]]; [eauto|discriminate].
      + apply KEEP. eapply B4. rewrite X1. right. exact I.
      + rewrite X1 in I. eauto.
      + rewrite X1 in I. destruct I.
    - intros a n m I. apply in_app_or in I. destruct I as [I|I]; [eauto|].
      destruct (@step_pchange s e s' o a E) as [X1 X2 X3 X4|n' m' sends X1 X2 X3 ->|v X2 X3 ->|i X1 X2 ->|X1 X2 ->|X1 X2 ->].
      + exfalso. assert (J : In (Copy n m) (preads a o)).
        { unfold preads. apply in_flat_map. exists (PORead a (Copy n m)). split; [assumption|]. rewrite Nat.eqb_refl. now left. }
        rewrite X3 in J. destruct J.
      + destruct I as [I|[]]. discriminate.
      + destruct I.
      + destruct I as [I|[]]. injection I as ->. apply KEEP. eapply B4. rewrite X1. now left.
      + destruct I.
      + destruct I as [I|[]]. discriminate.
  Qed.

  Lemma reach_pbox : forall cap caps es s tr, prun (pinit cap caps) es = Some (s, tr) -> PBOX s tr.
  Proof.
    intros cap caps. apply (run_ind (fun _ s tr => PBOX s tr)).
    - constructor; cbn; try tauto; [intro a; exists []; auto|]. intros a. split; [tauto|discriminate].
    - intros es s tr e s' o R H E. eapply step_pbox; [eapply reach_pinv; exact R|exact H|exact E].
  Qed.

  Lemma preceived : forall cap caps es s tr a, prun (pinit cap caps) es = Some (s, tr) ->
    (exists lost, psends a tr = copies (preads a tr ++ items (pboxes s a)) ++ lost /\ (~ In (POEnded a) tr -> lost = [])) /\
    (forall n m, In (PORead a (Copy n m)) tr -> In (POPublished n m) tr).
  Proof.
    intros cap caps es s tr a R. pose proof (reach_pbox _ _ _ R) as B. split; [apply (pb_sent B)|apply (pb_read B)].
  Qed.

  (** *** Order *)

  Lemma psends_bound : forall (tr : list pobs) a n, In n (psends a tr) -> exists x, In (POSettled n a x) tr.
  Proof.
    intros tr a n I. unfold psends in I. apply in_flat_map in I. destruct I as (o & O & I).
    destruct o; try destruct I. destruct x as [u|]; [|destruct I]. destruct (Nat.eqb_spec a0 a) as [->|]; [|destruct I].
    destruct I as [<-|[]]. eauto.
  Qed.

  Lemma pascending : forall cap caps es s tr a, prun (pinit cap caps) es = Some (s, tr) -> ascending (psends a tr).
  Proof.
    intros cap caps es s tr a R. revert es s tr R. apply (run_ind (fun _ _ tr => ascending (psends a tr))).
    - intros i j x y _ H. destruct i; discriminate.
    - intros es s tr e s' o R H E. rewrite psends_app.
      destruct (@step_pchange s e s' o a E) as [X1 X2 X3 X4|n m sends X1 X2 X3 ->|v X2 X3 ->|i X1 X2 ->|X1 X2 ->|X1 X2 ->];
        try (rewrite X2, app_nil_r; assumption); try (cbn; rewrite app_nil_r; assumption).
      cbn. rewrite Nat.eqb_refl. apply ascending_snoc; [assumption|]. intros y Y. apply psends_bound in Y. destruct Y as [x Y].
      pose proof (reach_pinv _ _ _ R) as HI. pose proof (p_bound HI _ Y eq_refl) as L.
      pose proof (p_cur HI) as C. unfold current in C. rewrite X1 in C. destruct C as [C _]. lia.
  Qed.

  Lemma pread_ordered : forall cap caps es s tr a, prun (pinit cap caps) es = Some (s, tr) ->
    ascending (psends a tr) /\ ascending (copies (preads a tr)).
  Proof.
    intros cap caps es s tr a R. pose proof (pascending _ _ _ a R) as O. split; [assumption|].
    destruct (preceived _ _ _ a R) as [(lost & Q & _) _]. rewrite Q in O. apply ascending_prefix in O.
    rewrite copies_app in O. now apply ascending_prefix in O.
  Qed.

  (** *** Results *)

  Lemma pfind_step : forall es s s' tr T1 x T2, prun s es = Some (s', tr) -> tr = T1 ++ x :: T2 ->
    exists es1 e es2 s1 tr1 s2 o1 o2, es = es1 ++ e :: es2 /\ prun s es1 = Some (s1, tr1) /\
      pstep s1 e = Some (s2, o1 ++ x :: o2) /\ T1 = tr1 ++ o1.
  Proof.
    induction es as [|e es IH]; intros s s' tr T1 x T2 R E; cbn in R.
    - injection R as <- <-. destruct T1; discriminate.
    - destruct (pstep s e) as [[s1 o1]|] eqn:E1; [|discriminate].
      destruct (prun s1 es) as [[s2 o2]|] eqn:E2; [|discriminate]. injection R as <- <-.
      apply app_eq_split in E. destruct E as [(d1 & -> & ->)|(c1 & -> & E)].
      + exists [], e, es, s, [], s1, T1, d1. auto.
      + destruct (IH _ _ _ _ _ _ E2 E) as (es1 & e' & es2 & s3 & tr1 & s4 & p1 & p2 & -> & R & ST & ->).
        exists (e :: es1), e', es2, s3, (o1 ++ tr1), s4, p1, p2. split; [reflexivity|].
        split; [cbn; now rewrite E1, R|]. split; [assumption|]. apply app_assoc.
  Qed.

  (** The step that observes something, by what is observed. *)
  Lemma single : forall (A : Type) (p : A) o1 x o2, [p] = o1 ++ x :: o2 -> o1 = [] /\ x = p /\ o2 = [].
  Proof. intros A p [|q o1] x o2 E; [injection E as <- <-; auto|]. destruct o1; discriminate. Qed.

  Lemma in_expired : forall d n (o : pobs), In o (map POExpired d ++ [POFinished n]) ->
    (exists a, o = POExpired a /\ In a d) \/ o = POFinished n.
  Proof.
    intros d n o I. apply in_app_or in I. destruct I as [I|[I|[]]]; [|auto].
    apply in_map_iff in I. destruct I as (a & <- & I). eauto.
  Qed.

  Lemma in_middle : forall (A : Type) (o1 o2 : list A) x, In x (o1 ++ x :: o2).
  Proof. intros. apply in_or_app. right. now left. Qed.

  Lemma psettled_step : forall s e s' o1 n a x o2, pstep s e = Some (s', o1 ++ POSettled n a x :: o2) ->
    o1 = [] /\ exists m sends i, e = PEPoll i /\ pph s = Publishing n m sends /\ nth_error sends i = Some (a, None) /\
      ((x = Ok tt /\ bopen (pboxes s a) = true /\ has_room (pboxes s a)) \/
       (x = Err (ActorNotRunning m) /\ bopen (pboxes s a) = false)).
  Proof.
    intros s e s' o1 n a x o2 E.
    assert (I := in_middle o1 o2 (POSettled n a x)).
    destruct (pstep s e) as [[s0 o]|] eqn:E0; [|discriminate]. injection E as -> ->.
    remember (o1 ++ POSettled n a x :: o2) as o eqn:EO.
    destruct e; cbn in E0; pcases E0; try (now destruct I); try (destruct I as [I|I]; [discriminate|]; now destruct I);
      try (destruct I as [I|[I|[]]]; discriminate).
    - destruct (single _ _ _ EO) as (-> & Q & ->). injection Q as -> -> ->.
      split; [reflexivity|]. do 3 eexists. split; [reflexivity|]. split; [reflexivity|]. split; [eassumption|].
      match goal with H : poll_tell _ _ _ _ = _ |- _ => apply poll_tell_out in H; rename H into PT end.
      destruct PT as [(-> & -> & PO & PR)|[(-> & -> & _ & _ & PF)|(-> & -> & PO)]]; [left; destruct (room_spec (pboxes s n1)); [auto|discriminate]|discriminate|right; auto].
    - apply in_expired in I. destruct I as [(? & I & _)|I]; discriminate.
  Qed.

  Lemma psettled_why : forall cap caps es s tr T1 n a x T2,
    prun (pinit cap caps) es = Some (s, tr) -> tr = T1 ++ POSettled n a x :: T2 ->
    exists es1 e es2 s1 m, es = es1 ++ e :: es2 /\ prun (pinit cap caps) es1 = Some (s1, T1) /\
      In (POPublished n m) T1 /\
      ((x = Ok tt /\ bopen (pboxes s1 a) = true /\ has_room (pboxes s1 a)) \/
       (x = Err (ActorNotRunning m) /\ bopen (pboxes s1 a) = false)).
  Proof.
    intros cap caps es s tr T1 n a x T2 R E.
    destruct (@pfind_step _ _ _ _ _ _ _ R E) as (es1 & e & es2 & s1 & tr1 & s2 & o1 & o2 & -> & R1 & ST & ->).
    destruct (@psettled_step _ _ _ _ _ _ _ _ ST) as (-> & m & sends & i & -> & P & N & W). rewrite app_nil_r.
    exists es1, (PEPoll i), es2, s1, m. split; [reflexivity|]. split; [assumption|]. split; [|assumption].
    pose proof (p_cur (reach_pinv _ _ _ R1)) as C. unfold current in C. rewrite P in C.
    destruct C as (_ & _ & U1 & U2 & -> & _). apply in_middle.
  Qed.

  (** *** The effect of a publication *)

  Lemma inner_calm : forall l, Forall pinner l -> Forall calm l.
  Proof. intros l F. eapply Forall_impl; [|exact F]. intros []; cbn; tauto. Qed.

  Lemma pfinish_step : forall s e s' o, pstep s e = Some (s', o) -> forall n, In (POFinished n) o ->
    exists m sends, pph s = Publishing n m sends /\ all_settled sends = true /\ o = map POExpired (dead_of sends) ++ [POFinished n].
  Proof.
    intros s e s' o E n I. destruct e; cbn in E; pcases E; try (now destruct I); try (destruct I as [I|I]; [discriminate|]; now destruct I);
      try (destruct I as [I|[I|[]]]; discriminate).
    apply in_expired in I. destruct I as [(? & I & _)|I]; [discriminate|]. injection I as ->. eauto.
  Qed.

  Lemma pexpire_step : forall s e s' o, pstep s e = Some (s', o) -> forall a, In (POExpired a) o ->
    exists n m sends, pph s = Publishing n m sends /\ o = map POExpired (dead_of sends) ++ [POFinished n] /\ In a (dead_of sends).
  Proof.
    intros s e s' o E n I. destruct e; cbn in E; pcases E; try (now destruct I); try (destruct I as [I|I]; [discriminate|]; now destruct I);
      try (destruct I as [I|[I|[]]]; discriminate).
    apply in_expired in I. destruct I as [(? & I & J)|I]; [|discriminate]. injection I as ->. eauto 6.
  Qed.

  Lemma in_dead_of : forall a (sends : list (nat * option (told msg))), In a (dead_of sends) <-> exists x, In (a, Some x) sends /\ gone x = true.
  Proof.
    intros a sends. unfold dead_of. rewrite in_flat_map. split.
    - intros ([b [x|]] & I & J); cbn in J; [|destruct J]. destruct (gone x) eqn:G; [|destruct J]. destruct J as [<-|[]]. eauto.
    - intros (x & I & G). exists (a, Some x). split; [assumption|]. cbn. rewrite G. now left.
  Qed.

  Lemma dead_gone : forall cap caps es s tr n m sends a, prun (pinit cap caps) es = Some (s, tr) -> pph s = Publishing n m sends ->
    (In a (dead_of sends) <-> gone_at n a tr).
  Proof.
    intros cap caps es s tr n m sends a R P. pose proof (p_cur (reach_pinv _ _ _ R)) as C. unfold current in C. rewrite P in C.
    destruct C as (_ & _ & U1 & U2 & _ & _ & _ & _ & C & _). rewrite in_dead_of. split.
    - intros (x & I & G). apply C in I. apply in_split in I. destruct I as (V1 & V2 & Q).
      destruct (@psettled_why _ _ _ _ _ _ _ _ _ _ R Q) as (es1 & e & es2 & s1 & m' & _ & _ & _ & [(-> & _)|(-> & _)]); [discriminate|].
      exists m'. rewrite Q. apply in_middle.
    - intros (m' & I). apply C in I. exists (Err (ActorNotRunning m')). auto.
  Qed.

  Lemma gone_app : forall n a (x y : list pobs), Forall (fun o => forall k b r, o <> POSettled k b r) y -> (gone_at n a (x ++ y) <-> gone_at n a x).
  Proof.
    intros n a x y F. unfold gone_at. split; intros (m & I); exists m; [|apply in_or_app; auto].
    apply in_app_or in I. destruct I as [I|I]; [assumption|]. rewrite Forall_forall in F. now destruct (F _ I _ _ _ eq_refl).
  Qed.

  Lemma last_split : forall (A : Type) (x u v : list A) z, x ++ [z] = u ++ z :: v -> ~ In z x -> u = x /\ v = [].
  Proof.
    intros A x u v z E N. destruct (@app_eq_split _ _ _ _ _ _ E) as [(d & -> & _)|(c & -> & Q)].
    - exfalso. apply N. apply in_middle.
    - destruct (single _ _ _ Q) as (-> & _ & ->). now rewrite app_nil_r.
  Qed.

  Definition effect_ok (tr : list pobs) : Prop :=
    forall H n T, tr = H ++ POFinished n :: T ->
      exists T1 m T2, H = T1 ++ POPublished n m :: T2 /\ Forall calm T2 /\
        forall a, (gone_at n a H -> filter_after H a = None) /\
                  (~ gone_at n a H -> filter_after H a = option_map (advance m) (filter_after T1 a)).

  Lemma peffect : forall cap caps es s tr, prun (pinit cap caps) es = Some (s, tr) -> effect_ok tr.
  Proof.
    intros cap caps. apply (run_ind (fun _ _ tr => effect_ok tr)).
    - intros [|] n T E; discriminate.
    - intros es s tr e s' o R IH E H n T Q.
      assert (D : In (POFinished n) o \/ ~ In (POFinished n) o).
      { clear. induction o as [|x o [I|I]]; [now right|left; now right|]. destruct x; try (right; intros [J|J]; [discriminate|tauto]).
        destruct (Nat.eq_dec n0 n) as [->|NE]; [left; now left|]. right. intros [J|J]; [congruence|tauto]. }
      destruct D as [D|D].
      + destruct (@pfinish_step _ _ _ _ E _ D) as (m & sends & P & AS & ->).
        pose proof (p_cur (reach_pinv _ _ _ R)) as C. unfold current in C. rewrite P in C.
        destruct C as (_ & NF & T1 & T2 & -> & F & _).
        rewrite app_assoc in Q. apply last_split in Q.
        2:{ intro I. apply in_app_or in I. destruct I as [I|I]; [tauto|]. apply in_map_iff in I. destruct I as (? & I & _). discriminate. }
        destruct Q as [-> ->]. exists T1, m, (T2 ++ map POExpired (dead_of sends)). split; [now rewrite <- app_assoc|].
        split. { apply Forall_app. split; [now apply inner_calm|]. rewrite Forall_forall. intros x I. apply in_map_iff in I. destruct I as (? & <- & _). exact Logic.I. }
        intro a. rewrite expired_fa. rewrite gone_app.
        2:{ rewrite Forall_forall. intros x I. apply in_map_iff in I. destruct I as (? & <- & _). discriminate. }
        rewrite <- (@dead_gone _ _ _ _ _ _ _ _ a R P).
        destruct (existsb (Nat.eqb a) (dead_of sends)) eqn:X.
        * split; [auto|]. intro N. exfalso. apply N. apply existsb_exists in X. destruct X as (y & Y & X). apply Nat.eqb_eq in X. congruence.
        * split.
          -- intro I. exfalso. rewrite (proj2 (existsb_exists _ _)) in X; [discriminate|]. exists a. split; [assumption|apply Nat.eqb_refl].
          -- intros _. change (T1 ++ POPublished n m :: T2) with (T1 ++ [POPublished n m] ++ T2). rewrite app_assoc.
             rewrite filter_after_calm; [|eapply Forall_impl; [|exact F]; cbn; tauto].
             rewrite filter_after_snoc. reflexivity.
      + destruct (@split_snoc _ _ _ _ _ _ Q D) as (v & -> & _). eapply IH. reflexivity.
  Qed.

  (** Only an actor found not running by the publication that ends is removed. *)
  Definition expired_ok (tr : list pobs) : Prop :=
    forall H a T, tr = H ++ POExpired a :: T ->
      exists T1 n m T2, H = T1 ++ POPublished n m :: T2 /\ Forall calm T2 /\ gone_at n a H.

  Lemma pexpired : forall cap caps es s tr, prun (pinit cap caps) es = Some (s, tr) -> expired_ok tr.
  Proof.
    intros cap caps es s tr R H a T Q.
    destruct (@pfind_step _ _ _ _ _ _ _ R Q) as (es1 & e & es2 & s1 & tr1 & s2 & o1 & o2 & -> & R1 & ST & ->).
    destruct (@pexpire_step _ _ _ _ ST a (in_middle _ _ _)) as (n & m & sends & P & O & D).
    pose proof (p_cur (reach_pinv _ _ _ R1)) as C. unfold current in C. rewrite P in C.
    destruct C as (_ & NF & T1 & T2 & Q1 & F & _).
    assert (FE : forall x, In x o1 -> exists b, x = POExpired b).
    { intros x I. assert (J : In x (map POExpired (dead_of sends) ++ [POFinished n])) by (rewrite <- O; apply in_or_app; auto).
      apply in_expired in J. destruct J as [(b & -> & _)| ->]; [eauto|]. exfalso.
      apply in_split in I. destruct I as (p & q & ->). rewrite <- !app_assoc in O. cbn in O. symmetry in O. apply last_split in O.
      - destruct O as [_ O]. destruct q; discriminate.
      - intro I. apply in_map_iff in I. destruct I as (? & I & _). discriminate. }
    exists T1, n, m, (T2 ++ o1). split; [now rewrite Q1, <- app_assoc|]. split.
    - apply Forall_app. split; [now apply inner_calm|]. rewrite Forall_forall. intros x I. destruct (FE x I) as [b ->]. exact Logic.I.
    - rewrite gone_app; [now apply (@dead_gone _ _ _ _ _ _ _ _ a R1 P)|]. rewrite Forall_forall. intros x I. destruct (FE x I) as [b ->]. discriminate.
  Qed.

  (** *** Panics *)

  Lemma call_all_panic : forall m (l : subscribers) a, call_all call m l = inr a -> exists f, In (a, Given f) l /\ call f m = None.
  Proof.
    induction l as [|[b f] l IH]; intros a E; cbn in E; [discriminate|].
    destruct (call_fn call f m) as [[r f']|] eqn:C.
    - destruct (call_all call m l) as [[? ?]|c] eqn:CA; [discriminate|]. injection E as ->. destruct (IH _ eq_refl) as (g & I & X).
      exists g. split; [now right|assumption].
    - injection E as ->. destruct f as [|g]; [discriminate|]. cbn in C. exists g. split; [now left|]. destruct (call g m) as [[]|]; [discriminate|reflexivity].
  Qed.

  Lemma call_all_fine : forall m (l : subscribers) l' acc, call_all call m l = inl (l', acc) -> forall a f, In (a, Given f) l -> call f m <> None.
  Proof.
    induction l as [|[b g] l IH]; intros l' acc E a f I N; [destruct I|]. cbn in E.
    destruct (call_fn call g m) as [[r f']|] eqn:C; [|discriminate]. destruct (call_all call m l) as [[l2 acc2]|c] eqn:CA; [|discriminate].
    destruct I as [I|I]; [|eapply IH; eauto]. injection I as -> ->. cbn in C. rewrite N in C. discriminate.
  Qed.

  Lemma stopped_quiet : forall s e s' o, pstep s e = Some (s', o) -> pph s = PStopped ->
    pph s' = PStopped /\ publications o = 0 /\ (forall n a, sent n a o = 0) /\ (forall n a, ~ In (POPanicked n a) o).
  Proof.
    intros s e s' o E P. destruct e; cbn in E; rewrite ?P in E; pcases E; cbn; repeat split; auto; intros n0 a0 I; intuition discriminate.
  Qed.

  Definition panic_ok (s : pstate) (tr : list pobs) : Prop :=
    forall T1 n m T2, tr = T1 ++ POPublished n m :: T2 ->
      (forall a, In (POPanicked n a) tr -> exists f, filter_after T1 a = Some (Given f) /\ call f m = None) /\
      (forall a f, filter_after T1 a = Some (Given f) -> call f m = None ->
         (exists b, In (POPanicked n b) tr) /\ (forall b, sent n b tr = 0) /\ publications T2 = 0 /\ pph s = PStopped).

  Lemma ppub_step : forall s e s' o, pstep s e = Some (s', o) -> forall n m, In (POPublished n m) o ->
    pph s = PIdle /\ n = published s /\ 
    ((o = [POPublished n m] /\ exists l acc, call_all call m (psubs s) = inl (l, acc)) \/
     (exists a, o = [POPublished n m; POPanicked n a] /\ pph s' = PStopped /\ call_all call m (psubs s) = inr a)).
  Proof.
    intros s e s' o E n m I. destruct e; cbn in E; pcases E; try (now destruct I); try (destruct I as [I|I]; [discriminate|]; now destruct I);
      try (destruct I as [I|[I|[]]]; discriminate).
    - destruct I as [I|[]]. injection I as -> ->. repeat split. left. eauto.
    - destruct I as [I|[I|[]]]; [|discriminate]. injection I as -> ->. repeat split. right. eauto.
    - apply in_expired in I. destruct I as [(? & I & _)|I]; discriminate.
  Qed.

  Lemma ppanic_step : forall s e s' o, pstep s e = Some (s', o) -> forall n a, In (POPanicked n a) o -> exists m, In (POPublished n m) o.
  Proof.
    intros s e s' o E n a I. destruct e; cbn in E; pcases E; try (now destruct I); try (destruct I as [I|I]; [discriminate|]; now destruct I).
    - destruct I as [I|[I|[]]]; [discriminate|]. injection I as -> ->. eexists. now left.
    - apply in_expired in I. destruct I as [(? & I & _)|I]; discriminate.
  Qed.

  Lemma pub_dec : forall n (m : msg) (o : list pobs), (exists m', In (POPublished n m') o) \/ (forall m', ~ In (POPublished n m') o).
  Proof.
    intros n m. induction o as [|x o [(m' & I)|I]]; [right; auto|left; exists m'; now right|].
    destruct x; try (right; intros m' [J|J]; [discriminate|exact (I _ J)]).
    destruct (Nat.eq_dec n0 n) as [->|NE]; [left; eexists; now left|]. right. intros m' [J|J]; [congruence|exact (I _ J)].
  Qed.

  Lemma ppanic : forall cap caps es s tr, prun (pinit cap caps) es = Some (s, tr) -> panic_ok s tr.
  Proof.
    intros cap caps. apply (run_ind (fun _ s tr => panic_ok s tr)).
    - intros [|] n m T E; discriminate.
    - intros es s tr e s' o R IH E T1 n m T2 Q. pose proof (reach_pinv _ _ _ R) as HI.
      destruct (pub_dec n m o) as [(m' & D)|D].
      + destruct (@ppub_step _ _ _ _ E _ _ D) as (P & -> & W).
        assert (NT : forall x, In x tr -> pnum x <> Some (published s)).
        { intros x I N. pose proof (p_bound HI _ I N). lia. }
        assert (TT : T1 = tr /\ m' = m /\ o = POPublished (published s) m :: T2).
        { destruct (@app_eq_split _ _ _ _ _ _ Q) as [(d & -> & _)|(c & -> & Q2)].
          - exfalso. exact (NT _ (in_middle _ _ _) eq_refl).
          - destruct W as [(-> & _)|(a & -> & _)].
            + destruct (single _ _ _ Q2) as (-> & X & ->). injection X as ->. now rewrite app_nil_r.
            + destruct c as [|y c]; cbn in Q2; [injection Q2 as -> <-; now rewrite app_nil_r|].
              injection Q2 as _ Q2. destruct (single _ _ _ Q2) as (_ & X & _). discriminate. }
        destruct TT as (-> & -> & EO). split.
        * intros a I. apply in_app_or in I. destruct I as [I|I]; [exfalso; exact (NT _ I eq_refl)|].
          destruct W as [(EO1 & _)|(b & EO1 & _ & CA)]; rewrite EO1 in I.
          { destruct I as [I|[]]. discriminate. }
          destruct I as [I|[I|[]]]; [discriminate|]. injection I as ->. apply call_all_panic in CA. destruct CA as (f & I & X).
          exists f. split; [|assumption]. rewrite <- (p_table HI); [|congruence]. apply lookup_in; [apply (p_nodup HI)|assumption].
        * intros a f FA X. rewrite <- (p_table HI) in FA; [|congruence]. apply lookup_in in FA; [|apply (p_nodup HI)].
          destruct W as [(_ & l & acc & CA)|(b & EO1 & PS & CA)].
          { exfalso. eapply call_all_fine; eauto. }
          split; [exists b; apply in_or_app; right; rewrite EO1; right; now left|]. split.
          { intro c. rewrite sent_app, EO1. rewrite (sent_unborn _ (k:=published s)); [reflexivity|apply (p_bound HI)|lia]. }
          split; [|assumption]. rewrite EO1 in EO. injection EO as <-. reflexivity.
      + destruct (@split_snoc _ _ _ _ _ _ Q (D m)) as (v & -> & ->).
        destruct (IH _ _ _ _ eq_refl) as [IH1 IH2]. split.
        * intros a I. apply in_app_or in I. destruct I as [I|I]; [now apply IH1|]. exfalso.
          destruct (@ppanic_step _ _ _ _ E _ _ I) as [m' J]. exact (D _ J).
        * intros a f FA X. destruct (IH2 a f FA X) as ((b & B) & SE & PU & PS).
          destruct (@stopped_quiet _ _ _ _ E PS) as (PS' & PU' & SE' & _).
          split; [exists b; apply in_or_app; auto|]. split; [intro c; rewrite sent_app, SE, SE'; reflexivity|].
          split; [|assumption]. rewrite pubs_app, PU, PU'. reflexivity.
  Qed.

  (** *** Waiting *)

  Lemma ppoll : forall s n m sends i a, pph s = Publishing n m sends -> nth_error sends i = Some (a, None) ->
    (bopen (pboxes s a) = false \/ has_room (pboxes s a)) ->
    exists s' x, pstep s (PEPoll i) = Some (s', [POSettled n a x]) /\
      pph s' = Publishing n m (set_nth i (a, Some x) sends) /\ (forall b, b <> a -> pboxes s' b = pboxes s b).
  Proof.
    intros s n m sends i a P N H. cbn. rewrite P, N. unfold poll_tell.
    destruct (bopen (pboxes s a)) eqn:O; cbn.
    - destruct (room_spec (pboxes s a)) as [Y|Y]; [|destruct H; [discriminate|tauto]].
      do 2 eexists. split; [reflexivity|]. cbn. split; [reflexivity|]. intros b B. apply upd_other. congruence.
    - do 2 eexists. split; [reflexivity|]. cbn. split; [reflexivity|]. intros b B. apply upd_other. congruence.
  Qed.

  Definition open_sends (l : list (nat * option (told msg))) : nat :=
    length (filter (fun e => match snd e with None => true | Some _ => false end) l).

  Lemma open_none : forall l, open_sends l = 0 -> all_settled l = true.
  Proof.
    induction l as [|[a [x|]] l IH]; intro E; [reflexivity| |discriminate]. cbn. apply IH. exact E.
  Qed.
  Lemma open_some : forall l k, open_sends l = S k -> exists i a, nth_error l i = Some (a, None).
  Proof.
    induction l as [|[a [x|]] l IH]; intros k E; [discriminate| |].
    - destruct (IH k E) as (i & b & N). exists (S i), b. assumption.
    - exists 0, a. reflexivity.
  Qed.
  Lemma open_set : forall l i a x, nth_error l i = Some (a, None) -> S (open_sends (set_nth i (a, Some x) l)) = open_sends l.
  Proof.
    intros l i a x N. destruct (@nth_split_set _ i l (a, None) (a, Some x) N) as (l1 & l2 & -> & E). rewrite E.
    unfold open_sends. rewrite !filter_app, !app_length. cbn. lia.
  Qed.

  Lemma pfinishes : forall cap caps es s tr n m sends, prun (pinit cap caps) es = Some (s, tr) -> pph s = Publishing n m sends ->
    (forall a, In (a, None) sends -> bopen (pboxes s a) = false \/ has_room (pboxes s a)) ->
    exists es' s' tr', Forall (fun e => match e with PEPoll _ | PEFinish => True | _ => False end) es' /\
      prun s es' = Some (s', tr') /\ pph s' = PIdle /\ In (POFinished n) tr'.
  Proof.
    intros cap caps es s tr n m sends R P H. remember (open_sends sends) as k eqn:K.
    revert es s tr sends R P H K. induction k as [|k IH]; intros es s tr sends R P H K.
    - exists [PEFinish]. symmetry in K. apply open_none in K. cbn. rewrite P, K. do 2 eexists. split; [repeat constructor|].
      split; [reflexivity|]. split; [reflexivity|]. rewrite app_nil_r. apply in_or_app. right. now left.
    - symmetry in K. destruct (@open_some _ _ K) as (i & a & N).
      destruct (@ppoll _ _ _ _ _ _ P N (H a (nth_error_In _ _ N))) as (s1 & x & ST & P1 & B1).
      assert (R1 : prun (pinit cap caps) (es ++ [PEPoll i]) = Some (s1, tr ++ [POSettled n a x])).
      { rewrite prun_app, R. cbn [prun]. rewrite ST. reflexivity. }
      assert (ND : NoDup (map fst sends)).
      { pose proof (p_cur (reach_pinv _ _ _ R)) as C. unfold current in C. rewrite P in C. decompose [and ex] C. assumption. }
      destruct (IH _ _ _ _ R1 P1) as (es' & s' & tr' & F & R' & Q).
      + intros b I. destruct (@nth_split_set _ i sends (a, None) (a, Some x) N) as (l1 & l2 & ES & E). rewrite E in I.
        assert (b <> a).
        { intros ->. rewrite ES, map_app in ND. cbn in ND. apply NoDup_remove_2 in ND. apply ND. rewrite <- map_app.
          apply in_app_or in I. destruct I as [I|[I|I]]; [|discriminate|]; apply (in_map fst) in I; rewrite map_app; apply in_or_app; auto. }
        rewrite B1 by assumption. apply H. rewrite ES. apply in_app_or in I. apply in_or_app. destruct I as [I|[I|I]]; [auto|discriminate|right; now right].
      + pose proof (@open_set _ _ _ x N) as O. lia.
      + exists (PEPoll i :: es'), s', (POSettled n a x :: tr'). split; [constructor; auto|]. split; [cbn [prun]; rewrite ST, R'; reflexivity|].
        destruct Q. split; [assumption|]. now right.
  Qed.

  Ltac notin := let Z := fresh in intro Z; cbn in Z; repeat (destruct Z as [Z|Z]; [discriminate Z|]); destruct Z.

  Lemma pblocked : forall es s s' tr n m sends a, pph s = Publishing n m sends -> In (a, None) sends ->
    bopen (pboxes s a) = true -> ~ has_room (pboxes s a) -> Forall (lets_be a) es -> prun s es = Some (s', tr) ->
    (exists sends', pph s' = Publishing n m sends' /\ In (a, None) sends') /\ ~ In (POFinished n) tr /\
    bopen (pboxes s' a) = true /\ ~ has_room (pboxes s' a).
  Proof.
    induction es as [|e es IH]; intros s s' tr n m sends a P I O NR F R; cbn in R.
    - injection R as <- <-. repeat split; eauto.
    - destruct (pstep s e) as [[s1 o1]|] eqn:E; [|discriminate]. destruct (prun s1 es) as [[s2 o2]|] eqn:E2; [|discriminate].
      injection R as <- <-. pose proof (Forall_inv F) as L. apply Forall_inv_tail in F.
      assert (X : (exists sends', pph s1 = Publishing n m sends' /\ In (a, None) sends') /\ ~ In (POFinished n) o1 /\
                  bopen (pboxes s1 a) = true /\ ~ has_room (pboxes s1 a)).
      { assert (NB : room (pboxes s a) = false) by (destruct (room_spec (pboxes s a)); tauto).
        destruct e; cbn in E, L; try (match type of L with False => destruct L end); rewrite ?P in E; pcases E; cbn [pph pboxes]; rewrite ?P;
          try (split; [eauto|]; split; [notin|]; split; assumption).
        - (* a poll that settles *)
          split; [|split; [notin|]].
          + eexists. split; [reflexivity|].
            match goal with H : nth_error _ _ = Some _ |- _ => rename H into N end.
            match goal with H : poll_tell _ _ _ _ = _ |- _ => apply poll_tell_out in H; rename H into PT end.
            destruct (@nth_split_set _ i sends (n0, None) (n0, Some t) N) as (l1 & l2 & ES & ES').
            rewrite ES'. rewrite ES in I. apply in_app_or in I. apply in_or_app. destruct I as [I|[I|I]]; [auto| |right; now right].
            exfalso. injection I as ->. destruct PT as [(_ & _ & PO & PR)|[(_ & _ & _ & _ & PF)|(_ & _ & PO)]]; congruence.
          + match goal with H : poll_tell _ _ _ _ = _ |- _ => apply poll_tell_out in H; rename H into PT end.
            destruct (Nat.eq_dec n0 a) as [->|D]; [|now rewrite upd_other by congruence].
            exfalso. destruct PT as [(_ & _ & PO & PR)|[(_ & _ & _ & _ & PF)|(-> & _ & PO)]]; congruence.
        - exfalso. match goal with H : all_settled _ = true |- _ => unfold all_settled in H; rewrite forallb_forall in H; apply H in I; discriminate I end.
        - match goal with H : _ && _ = true |- _ => apply andb_true_iff in H; destruct H as [_ HR] end.
          split; [eauto|]. split; [notin|].
          destruct (Nat.eq_dec a0 a) as [->|D]; [congruence|now rewrite upd_other by congruence].
        - split; [eauto|]. split; [notin|]. now rewrite upd_other by congruence.
        - split; [eauto|]. split; [notin|]. now rewrite upd_other by congruence.
        - match goal with H : _ && _ = true |- _ => apply andb_true_iff in H; destruct H as [_ HR] end.
          split; [eauto|]. split; [notin|].
          destruct (Nat.eq_dec a0 a) as [->|D]; [congruence|now rewrite upd_other by congruence].
        - split; [eauto|]. split; [notin|]. now rewrite upd_other by congruence. }
      destruct X as ((sends' & P1 & I1) & NF & O1 & N1).
      destruct (IH _ _ _ _ _ _ _ P1 I1 O1 N1 F E2) as (A & B & C). split; [assumption|]. split; [|assumption].
      intro J. apply in_app_or in J. tauto.
  Qed.
End Proofs.
