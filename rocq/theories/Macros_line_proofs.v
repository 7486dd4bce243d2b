(** Proofs about lifetimes among the parameters: when the macro panics, and which lifetimes a
    message declares. *)
From Coq Require Import String List Bool.
Import ListNotations.
From Verif Require Import Macros Macros_spec Macros_proofs.

Lemma has_lifetime_iff gs l : has_lifetime gs l = true <-> In l (lifetime_names gs).
Proof.
  unfold has_lifetime, lifetime_names. induction gs as [|[m b|y b|y b] gs IH]; cbn.
  - split; [discriminate|intros []].
  - rewrite orb_true_iff, IH, String.eqb_eq. reflexivity.
  - exact IH.
  - exact IH.
Qed.

Lemma lifetime_names_app a b : lifetime_names (a ++ b) = lifetime_names a ++ lifetime_names b.
Proof. apply flat_map_app. Qed.

Lemma lifetime_names_types l : lifetime_names (filter is_type l) = [].
Proof. induction l as [|[m b|y b|y b] l IH]; cbn; auto. Qed.

Lemma lifetime_names_lifetimes l : lifetime_names (filter is_lifetime l) = lifetime_names l.
Proof. induction l as [|[m b|y b|y b] l IH]; cbn; auto. now f_equal. Qed.

Lemma lifetime_names_flat {A} (g : A -> list gparam) l x :
  In x (lifetime_names (flat_map g l)) <-> exists a, In a l /\ In x (lifetime_names (g a)).
Proof.
  induction l as [|a l IH]; cbn.
  - split; [intros []|intros (a & [] & _)].
  - rewrite lifetime_names_app, in_app_iff, IH. split.
    + intros [H|(b & Hb & H)]; eauto.
    + intros (b & [->|Hb] & H); eauto.
Qed.

Lemma path_no_lifetime gs p : lifetime_names (path_generic gs p) = [].
Proof. unfold path_generic. destruct (get_ident p) as [x|]; auto. destruct (has_type gs x); auto. Qed.

Lemma found_one gs l m : In l (lifetime_names (if has_lifetime gs m then [GLifetime m ""] else [])) <->
  l = m /\ In m (lifetime_names gs).
Proof.
  destruct (has_lifetime gs m) eqn:E; cbn.
  - apply has_lifetime_iff in E. split; [intros [->|[]]; auto|intros [-> _]; auto].
  - split; [intros []|]. intros [_ H]. apply has_lifetime_iff in H. congruence.
Qed.

(** The lifetimes found in a type are those that stand there. *)
Lemma contains_lifetime_names gs l t :
  In l (lifetime_names (contains_generic_in_param gs t)) <-> In l (lifetime_names gs) /\ names_lifetime l t.
Proof.
  induction t using ty_ind2; cbn [contains_generic_in_param];
    try (split; [intros []|intros [_ K]; inversion K; fail]).
  - rewrite IHt. split; intros [A B]; (split; [exact A|]); [now constructor|now inversion B].
  - rewrite lifetime_names_app, in_app_iff, lifetime_names_flat. rewrite Forall_forall in H. split.
    + intros [(t & Ht & K)|K].
      * apply (H t Ht) in K. destruct K. split; auto. eapply Nl_fn_in; eauto.
      * destruct out as [t|]; [|destruct K]. apply (H0 t eq_refl) in K. destruct K. split; auto. now constructor.
    + intros [A K]. inversion K; subst.
      * left. eexists; split; eauto. apply H; auto.
      * right. apply (H0 _ eq_refl); auto.
  - rewrite IHt. split; intros [A B]; (split; [exact A|]); [now constructor|now inversion B].
  - rewrite IHt. split; intros [A B]; (split; [exact A|]); [now constructor|now inversion B].
  - rewrite path_no_lifetime. split; [intros []|intros [_ K]; inversion K].
  - rewrite IHt. split; intros [A B]; (split; [exact A|]); [now constructor|now inversion B].
  - rewrite lifetime_names_app, in_app_iff, IHt. split.
    + intros [K|[A B]].
      * destruct l0 as [m|]; [|destruct K]. apply found_one in K. destruct K as [-> K]. split; auto. constructor.
      * split; auto. now constructor.
    + intros [A K]. inversion K; subst.
      * left. apply found_one. auto.
      * right. auto.
  - rewrite IHt. split; intros [A B]; (split; [exact A|]); [now constructor|now inversion B].
  - rewrite lifetime_names_flat. split.
    + intros ([p|m|] & Hb & K); cbn [bound_generic] in K.
      * rewrite path_no_lifetime in K. destruct K.
      * apply found_one in K. destruct K as [-> K]. split; auto. now constructor.
      * destruct K.
    + intros [A K]. inversion K; subst. exists (BLifetime l). split; auto. apply found_one. auto.
  - rewrite lifetime_names_flat. rewrite Forall_forall in H. split.
    + intros (t & Ht & K). apply (H t Ht) in K. destruct K. split; auto. eapply Nl_tuple; eauto.
    + intros [A K]. inversion K; subst. eexists; split; eauto. apply H; auto.
Qed.

Lemma type_names_flat {A} (g : A -> list gparam) l x :
  In x (type_names (flat_map g l)) <-> exists a, In a l /\ In x (type_names (g a)).
Proof.
  induction l as [|a l IH]; cbn.
  - split; [intros []|intros (a & [] & _)].
  - rewrite type_names_app, in_app_iff, IH. split.
    + intros [H|(b & Hb & H)]; eauto.
    + intros (b & [->|Hb] & H); eauto.
Qed.

Lemma contains_type_names gs x t :
  In x (type_names (contains_generic_in_param gs t)) <-> In x (type_names gs) /\ mentions_bare x t.
Proof. now rewrite <- type_names_types, contains_types, type_names_gt, bare_names_in. Qed.

Lemma found_lifetime_names gs (f : func) l :
  In l (lifetime_names (found_generics gs (f_inputs f) (f_output f))) <->
  In l (lifetime_names gs) /\ in_signature f (names_lifetime l).
Proof.
  unfold found_generics, in_signature. rewrite lifetime_names_app, in_app_iff, lifetime_names_flat. split.
  - intros [([s|a p t] & Hi & K)|K]; [destruct K| |].
    + apply contains_lifetime_names in K. destruct K. split; auto. left. eauto.
    + destruct (f_output f) as [t|]; [|destruct K]. apply contains_lifetime_names in K. destruct K. split; eauto.
  - intros [A [(a & p & t & Hi & K)|(t & Ht & K)]].
    + left. exists (Typed a p t). split; auto. now apply contains_lifetime_names.
    + right. rewrite Ht. now apply contains_lifetime_names.
Qed.

Lemma found_type_names gs (f : func) x :
  In x (type_names (found_generics gs (f_inputs f) (f_output f))) <->
  In x (type_names gs) /\ in_signature f (mentions_bare x).
Proof.
  unfold found_generics, in_signature. rewrite type_names_app, in_app_iff, type_names_flat. split.
  - intros [([s|a p t] & Hi & K)|K]; [destruct K| |].
    + apply contains_type_names in K. destruct K. split; auto. left. eauto.
    + destruct (f_output f) as [t|]; [|destruct K]. apply contains_type_names in K. destruct K. split; eauto.
  - intros [A [(a & p & t & Hi & K)|(t & Ht & K)]].
    + left. exists (Typed a p t). split; auto. now apply contains_type_names.
    + right. rewrite Ht. now apply contains_type_names.
Qed.

(** Nothing but lifetimes and types is found. *)
Lemma contains_kinds gs t : forall p, In p (contains_generic_in_param gs t) -> is_lifetime p = true \/ is_type p = true.
Proof.
  assert (HP : forall q p, In p (path_generic gs q) -> is_lifetime p = true \/ is_type p = true).
  { intros q p. unfold path_generic. destruct (get_ident q) as [x|]; [|intros []].
    destruct (has_type gs x); [|intros []]. intros [<-|[]]. auto. }
  assert (HL : forall m p, In p (if has_lifetime gs m then [GLifetime m ""] else []) -> is_lifetime p = true \/ is_type p = true).
  { intros m p. destruct (has_lifetime gs m); [|intros []]. intros [<-|[]]. auto. }
  induction t using ty_ind2; cbn [contains_generic_in_param]; intros r K; eauto; try (now destruct K).
  - apply in_app_or in K. destruct K as [K|K].
    + apply in_flat_map in K. destruct K as (t & Ht & K). rewrite Forall_forall in H. eauto.
    + destruct out as [t|]; [|destruct K]. eauto.
  - apply in_app_or in K. destruct K as [K|K]; eauto. destruct l as [m|]; [eauto|destruct K].
  - apply in_flat_map in K. destruct K as ([q|m|] & _ & K); cbn in K; eauto.
  - apply in_flat_map in K. destruct K as (t & Ht & K). rewrite Forall_forall in H. eauto.
Qed.

Lemma found_kinds gs inputs out : forall p, In p (found_generics gs inputs out) -> is_lifetime p = true \/ is_type p = true.
Proof.
  intros p K. unfold found_generics in K. apply in_app_or in K. destruct K as [K|K].
  - apply in_flat_map in K. destruct K as ([s|a q t] & _ & K); [destruct K|]. eapply contains_kinds; eauto.
  - destruct out; [eapply contains_kinds; eauto|destruct K].
Qed.

Lemma lifetime_names_nil l : filter is_lifetime l = [] <-> lifetime_names l = [].
Proof. induction l as [|[m b|y b|y b] l IH]; cbn; auto; try tauto. split; discriminate. Qed.
Lemma type_names_nil l : filter is_type l = [] <-> type_names l = [].
Proof. induction l as [|[m b|y b|y b] l IH]; cbn; auto; try tauto. split; discriminate. Qed.

Lemma some_name {A} (l : list A) : l <> [] <-> exists x, In x l.
Proof. destruct l; split; try congruence; try (intros (x & [])); eauto using in_eq. Qed.

Lemma dedup_lifetimes l x : In x (lifetime_names (dedup l)) <-> In x (lifetime_names l).
Proof.
  unfold lifetime_names. rewrite !in_flat_map. split; intros (q & Hq & H); exists q; (split; [now apply dedup_in|exact H]).
Qed.
Lemma dedup_types l x : In x (type_names (dedup l)) <-> In x (type_names l).
Proof.
  unfold type_names. rewrite !in_flat_map. split; intros (q & Hq & H); exists q; (split; [now apply dedup_in|exact H]).
Qed.

Lemma app_nonempty {A} (a b : list A) : a ++ b <> [] <-> a <> [] \/ b <> [].
Proof. destruct a; cbn; split; try tauto; intros; try discriminate. left. discriminate. Qed.

Lemma nonempty_lifetimes l : filter is_lifetime l <> [] <-> lifetime_names l <> [].
Proof. now rewrite lifetime_names_nil. Qed.
Lemma nonempty_types l : filter is_type l <> [] <-> type_names l <> [].
Proof. now rewrite type_names_nil. Qed.

Lemma join_none a b : join_params a b = None <-> a <> [] /\ b <> [].
Proof. destruct a, b; cbn; split; try discriminate; intuition congruence. Qed.

Lemma message_generics_none found own : (forall p, In p found -> is_lifetime p = true \/ is_type p = true) ->
  (message_generics found own = None <->
   found <> [] /\ (lifetime_names found <> [] \/ lifetime_names own <> []) /\ (type_names found <> [] \/ type_names own <> [])).
Proof.
  intros HK. unfold message_generics. destruct (dedup found) as [|p l] eqn:E.
  - apply (proj1 (dedup_nil _)) in E. subst. split; [discriminate|intros [H _]; congruence].
  - rewrite <- E, join_none, !app_nonempty, !nonempty_lifetimes, !nonempty_types.
    rewrite !(some_name (lifetime_names (dedup found))), !(some_name (type_names (dedup found))).
    setoid_rewrite dedup_lifetimes. setoid_rewrite dedup_types. rewrite <- !some_name.
    split; [|tauto]. intros H. split; [|exact H]. intros ->. discriminate E.
Qed.

Lemma found_nonempty found : (forall p, In p found -> is_lifetime p = true \/ is_type p = true) ->
  (found <> [] <-> lifetime_names found <> [] \/ type_names found <> []).
Proof.
  intros HK. split.
  - destruct found as [|p l]; [congruence|]. intros _. destruct (HK p (or_introl eq_refl)) as [K|K]; destruct p; try discriminate K.
    + left. discriminate.
    + right. discriminate.
  - intros [H|H] ->; now apply H.
Qed.

Lemma impl_generics_lifetimes block own : NoDup (param_names (block ++ own)) ->
  lifetime_names (impl_item_generics block own) = lifetime_names block.
Proof.
  intros H. rewrite impl_generics_apart by auto.
  now rewrite lifetime_names_app, lifetime_names_types, lifetime_names_lifetimes, app_nil_r.
Qed.

Lemma extract_fn_none camel i f : params_apart i f ->
  (extract_fn camel (i_generics i) f = None <-> sc_message (scan_attrs (f_attrs f)) = true /\ mixed i f).
Proof.
  intros Hap. unfold extract_fn. destruct (sc_message (scan_attrs (f_attrs f))); [|split; [discriminate|intros [? _]; discriminate]].
  set (found := found_generics _ _ _).
  assert (HL : lifetime_names found <> [] <-> exists l, takes_lifetime i f l).
  { rewrite some_name. unfold takes_lifetime, found. setoid_rewrite found_lifetime_names.
    now rewrite (impl_generics_lifetimes _ _ Hap). }
  assert (HT : type_names found <> [] <-> exists x, takes_type i f x).
  { rewrite some_name. unfold takes_type, found. setoid_rewrite found_type_names.
    now rewrite (impl_generics_types _ _ Hap). }
  assert (HK : forall p, In p found -> is_lifetime p = true \/ is_type p = true) by apply found_kinds.
  pose proof (message_generics_none found (f_generics f) HK) as HN. rewrite (found_nonempty _ HK) in HN.
  unfold mixed. rewrite <- HL, <- HT.
  destruct (message_generics found (f_generics f)) as [g|].
  - split.
    + destruct (lacks_self (f_inputs f)); [discriminate|]. destruct (try_from _ _ _ _ _ _); discriminate.
    + intros [_ H]. apply HN in H. discriminate.
  - split; [|reflexivity]. intros _. split; [reflexivity|]. now apply HN.
Qed.

Lemma extract_messages_none camel i l : (forall f, In (IFn f) l -> params_apart i f) ->
  (extract_messages camel (i_generics i) l = None <->
   exists f, In (IFn f) l /\ sc_message (scan_attrs (f_attrs f)) = true /\ mixed i f).
Proof.
  induction l as [|[f|t] l IH]; intros Hap; cbn [extract_messages].
  - split; [discriminate|intros (f & [] & _)].
  - assert (IH' := IH (fun g Hg => Hap g (or_intror Hg))).
    pose proof (extract_fn_none camel i f (Hap f (or_introl eq_refl))) as HF.
    destruct (extract_fn camel (i_generics i) f) as [[[f' m] es]|].
    + destruct (extract_messages camel (i_generics i) l) as [[[its ms] es']|].
      * split; [discriminate|]. intros (g & [Eg|Hg] & K).
        -- injection Eg as <-. apply HF in K. discriminate.
        -- assert (X : exists f, In (IFn f) l /\ sc_message (scan_attrs (f_attrs f)) = true /\ mixed i f) by eauto.
           apply IH' in X. discriminate.
      * split; [|reflexivity]. intros _. destruct (proj1 IH' eq_refl) as (g & Hg & K). exists g. split; [now right|exact K].
    + split; [|reflexivity]. intros _. exists f. split; [now left|]. now apply HF.
  - assert (IH' := IH (fun g Hg => Hap g (or_intror Hg))).
    destruct (extract_messages camel (i_generics i) l) as [[[its ms] es']|].
    + split; [discriminate|]. intros (g & [Eg|Hg] & K); [discriminate|].
      assert (X : exists f, In (IFn f) l /\ sc_message (scan_attrs (f_attrs f)) = true /\ mixed i f) by eauto.
      apply IH' in X. discriminate.
    + split; [|reflexivity]. intros _. destruct (proj1 IH' eq_refl) as (g & Hg & K). exists g. split; [now right|exact K].
Qed.

Lemma marked_scan f : marked f <-> sc_message (scan_attrs (f_attrs f)) = true.
Proof.
  destruct (first_mark (f_attrs f)) as [N|(l1 & k & l2 & Hf & Hk & Hl)].
  - assert (M : ~ marked f) by (intros (x & Hx & Hx'); apply (N x Hx Hx')).
    destruct (scan_attrs_none _ M) as [a E]. rewrite E. cbn. split; [contradiction|discriminate].
  - rewrite (scan_attrs_mark _ _ _ _ Hf Hk Hl). cbn. split; [reflexivity|]. intros _.
    exists k. split; [|exact Hk]. rewrite Hf. apply in_or_app. right. now left.
Qed.

Theorem panics_iff camel i : (forall f, In (IFn f) (i_items i) -> params_apart i f) ->
  (expand camel i = Panicked <->
   (exists q g segs s, i_self i = TPath q (mk_path g (segs ++ [s])))
   /\ exists f, In (IFn f) (i_items i) /\ marked f /\ mixed i f).
Proof.
  intros Hap. pose proof (extract_messages_none camel i (i_items i) Hap) as H.
  setoid_rewrite marked_scan. rewrite <- H. clear H Hap.
  unfold expand. destruct (actor_ident (i_self i)) as [actor|] eqn:E.
  - destruct (extract_messages camel (i_generics i) (i_items i)) as [[[its ms] es]|].
    + split; [discriminate|intros [_ ?]; discriminate].
    + split; [|reflexivity]. intros _. split; [|reflexivity].
      destruct (i_self i) as [| | | | | | | |qs [g segs]| | | | | | ]; try discriminate. cbn in E.
      destruct (rev segs) as [|s l] eqn:R; [discriminate|]. exists qs, g, (rev l), s.
      rewrite <- (rev_involutive segs), R. reflexivity.
  - split; [discriminate|]. intros [(q & g & segs & s & H) _]. rewrite H in E. cbn in E.
    rewrite rev_app_distr in E. discriminate.
Qed.

Lemma message_generics_lifetimes found own g : message_generics found own = Some g ->
  forall x, In x (lifetime_names g) <-> In x (lifetime_names found) \/ In x (lifetime_names own).
Proof.
  unfold message_generics. intros H x. destruct (dedup found) as [|p l] eqn:E.
  - injection H as <-. apply (proj1 (dedup_nil _)) in E. subst. cbn. tauto.
  - apply join_some in H. subst g. rewrite <- E.
    rewrite !lifetime_names_app, !lifetime_names_types, !lifetime_names_lifetimes.
    rewrite !app_nil_r, in_app_iff, dedup_lifetimes. reflexivity.
Qed.

Theorem lifetimes_declared camel i x : expand camel i = Expanded x ->
  pairs_out (fun f ps s h => params_apart i f ->
    forall l, In l (lifetime_names (st_generics s)) <->
      ps <> [] /\ (takes_lifetime i f l \/ In l (lifetime_names (f_generics f)))) i x.
Proof.
  intros Hx. eapply pairs; eauto. intros f ps m actor its Ha Hin Hact Hm Hap l. cbn beta.
  rewrite (expand_msg_generics _ _ _ _ _ Hm).
  destruct Hm as (_ & _ & _ & _ & _ & _ & _ & _ & _ & _ & _ & Hg).
  pose proof (message_generics_lifetimes _ _ _ Hg l) as Ht.
  rewrite found_lifetime_names, (impl_generics_lifetimes _ _ Hap) in Ht.
  destruct ps as [|p0 ps].
  - cbn. split; [intros []|intros [K _]; congruence].
  - rewrite Ht. unfold takes_lifetime. split; [intros K; split; [discriminate|exact K]|tauto].
Qed.
