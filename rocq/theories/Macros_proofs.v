(** Proofs for the model of [#[messages]]. *)
From Coq Require Import String List Bool Permutation Arith Lia.
Import ListNotations.
From Verif Require Import Macros Macros_spec Macros_examples.

(** ** Attributes *)

Definition is_markb (m : meta) : bool :=
  match m with
  | MPath [x] => String.eqb x "message"
  | MList [x] _ => String.eqb x "message"
  | _ => false
  end.

Lemma is_markb_iff m : is_markb m = true <-> is_mark m.
Proof.
  unfold is_mark. split.
  - destruct m as [p|p a|p v]; cbn; try discriminate; destruct p as [|x [|? ?]]; try discriminate;
      intros H; apply String.eqb_eq in H; subst; eauto.
  - intros [->|[a ->]]; reflexivity.
Qed.

Lemma is_markb_false m : is_markb m = false <-> ~ is_mark m.
Proof. rewrite <- is_markb_iff. destruct (is_markb m); split; congruence. Qed.

Lemma scan_after l : forall k a e, fold_left scan_attr l (mk_scan k true a e) = mk_scan (k ++ l) true a e.
Proof.
  induction l as [|m l IH]; intros; cbn [fold_left]; [now rewrite app_nil_r|].
  change (scan_attr (mk_scan k true a e) m) with (mk_scan (k ++ [m]) true a e).
  rewrite IH, <- app_assoc. reflexivity.
Qed.

Lemma scan_skip k a e m : ~ is_mark m -> scan_attr (mk_scan k false a e) m = mk_scan (k ++ [m]) false a e.
Proof.
  intros H. apply is_markb_false in H. unfold scan_attr; cbn.
  destruct m as [p|p b|p v]; auto; destruct p as [|x [|? ?]]; auto; cbn in H; rewrite H; auto.
Qed.

Lemma scan_none l : forall k a e, (forall m, In m l -> ~ is_mark m) ->
  fold_left scan_attr l (mk_scan k false a e) = mk_scan (k ++ l) false a e.
Proof.
  induction l as [|m l IH]; intros k a e H; cbn [fold_left]; [now rewrite app_nil_r|].
  rewrite scan_skip by (apply H; now left). rewrite IH by (intros; apply H; now right).
  now rewrite <- app_assoc.
Qed.

Definition mark_errors (m : meta) : list error :=
  match m with MList _ None => [EBadAttribute] | _ => [] end.

Lemma scan_mark k a m : is_mark m ->
  scan_attr (mk_scan k false a []) m = mk_scan k true (a ++ brackets m) (mark_errors m).
Proof.
  intros [->|[b ->]]; cbn; [now rewrite app_nil_r|]. destruct b; cbn; auto. now rewrite app_nil_r.
Qed.

Lemma docs_eq l : map doc_text (filter is_doc l) = docs l.
Proof.
  induction l as [|m l IH]; auto. cbn [filter docs flat_map]. fold (docs l).
  destruct m as [p|p b|p v]; auto. destruct p as [|x p]; auto. cbn [is_doc].
  destruct (String.eqb x "doc") eqn:E.
  - apply String.eqb_eq in E. subst. cbn. now f_equal.
  - apply String.eqb_neq in E. rewrite IH. symmetry.
    assert (G : match x with "doc"%string => [v] | _ => [] end = @nil text); [|].
    { clear IH. repeat match goal with
        | |- match ?y with _ => _ end = _ => destruct y; try reflexivity
        end. congruence. }
    exact (f_equal (fun z => z ++ docs l) G).
Qed.

Lemma first_mark l : (forall m, In m l -> ~ is_mark m)
  \/ exists l1 m l2, l = l1 ++ m :: l2 /\ is_mark m /\ forall x, In x l1 -> ~ is_mark x.
Proof.
  induction l as [|m l [IH|(l1 & m' & l2 & -> & Hm & Hl)]].
  - left. intros m [].
  - destruct (is_markb m) eqn:E.
    + right. exists [], m, l. apply is_markb_iff in E. repeat split; auto.
    + left. apply is_markb_false in E. intros x [<-|Hx]; auto.
  - destruct (is_markb m) eqn:E.
    + right. exists [], m, (l1 ++ m' :: l2). apply is_markb_iff in E. repeat split; auto.
    + right. exists (m :: l1), m', l2. apply is_markb_false in E. repeat split; auto.
      intros x [<-|Hx]; auto.
Qed.

Lemma scan_attrs_none f : ~ marked f -> exists a, scan_attrs (f_attrs f) = mk_scan (f_attrs f) false a [].
Proof.
  intros H. unfold scan_attrs. rewrite scan_none; [eauto|].
  intros m Hm Hk. apply H. exists m; auto.
Qed.

Lemma scan_attrs_mark f l1 m l2 : f_attrs f = l1 ++ m :: l2 -> is_mark m -> (forall x, In x l1 -> ~ is_mark x) ->
  scan_attrs (f_attrs f) = mk_scan (l1 ++ l2) true (docs (f_attrs f) ++ brackets m) (mark_errors m).
Proof.
  intros Hf Hm Hl. unfold scan_attrs. rewrite docs_eq. generalize (docs (f_attrs f)). intros d.
  rewrite Hf, fold_left_app, scan_none by auto.
  cbn [fold_left]. rewrite (scan_mark ([] ++ l1) d _ Hm), scan_after. reflexivity.
Qed.

Lemma first_unique l1 m l2 : forall k1 n k2, l1 ++ m :: l2 = k1 ++ n :: k2 -> is_mark m -> is_mark n ->
  (forall x, In x l1 -> ~ is_mark x) -> (forall x, In x k1 -> ~ is_mark x) -> m = n.
Proof.
  induction l1 as [|a l1 IH]; intros [|b k1] n k2 E Hm Hn H1 H2; cbn in E; injection E as E1 E2; subst; auto.
  - exfalso. apply (H2 b); [now left|auto].
  - exfalso. apply (H1 n); [now left|auto].
  - eapply IH; eauto; intros; [apply H1|apply H2]; now right.
Qed.

Lemma brackets_errors f l1 m l2 : f_attrs f = l1 ++ m :: l2 -> is_mark m -> (forall x, In x l1 -> ~ is_mark x) ->
  brackets_read f <-> mark_errors m = [].
Proof.
  intros Hf Hm Hl. unfold brackets_read. split.
  - intros H. specialize (H l1 m l2 Hf Hm Hl). destruct Hm as [->|[a ->]]; auto. destruct a; [auto|congruence].
  - intros He k1 n k2 Hf' Hn Hk. rewrite Hf in Hf'. rewrite (first_unique _ _ _ _ _ _ Hf' Hm Hn Hl Hk) in He.
    intros ->. discriminate.
Qed.

(** ** Parameters *)

Lemma validate_param_iff t : validate_param t <> None <-> bad_type t.
Proof.
  split.
  - induction t; cbn; intros H; try congruence; try (constructor; auto; fail).
  - induction 1; cbn; auto; congruence.
Qed.

Lemma params_unique l ps : params_of l ps -> forall qs, params_of l qs -> ps = qs.
Proof. induction 1; intros qs Hq; inversion Hq; subst; auto. f_equal; auto. Qed.

Lemma params_strip l ps : params_of (map strip_docs l) ps <-> params_of l ps.
Proof.
  split.
  - revert ps. induction l as [|[s|a p t] l IH]; cbn; intros ps H; inversion H; subst; constructor; auto.
  - induction 1; cbn; constructor; auto.
Qed.

Definition key (d : field) : ident * ty := (fd_name d, fd_ty d).

Lemma fields_of_ok vis : forall l docs, length docs = length l ->
  match fields_of vis (combine l docs) with
  | inl fs => params_of l (map key fs) /\ (forall d, In d fs -> fd_vis d = vis)
              /\ map fd_docs fs = flat_map (fun p => match fst p with Typed _ _ _ => [snd p] | Receiver _ => [] end) (combine l docs)
  | inr _ => forall ps, ~ params_of l ps
  end.
Proof.
  induction l as [|[s|a p t] l IH]; intros [|d docs] Hd; cbn in Hd; try discriminate; cbn.
  - split; [constructor|]. split; [intros ? []|reflexivity].
  - injection Hd as Hd. specialize (IH docs Hd). destruct (fields_of vis (combine l docs)) as [fs|e].
    + destruct IH as [IH1 IH2]; split; auto. now constructor.
    + intros ps H. inversion H; subst. eapply IH; eauto.
  - injection Hd as Hd. specialize (IH docs Hd). destruct p as [x|y].
    + destruct (fields_of vis (combine l docs)) as [fs|e].
      * destruct IH as (IH1 & IH2 & IH3); split; [now constructor|]. split; [intros f [<-|Hf]; auto|].
        cbn. now f_equal.
      * intros ps H. inversion H; subst. eapply IH; eauto.
    + intros ps H. inversion H.
Qed.

Lemma input_errors_iff l ps : params_of l ps ->
  input_errors l = [] <-> (forall x t, In (x, t) ps -> ~ bad_type t).
Proof.
  induction 1 as [|s l ps H IH|a x t l ps H IH]; cbn.
  - tauto.
  - exact IH.
  - fold (input_errors l). destruct (validate_param t) as [e|] eqn:E; cbn.
    + split; [discriminate|]. intros K. exfalso. apply (K x t); [now left|].
      apply validate_param_iff. congruence.
    + rewrite IH. split.
      * intros K y u [Hy|Hy]; eauto. injection Hy as <- <-. intros Hb.
        apply validate_param_iff in Hb. congruence.
      * intros K y u Hy. eapply K. right; eauto.
Qed.

Lemma strip_kept l : Forall2 only_docs_off l (map strip_docs l).
Proof.
  induction l as [|[s|a p t] l IH]; cbn; constructor; auto; cbn; auto.
  repeat split; auto.
  - intros m Hm. apply filter_In in Hm. tauto.
  - intros m Hm. destruct (is_doc m) eqn:E.
    + right. destruct m as [p0|p0 b|p0 v]; try discriminate. destruct p0 as [|s p0]; try discriminate.
      cbn in E. apply String.eqb_eq in E. subst. eauto.
    + left. apply filter_In. rewrite E. auto.
Qed.

Lemma inputs_same l : Forall2 only_docs_off l l.
Proof.
  induction l as [|[s|a p t] l IH]; constructor; auto; cbn; auto. repeat split; auto using incl_refl.
Qed.

(** ** One method *)

(** What is known of the message made from a method. *)
Definition made_from (camel : ident -> ident) (block : list gparam) (f : func) (ps : list (ident * ty)) (m : message) : Prop :=
  ms_vis m = f_vis f /\ ms_ident m = camel (f_name f) /\ map key (ms_fields m) = ps
  /\ (forall d, In d (ms_fields m) -> fd_vis d = f_vis f)
  /\ (exists l1 k l2, f_attrs f = l1 ++ k :: l2 /\ is_mark k /\ (forall x, In x l1 -> ~ is_mark x)
                      /\ ms_attrs m = docs (f_attrs f) ++ brackets k)
  /\ map fd_docs (ms_fields m) = flat_map (fun i => match i with Typed a _ _ => [docs a] | Receiver _ => [] end) (f_inputs f)
  /\ f_name (ms_fn m) = f_name f /\ f_async (ms_fn m) = f_async f /\ f_output (ms_fn m) = f_output f
  /\ f_generics (ms_fn m) = f_generics f /\ f_where (ms_fn m) = f_where f
  /\ message_generics (found_generics (impl_item_generics block (f_generics f)) (f_inputs f) (f_output f))
       (f_generics f) = Some (ms_generics m).

Lemma app_nil_iff {A} (a b : list A) : a ++ b = [] <-> a = [] /\ b = [].
Proof. split; [apply app_eq_nil|intros [-> ->]; auto]. Qed.

Section Fn.
Variables (camel : ident -> ident) (block : list gparam) (f : func).

Lemma extract_fn_plain f' m es : ~ marked f -> extract_fn camel block f = Some (f', m, es) ->
  f' = f /\ m = None /\ es = [].
Proof.
  intros Hm H. destruct (scan_attrs_none _ Hm) as [a E]. unfold extract_fn in H. rewrite E in H. cbn in H.
  injection H as <- <- <-. repeat split. destruct f; reflexivity.
Qed.

Lemma extract_fn_marked f' m es : marked f -> extract_fn camel block f = Some (f', m, es) ->
  method_kept f f'
  /\ match m with
     | Some x => exists ps, es = [] /\ accepted f ps /\ made_from camel block f ps x
     | None => es <> [] /\ forall ps, ~ accepted f ps
     end.
Proof.
  intros Hm H. destruct (first_mark (f_attrs f)) as [N|(l1 & k & l2 & Hf & Hk & Hl)].
  { exfalso. destruct Hm as (x & Hx & Hx'). apply (N x Hx Hx'). }
  pose proof (scan_attrs_mark _ _ _ _ Hf Hk Hl) as E.
  pose proof (brackets_errors _ _ _ _ Hf Hk Hl) as Hb.
  unfold extract_fn in H. rewrite E in H. cbn [sc_message sc_kept sc_errors sc_attrs] in H.
  destruct (message_generics (found_generics (impl_item_generics block (f_generics f)) (f_inputs f) (f_output f))
              (f_generics f)) as [g|] eqn:Eg; [|discriminate].
  destruct (lacks_self (f_inputs f)) eqn:Es.
  - injection H as <- <- <-. split.
    + repeat split; cbn; auto using inputs_same. exists l1, k, l2. auto.
    + split; [intros K; apply app_eq_nil in K; destruct K; discriminate|].
      intros ps (_ & _ & (s & l & Hs) & _). rewrite Hs in Es. discriminate.
  - assert (Hself : exists s l, f_inputs f = Receiver s :: l).
    { destruct (f_inputs f) as [|[s|? ? ?] l]; cbn in Es; try discriminate; eauto. }
    unfold try_from in H. cbn [f_vis with_attrs with_inputs f_inputs f_name] in H.
    pose proof (fields_of_ok (f_vis f) (map strip_docs (f_inputs f)) (map field_docs (f_inputs f))) as Hfo.
    rewrite !map_length in Hfo. specialize (Hfo eq_refl).
    destruct (fields_of (f_vis f) (combine (map strip_docs (f_inputs f)) (map field_docs (f_inputs f)))) as [fs|e].
    + destruct Hfo as (Hp & Hv & Hdoc). apply (proj1 (params_strip _ _)) in Hp.
      assert (Hkept : method_kept f (with_inputs (with_attrs f (l1 ++ l2)) (map strip_docs (f_inputs f)))).
      { repeat split; cbn; auto using strip_kept. exists l1, k, l2. auto. }
      destruct (mark_errors k ++ input_errors (f_inputs f)) as [|e0 es0] eqn:Ee.
      * injection H as <- <- <-. split; [exact Hkept|]. exists (map key fs). split; auto.
        apply app_eq_nil in Ee. destruct Ee as [E1 E2]. split.
        -- repeat split; auto; [now apply Hb|]. apply (proj1 (input_errors_iff _ _ Hp)). exact E2.
        -- repeat split; cbn; auto; [exists l1, k, l2; auto|].
           rewrite Hdoc. clear. induction (f_inputs f) as [|[s|a p t] l IH]; cbn; auto. now rewrite IH, docs_eq.
      * injection H as <- <- <-. split; [exact Hkept|]. split; [discriminate|].
        intros ps (_ & Hb' & _ & Hp' & Ht). apply Hb in Hb'.
        rewrite Hb' in Ee. cbn in Ee. apply (proj2 (input_errors_iff _ _ Hp')) in Ht. congruence.
    + injection H as <- <- <-. split.
      * repeat split; cbn; auto using strip_kept. exists l1, k, l2. auto.
      * split; [intros K; apply app_eq_nil in K; destruct K; discriminate|].
        intros ps (_ & _ & _ & Hp' & _). apply (Hfo ps). now apply params_strip.
Qed.

Lemma marked_dec : marked f \/ ~ marked f.
Proof.
  destruct (first_mark (f_attrs f)) as [N|(l1 & k & l2 & Hf & Hk & Hl)].
  - right. intros (x & Hx & Hx'). apply (N x Hx Hx').
  - left. exists k. rewrite Hf. split; auto. apply in_or_app. right. now left.
Qed.
End Fn.

(** ** The block *)

Inductive extracted (camel : ident -> ident) (block : list gparam) : list item -> list message -> Prop :=
| Ex_nil : extracted camel block [] []
| Ex_other t l o : extracted camel block l o -> extracted camel block (IOther t :: l) o
| Ex_none f l o : (forall ps, ~ accepted f ps) -> extracted camel block l o -> extracted camel block (IFn f :: l) o
| Ex_message f ps m l o : accepted f ps -> made_from camel block f ps m -> extracted camel block l o ->
    extracted camel block (IFn f :: l) (m :: o).

Lemma extract_spec camel block : forall l its ms es, extract_messages camel block l = Some (its, ms, es) ->
  extracted camel block l ms /\ Forall2 item_kept l its
  /\ (es = [] <-> forall f, In (IFn f) l -> marked f -> exists ps, accepted f ps).
Proof.
  induction l as [|[f|t] l IH]; intros its ms es H; cbn in H.
  - injection H as <- <- <-. split; [constructor|]. split; [constructor|]. split; [intros _ f []|auto].
  - destruct (extract_fn camel block f) as [[[f' m] e1]|] eqn:E1; [|discriminate].
    destruct (extract_messages camel block l) as [[[its' ms'] e2]|] eqn:E2; [|discriminate].
    injection H as <- <- <-. destruct (IH _ _ _ eq_refl) as (I1 & I2 & I3).
    destruct (marked_dec f) as [Hm|Hm].
    + destruct (extract_fn_marked _ _ _ _ _ _ Hm E1) as [K1 K2]. destruct m as [m|].
      * destruct K2 as (ps & -> & Ha & Hd). split; [eapply Ex_message; eauto|]. split; [constructor; auto; cbn; auto|].
        cbn [app]. rewrite I3. split.
        -- intros H g [Hg|Hg] Hg'; [injection Hg as <-; eauto|eauto].
        -- intros H g Hg. apply H. now right.
      * destruct K2 as [Hn Ha]. split; [apply Ex_none; auto|]. split; [constructor; auto; cbn; auto|].
        split.
        -- intros H. apply app_eq_nil in H. tauto.
        -- intros H. destruct (H f (or_introl eq_refl) Hm) as [ps Hps]. exfalso. eapply Ha; eauto.
    + destruct (extract_fn_plain _ _ _ _ _ _ Hm E1) as (-> & -> & ->).
      split; [apply Ex_none; auto; intros ps (Hk & _); auto|]. split; [constructor; auto; cbn; auto|].
      cbn. rewrite I3. split.
      * intros H g [Hg|Hg] Hg'; [injection Hg as <-; tauto|eauto].
      * intros H g Hg. apply H. now right.
  - destruct (extract_messages camel block l) as [[[its' ms'] e2]|] eqn:E2; [|discriminate].
    injection H as <- <- <-. destruct (IH _ _ _ eq_refl) as (I1 & I2 & I3).
    split; [now constructor|]. split; [constructor; auto; reflexivity|].
    rewrite I3. split; intros H g Hg; [destruct Hg as [Hg|Hg]; [discriminate|eauto]|]. apply H. now right.
Qed.

(** ** Which errors *)

Lemma validate_error t e : validate_param t = Some e <-> type_error t e.
Proof.
  split.
  - induction t; cbn; intros H; try discriminate; try (injection H as <-); constructor; auto.
  - induction 1; cbn; auto.
Qed.

Lemma types_are l : types_errors l (input_errors l).
Proof.
  induction l as [|[s|a p t] l IH]; cbn; [constructor|constructor; exact IH|].
  fold (input_errors l). destruct (validate_param t) as [e|] eqn:E; cbn.
  - apply Ts_bad; [apply validate_error, E|exact IH].
  - apply Ts_fine; [|exact IH]. intros B. apply validate_param_iff in B. congruence.
Qed.

Lemma fields_of_error vis : forall l e, fields_of vis l = inr e -> e = EPattern.
Proof.
  induction l as [|[[s|a p t] d] l IH]; intros e; cbn; [discriminate|apply IH|].
  destruct p as [x|y].
  - destruct (fields_of vis l); [discriminate|]. intros [= <-]. auto.
  - intros [= <-]. reflexivity.
Qed.

Lemma fn_errors camel block f f' m es : extract_fn camel block f = Some (f', m, es) -> method_errors f es.
Proof.
  intros H. destruct (marked_dec f) as [Hm|Hm].
  2: { destruct (extract_fn_plain _ _ _ _ _ _ Hm H) as (_ & _ & ->). constructor. exact Hm. }
  destruct (first_mark (f_attrs f)) as [N|(l1 & k & l2 & Hf & Hk & Hl)].
  { exfalso. destruct Hm as (x & Hx & Hx'). apply (N x Hx Hx'). }
  pose proof (scan_attrs_mark _ _ _ _ Hf Hk Hl) as E.
  pose proof (brackets_errors _ _ _ _ Hf Hk Hl) as Hb.
  assert (B : brackets_read f /\ mark_errors k = [] \/ ~ brackets_read f /\ mark_errors k = [EBadAttribute]).
  { rewrite Hb. destruct Hk as [->|[a ->]]; [left; split; reflexivity|]. destruct a; [left; split; reflexivity|].
    right. split; [discriminate|reflexivity]. }
  unfold extract_fn in H. rewrite E in H. cbn [sc_message sc_kept sc_errors sc_attrs] in H.
  destruct (message_generics _ _) as [g|]; [|discriminate].
  destruct (lacks_self (f_inputs f)) eqn:Es.
  - injection H as _ _ <-. rewrite <- app_assoc. apply Me_marked; auto using types_are. left. split; [|reflexivity].
    intros s l X. rewrite X in Es. discriminate.
  - assert (Hself : exists s l, f_inputs f = Receiver s :: l).
    { destruct (f_inputs f) as [|[s|? ? ?] l]; cbn in Es; try discriminate; eauto. }
    unfold try_from in H. cbn [f_vis with_attrs with_inputs f_inputs f_name] in H.
    pose proof (fields_of_ok (f_vis f) (map strip_docs (f_inputs f)) (map field_docs (f_inputs f))) as Hfo.
    rewrite !map_length in Hfo. specialize (Hfo eq_refl).
    destruct (fields_of _ _) as [fs|e] eqn:Ef.
    + injection H as _ _ <-. rewrite <- (app_nil_r (input_errors _)).
      apply Me_marked; auto using types_are. right. right. split; [exact Hself|]. split; [|reflexivity].
      exists (map key fs). apply params_strip. apply Hfo.
    + injection H as _ _ <-. rewrite <- app_assoc. rewrite (fields_of_error _ _ _ Ef).
      apply Me_marked; auto using types_are. right. left. split; [exact Hself|]. split; [|reflexivity].
      intros ps Hp. apply (Hfo ps). apply params_strip. exact Hp.
Qed.

Lemma block_errors camel block : forall l its ms es, extract_messages camel block l = Some (its, ms, es) ->
  exists ess, Forall2 item_errors l ess /\ es = concat ess.
Proof.
  induction l as [|[f|t] l IH]; intros its ms es H; cbn in H.
  - injection H as _ _ <-. exists []. split; [constructor|reflexivity].
  - destruct (extract_fn camel block f) as [[[f' m] e1]|] eqn:E1; [|discriminate].
    destruct (extract_messages camel block l) as [[[its' ms'] e2]|]; [|discriminate].
    injection H as _ _ <-. destruct (IH _ _ _ eq_refl) as (ess & F & ->).
    exists (e1 :: ess). split; [constructor; [exact (fn_errors _ _ _ _ _ _ E1)|exact F]|reflexivity].
  - destruct (extract_messages camel block l) as [[[its' ms'] e2]|]; [|discriminate].
    injection H as _ _ <-. destruct (IH _ _ _ eq_refl) as (ess & F & ->).
    exists ([] :: ess). split; [constructor; [reflexivity|exact F]|reflexivity].
Qed.

Lemma which_errors camel i x : expand camel i = Expanded x ->
  exists ess, Forall2 item_errors (i_items i) ess /\ x_errors x = concat ess.
Proof.
  unfold expand. destruct (actor_ident (i_self i)) as [actor|]; [|discriminate].
  destruct (extract_messages camel (i_generics i) (i_items i)) as [[[its ms] es]|] eqn:E; [|discriminate].
  injection 1 as <-. exact (block_errors _ _ _ _ _ _ E).
Qed.

Lemma types_errors_fun l es : types_errors l es -> forall es', types_errors l es' -> es = es'.
Proof.
  assert (T : forall t e, type_error t e -> bad_type t) by (induction 1; constructor; auto).
  induction 1 as [|s l es H IH|a p t l es B H IH|a p t e l es B H IH]; intros es' H'; inversion H'; subst; auto.
  - exfalso. eauto.
  - exfalso. eauto.
  - f_equal; [|auto]. apply validate_error in B. match goal with X : type_error t _ |- _ => apply validate_error in X end. congruence.
Qed.

Lemma method_errors_fun f es es' : method_errors f es -> method_errors f es' -> es = es'.
Proof.
  intros H H'. inversion H as [M|a1 a2 a3 M B1 T1 S1]; inversion H' as [M'|b1 b2 b3 M' B2 T2 S2]; subst; try contradiction; auto.
  rewrite (types_errors_fun _ _ T1 _ T2).
  assert (a1 = b1) by (destruct B1 as [[? ->]|[? ->]], B2 as [[? ->]|[? ->]]; tauto || reflexivity). subst b1.
  f_equal. f_equal.
  destruct S1 as [(N & ->)|[((s & l & X) & N & ->)|((s & l & X) & (ps & N) & ->)]];
  destruct S2 as [(N' & ->)|[((s' & l' & X') & N' & ->)|((s' & l' & X') & (ps' & N') & ->)]]; try reflexivity; exfalso;
    try (eapply N; eassumption); try (eapply N'; eassumption).
Qed.

Lemma expand_inv camel i x : expand camel i = Expanded x ->
  exists actor ms its, actor_ident (i_self i) = Some actor
    /\ extracted camel (i_generics i) (i_items i) ms
    /\ x_block x = mk_impl (i_generics i) (i_where i) (i_self i) its
    /\ Forall2 item_kept (i_items i) its
    /\ x_structs x = map expand_msg ms
    /\ x_handlers x = map (expand_msg_impl (x_block x) actor) ms
    /\ (x_errors x = [] <-> forall f, In (IFn f) (i_items i) -> marked f -> exists ps, accepted f ps).
Proof.
  unfold expand. destruct (actor_ident (i_self i)) as [actor|]; [|discriminate].
  destruct (extract_messages camel (i_generics i) (i_items i)) as [[[its ms] es]|] eqn:E; [|discriminate].
  injection 1 as <-. destruct (extract_spec _ _ _ _ _ _ E) as (H1 & H2 & H3).
  exists actor, ms, its. repeat split; auto; apply H3.
Qed.

Lemma combine_map {A B C} (g : A -> B) (h : A -> C) (l : list A) :
  combine (map g l) (map h l) = map (fun a => (g a, h a)) l.
Proof. induction l; cbn; f_equal; auto. Qed.

(** Anything that holds of what is made from a message holds of what comes out. *)
Lemma pairs camel i x (P : func -> list (ident * ty) -> struct_item -> handler -> Prop) :
  expand camel i = Expanded x ->
  (forall f ps m actor its, accepted f ps -> In (IFn f) (i_items i) -> actor_ident (i_self i) = Some actor ->
     made_from camel (i_generics i) f ps m ->
     P f ps (expand_msg m) (expand_msg_impl (mk_impl (i_generics i) (i_where i) (i_self i) its) actor m)) ->
  pairs_out P i x.
Proof.
  intros Hx HP. destruct (expand_inv _ _ _ Hx) as (actor & ms & its & Ha & He & Hb & _ & Hs & Hh & _).
  unfold pairs_out. rewrite Hs, Hh, Hb, !map_length, combine_map. split; auto.
  assert (G : forall l, (forall f, In (IFn f) l -> In (IFn f) (i_items i)) -> forall ms, extracted camel (i_generics i) l ms ->
    comes_out P l (map (fun m => (expand_msg m,
       expand_msg_impl (mk_impl (i_generics i) (i_where i) (i_self i) its) actor m)) ms)).
  { intros l Hl ms' H. induction H; cbn.
    - constructor.
    - constructor. apply IHextracted. intros; apply Hl; now right.
    - apply Out_none; auto. apply IHextracted. intros; apply Hl; now right.
    - eapply Out_message; eauto.
      + apply HP; auto. apply Hl. now left.
      + apply IHextracted. intros; apply Hl; now right. }
  apply G; auto.
Qed.

(** ** What a handler does *)

Lemma describes_ok camel block i actor its f ps m : made_from camel block f ps m ->
  describes camel f ps (expand_msg m) (expand_msg_impl (mk_impl (i_generics i) (i_where i) (i_self i) its) actor m).
Proof.
  intros (Hv & Hi & Hk & Hd & Hat & Hdo & Hn & Ha & Ho & _). unfold describes, expand_msg_impl; cbn.
  assert (Hr : returns f (match f_output (ms_fn m) with Some t => t | None => TTuple [] end)).
  { unfold returns. rewrite Ho. destruct (f_output f); auto. }
  destruct m as [v fn id fs at_ g]; cbn in *. subst.
  destruct fs as [|d fs]; (split; [reflexivity|]); (split; [reflexivity|]); (split; [reflexivity|]); cbn.
  - split; [discriminate|]. split; [split; [exact Hat|discriminate]|]. auto.
  - split; [intros l d' E; injection E as <-; apply Hd|].
    split; [split; [exact Hat|intros l E; injection E as <-; exact Hdo]|]. auto.
Qed.

Lemma get_field_in {V} (s : list (ident * V)) x v : NoDup (map fst s) -> In (x, v) s -> get_field s x = Some v.
Proof.
  induction s as [|[y w] s IH]; cbn; [intros _ []|].
  intros Hn H. inversion Hn as [|? ? Hy Hn']; subst. destruct H as [H|H].
  - injection H as -> ->. now rewrite String.eqb_refl.
  - destruct (String.eqb y x) eqn:E; auto.
    apply String.eqb_eq in E. subst. exfalso. apply Hy. apply in_map_iff. exists (x, v); auto.
Qed.

Lemma combine_fst {A B} (l : list A) : forall (m : list B), length m = length l -> map fst (combine l m) = l.
Proof. induction l; intros [|b m] H; cbn in *; try discriminate; f_equal; auto. Qed.

Lemma get_fields_all {V} (s : list (ident * V)) : NoDup (map fst s) -> forall l vs, length vs = length l ->
  (forall x v, In (x, v) (combine l vs) -> In (x, v) s) -> get_fields s l = Some vs.
Proof.
  intros Hs. induction l as [|x l IH]; intros [|v vs] Hl Hin; cbn in *; try discriminate; auto.
  rewrite (get_field_in s x v) by auto. rewrite (IH vs); auto.
Qed.

Lemma calls_ok camel block i actor its f ps m : made_from camel block f ps m ->
  calls_method f ps (expand_msg_impl (mk_impl (i_generics i) (i_where i) (i_self i) its) actor m).
Proof.
  intros (Hv & Hi & Hk & Hd & Hat & Hdo & Hn & Ha & Ho & _) V R methods result args msg Hm Hl Hnd Hp.
  unfold run_handler, expand_msg_impl; cbn. rewrite Hn, Ha.
  assert (En : map fd_name (ms_fields m) = map fst ps).
  { rewrite <- Hk, map_map. apply map_ext. reflexivity. }
  rewrite En.
  assert (Hc : map fst (combine (map fst ps) args) = map fst ps) by (apply combine_fst; now rewrite map_length).
  rewrite (get_fields_all msg) with (vs := args); [|..].
  - rewrite Hm. destruct (f_async f); reflexivity.
  - apply (Permutation_NoDup (l := map fst (combine (map fst ps) args))).
    + apply Permutation_map. now apply Permutation_sym.
    + now rewrite Hc.
  - now rewrite map_length.
  - intros x v Hx. eapply Permutation_in; [apply Permutation_sym; exact Hp|exact Hx].
Qed.

Theorem expands camel i x : expand camel i = Expanded x ->
  pairs_out (fun f ps s h => describes camel f ps s h /\ calls_method f ps h) i x.
Proof. intros Hx. eapply pairs; eauto. intros. split; [eapply describes_ok|eapply calls_ok]; eauto. Qed.

Theorem errors_iff camel i x : expand camel i = Expanded x ->
  x_errors x = [] <-> forall f, In (IFn f) (i_items i) -> marked f -> exists ps, accepted f ps.
Proof. intros Hx. destruct (expand_inv _ _ _ Hx) as (actor & ms & its & _ & _ & _ & _ & _ & _ & H). exact H. Qed.

Theorem block_kept camel i x : expand camel i = Expanded x ->
  i_generics (x_block x) = i_generics i /\ i_where (x_block x) = i_where i /\ i_self (x_block x) = i_self i
  /\ Forall2 item_kept (i_items i) (i_items (x_block x)).
Proof.
  intros Hx. destruct (expand_inv _ _ _ Hx) as (actor & ms & its & _ & _ & -> & H & _). cbn. auto.
Qed.

(** ** Type parameters *)

Section TyInd.
Variable P : ty -> Prop.
Hypothesis HArray : forall e l, P e -> P (TArray e l).
Hypothesis HFn : forall ins out, Forall P ins -> (forall t, out = Some t -> P t) -> P (TBareFn ins out).
Hypothesis HGroup : forall e, P e -> P (TGroup e).
Hypothesis HImpl : forall bs, P (TImplTrait bs).
Hypothesis HInfer : P TInfer.
Hypothesis HMacro : forall l, P (TMacro l).
Hypothesis HNever : P TNever.
Hypothesis HParen : forall e, P e -> P (TParen e).
Hypothesis HPath : forall q p, P (TPath q p).
Hypothesis HPtr : forall e, P e -> P (TPtr e).
Hypothesis HRef : forall l e, P e -> P (TReference l e).
Hypothesis HSlice : forall e, P e -> P (TSlice e).
Hypothesis HDyn : forall bs, P (TTraitObject bs).
Hypothesis HTuple : forall es, Forall P es -> P (TTuple es).
Hypothesis HVerb : forall l, P (TVerbatim l).

Fixpoint ty_ind2 (t : ty) : P t :=
  let all := fix all (l : list ty) : Forall P l :=
    match l with [] => Forall_nil P | x :: l' => Forall_cons x (ty_ind2 x) (all l') end in
  match t with
  | TArray e l => HArray e l (ty_ind2 e)
  | TBareFn ins out =>
      HFn ins out (all ins)
        (match out as o return forall t, o = Some t -> P t with
         | Some u => fun t E => match E in _ = y return match y with Some z => P z | None => True end with
                                | eq_refl => ty_ind2 u end
         | None => fun t E => match E in _ = y return match y with Some z => P z | None => True end with
                                | eq_refl => I end
         end)
  | TGroup e => HGroup e (ty_ind2 e)
  | TImplTrait bs => HImpl bs
  | TInfer => HInfer
  | TMacro l => HMacro l
  | TNever => HNever
  | TParen e => HParen e (ty_ind2 e)
  | TPath q p => HPath q p
  | TPtr e => HPtr e (ty_ind2 e)
  | TReference l e => HRef l e (ty_ind2 e)
  | TSlice e => HSlice e (ty_ind2 e)
  | TTraitObject bs => HDyn bs
  | TTuple es => HTuple es (all es)
  | TVerbatim l => HVerb l
  end.
End TyInd.

Lemma get_ident_iff p x : get_ident p = Some x <-> p = mk_path false [mk_seg x None].
Proof.
  destruct p as [[|] [|[y [a|]] [|? ?]]]; cbn; split; intros H; try discriminate; try congruence.
Qed.

Lemma has_type_iff gs x : has_type gs x = true <-> In x (type_names gs).
Proof.
  unfold has_type, type_names. induction gs as [|[l b|y b|y b] gs IH]; cbn.
  - split; [discriminate|intros []].
  - exact IH.
  - rewrite orb_true_iff, IH, String.eqb_eq. reflexivity.
  - exact IH.
Qed.

Definition gt (x : ident) : gparam := GType x "".

Lemma path_generic_eq gs p : path_generic gs p = map gt (bare_path (type_names gs) p).
Proof.
  unfold path_generic, bare_path. destruct p as [[|] [|[y [a|]] [|? ?]]]; cbn; auto.
  destruct (in_dec string_dec y (type_names gs)) as [H|H].
  - apply has_type_iff in H. now rewrite H.
  - destruct (has_type gs y) eqn:E; auto. apply has_type_iff in E. contradiction.
Qed.

Lemma filter_flat_map {A B} (p : B -> bool) (g : A -> list B) l :
  filter p (flat_map g l) = flat_map (fun a => filter p (g a)) l.
Proof. induction l as [|a l IH]; cbn; auto. now rewrite filter_app, IH. Qed.

Lemma map_flat_map {A B C} (k : B -> C) (g : A -> list B) l :
  map k (flat_map g l) = flat_map (fun a => map k (g a)) l.
Proof. induction l as [|a l IH]; cbn; auto. now rewrite map_app, IH. Qed.

Lemma filter_gt l : filter is_type (map gt l) = map gt l.
Proof. induction l; cbn; f_equal; auto. Qed.

Lemma flat_map_Forall {A B} (g h : A -> list B) l : Forall (fun a => g a = h a) l -> flat_map g l = flat_map h l.
Proof. induction 1; cbn; auto. now f_equal. Qed.

(** The type parameters found are the bare ones. *)
Lemma contains_types gs t :
  filter is_type (contains_generic_in_param gs t) = map gt (bare_names (type_names gs) t).
Proof.
  induction t using ty_ind2; cbn [contains_generic_in_param bare_names]; auto.
  - rewrite filter_app, map_app, filter_flat_map, map_flat_map. f_equal.
    + now apply flat_map_Forall.
    + destruct out; auto.
  - rewrite path_generic_eq. apply filter_gt.
  - rewrite filter_app, IHt. destruct l as [l|]; auto. destruct (has_lifetime gs l); auto.
  - rewrite filter_flat_map, map_flat_map. apply flat_map_ext. intros [p|l|]; cbn; auto.
    + rewrite path_generic_eq. apply filter_gt.
    + destruct (has_lifetime gs l); auto.
  - rewrite filter_flat_map, map_flat_map. now apply flat_map_Forall.
Qed.

Lemma has_lifetime_none gs l : (forall p, In p gs -> is_lifetime p = false) -> has_lifetime gs l = false.
Proof.
  intros H. unfold has_lifetime. induction gs as [|[m b|y b|y b] gs IH]; cbn; auto.
  - specialize (H _ (or_introl eq_refl)). discriminate.
  - apply IH. intros; apply H; now right.
  - apply IH. intros; apply H; now right.
Qed.

(** Nothing else is found if there are no lifetimes. *)
Lemma contains_all gs t : (forall p, In p gs -> is_lifetime p = false) ->
  contains_generic_in_param gs t = map gt (bare_names (type_names gs) t).
Proof.
  intros Hg. induction t using ty_ind2; cbn [contains_generic_in_param bare_names]; auto.
  - rewrite map_app, map_flat_map. f_equal.
    + now apply flat_map_Forall.
    + destruct out; auto.
  - apply path_generic_eq.
  - rewrite IHt. destruct l as [l|]; auto. now rewrite has_lifetime_none.
  - rewrite map_flat_map. apply flat_map_ext. intros [p|l|]; cbn; auto.
    + apply path_generic_eq.
    + now rewrite has_lifetime_none.
  - rewrite map_flat_map. now apply flat_map_Forall.
Qed.

Lemma bare_path_in scope p x : In x (bare_path scope p) <-> In x scope /\ p = mk_path false [mk_seg x None].
Proof.
  unfold bare_path. destruct p as [[|] [|[y [a|]] [|? ?]]]; cbn;
    try (split; [intros []|intros [_ H]; discriminate]).
  destruct (in_dec string_dec y scope); cbn; split.
  - intros [->|[]]; auto.
  - intros [_ H]. injection H as ->. auto.
  - intros [].
  - intros [K H]. injection H as ->. contradiction.
Qed.

(** ... and these are those that stand by themselves. *)
Lemma bare_names_in scope x t : In x (bare_names scope t) <-> In x scope /\ mentions_bare x t.
Proof.
  split.
  - induction t using ty_ind2; cbn [bare_names]; intros K;
      try (destruct (IHt K); split; auto; constructor; auto; fail); try (now destruct K).
    + apply in_app_or in K. destruct K as [K|K].
      * apply in_flat_map in K. destruct K as (t & Ht & K). rewrite Forall_forall in H.
        destruct (H _ Ht K). split; auto. eapply Mb_fn_in; eauto.
      * destruct out as [t|]; [|destruct K]. destruct (H0 t eq_refl K). split; auto. now constructor.
    + apply bare_path_in in K. destruct K as [K ->]. split; auto. constructor.
    + apply in_flat_map in K. destruct K as ([p|l|] & Hb & K); try (now destruct K).
      apply bare_path_in in K. destruct K as [K ->]. split; auto. now constructor.
    + apply in_flat_map in K. destruct K as (t & Ht & K). rewrite Forall_forall in H.
      destruct (H _ Ht K). split; auto. eapply Mb_tuple; eauto.
  - intros [Hs H]. induction H; cbn [bare_names]; auto.
    + apply in_or_app. left. apply in_flat_map. eauto.
    + apply in_or_app. now right.
    + apply bare_path_in; auto.
    + apply in_flat_map. eexists; split; eauto. apply bare_path_in; auto.
    + apply in_flat_map. eauto.
Qed.

Lemma bare_mentions x t : mentions_bare x t -> mentions x t.
Proof.
  induction 1; try (eapply Mn_inside; [left; reflexivity|assumption]).
  - eapply Mn_inside; [|eassumption]. cbn. apply in_or_app. now left.
  - eapply Mn_inside; [|eassumption]. cbn. apply in_or_app. right. now left.
  - apply Mn_path. split; [reflexivity|]. exists None, []. reflexivity.
  - eapply Mn_dyn; eauto. split; [reflexivity|]. exists None, []. reflexivity.
  - eapply Mn_inside; [|eassumption]. exact H.
Qed.

(** *** The parameters of the block *)

Lemma gparam_eqb_eq a b : gparam_eqb a b = true <-> a = b.
Proof.
  destruct a, b; cbn; rewrite ?andb_true_iff, ?String.eqb_eq; split; try discriminate;
    try (intros [-> ->]; auto; fail); intros H; injection H as -> ->; auto.
Qed.

Lemma names_apart block own : NoDup (param_names (block ++ own)) ->
  forall p q, In p block -> In q own -> gname p <> gname q.
Proof.
  intros H p q Hp Hq E. unfold param_names in H. rewrite map_app in H.
  apply in_split in Hp. destruct Hp as (b1 & b2 & ->).
  rewrite map_app in H. cbn in H. rewrite <- app_assoc in H. cbn in H.
  apply NoDup_remove_2 in H. apply H. rewrite in_app_iff, in_app_iff. right. right.
  apply in_map_iff. exists q. split; [symmetry; exact E|exact Hq].
Qed.

Lemma existsb_false {A} (p : A -> bool) l : (forall x, In x l -> p x = false) -> existsb p l = false.
Proof.
  intros H. destruct (existsb p l) eqn:E; auto. apply existsb_exists in E. destruct E as (x & Hx & E).
  rewrite (H x Hx) in E. discriminate.
Qed.

Lemma filter_same {A} (p q : A -> bool) l : (forall x, In x l -> p x = q x) -> filter p l = filter q l.
Proof.
  induction l as [|a l IH]; cbn; intros H; auto. rewrite (H a) by now left.
  rewrite IH; auto.
Qed.

Lemma impl_generics_apart block own : NoDup (param_names (block ++ own)) ->
  impl_item_generics block own = filter is_lifetime block ++ filter is_type block.
Proof.
  intros H. unfold impl_item_generics. f_equal; apply filter_same; intros p Hp.
  - rewrite existsb_false; [now rewrite andb_true_r|]. intros q Hq. apply filter_In in Hq.
    destruct (gparam_eqb p q) eqn:E; auto. apply gparam_eqb_eq in E. subst.
    exfalso. eapply names_apart; eauto; tauto.
  - rewrite existsb_false; [now rewrite andb_true_r|]. intros q Hq. apply filter_In in Hq.
    destruct (gparam_eqb p q) eqn:E; auto. apply gparam_eqb_eq in E. subst.
    exfalso. eapply names_apart; eauto; tauto.
Qed.

Lemma type_names_app a b : type_names (a ++ b) = type_names a ++ type_names b.
Proof. unfold type_names. apply flat_map_app. Qed.

Lemma type_names_lifetimes l : type_names (filter is_lifetime l) = [].
Proof. induction l as [|[m b|y b|y b] l IH]; cbn; auto. Qed.

Lemma type_names_types l : type_names (filter is_type l) = type_names l.
Proof. induction l as [|[m b|y b|y b] l IH]; cbn; auto. now f_equal. Qed.

Lemma impl_generics_types block own : NoDup (param_names (block ++ own)) ->
  type_names (impl_item_generics block own) = type_names block.
Proof.
  intros H. rewrite impl_generics_apart by auto.
  now rewrite type_names_app, type_names_lifetimes, type_names_types.
Qed.

(** *** What is found *)

(** The bare parameters of the block in the method's types, in reading order. *)
Definition occurrences (block : list gparam) (ps : list (ident * ty)) (out : option ty) : list ident :=
  flat_map (fun p => bare_names (type_names block) (snd p)) ps
  ++ match out with Some t => bare_names (type_names block) t | None => [] end.

Lemma found_types gs inputs ps out : params_of inputs ps ->
  filter is_type (found_generics gs inputs out) = map gt (occurrences gs ps out).
Proof.
  intros H. unfold found_generics, occurrences. rewrite filter_app, map_app. f_equal.
  - induction H; cbn; auto. now rewrite filter_app, map_app, contains_types, IHparams_of.
  - destruct out; auto using contains_types.
Qed.

Lemma found_all gs inputs ps out : params_of inputs ps -> (forall p, In p gs -> is_lifetime p = false) ->
  found_generics gs inputs out = map gt (occurrences gs ps out).
Proof.
  intros H Hg. unfold found_generics, occurrences. rewrite map_app. f_equal.
  - induction H; cbn; auto. now rewrite map_app, contains_all, IHparams_of by auto.
  - destruct out; auto using contains_all.
Qed.

Lemma occurrences_in block ps (f : func) x : In x (occurrences block ps (f_output f)) <->
  In x (type_names block) /\ (bare_in_args ps x \/ bare_in_output f x).
Proof.
  unfold occurrences, bare_in_args, bare_in_output. rewrite in_app_iff, in_flat_map. split.
  - intros [([y t] & Hy & H)|H].
    + apply bare_names_in in H. destruct H. split; eauto.
    + destruct (f_output f) as [t|]; [|destruct H]. apply bare_names_in in H. destruct H. split; eauto.
  - intros [Hx [(y & t & Hy & H)|(t & Ht & H)]].
    + left. exists (y, t). split; auto. apply bare_names_in; auto.
    + right. rewrite Ht. apply bare_names_in; auto.
Qed.

(** *** [dedup] *)

Lemma dedup_head x l : exists l', dedup (x :: l) = x :: l'.
Proof.
  cbn. destruct (dedup l) as [|y l'']; eauto. destruct (gparam_eqb x y); eauto.
Qed.

Lemma dedup_nil l : dedup l = [] <-> l = [].
Proof. destruct l; [tauto|]. destruct (dedup_head g l) as [l' ->]. split; discriminate. Qed.

Lemma dedup_in l : forall p, In p (dedup l) <-> In p l.
Proof.
  induction l as [|x l IH]; intros p; [tauto|]. cbn [dedup].
  destruct (dedup l) as [|y l''] eqn:E.
  - apply (proj1 (dedup_nil _)) in E. subst. cbn. tauto.
  - destruct (gparam_eqb x y) eqn:Exy.
    + apply gparam_eqb_eq in Exy. subst. cbn. rewrite <- (IH p). cbn. tauto.
    + cbn [In]. rewrite <- (IH p). cbn. tauto.
Qed.

Lemma together_tail x l : together (x :: l) -> together l.
Proof. intros H a y b c E. apply (H (x :: a) y b c). rewrite E. reflexivity. Qed.

Lemma gt_inj x y : gparam_eqb (gt x) (gt y) = String.eqb x y.
Proof. cbn. now rewrite andb_true_r. Qed.

Lemma dedup_NoDup l : NoDup (dedup (map gt l)) <-> together l.
Proof.
  induction l as [|x l IH].
  - split; intros _; [|constructor]. intros [|? ?] ? ? ? E; discriminate.
  - destruct l as [|y l].
    { split; intros _; [|repeat constructor; auto].
      intros [|? [|? ?]] z b c E; cbn in E; try discriminate.
      injection E as _ E. destruct b; discriminate. }
    cbn [map dedup] in *. fold dedup in *. cbn [map] in IH.
    destruct (dedup_head (gt y) (map gt l)) as [l' El]. cbn [dedup] in El. rewrite El in *.
    rewrite gt_inj. destruct (String.eqb x y) eqn:Exy.
    + apply String.eqb_eq in Exy. subst y. rewrite IH. split.
      * intros H [|a0 a] z b c E z' Hz'.
        -- cbn in E. injection E as <- E. destruct b as [|b0 b]; [destruct Hz'|].
           cbn in E. injection E as <- E. destruct Hz' as [<-|Hz']; auto.
           apply (H [] x b c); auto. cbn. now rewrite E.
        -- cbn in E. injection E as <- E. apply (H a z b c); auto.
      * apply together_tail.
    + apply String.eqb_neq in Exy.
      assert (Hin : In (gt x) (gt y :: l') <-> In x l).
      { rewrite <- El. change (dedup (map gt (y :: l))) with
          (match dedup (map gt l) with
           | y0 :: l'' => if gparam_eqb (gt y) y0 then gt y :: l'' else gt y :: y0 :: l''
           | [] => [gt y] end) in *.
        assert (D : In (gt x) (dedup (map gt (y :: l))) <-> In (gt x) (map gt (y :: l))) by apply dedup_in.
        change (In (gt x) (dedup (map gt (y :: l))) <-> In x l). rewrite D. rewrite in_map_iff. split.
        - intros (z & Ez & Hz). injection Ez as ->. destruct Hz as [->|Hz]; [congruence|auto].
        - intros Hz. exists x. split; auto. now right. }
      split.
      * intros Hn. inversion Hn as [|? ? Hx Hn']; subst. apply IH in Hn'.
        intros [|a0 a] z b c E z' Hz'.
        -- cbn in E. injection E as <- E. exfalso. apply Hx, Hin.
           destruct b as [|b0 b]; [destruct Hz'|]. cbn in E. injection E as <- E. rewrite E.
           apply in_or_app. right. now left.
        -- cbn in E. injection E as <- E. apply (Hn' a z b c); auto.
      * intros H. constructor.
        -- intros Hx. apply Hin in Hx. apply in_split in Hx. destruct Hx as (b & c & ->).
           apply Exy. symmetry. apply (H [] x (y :: b) c); auto. now left.
        -- apply IH. eapply together_tail; eauto.
Qed.

(** *** The struct *)

Lemma join_some a b g : join_params a b = Some g -> g = a ++ b.
Proof. unfold join_params. destruct a, b; intros H; congruence. Qed.

(** The type parameters of the message are those found and the method's own. *)
Lemma message_generics_types found own g : message_generics found own = Some g ->
  forall x, In x (type_names g) <-> In x (type_names found) \/ In x (type_names own).
Proof.
  unfold message_generics. intros H x. destruct (dedup found) as [|p l] eqn:E.
  - injection H as <-. apply (proj1 (dedup_nil _)) in E. subst. cbn. tauto.
  - apply join_some in H. subst g. rewrite <- E.
    rewrite !type_names_app, !type_names_lifetimes, !type_names_types. cbn [app].
    rewrite in_app_iff.
    assert (D : In x (type_names (dedup found)) <-> In x (type_names found)).
    { unfold type_names. rewrite !in_flat_map. split; intros (q & Hq & Hx); exists q; split; auto; now apply dedup_in. }
    rewrite D. reflexivity.
Qed.

Lemma type_names_gt l : type_names (map gt l) = l.
Proof. induction l; cbn; f_equal; auto. Qed.

Lemma fields_empty camel block f ps m : made_from camel block f ps m -> ms_fields m = [] <-> ps = [].
Proof. intros (_ & _ & <- & _). destruct (ms_fields m); cbn; split; congruence. Qed.

Lemma expand_msg_generics camel block f ps m : made_from camel block f ps m ->
  st_generics (expand_msg m) = match ps with [] => [] | _ => ms_generics m end.
Proof.
  intros H. pose proof (fields_empty _ _ _ _ _ H) as E. unfold expand_msg.
  destruct (ms_fields m); cbn; destruct ps; auto; exfalso.
  - discriminate (proj1 E eq_refl).
  - discriminate (proj2 E eq_refl).
Qed.

Lemma declared_expand camel block f ps m : made_from camel block f ps m -> declared_fields (expand_msg m) = ps.
Proof.
  intros (_ & _ & <- & _). unfold expand_msg, declared_fields. destruct (ms_fields m); reflexivity.
Qed.

Theorem declares camel i x : expand camel i = Expanded x ->
  pairs_out (fun f ps s h => params_apart i f ->
    forall y, (In y (type_names (i_generics i)) ->
                 (In y (type_names (st_generics s)) <-> ps <> [] /\ (bare_in_args ps y \/ bare_in_output f y)))
              /\ (In y (type_names (f_generics f)) -> ps <> [] -> In y (type_names (st_generics s)))) i x.
Proof.
  intros Hx. eapply pairs; eauto. intros f ps m actor its Ha Hin Hact Hm Hap y. cbn beta.
  rewrite (expand_msg_generics _ _ _ _ _ Hm).
  destruct Hm as (_ & _ & _ & _ & _ & _ & _ & _ & _ & _ & _ & Hg).
  pose proof (message_generics_types _ _ _ Hg y) as Ht.
  destruct Ha as (_ & _ & _ & Hp & _).
  assert (Hf : In y (type_names (found_generics (impl_item_generics (i_generics i) (f_generics f)) (f_inputs f) (f_output f)))
               <-> In y (type_names (i_generics i)) /\ (bare_in_args ps y \/ bare_in_output f y)).
  { rewrite <- type_names_types, (found_types _ _ _ _ Hp), type_names_gt, occurrences_in.
    now rewrite (impl_generics_types _ _ Hap). }
  rewrite Hf in Ht. destruct ps as [|p0 ps]; split; intros Hy.
  - split; [intros []|intros [K _]; congruence].
  - congruence.
  - rewrite Ht. split.
    + intros [[_ K]|K]; [split; auto; discriminate|]. exfalso.
      assert (Hb : exists p, In p (i_generics i) /\ gname p = y).
      { unfold type_names in Hy. apply in_flat_map in Hy. destruct Hy as ([|z b|] & Hz & Hy); try (now destruct Hy).
        destruct Hy as [<-|[]]. eexists; split; eauto. }
      assert (Ho : exists p, In p (f_generics f) /\ gname p = y).
      { unfold type_names in K. apply in_flat_map in K. destruct K as ([|z b|] & Hz & K); try (now destruct K).
        destruct K as [<-|[]]. eexists; split; eauto. }
      destruct Hb as (p & Hp1 & Hp2), Ho as (q & Hq1 & Hq2).
      apply (names_apart _ _ Hap p q Hp1 Hq1). congruence.
    + intros [_ K]. left. auto.
  - intros _. apply Ht. now right.
Qed.

(** *** When it compiles *)

Lemma only_types_filter l : only_types l -> filter is_type l = l /\ filter is_lifetime l = [] /\ param_names l = type_names l.
Proof.
  intros H. induction l as [|p l IH]; auto.
  destruct IH as (I1 & I2 & I3); [intros q Hq; apply H; now right|].
  destruct (H p (or_introl eq_refl)) as (x & b & ->). cbn. rewrite I1, I2. repeat split; auto.
  f_equal. exact I3.
Qed.

Lemma only_types_app a b : only_types a -> only_types b -> only_types (a ++ b).
Proof. intros Ha Hb p Hp. apply in_app_or in Hp. destruct Hp; auto. Qed.

Lemma only_types_gt l : only_types (map gt l).
Proof. intros p Hp. apply in_map_iff in Hp. destruct Hp as (x & <- & _). unfold gt. eauto. Qed.

Lemma only_types_dedup l : only_types l -> only_types (dedup l).
Proof. intros H p Hp. apply H, dedup_in, Hp. Qed.

Lemma message_generics_plain l own : only_types own ->
  message_generics (map gt l) own = Some (dedup (map gt l) ++ own).
Proof.
  intros Ho. destruct (only_types_filter _ Ho) as (O1 & O2 & _).
  unfold message_generics. pose proof (only_types_dedup _ (only_types_gt l)) as Hd.
  destruct (only_types_filter _ Hd) as (D1 & D2 & _).
  destruct (dedup (map gt l)) as [|p d] eqn:E; auto. rewrite <- E in *.
  rewrite D1, D2, O1, O2. reflexivity.
Qed.

Lemma impl_params_length l : length (impl_params l) = length l.
Proof.
  unfold impl_params. rewrite app_length. induction l as [|p l IH]; auto. cbn. destruct (is_lifetime p); cbn; lia.
Qed.

Lemma NoDup_app_iff {A} (a b : list A) : NoDup (a ++ b) <-> NoDup a /\ NoDup b /\ forall x, In x a -> ~ In x b.
Proof.
  induction a as [|x a IH]; cbn.
  - split; [intros H; repeat split; auto; constructor|tauto].
  - split.
    + intros H. inversion H as [|? ? Hx Hn]; subst. apply IH in Hn. destruct Hn as (N1 & N2 & N3).
      rewrite in_app_iff in Hx. repeat split; auto.
      * constructor; tauto.
      * intros y [<-|Hy]; auto.
    + intros (H & Hb & Hd). inversion H as [|? ? Hx Hn]; subst. constructor.
      * rewrite in_app_iff. intros [K|K]; auto. apply (Hd x); auto.
      * apply IH. repeat split; auto.
Qed.

Lemma NoDup_names_dedup l : NoDup (param_names (dedup (map gt l))) <-> NoDup (dedup (map gt l)).
Proof.
  pose proof (only_types_dedup _ (only_types_gt l)) as Hd.
  assert (G : exists k, dedup (map gt l) = map gt k).
  { clear Hd. induction l as [|x l [k Hk]]; [exists []; auto|]. cbn [map dedup]. rewrite Hk.
    destruct k as [|y k]; [exists [x]; auto|]. cbn [map]. destruct (gparam_eqb (gt x) (gt y)); [exists (x :: k)|exists (x :: y :: k)]; auto. }
  destruct G as [k ->]. clear Hd l. unfold param_names. rewrite map_map. cbn. rewrite map_id.
  split.
  - apply FinFun.Injective_map_NoDup. intros a b E. injection E as ->. auto.
  - apply NoDup_map_inv.
Qed.

Lemma compiles_iff camel i actor its f ps m : made_from camel (i_generics i) f ps m -> params_of (f_inputs f) ps ->
  params_apart i f -> only_types (i_generics i) -> only_types (f_generics f) ->
  (struct_compiles (param_names (i_generics i ++ f_generics f)) (expand_msg m)
     (h_msg (expand_msg_impl (mk_impl (i_generics i) (i_where i) (i_self i) its) actor m)) <-> generics_fit i f ps).
Proof.
  intros Hm Hp Hap Hb Ho.
  destruct (only_types_filter _ Hb) as (B1 & B2 & B3). destruct (only_types_filter _ Ho) as (O1 & O2 & O3).
  assert (Hbl : impl_item_generics (i_generics i) (f_generics f) = i_generics i).
  { rewrite impl_generics_apart by exact Hap. now rewrite B1, B2. }
  set (occ := occurrences (i_generics i) ps (f_output f)).
  assert (Hg : ms_generics m = dedup (map gt occ) ++ f_generics f).
  { destruct Hm as (_ & _ & _ & _ & _ & _ & _ & _ & _ & _ & _ & Hg). rewrite Hbl in Hg.
    rewrite (found_all _ _ _ _ Hp) in Hg.
    - fold occ in Hg. rewrite (message_generics_plain _ _ Ho) in Hg. congruence.
    - intros p Hpi. destruct (Hb p Hpi) as (x & b & ->). reflexivity. }
  assert (Hd : forall x, In x (param_names (dedup (map gt occ))) <-> In x occ).
  { intros x. unfold param_names. rewrite in_map_iff. split.
    - intros (q & Hq & Hi). apply (proj1 (dedup_in _ _)) in Hi. apply in_map_iff in Hi. destruct Hi as (z & <- & Hz). cbn in Hq. congruence.
    - intros Hx. exists (gt x). split; auto. apply dedup_in. now apply in_map. }
  unfold params_apart, param_names in Hap. rewrite map_app in Hap. apply NoDup_app_iff in Hap.
  destruct Hap as (_ & Ho' & Hdis). fold (param_names (i_generics i)) in Hdis. fold (param_names (f_generics f)) in Hdis, Ho'.
  unfold struct_compiles. rewrite (declared_expand _ _ _ _ _ Hm), (expand_msg_generics _ _ _ _ _ Hm).
  cbn [h_msg expand_msg_impl ap_args]. unfold ty_args. rewrite map_length, impl_params_length, Hg.
  unfold generics_fit. fold (occurrences (i_generics i) ps (f_output f)). fold occ.
  assert (Hocc : forall x, In x occ <-> In x (type_names (i_generics i)) /\ (bare_in_args ps x \/ bare_in_output f x))
    by (intros; apply occurrences_in).
  clearbody occ.
  destruct ps as [|p0 ps0] eqn:Eps.
  - cbn. split.
    + intros (_ & _ & _ & L). symmetry in L. rewrite app_length in L.
      assert (L1 : length (dedup (map gt occ)) = 0) by lia. assert (L2 : length (f_generics f) = 0) by lia.
      apply length_zero_iff_nil in L1, L2. split; [rewrite L2; auto|].
      intros x Hx Hbo. assert (K : In x occ) by (apply Hocc; auto).
      apply Hd in K. rewrite L1 in K. destruct K.
    + intros (L2 & Hno). assert (L3 : f_generics f = []).
      { destruct (f_generics f) as [|q l]; auto. destruct (Ho q (or_introl eq_refl)) as (x & b & ->). discriminate. }
      assert (L1 : dedup (map gt occ) = []).
      { apply dedup_nil. destruct occ as [|x o] eqn:Eo; auto. exfalso.
        destruct (proj1 (Hocc x) (or_introl eq_refl)) as [Hx [(y & t & [] & _)|K]]. apply (Hno x Hx K). }
      rewrite L1, L3. split; [constructor|]. split; [intros x y t _ []|]. split; [intros x []|reflexivity].
  - rewrite <- Eps in *.
    assert (Hpn : forall x, In x (param_names (dedup (map gt occ) ++ f_generics f)) <-> In x occ \/ In x (type_names (f_generics f))).
    { intros x. unfold param_names. rewrite map_app, in_app_iff. fold (param_names (dedup (map gt occ))).
      fold (param_names (f_generics f)). rewrite Hd, O3. reflexivity. }
    assert (Htn : type_names (dedup (map gt occ) ++ f_generics f) = param_names (dedup (map gt occ) ++ f_generics f)).
    { symmetry. apply only_types_filter. apply only_types_app; auto. apply only_types_dedup, only_types_gt. }
    rewrite Htn.
    assert (Hnd : NoDup (param_names (dedup (map gt occ) ++ f_generics f)) <-> together occ).
    { unfold param_names at 1. rewrite map_app, NoDup_app_iff.
      fold (param_names (dedup (map gt occ))). fold (param_names (f_generics f)).
      rewrite NoDup_names_dedup, dedup_NoDup. split; [tauto|]. intros Ht. repeat split; auto.
      intros x Hx. apply Hdis. rewrite B3. apply Hd, Hocc in Hx. tauto. }
    rewrite Hnd. split.
    + intros (Ht & Hs & Hu & _). repeat split; auto.
      * intros x Hx (y & t & Hy & Ht'). assert (K : In x (param_names (dedup (map gt occ) ++ f_generics f))).
        { eapply Hs; eauto. unfold param_names. rewrite map_app, in_app_iff. left.
          fold (param_names (i_generics i)). now rewrite B3. }
        apply Hpn in K. destruct K as [K|K]; [apply Hocc in K; tauto|]. exfalso.
        apply (Hdis x); [rewrite B3; auto|rewrite O3; auto].
      * intros x Hx Hbo. destruct (Hu x) as (y & t & Hy & Hm'); [|exists y, t; auto].
        apply Hpn. left. apply Hocc. auto.
      * intros x Hx. destruct (Hu x) as (y & t & Hy & Hm'); [|exists y, t; auto].
        apply Hpn. now right.
    + intros (H1 & H2 & H3 & Ht). repeat split; auto.
      * intros x y t Hx Hy Hmn. apply Hpn. unfold param_names in Hx. rewrite map_app, in_app_iff in Hx.
        fold (param_names (i_generics i)) in Hx. fold (param_names (f_generics f)) in Hx. rewrite B3, O3 in Hx.
        destruct Hx as [Hx|Hx]; auto. left. apply Hocc. split; auto. apply H1; auto. exists y, t; auto.
      * intros x Hx. apply Hpn in Hx. destruct Hx as [Hx|Hx]; [|apply H3; auto].
        apply Hocc in Hx. destruct Hx as [Hx [(y & t & Hy & K)|K]].
        -- exists y, t. split; auto. now apply bare_mentions.
        -- apply H2; auto.
Qed.

Theorem compiles camel i x : expand camel i = Expanded x -> only_types (i_generics i) ->
  pairs_out (fun f ps s h => params_apart i f -> only_types (f_generics f) ->
    (struct_compiles (param_names (i_generics i ++ f_generics f)) s (h_msg h) <-> generics_fit i f ps)) i x.
Proof.
  intros Hx Hb. eapply pairs; eauto. intros f ps m actor its Ha Hin Hact Hm Hap Ho.
  eapply compiles_iff; eauto. destruct Ha as (_ & _ & _ & Hp & _). exact Hp.
Qed.

(** ** No panic, and whom the handlers are for *)

Lemma no_lifetimes_b l : no_lifetimes l -> forall p, In p l -> is_lifetime p = false.
Proof. intros H [x b|x b|x b] Hp; auto. exfalso. eapply H; eauto. Qed.

Lemma filter_none {A} (p : A -> bool) l : (forall x, In x l -> p x = false) -> filter p l = [].
Proof. induction l as [|a l IH]; cbn; intros H; auto. rewrite (H a) by now left. apply IH. auto. Qed.

Lemma contains_nil gs t : gs = [] -> contains_generic_in_param gs t = [].
Proof.
  intros ->. rewrite contains_all by (intros ? []). destruct (bare_names (type_names []) t) as [|x l] eqn:E; auto.
  assert (K : In x (bare_names (type_names []) t)) by (rewrite E; now left). apply bare_names_in in K. destruct K as [[] _].
Qed.

Lemma found_nil inputs out : found_generics [] inputs out = [].
Proof.
  unfold found_generics. replace (match out with Some t => contains_generic_in_param [] t | None => [] end) with (@nil gparam).
  - rewrite app_nil_r. induction inputs as [|[s|a p t] l IH]; cbn; auto. rewrite contains_nil, IH; auto.
  - destruct out; auto. now rewrite contains_nil.
Qed.

Lemma contains_lifetimes gs t : no_lifetimes gs -> no_lifetimes (contains_generic_in_param gs t).
Proof.
  intros H p. rewrite contains_all by (apply no_lifetimes_b; exact H). intros K. apply in_map_iff in K.
  destruct K as (x & <- & _). discriminate.
Qed.

Lemma found_lifetimes gs inputs out : no_lifetimes gs -> no_lifetimes (found_generics gs inputs out).
Proof.
  intros H p Hp. unfold found_generics in Hp. apply in_app_or in Hp. destruct Hp as [Hp|Hp].
  - apply in_flat_map in Hp. destruct Hp as ([s|a q t] & _ & Hp); [destruct Hp|]. eapply contains_lifetimes; eauto.
  - destruct out; [eapply contains_lifetimes; eauto|destruct Hp].
Qed.

Lemma extract_fn_total camel block f :
  block = [] \/ no_lifetimes block /\ no_lifetimes (f_generics f) -> extract_fn camel block f <> None.
Proof.
  intros H. unfold extract_fn. destruct (sc_message (scan_attrs (f_attrs f))); [|discriminate].
  assert (G : exists g, message_generics (found_generics (impl_item_generics block (f_generics f)) (f_inputs f) (f_output f))
              (f_generics f) = Some g).
  { destruct H as [->|[H1 H2]].
    - change (impl_item_generics [] (f_generics f)) with (@nil gparam). rewrite found_nil. cbn. eauto.
    - unfold message_generics. set (fd := found_generics _ _ _).
      assert (Hf : no_lifetimes fd).
      { apply found_lifetimes. intros p Hp. unfold impl_item_generics in Hp. apply H1.
        apply in_app_or in Hp. destruct Hp as [Hp|Hp]; apply filter_In in Hp; tauto. }
      destruct (dedup fd) as [|q l] eqn:E; [eauto|]. rewrite <- E.
      rewrite (filter_none is_lifetime (dedup fd)), (filter_none is_lifetime (f_generics f)).
      + cbn. eauto.
      + apply no_lifetimes_b, H2.
      + intros x Hx. apply (no_lifetimes_b _ Hf), dedup_in, Hx. }
  destruct G as [g ->]. destruct (lacks_self (f_inputs f)); [discriminate|].
  destruct (try_from _ _ _ _ _ _); discriminate.
Qed.

Theorem never_panics camel i :
  (forall f, In (IFn f) (i_items i) -> i_generics i = [] \/ no_lifetimes (i_generics i) /\ no_lifetimes (f_generics f)) ->
  expand camel i <> Panicked.
Proof.
  intros H. unfold expand. destruct (actor_ident (i_self i)); [|discriminate].
  assert (G : exists y, extract_messages camel (i_generics i) (i_items i) = Some y).
  { induction (i_items i) as [|[f|t] l IH]; cbn; [eauto| |].
    - destruct (extract_fn camel (i_generics i) f) as [[[f' m] es]|] eqn:E.
      + destruct IH as [[[its ms] es'] ->]; [intros; apply H; now right|eauto].
      + exfalso. apply (extract_fn_total camel (i_generics i) f); auto. apply H. now left.
    - destruct IH as [[[its ms] es'] ->]; [intros; apply H; now right|eauto]. }
  destruct G as [[[its ms] es] ->]. discriminate.
Qed.

Lemma impl_params_types l : only_types l -> impl_params l = l.
Proof.
  intros H. unfold impl_params. destruct (only_types_filter _ H) as (_ & -> & _). cbn.
  induction l as [|p l IH]; cbn; auto. destruct (H p (or_introl eq_refl)) as (x & b & ->). cbn. f_equal.
  apply IH. intros q Hq. apply H. now right.
Qed.

Theorem for_actor camel i x n args h : expand camel i = Expanded x -> In h (x_handlers x) ->
  only_types (i_generics i) -> i_self i = TPath None (mk_path false [mk_seg n args]) ->
  (args = None /\ i_generics i = [] \/ args = Some (map plain_arg (param_names (i_generics i)))) ->
  same_type (h_actor h) (i_self i).
Proof.
  intros Hx Hh Ho Hs Ha. destruct (expand_inv _ _ _ Hx) as (actor & ms & its & Hact & _ & Hb & _ & _ & Hhs & _).
  rewrite Hhs, Hb in Hh. apply in_map_iff in Hh. destruct Hh as (m & <- & _).
  rewrite Hs in Hact. cbn in Hact. injection Hact as <-.
  exists args. rewrite Hs. split; auto. cbn [expand_msg_impl h_actor ap_args i_generics]. unfold ty_args. rewrite (impl_params_types _ Ho).
  destruct Ha as [ [-> ->] | -> ]; auto.
  unfold param_names.
  replace (map (fun p => match p with GLifetime x0 _ | GType x0 _ | GConst x0 _ => x0 end) (i_generics i))
    with (map gname (i_generics i)) by (apply map_ext; intros []; reflexivity).
  induction (map gname (i_generics i)) as [|y l IH]; cbn; constructor; auto.
Qed.

Theorem actor_named camel i x q g segs s h : expand camel i = Expanded x ->
  i_self i = TPath q (mk_path g (segs ++ [s])) -> In h (x_handlers x) -> ap_name (h_actor h) = sg_ident s.
Proof.
  intros Hx Hs Hh. destruct (expand_inv _ _ _ Hx) as (actor & ms & its & Hact & _ & Hb & _ & _ & Hhs & _).
  rewrite Hhs in Hh. apply in_map_iff in Hh. destruct Hh as (m & <- & _).
  rewrite Hs in Hact. cbn in Hact. rewrite rev_app_distr in Hact. cbn in Hact. now injection Hact as <-.
Qed.

Theorem refused_iff camel i e : expand camel i = Refused e <->
  e = ESelfType /\ ~ exists q g segs s, i_self i = TPath q (mk_path g (segs ++ [s])).
Proof.
  unfold expand. destruct (actor_ident (i_self i)) as [actor|] eqn:E.
  - split.
    + destruct (extract_messages camel (i_generics i) (i_items i)) as [[[its ms] es]|]; discriminate.
    + intros [_ H]. exfalso. apply H. destruct (i_self i) as [| | | | | | | |qs [g segs]| | | | | | ]; try discriminate. cbn in E.
      destruct (rev segs) as [|s l] eqn:R; [discriminate|]. exists qs, g, (rev l), s.
      rewrite <- (rev_involutive segs), R. reflexivity.
  - split.
    + injection 1 as <-. split; auto. intros (q & g & segs & s & H). rewrite H in E. cbn in E.
      rewrite rev_app_distr in E. discriminate.
    + intros [-> _]. reflexivity.
Qed.

(** ** What is not so *)

Lemma compile_inv i x f : all_compile i x -> i_items i = [IFn f] -> (exists ps, accepted f ps) ->
  exists s h, combine (x_structs x) (x_handlers x) = [(s, h)]
    /\ struct_compiles (param_names (i_generics i ++ f_generics f)) s (h_msg h).
Proof.
  intros [_ H] E [ps Hps]. rewrite E in H. inversion H as [| |f0 l o Hn Hr|f0 qs s h l o Ha Hc Hr]; subst.
  - exfalso. eapply Hn; eauto.
  - inversion Hr; subst. eauto.
Qed.

Lemma single_accepted name inputs out ps : params_of inputs ps -> (forall y t, In (y, t) ps -> ~ bad_type t) ->
  accepted (method name inputs out) ps.
Proof.
  intros Hp Hb. split; [exists msg_mark; split; [now left|now left]|]. split; [|split; [|split]].
  - intros l1 m l2 E Hm Hl. destruct l1 as [|a l1]; cbn in E.
    + injection E as <- _. discriminate.
    + injection E as _ E. destruct l1; discriminate.
  - exists "&mut self"%string, inputs. reflexivity.
  - cbn. now constructor.
  - exact Hb.
Qed.

Lemma vec_ok t : ~ bad_type (Vec_ t).
Proof. intros H. inversion H. Qed.
Lemma T_ok x : ~ bad_type (T_ x).
Proof. intros H. inversion H. Qed.

Lemma gen_only l : only_types (map gen l).
Proof. intros p Hp. apply in_map_iff in Hp. destruct Hp as (x & <- & _). unfold gen. eauto. Qed.

Lemma accepts_T name inputs out : rust_accepts (block_T (method name inputs out)).
Proof.
  split; [apply (gen_only ["T"%string])|]. intros f [H|[]]. injection H as <-. split.
  - unfold params_apart. cbn. repeat constructor; auto.
  - intros p [].
Qed.
Lemma accepts_TU name inputs out : rust_accepts (block_TU (method name inputs out)).
Proof.
  split; [apply (gen_only ["T"; "U"]%string)|]. intros f [H|[]]. injection H as <-. split.
  - unfold params_apart. cbn. repeat constructor; auto. cbn. intros [H|[]]. discriminate.
  - intros p [].
Qed.

(** A parameter inside brackets is not declared. *)
Lemma refuted_inside camel : exists x, expand camel (block_T f_extend) = Expanded x /\ x_errors x = []
  /\ ~ all_compile (block_T f_extend) x.
Proof.
  eexists. split; [vm_compute; reflexivity|]. split; [reflexivity|]. intros H.
  destruct (compile_inv _ _ f_extend H eq_refl) as (s & h & E & _ & Hs & _).
  { eexists. apply single_accepted.
    - apply Params_named, Params_nil.
    - intros y t [K|[]]. injection K as <- <-. apply vec_ok. }
  cbn in E. injection E as <- <-. cbn in Hs.
  apply (Hs "T"%string "values"%string (Vec_ (T_ "T"))); auto.
  eapply Mn_inside; [left; reflexivity|]. apply Mn_path. split; [reflexivity|]. exists None, []. reflexivity.
Qed.

(** A parameter met again after another is declared twice. *)
Lemma refuted_twice camel : exists x, expand camel (block_TU f_swap) = Expanded x /\ x_errors x = []
  /\ ~ all_compile (block_TU f_swap) x.
Proof.
  eexists. split; [vm_compute; reflexivity|]. split; [reflexivity|]. intros H.
  destruct (compile_inv _ _ f_swap H eq_refl) as (s & h & E & Hn & _).
  { eexists. apply single_accepted.
    - apply Params_named, Params_named, Params_named, Params_nil.
    - intros y t K. repeat (destruct K as [K|K]; [injection K as <- <-; apply T_ok|]). destruct K. }
  cbn in E. injection E as <- <-. cbn in Hn. inversion Hn as [|? ? Hi _]; subst. apply Hi. cbn. auto.
Qed.

(** A parameter that is only returned is used but not declared. *)
Lemma refuted_returned camel : exists x, expand camel (block_T f_take) = Expanded x /\ x_errors x = []
  /\ ~ all_compile (block_T f_take) x.
Proof.
  eexists. split; [vm_compute; reflexivity|]. split; [reflexivity|]. intros H.
  destruct (compile_inv _ _ f_take H eq_refl) as (s & h & E & _ & _ & _ & L).
  { eexists. apply single_accepted; [apply Params_nil|intros y t []]. }
  cbn in E. injection E as <- <-. cbn in L. discriminate.
Qed.

Lemma refuted_panics camel : expand camel (block_T f_lifetime) = Panicked.
Proof. reflexivity. Qed.

Lemma refuted_actor camel : exists x h, expand camel (block_u32 f_take) = Expanded x /\ x_errors x = []
  /\ In h (x_handlers x) /\ ~ same_type (h_actor h) (i_self (block_u32 f_take)).
Proof.
  eexists _, _. split; [vm_compute; reflexivity|]. split; [reflexivity|]. split; [now left|].
  intros (args & E & H). cbn in E, H. injection E as <-. inversion H.
Qed.

Lemma accepts_u32 : rust_accepts (block_u32 f_take).
Proof.
  split; [intros p []|]. intros f [H|[]]. injection H as <-. split; [unfold params_apart; cbn; constructor|intros p []].
Qed.

Lemma lifetime_accepted : exists ps, accepted f_lifetime ps.
Proof.
  exists [("value"%string, T_ "T")]. split; [exists msg_mark; split; [now left|now left]|]. split; [|split; [|split]].
  - intros l1 m l2 E Hm Hl. destruct l1 as [|a l1]; cbn in E.
    + injection E as <- _. discriminate.
    + injection E as _ E. destruct l1; discriminate.
  - exists "&mut self"%string, [param "value" (T_ "T")]. reflexivity.
  - cbn. repeat constructor.
  - intros y t [K|[]]. injection K as <- <-. apply T_ok.
Qed.

Lemma put_fits : generics_fit (block_T f_put) f_put
    [("key"%string, T_ "String"); ("value"%string, TTuple [T_ "T"; T_ "T"]); ("more"%string, T_ "T")].
Proof.
  unfold generics_fit. cbn [type_names i_generics block_T flat_map gen app f_generics f_put method].
  split; [|split; [|split]].
  - intros x [<-|[]] _. left. exists "more"%string, (T_ "T"). split; [cbn; auto|]. apply Mb_path.
  - intros x _ (t & E & _). discriminate.
  - intros x [].
  - cbn. intros a x b c E y Hy.
    assert (K : forall z, In z (a ++ x :: b ++ x :: c) -> z = "T"%string).
    { rewrite <- E. cbn. intros z Hz. intuition congruence. }
    rewrite (K y), (K x); auto.
    + apply in_or_app. right. now left.
    + apply in_or_app. right. right. apply in_or_app. now left.
Qed.

Lemma put_own_case : exists x, expand camel_ex (block_T f_put_own) = Expanded x /\ rust_accepts (block_T f_put_own)
        /\ map (fun s => map gname (st_generics s)) (x_structs x) = [["T"; "K"]%string]
        /\ map (fun h => ap_args (h_msg h)) (x_handlers x) = [["T"; "K"]%string].
Proof.
  eexists. split; [vm_compute; reflexivity|]. split; [|split; reflexivity].
  split; [apply (gen_only ["T"%string])|]. intros f [H|[]]. injection H as <-. split.
  - unfold params_apart. cbn. repeat constructor; cbn; intuition congruence.
  - intros p [<-|[]]. eauto.
Qed.
