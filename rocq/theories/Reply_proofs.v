From Coq Require Import List String PeanoNat Lia.
Import ListNotations.
From Verif Require Import Errors Dyn Errors_proofs Reply Reply_spec.

Fixpoint tsize (t : ty) : nat :=
  match t with
  | TPair a b | TSendErr a b | TResult a b => S (tsize a + tsize b)
  | TReplySender a => S (tsize a)
  | _ => 0
  end.

Lemma ok_value : forall r, r_ok (r_value r) = r_ok r.
Proof. induction r; cbn; auto. Qed.
Lemma err_value : forall r, r_err (r_value r) = r_err r.
Proof. induction r; cbn; auto. Qed.

Lemma value_base : forall r, (exists t, r_value r = RPlain t) \/ (exists t e, r_value r = RRes t e).
Proof. induction r; cbn; eauto. Qed.

Section P.
Variable user : nat -> Type.
Local Notation den := (den user).

Lemma value_to_result : forall r (w : rval user (r_value r)), exists res, to_result (r_value r) w = Some res.
Proof.
  intros r. destruct (value_base r) as [(t & E)|(t & e & E)]; rewrite E; cbn; eauto.
Qed.

Lemma unbox_same : forall t (v : den t) t', t = t' -> exists v', unbox t' (box user v) = Some v' /\ same user v v'.
Proof. intros t v t' <-. exists v. rewrite unbox_box. split; reflexivity. Qed.

Lemma receive_ok : forall N r t (v : den t), t = r_ok r ->
  exists v', receive N r (Ok (box user v)) = AnsOk v' /\ same user v v'.
Proof.
  intros N r t v E. destruct (unbox_same t v _ E) as (v' & U & S).
  exists v'. unfold receive, downcast_ok. rewrite U. auto.
Qed.

Lemma downcast_handler : forall N e t (x : den t), t = e ->
  exists x', se_downcast N e (HandlerError (box user x)) = Some (HandlerError x') /\ same user x x'.
Proof.
  intros N e t x E. destruct (unbox_same t x _ E) as (x' & U & S).
  exists x'. unfold se_downcast, se_try_downcast. rewrite U. auto.
Qed.

Lemma senderr_bigger : forall m e, TSendErr m e <> e.
Proof. intros m e H. apply (f_equal tsize) in H. cbn in H. lia. Qed.

Lemma receive_err : forall N r t (x : den t), t = r_err r ->
  exists x', receive N r (Err (HandlerError (box user x))) = AnsErr (HandlerError x') /\ same user x x'.
Proof.
  intros N r t x E. destruct r as [t0|t0 e0|r|m r]; cbn in E.
  - destruct (downcast_handler N _ _ x E) as (x' & U & S). exists x'. unfold receive, downcast_err. rewrite U. auto.
  - destruct (downcast_handler N _ _ x E) as (x' & U & S). exists x'. unfold receive, downcast_err. rewrite U. auto.
  - destruct (downcast_handler N _ _ x E) as (x' & U & S). exists x'. unfold receive, downcast_err. rewrite U. auto.
  - destruct (downcast_handler m _ _ x E) as (x' & U & S). exists x'. split; [|exact S].
    unfold receive, downcast_err. cbn [se_try_downcast].
    rewrite unbox_other; [|rewrite E; apply senderr_bigger]. rewrite U. reflexivity.
Qed.

Lemma value_received : forall N r (w : rval user (r_value r)) res,
  to_result (r_value r) w = Some res ->
  exists b, sender_send (r_value r) w = Some b /\ delivers user res (receive N r b).
Proof.
  intros N r w res E. unfold sender_send. rewrite E. destruct res as [v|x]; eexists; split; try reflexivity; cbn.
  - apply receive_ok, ok_value.
  - apply receive_err, err_value.
Qed.

Lemma returned_value : forall N ch t e (v : result (den t) (den e)),
  exists b, finish (Some ch) (RRes t e) v = HSent ch b /\ delivers user v (receive N (RRes t e) b).
Proof.
  intros. destruct (value_received N (RRes t e) v v eq_refl) as (b & S & D).
  exists b. split; [|exact D]. unfold finish. cbn in *. rewrite S. reflexivity.
Qed.

Lemma returned_plain : forall N ch t (v : den t),
  exists b, finish (Some ch) (RPlain t) v = HSent ch b /\ receive N (RPlain t) b = AnsOk (r := RPlain t) v.
Proof.
  intros. exists (Ok (box user v)). split; [reflexivity|].
  unfold receive, downcast_ok. cbn. rewrite unbox_box. reflexivity.
Qed.

Definition errs (r : rty) : rval user r -> Prop :=
  match r with
  | RPlain _ | RDeleg _ => fun _ => False
  | RRes _ _ | RFwd _ _ => fun v => match v with Ok _ => False | Err _ => True end
  end.

Lemma is_error_errs : forall r v a, is_error user r v a -> errs r v.
Proof. intros r v a H. destruct H; exact I. Qed.

Lemma unasked : forall r (v : rval user r),
  (exists a, is_error user r v a /\ finish None r v = HFailed a)
  \/ ((forall a, ~ is_error user r v a) /\ finish None r v = HQuiet).
Proof.
  intros. destruct r as [t|t e|r|m r].
  - right. split; [|reflexivity]. intros a H. exact (is_error_errs _ _ _ H).
  - destruct v as [v|x]; [right|left].
    + split; [|reflexivity]. intros a H. exact (is_error_errs _ _ _ H).
    + exists (box user x). split; [constructor|reflexivity].
  - right. split; [|reflexivity]. intros a H. exact (is_error_errs _ _ _ H).
  - destruct v as [v|x]; [right|left].
    + split; [|reflexivity]. intros a H. exact (is_error_errs _ _ _ H).
    + eexists. split; [constructor|reflexivity].
Qed.

Lemma marker_panics : forall ch r,
  finish (Some ch) (RDeleg r) (tt : rval user (RDeleg r)) = HPanicked.
Proof. reflexivity. Qed.

Lemma chain_ok : forall ms r, r_ok (chain ms r) = r_ok r.
Proof. induction ms; cbn; auto. Qed.

Lemma chain_err_size : forall ms r, tsize (r_err (chain ms r)) >= List.length ms + tsize (r_err r).
Proof. induction ms as [|m ms IH]; intro r; cbn; [lia|]. specialize (IH r). lia. Qed.

Lemma chain_value : forall ms N r (w : rval user (r_value r)) v,
  to_result (r_value r) w = Some (Ok v) ->
  exists v', ask_through ms N r w = AnsOk v' /\ same user v v'.
Proof.
  intros ms N r w v E. unfold ask_through, sender_send. rewrite E.
  apply receive_ok. rewrite chain_ok. apply ok_value.
Qed.

Lemma one_hop : forall m N r (w : rval user (r_value r)) x,
  to_result (r_value r) w = Some (Err x) ->
  exists x' : den (r_err r), ask_through [m] N r w = AnsErr (r := RFwd m r) (HandlerError (HandlerError x'))
             /\ same user x x'.
Proof.
  intros m N r w x E. unfold ask_through, sender_send. rewrite E.
  destruct (unbox_same _ x _ (err_value r)) as (x' & U & S). exists x'. split; [|exact S].
  cbn [chain]. unfold receive, downcast_err. cbn [se_try_downcast]. rewrite U. reflexivity.
Qed.

Lemma more_hops : forall m1 m2 ms N r (w : rval user (r_value r)) x,
  to_result (r_value r) w = Some (Err x) ->
  ask_through (m1 :: m2 :: ms) N r w = AnsPanic.
Proof.
  intros m1 m2 ms N r w x E. unfold ask_through, sender_send. rewrite E.
  cbn [chain]. unfold receive, downcast_err. cbn [se_try_downcast r_err].
  assert (Z := chain_err_size ms r). assert (V := f_equal tsize (err_value r)).
  rewrite unbox_other; [|intro H; apply (f_equal tsize) in H; cbn in H; lia].
  unfold se_downcast. cbn [se_try_downcast].
  rewrite unbox_other; [reflexivity|intro H; apply (f_equal tsize) in H; cbn in H; lia].
Qed.

End P.
