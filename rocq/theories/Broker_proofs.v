(** Proofs about the broker and the message bus: the subscriptions a message meets. *)
From Coq Require Import List Bool PeanoNat Lia.
Import ListNotations.
From Verif Require Import Errors Delivery Broker MessageBus Delivery_spec Delivery_proofs.

Set Implicit Arguments.

Lemma count_map : forall (A B : Type) (f : B -> bool) (g : A -> B) l, count f (map g l) = count (fun x => f (g x)) l.
Proof. intros. unfold count. induction l as [|x l IH]; [reflexivity|]. cbn. destruct (f (g x)); cbn; auto. Qed.

Lemma count_ext : forall (A : Type) (f g : A -> bool) l, (forall x, f x = g x) -> count f l = count g l.
Proof. intros A f g l H. unfold count. erewrite filter_ext; eauto. Qed.

Lemma count_false : forall (A : Type) (l : list A), count (fun _ => false) l = 0.
Proof. intros. unfold count. induction l; auto. Qed.

Section Broker.
  Context {pattern topic msg : Type}.
  Variable pattern_eqb : pattern -> pattern -> bool.
  Hypothesis pattern_ok : forall x y, reflect (x = y) (pattern_eqb x y).
  Variable matches : pattern -> topic -> bool.
  Variable st : strategy.
  Local Notation obs := (@obs pattern topic nat msg).
  Local Notation subscriptions := (@subscriptions pattern topic nat msg pattern_eqb (fun r => r)).
  Local Notation is_attempt := (@is_attempt pattern topic nat msg pattern_eqb (fun r => r)).
  Local Notation broker_run := (@broker_run pattern topic msg pattern_eqb matches st).

  Lemma broker_count : forall tb t k id, NoDup (map fst tb) ->
    count (fun e => pattern_eqb (fst e) k && (snd e =? id)) (broker_targets matches tb t) =
    if matches k t then cnt pattern_eqb (fun r => r) k id tb else 0.
  Proof.
    induction tb as [|[k0 rs] tb IH]; intros t k id ND.
    - cbn. now destruct (matches k t).
    - inversion ND as [|? ? NI ND']; subst. unfold broker_targets. cbn [flat_map fst snd].
      rewrite count_app. fold (broker_targets matches tb t). rewrite IH by assumption.
      unfold cnt. cbn [get]. destruct (pattern_ok k0 k) as [->|N].
      + assert (G : get pattern_eqb k tb = None) by (apply (get_none _ pattern_ok (broker_targets matches) (fun _ _ => true)); assumption).
        rewrite G. destruct (matches k t); [|cbn; lia]. rewrite count_map. cbn [fst snd].
        rewrite Nat.add_0_r. apply count_ext. intro x. destruct (pattern_ok k k); [reflexivity|congruence].
      + replace (count _ (if matches k0 t then _ else _)) with 0; [reflexivity|].
        destruct (matches k0 t); [|reflexivity]. rewrite count_map. cbn [fst snd].
        symmetry. rewrite <- (count_false rs). apply count_ext. intro x. destruct (pattern_ok k0 k); [congruence|reflexivity].
  Qed.

  Lemma broker_copies : forall cap caps es s tr T1 n t m T2,
    broker_run cap caps es = Some (s, tr) -> tr = T1 ++ OPublished n t m :: T2 ->
    n = count is_publication T1 /\ forall k id,
      count (is_attempt n k id) tr <= (if matches k t then subscriptions T1 k id else 0) /\
      (In (OFinished n) tr -> count (is_attempt n k id) tr = if matches k t then subscriptions T1 k id else 0).
  Proof.
    intros cap caps es s tr T1 n t m T2 R E. split; [eapply published_number; eassumption|]. intros k id.
    destruct (@attempts_targets _ _ _ _ _ pattern_ok _ _ _ _ _ _ _ _ _ _ _ _ _ _ _ _ _ R E) as (tb & W & C & (rest & A) & B).
    rewrite attempts_count. rewrite <- C, <- broker_count by apply W. split.
    - rewrite A, count_app. lia.
    - intro F. now rewrite (B F).
  Qed.

  Lemma broker_attempt : forall cap caps es s tr n k r,
    broker_run cap caps es = Some (s, tr) -> In (OAttempt n k r) tr ->
    exists T1 t m T2, tr = T1 ++ OPublished n t m :: T2 /\ matches k t = true /\ 0 < subscriptions T1 k r.
  Proof.
    intros cap caps es s tr n k r R I.
    destruct (@attempt_published _ _ _ _ _ pattern_ok _ _ _ _ _ _ _ _ _ _ _ _ (OAttempt n k r) n R I eq_refl) as (T1 & t & m & T2 & E).
    exists T1, t, m, T2. split; [assumption|].
    destruct (@broker_copies _ _ _ _ _ _ _ _ _ _ R E) as [_ C]. specialize (C k r). destruct C as [C _].
    assert (P : 0 < count (is_attempt n k r) tr).
    { unfold count. assert (J : In (OAttempt n k r) (filter (is_attempt n k r) tr)).
      { apply filter_In. split; [assumption|]. cbn. rewrite !Nat.eqb_refl. destruct (pattern_ok k k); [reflexivity|congruence]. }
      destruct (filter (is_attempt n k r) tr); [destruct J|cbn; lia]. }
    destruct (matches k t); [|lia]. split; [reflexivity|lia].
  Qed.

  Lemma broker_table : forall cap caps es s tr k id,
    broker_run cap caps es = Some (s, tr) ->
    match get pattern_eqb k (subs s) with
    | Some rs => rs <> [] /\ count (fun r => r =? id) rs = subscriptions tr k id
    | None => subscriptions tr k id = 0
    end.
  Proof.
    intros cap caps es s tr k id R. pose proof (@reach_inv _ _ _ _ _ pattern_ok _ _ _ _ _ _ _ _ _ _ _ _ R) as I.
    pose proof (inv_cnt I k id) as C. unfold cnt in C.
    destruct (get pattern_eqb k (subs s)) as [rs|] eqn:G; [|auto]. split; [|assumption].
    destruct (inv_wf I) as [ND NE]. apply (get_in _ pattern_ok (fun _ _ => true)) in G; [|assumption]. eapply NE. exact G.
  Qed.

  Lemma broker_no_panic : forall cap caps es s tr n, broker_run cap caps es = Some (s, tr) -> ~ In (OPanicked n) tr.
  Proof.
    intros cap caps es s tr n R I.
    destruct (@panicked_why _ _ _ _ _ pattern_ok _ _ _ _ _ _ _ _ _ _ _ _ _ R I) as (tb & t & k & r & _ & _ & U). discriminate.
  Qed.
End Broker.

Section Bus.
  Context {msg : Type}.
  Variable st : strategy.
  Local Notation obs := (@obs nat nat registration msg).
  Local Notation subscriptions := (@subscriptions nat nat registration msg Nat.eqb actor_id).
  Local Notation is_attempt := (@is_attempt nat nat registration msg Nat.eqb actor_id).
  Local Notation bus_run := (@bus_run msg st).

  Lemma bus_count : forall tb ty k id,
    count (fun e => (fst e =? k) && (actor_id (snd e) =? id)) (bus_targets tb ty) =
    if ty =? k then cnt Nat.eqb actor_id k id tb else 0.
  Proof.
    intros tb ty k id. unfold bus_targets, cnt. destruct (Nat.eqb_spec ty k) as [->|N].
    - destruct (get Nat.eqb k tb) as [rs|]; [|reflexivity]. rewrite count_map. cbn [fst snd]. rewrite Nat.eqb_refl. reflexivity.
    - destruct (get Nat.eqb ty tb) as [rs|]; [|reflexivity]. rewrite count_map. cbn [fst snd].
      rewrite <- (count_false rs). apply count_ext. intro x. destruct (Nat.eqb_spec ty k); [congruence|reflexivity].
  Qed.

  Lemma bus_copies : forall cap caps es s tr T1 n ty m T2,
    bus_run cap caps es = Some (s, tr) -> tr = T1 ++ OPublished n ty m :: T2 ->
    n = count is_publication T1 /\ forall k id,
      count (is_attempt n k id) tr <= (if k =? ty then subscriptions T1 k id else 0) /\
      (In (OFinished n) tr -> count (is_attempt n k id) tr = if k =? ty then subscriptions T1 k id else 0).
  Proof.
    intros cap caps es s tr T1 n t m T2 R E. split; [eapply published_number; eassumption|]. intros k id.
    destruct (@attempts_targets _ _ _ _ _ Nat.eqb_spec _ _ _ _ _ _ _ _ _ _ _ _ _ _ _ _ _ R E) as (tb & W & C & (rest & A) & B).
    rewrite attempts_count. rewrite <- C, (Nat.eqb_sym k t), <- bus_count. split.
    - rewrite A, count_app. lia.
    - intro F. now rewrite (B F).
  Qed.

  Lemma bus_table : forall cap caps es s tr k id,
    bus_run cap caps es = Some (s, tr) ->
    match get Nat.eqb k (subs s) with
    | Some rs => rs <> [] /\ count (fun r => actor_id r =? id) rs = subscriptions tr k id
    | None => subscriptions tr k id = 0
    end.
  Proof.
    intros cap caps es s tr k id R. pose proof (@reach_inv _ _ _ _ _ Nat.eqb_spec _ _ _ _ _ _ _ _ _ _ _ _ R) as I.
    pose proof (inv_cnt I k id) as C. unfold cnt in C.
    destruct (get Nat.eqb k (subs s)) as [rs|] eqn:G; [|auto]. split; [|assumption].
    destruct (inv_wf I) as [ND NE]. apply (get_in _ Nat.eqb_spec bus_fits) in G; [|assumption]. eapply NE. exact G.
  Qed.

  Lemma bus_target_fits : forall tb ty k r,
    (forall k rs r, In (k, rs) tb -> In r rs -> bus_fits k r = true) -> In (k, r) (bus_targets tb ty) ->
    k = ty /\ boxed_type r = ty /\ actor_id r = boxed_actor r.
  Proof.
    intros tb ty k r F I. unfold bus_targets in I. destruct (get Nat.eqb ty tb) as [rs|] eqn:G; [|destruct I].
    apply in_map_iff in I. destruct I as (r' & Q & I). injection Q as <- <-. split; [reflexivity|].
    apply get_some_in in G; [|exact Nat.eqb_spec]. specialize (F _ _ _ G I). unfold bus_fits in F.
    apply andb_true_iff in F. destruct F as [F1 F2]. apply Nat.eqb_eq in F1, F2. auto.
  Qed.

  Lemma bus_no_panic : forall cap caps es s tr n, bus_run cap caps es = Some (s, tr) -> ~ In (OPanicked n) tr.
  Proof.
    intros cap caps es s tr n R I.
    destruct (@panicked_why _ _ _ _ _ Nat.eqb_spec _ _ _ _ _ _ _ _ _ _ _ _ _ R I) as (tb & t & k & r & F & J & U).
    destruct (@bus_target_fits _ _ _ _ F J) as (_ & B & _). unfold bus_usable in U. rewrite B, Nat.eqb_refl in U. discriminate.
  Qed.

  Lemma bus_types : forall cap caps es s tr n k r, bus_run cap caps es = Some (s, tr) -> In (OAttempt n k r) tr ->
    boxed_type r = k /\ actor_id r = boxed_actor r /\ exists m, In (OPublished n k m) tr.
  Proof.
    intros cap caps es s tr n k r R I.
    destruct (@attempt_target _ _ _ _ _ Nat.eqb_spec _ _ _ _ _ _ _ _ _ _ _ _ _ _ _ R I) as (tb & t & m & F & J & P).
    destruct (@bus_target_fits _ _ _ _ F J) as (-> & B & C). eauto.
  Qed.
End Bus.

(** *** The strategy does not matter *)

Lemma broker_same : forall (pattern topic msg : Type) (pattern_eqb : pattern -> pattern -> bool)
    (pattern_ok : forall x y, reflect (x = y) (pattern_eqb x y)) (matches : pattern -> topic -> bool)
    st st' cap cap' caps caps' es es' s s' tr tr' T1 T1' n n' t (m m' : msg) T2 T2',
  broker_run pattern_eqb matches st cap caps es = Some (s, tr) -> tr = T1 ++ OPublished n t m :: T2 ->
  broker_run pattern_eqb matches st' cap' caps' es' = Some (s', tr') -> tr' = T1' ++ OPublished n' t m' :: T2' ->
  (forall k id, subscriptions pattern_eqb (fun r => r) T1 k id = subscriptions pattern_eqb (fun r => r) T1' k id) ->
  In (OFinished n) tr -> In (OFinished n') tr' ->
  forall k id, count (is_attempt pattern_eqb (fun r => r) n k id) tr = count (is_attempt pattern_eqb (fun r => r) n' k id) tr'.
Proof.
  intros pattern topic msg pattern_eqb pattern_ok matches st st' cap cap' caps caps' es es' s s' tr tr' T1 T1' n n' t m m' T2 T2'
    R E R' E' SAME F F' k id.
  destruct (broker_copies pattern_eqb pattern_ok matches st cap caps es T1 n t m T2 R E) as [_ C].
  destruct (broker_copies pattern_eqb pattern_ok matches st' cap' caps' es' T1' n' t m' T2' R' E') as [_ C'].
  destruct (C k id) as [_ Q]. destruct (C' k id) as [_ Q']. rewrite (Q F), (Q' F'). now rewrite SAME.
Qed.

Lemma bus_same : forall (msg : Type) st st' cap cap' caps caps' es es' s s' tr tr' T1 T1' n n' ty (m m' : msg) T2 T2',
  bus_run st cap caps es = Some (s, tr) -> tr = T1 ++ OPublished n ty m :: T2 ->
  bus_run st' cap' caps' es' = Some (s', tr') -> tr' = T1' ++ OPublished n' ty m' :: T2' ->
  (forall k id, subscriptions Nat.eqb actor_id T1 k id = subscriptions Nat.eqb actor_id T1' k id) ->
  In (OFinished n) tr -> In (OFinished n') tr' ->
  forall k id, count (is_attempt Nat.eqb actor_id n k id) tr = count (is_attempt Nat.eqb actor_id n' k id) tr'.
Proof.
  intros msg st st' cap cap' caps caps' es es' s s' tr tr' T1 T1' n n' t m m' T2 T2' R E R' E' SAME F F' k id.
  destruct (bus_copies st cap caps es T1 n t m T2 R E) as [_ C].
  destruct (bus_copies st' cap' caps' es' T1' n' t m' T2' R' E') as [_ C'].
  destruct (C k id) as [_ Q]. destruct (C' k id) as [_ Q']. rewrite (Q F), (Q' F'). now rewrite SAME.
Qed.
