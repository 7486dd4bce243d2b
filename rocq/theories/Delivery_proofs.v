(** Proofs about published messages, for any keys. *)
From Coq Require Import List Bool PeanoNat Lia.
Import ListNotations.
From Verif Require Import Errors Delivery Delivery_spec.

Set Implicit Arguments.

Local Arguments retain : simpl never.

Section Proofs.
  Context {key topic reg msg : Type}.
  Variable key_eqb : key -> key -> bool.
  Hypothesis key_ok : forall x y, reflect (x = y) (key_eqb x y).
  Variable recipient : reg -> nat.
  Variable rid : reg -> nat.
  Local Notation table := (@table key reg).
  Variable targets : table -> topic -> list (key * reg).
  Variable usable : topic -> reg -> bool.
  Variable fits : key -> reg -> bool.
  Variable has_all : bool.
  Variable strat : strategy.
  Local Notation state := (@state key topic reg msg).
  Local Notation obs := (@obs key topic reg msg).
  Local Notation step := (@step key topic reg msg key_eqb recipient rid targets usable fits has_all strat).
  Local Notation run := (@run key topic reg msg key_eqb recipient rid targets usable fits has_all strat).
  Local Notation subscriptions := (@subscriptions key topic reg msg key_eqb rid).
  Local Notation get := (@get key reg key_eqb).
  Local Notation swap_at := (@swap_at (key * list reg)).

  Local Notation subscribe := (@subscribe key reg key_eqb).
  Local Notation set_entry := (@set_entry key reg key_eqb).
  Local Notation unsubscribe := (@unsubscribe key reg key_eqb rid).
  Local Notation unsubscribe_all := (@unsubscribe_all key reg rid).
  Local Notation remove_dead := (@remove_dead key reg key_eqb rid).

  (** *** The table *)

  Definition cnt (k : key) (id : nat) (t : table) : nat :=
    match get k t with Some rs => count (fun r => rid r =? id) rs | None => 0 end.

  Definition wf (t : table) : Prop :=
    NoDup (map fst t) /\ forall k rs, In (k, rs) t -> rs <> [].

  Lemma key_refl : forall k, key_eqb k k = true.
  Proof. intro k. destruct (key_ok k k); congruence. Qed.

  Lemma get_in : forall t k rs, NoDup (map fst t) -> (get k t = Some rs <-> In (k, rs) t).
  Proof.
    induction t as [|[k' rs'] t IH]; intros k rs N; cbn.
    - split; [discriminate | tauto].
    - inversion N as [|? ? NI N']; subst. destruct (key_ok k' k) as [E|E].
      + subst k'. split.
        * intro H. injection H as ->. auto.
        * intros [H|H]; [congruence|]. exfalso. apply NI.
          change k with (fst (k, rs)). now apply in_map.
      + rewrite IH by assumption. split; [auto|]. intros [H|H]; [congruence|assumption].
  Qed.

  Lemma get_none : forall t k, get k t = None <-> ~ In k (map fst t).
  Proof.
    induction t as [|[k' rs'] t IH]; intro k; cbn.
    - tauto.
    - destruct (key_ok k' k) as [E|E].
      + split; [discriminate|]. intro H. exfalso. auto.
      + rewrite IH. split; [|tauto]. intros H [H'|H']; auto.
  Qed.

  Lemma count_app : forall (A : Type) (f : A -> bool) l1 l2, count f (l1 ++ l2) = count f l1 + count f l2.
  Proof. intros. unfold count. now rewrite filter_app, app_length. Qed.

  Lemma get_subscribe : forall t k r k',
    get k' (subscribe k r t) =
    if key_eqb k k' then Some (match get k t with Some rs => rs | None => [] end ++ [r]) else get k' t.
  Proof.
    induction t as [|[k0 rs0] t IH]; intros k r k'; cbn.
    - destruct (key_ok k k'); reflexivity.
    - destruct (key_ok k0 k) as [E|E].
      + subst k0. cbn. destruct (key_ok k k'); reflexivity.
      + cbn. rewrite IH. destruct (key_ok k0 k') as [E'|E'].
        * destruct (key_ok k k'); [congruence|reflexivity].
        * reflexivity.
  Qed.

  Lemma keys_subscribe : forall t k r x, In x (map fst (subscribe k r t)) -> x = k \/ In x (map fst t).
  Proof.
    induction t as [|[k0 rs0] t IH]; intros k r x; cbn.
    - intuition.
    - destruct (key_ok k0 k) as [E|E]; cbn; intros [H|H]; auto.
      apply IH in H. tauto.
  Qed.

  Lemma wf_subscribe : forall t k r, wf t -> wf (subscribe k r t).
  Proof.
    unfold wf. induction t as [|[k0 rs0] t IH]; intros k r [N E]; cbn.
    - split; [repeat constructor; auto|]. intros k' rs [H|[]]. injection H as <- <-. discriminate.
    - inversion N as [|? ? NI N']; subst. destruct (key_ok k0 k) as [H|H]; cbn.
      + split; [now constructor|]. intros k' rs [H'|H'].
        * injection H' as <- <-. destruct rs0; discriminate.
        * apply (E k'). now right.
      + assert (W : NoDup (map fst t) /\ (forall k rs, In (k, rs) t -> rs <> [])).
        { split; [assumption|]. intros k' rs I. apply (E k'). now right. }
        destruct (IH k r W) as [N2 E2]. split.
        * constructor; [|assumption]. intro I. apply keys_subscribe in I. cbn in NI. destruct I as [I|I]; congruence.
        * intros k' rs [H'|H']; [|now apply (E2 k')]. apply (E k'). now left.
  Qed.

  Lemma cnt_subscribe : forall t k r k' id,
    cnt k' id (subscribe k r t) =
    if key_eqb k k' && (rid r =? id) then S (cnt k' id t) else cnt k' id t.
  Proof.
    intros t k r k' id. unfold cnt. rewrite get_subscribe. destruct (key_ok k k') as [E|E]; cbn [andb]; [|reflexivity].
    subst k'. rewrite count_app. unfold count at 2; cbn.
    destruct (rid r =? id); cbn; destruct (get k t); cbn; lia.
  Qed.

  Lemma get_set : forall t k rs k', NoDup (map fst t) ->
    get k' (set_entry k rs t) =
    if key_eqb k k' then (match get k t with None => None | Some _ => match rs with [] => None | _ => Some rs end end)
    else get k' t.
  Proof.
    induction t as [|[k0 rs0] t IH]; intros k rs k' N; cbn.
    - destruct (key_eqb k k'); reflexivity.
    - inversion N as [|? ? NI N']; subst. destruct (key_ok k0 k) as [E|E].
      + subst k0. destruct (key_ok k k') as [E|E].
        * subst k'. destruct rs; cbn; [now apply get_none|]. now rewrite key_refl.
        * destruct rs; cbn; [reflexivity|]. destruct (key_ok k k'); congruence.
      + cbn. rewrite IH by assumption. destruct (key_ok k0 k') as [E'|E']; [|reflexivity].
        destruct (key_ok k k'); congruence.
  Qed.

  Lemma keys_set : forall t k rs x, In x (map fst (set_entry k rs t)) -> In x (map fst t).
  Proof.
    induction t as [|[k0 rs0] t IH]; intros k rs x; cbn; [auto|].
    destruct (key_eqb k0 k).
    - destruct rs; cbn; tauto.
    - cbn. intros [H|H]; eauto.
  Qed.

  Lemma wf_set : forall t k rs, wf t -> wf (set_entry k rs t).
  Proof.
    unfold wf. induction t as [|[k0 rs0] t IH]; intros k rs [N E]; cbn; [split; auto|].
    inversion N as [|? ? NI N']; subst.
    assert (W : NoDup (map fst t) /\ (forall k rs, In (k, rs) t -> rs <> [])).
    { split; [assumption|]. intros k' rs' I. apply (E k'). now right. }
    destruct (key_eqb k0 k).
    - destruct rs; [exact W|]. cbn. split; [now constructor|].
      intros k' rs' [H|H]; [injection H as <- <-; discriminate | now apply (proj2 W k')].
    - destruct (IH k rs W) as [N2 E2]. cbn. split.
      + constructor; [|assumption]. intro I. apply keys_set in I. now apply NI.
      + intros k' rs' [H|H]; [apply (E k'); now left | now apply (E2 k')].
  Qed.

  Lemma count_retain : forall id id' rs,
    count (fun r => rid r =? id') (retain rid id rs) =
    if id =? id' then 0 else count (fun r => rid r =? id') rs.
  Proof.
    intros id id'. unfold count, retain. induction rs as [|r rs IH].
    - cbn. now destruct (id =? id').
    - cbn [filter]. destruct (rid r =? id) eqn:E; cbn [negb].
      + rewrite IH. apply Nat.eqb_eq in E. rewrite E. destruct (id =? id') eqn:E'; reflexivity.
      + cbn [filter]. destruct (rid r =? id') eqn:E'; cbn [length]; rewrite IH; destruct (id =? id') eqn:E2; try reflexivity.
        apply Nat.eqb_eq in E', E2. apply Nat.eqb_neq in E. congruence.
  Qed.

  Lemma wf_unsubscribe : forall t k id, wf t -> wf (unsubscribe k id t).
  Proof. intros t k id W. unfold Delivery.unsubscribe. destruct (get k t); auto using wf_set. Qed.

  Lemma cnt_unsubscribe : forall t k id k' id', wf t ->
    cnt k' id' (unsubscribe k id t) =
    if key_eqb k k' && (id =? id') then 0 else cnt k' id' t.
  Proof.
    intros t k id k' id' [N E]. unfold cnt, Delivery.unsubscribe. destruct (get k t) as [rs|] eqn:G.
    - rewrite get_set by assumption. destruct (key_ok k k') as [K|K]; cbn [andb]; [|reflexivity].
      subst k'. rewrite G. rewrite <- (count_retain id id' rs).
      destruct (retain rid id rs) eqn:R; reflexivity.
    - destruct (key_ok k k') as [K|K]; cbn [andb]; [|reflexivity]. subst k'. rewrite G.
      now destruct (id =? id').
  Qed.

  Lemma get_unsubscribe_all : forall t id k, NoDup (map fst t) ->
    get k (unsubscribe_all id t) =
    match get k t with
    | Some rs => match retain rid id rs with [] => None | rs' => Some rs' end
    | None => None
    end.
  Proof.
    unfold Delivery.unsubscribe_all. induction t as [|[k0 rs0] t IH]; intros id k N; cbn; [reflexivity|].
    inversion N as [|? ? NI N']; subst. destruct (key_ok k0 k) as [E|E].
    - subst k0. destruct (retain rid id rs0) eqn:R; cbn.
      + rewrite IH by assumption. destruct (get k t) eqn:G; [|reflexivity].
        exfalso. apply NI. apply get_in in G; [|assumption]. change k with (fst (k, l)). now apply in_map.
      + now rewrite key_refl.
    - destruct (retain rid id rs0) eqn:R; cbn; [now apply IH|].
      destruct (key_ok k0 k); [congruence|]. now apply IH.
  Qed.

  Lemma wf_unsubscribe_all : forall t id, wf t -> wf (unsubscribe_all id t).
  Proof.
    intros t id [N E]. unfold Delivery.unsubscribe_all. split.
    - clear E. induction t as [|[k0 rs0] t IH]; cbn; [constructor|].
      inversion N as [|? ? NI N']; subst.
      assert (Q : ~ In k0 (map fst (filter (fun e : key * list reg => match snd e with [] => false | _ => true end)
                  (map (fun e : key * list reg => (fst e, retain rid id (snd e))) t)))).
      { intro I. apply NI. apply in_map_iff in I. destruct I as [[k1 rs1] [E1 I]]. apply filter_In in I.
        destruct I as [I _]. apply in_map_iff in I. destruct I as [[k2 rs2] [E2 I]]. cbn in *.
        injection E2 as <- <-. subst k0. change k2 with (fst (k2, rs2)). now apply in_map. }
      destruct (retain rid id rs0); cbn; [now apply IH|]. constructor; [exact Q | now apply IH].
    - intros k rs I. apply filter_In in I. destruct I as [_ I]. cbn in I. destruct rs; congruence.
  Qed.

  Lemma cnt_unsubscribe_all : forall t id k' id', wf t ->
    cnt k' id' (unsubscribe_all id t) = if id =? id' then 0 else cnt k' id' t.
  Proof.
    intros t id k' id' [N E]. unfold cnt. rewrite get_unsubscribe_all by assumption.
    destruct (get k' t) as [rs|]; [|now destruct (id =? id')].
    rewrite <- (count_retain id id' rs). destruct (retain rid id rs); reflexivity.
  Qed.

  Lemma swap_keys : forall i (t : table) x, In x (map fst (swap_at i t)) <-> In x (map fst t).
  Proof.
    induction i as [|i IH]; intros [|e1 t] x; cbn; try tauto.
    - destruct t as [|e2 t]; cbn; tauto.
    - rewrite IH. tauto.
  Qed.

  Lemma swap_in : forall i (t : table) x, In x (swap_at i t) <-> In x t.
  Proof.
    induction i as [|i IH]; intros [|e1 t] x; cbn; try tauto.
    - destruct t as [|e2 t]; cbn; tauto.
    - rewrite IH. tauto.
  Qed.

  Lemma wf_swap : forall i t, wf t -> wf (swap_at i t).
  Proof.
    intros i t [N E]. split.
    - clear E. revert t N. induction i as [|i IH]; intros [|e1 t] N; cbn; auto.
      + destruct t as [|e2 t]; [assumption|]. cbn in *. inversion N as [|? ? A N1]; subst.
        inversion N1 as [|? ? B N2]; subst. cbn in A. constructor; [|constructor; auto].
        cbn. intros [H|H]; [|auto]. apply A. now left.
      + cbn in N. inversion N as [|? ? A N1]; subst. constructor; [|now apply IH].
        intro H. apply swap_keys in H. auto.
    - intros k rs H. apply (E k). now apply swap_in in H.
  Qed.

  Lemma cnt_swap : forall i t k id, wf t -> cnt k id (swap_at i t) = cnt k id t.
  Proof.
    intros i t k id W. pose proof (wf_swap i W) as [N' _]. destruct W as [N E]. unfold cnt.
    destruct (get k t) as [rs|] eqn:G.
    - apply get_in in G; [|assumption]. apply swap_in with (i := i) in G.
      apply get_in in G; [|assumption]. now rewrite G.
    - apply get_none in G. assert (H : get k (swap_at i t) = None).
      { apply get_none. intro H. apply G. now apply swap_keys in H. }
      now rewrite H.
  Qed.

  Lemma wf_remove : forall d t, wf t -> wf (remove_dead d t).
  Proof.
    unfold Delivery.remove_dead. induction d as [|e d IH]; intros t W; cbn; [assumption|].
    apply IH. now apply wf_unsubscribe.
  Qed.

  (** *** What steps do to the table and the phase *)

  Definition quiet (o : obs) : Prop :=
    match o with
    | OReported _ _ | OPanicked _ | ORead _ _ | OEnded _ => True
    | _ => False
    end.

  Inductive kind (s s' : state) (o : list obs) : Prop :=
  | KQuiet :
      (subs s' = subs s \/ (ph s = Idle /\ exists i, subs s' = swap_at i (subs s))) ->
      (ph s' = ph s \/ ph s' = Stopped) -> pubs s' = pubs s -> Forall quiet o -> kind s s' o
  | KTask : forall tk x,
      In tk (tasks s) -> tph tk = TSending -> subs s' = subs s -> ph s' = ph s -> pubs s' = pubs s ->
      o = [OSettled (tn tk) (tkey tk) (treg tk) x] -> kind s s' o
  | KSub : forall k r,
      ph s = Idle -> ph s' = Idle -> pubs s' = pubs s -> subs s' = subscribe k r (subs s) ->
      o = [OSubscribed k r] -> kind s s' o
  | KUnsub : forall k id,
      ph s = Idle -> ph s' = Idle -> pubs s' = pubs s -> subs s' = unsubscribe k id (subs s) ->
      o = [OUnsubscribed (Some k) id] -> kind s s' o
  | KUnsubAll : forall id,
      ph s = Idle -> ph s' = Idle -> pubs s' = pubs s -> subs s' = unsubscribe_all id (subs s) ->
      o = [OUnsubscribed None id] -> kind s s' o
  | KPub : forall t m,
      ph s = Idle -> ph s' = Delivering (pubs s) t m (targets (subs s) t) None [] ->
      pubs s' = S (pubs s) -> subs s' = subs s -> o = [OPublished (pubs s) t m] -> kind s s' o
  | KWait : forall n t m k r todo since dead t0,
      ph s = Delivering n t m ((k, r) :: todo) since dead ->
      ph s' = Delivering n t m ((k, r) :: todo) (Some t0) dead ->
      pubs s' = pubs s -> subs s' = subs s ->
      o = match since with None => [OAttempt n k r] | Some _ => [] end -> kind s s' o
  | KSettle : forall n t m k r todo since dead x,
      (forall d, mode_of strat <> MSpawn d) ->
      ph s = Delivering n t m ((k, r) :: todo) since dead ->
      ph s' = Delivering n t m todo None (if not_running x then dead ++ [(k, rid r)] else dead) ->
      pubs s' = pubs s -> subs s' = subs s ->
      o = match since with None => [OAttempt n k r] | Some _ => [] end ++ [OSettled n k r x] -> kind s s' o
  | KSpawn : forall d n t m k r todo since dead,
      mode_of strat = MSpawn d ->
      ph s = Delivering n t m ((k, r) :: todo) since dead ->
      ph s' = Delivering n t m todo None dead ->
      pubs s' = pubs s -> subs s' = subs s ->
      o = match since with None => [OAttempt n k r] | Some _ => [] end -> kind s s' o
  | KFinish : forall n t m since dead,
      ph s = Delivering n t m [] since dead -> ph s' = Idle -> pubs s' = pubs s ->
      subs s' = remove_dead dead (subs s) ->
      o = map (fun e => OExpired (fst e) (snd e)) dead ++ [OFinished n] -> kind s s' o.

  Ltac cases E :=
    repeat match type of E with
    | None = Some _ => discriminate E
    | Some _ = Some _ => injection E as <- <-
    | (match ?x with _ => _ end) = Some _ => destruct x eqn:?; try discriminate E
    end;
    repeat match goal with
    | H : (_, _) = (_, _) |- _ => injection H; clear H; intros; subst
    end.

  Lemma step_kind : forall s e s' o, step s e = Some (s', o) -> kind s s' o.
  Proof.
    intros s e s' o E. destruct e; unfold Delivery.step, settle in E; cases E;
      try (apply KQuiet; cbn; auto; fail).
    - eapply KSub; cbn; eauto.
    - eapply KUnsub; cbn; eauto.
    - eapply KUnsubAll; cbn; eauto.
    - eapply KPub; cbn; eauto.
    - eapply KSettle; cbn; eauto. congruence.
    - eapply KWait; cbn; eauto.
    - eapply KSettle; cbn; eauto. congruence.
    - eapply KSpawn; cbn; eauto.
    - apply KQuiet; cbn; auto. constructor; cbn; auto.
    - eapply KFinish; cbn; eauto.
    - eapply KTask; cbn; eauto. eapply nth_error_In; eassumption.
    - apply KQuiet; cbn; auto. destruct (not_running t0); repeat constructor.
    - apply KQuiet; cbn; auto. repeat constructor.
    - apply KQuiet; cbn; auto. repeat constructor.
    - apply KQuiet; cbn; eauto.
  Qed.

  (** *** The invariant of the table and of publications *)

  (** The sends of publication [n]. *)
  Definition attempts (n : nat) (tr : list obs) : list (key * reg) :=
    flat_map (fun o => match o with OAttempt n' k r => if n' =? n then [(k, r)] else [] | _ => [] end) tr.

  Definition num (o : obs) : option nat :=
    match o with
    | OPublished n _ _ | OAttempt n _ _ | OSettled n _ _ _ | OFinished n => Some n
    | _ => None
    end.

  (** Neither changes the table nor begins or ends a publication. *)
  Definition inner (o : obs) : Prop :=
    match o with
    | OSubscribed _ _ | OUnsubscribed _ _ | OPublished _ _ _ | OExpired _ _ | OFinished _ => False
    | _ => True
    end.

  Definition current (s : state) (tr : list obs) : Prop :=
    match ph s with
    | Delivering n t m todo since dead =>
        pubs s = S n /\
        targets (subs s) t = attempts n tr ++ (match since with None => todo | Some _ => tl todo end) /\
        (since <> None -> todo <> []) /\
        (exists T1 T2, tr = T1 ++ OPublished n t m :: T2 /\ Forall inner T2 /\
           forall k id, In (k, id) dead -> exists o, In o T2 /\ found_dead rid n k id o) /\
        ((forall d, mode_of strat <> MSpawn d) ->
           forall k id o, In o tr -> found_dead rid n k id o -> In (k, id) dead) /\
        (forall d, mode_of strat = MSpawn d -> dead = [])
    | _ => True
    end.

  Definition history (s : state) (tr : list obs) : Prop :=
    forall T1 n t m T2, tr = T1 ++ OPublished n t m :: T2 ->
      exists tb, wf tb /\ (forall k id, cnt k id tb = subscriptions T1 k id) /\
        (exists rest, targets tb t = attempts n tr ++ rest) /\
        (In (OFinished n) tr -> targets tb t = attempts n tr) /\
        (forall t' m' todo since dead, ph s = Delivering n t' m' todo since dead -> tb = subs s /\ t' = t).

  Record INV (s : state) (tr : list obs) : Prop := mk_INV {
    inv_wf : wf (subs s);
    inv_cnt : forall k id, cnt k id (subs s) = subscriptions tr k id;
    inv_num : forall o n, In o tr -> num o = Some n -> n < pubs s;
    inv_tasks : forall tk, In tk (tasks s) -> tn tk < pubs s;
    inv_none : (forall d, mode_of strat <> MSpawn d) -> tasks s = [];
    inv_cur : current s tr;
    inv_hist : history s tr;
inv_fin : forall n t m todo since dead, ph s = Delivering n t m todo since dead -> ~ In (OFinished n) tr
  }.

  Lemma subscriptions_snoc : forall h h' k id,
    subscriptions (h ++ h') k id =
    fold_left (fun c o =>
      match o with
      | OSubscribed k' r => if key_eqb k' k && (rid r =? id) then S c else c
      | OUnsubscribed (Some k') id' => if key_eqb k' k && (id' =? id) then 0 else c
      | OUnsubscribed None id' => if id' =? id then 0 else c
      | OExpired k' id' => if key_eqb k' k && (id' =? id) then 0 else c
      | _ => c
      end) h' (subscriptions h k id).
  Proof. intros. unfold Delivery_spec.subscriptions. now rewrite fold_left_app. Qed.

  Lemma subscriptions_inner : forall h h' k id, Forall inner h' -> subscriptions (h ++ h') k id = subscriptions h k id.
  Proof.
    intros h h' k id H. rewrite subscriptions_snoc. generalize (subscriptions h k id).
    induction H as [|o h' I H IH]; intro c; cbn; [reflexivity|].
    destruct o; cbn in I; try tauto; apply IH.
  Qed.

  Lemma attempts_app : forall n a b, attempts n (a ++ b) = attempts n a ++ attempts n b.
  Proof. intros. unfold attempts. now rewrite flat_map_app. Qed.

  Lemma attempts_fresh : forall n tr, (forall o n', In o tr -> num o = Some n' -> n' <> n) -> attempts n tr = [].
  Proof.
    intros n tr H. induction tr as [|o tr IH]; [reflexivity|].
    change (attempts n (o :: tr)) with (attempts n ([o] ++ tr)). rewrite attempts_app. rewrite IH by (intros; eapply H; [right|]; eassumption).
    destruct o; try reflexivity. cbn. destruct (n0 =? n) eqn:E; [|reflexivity].
    apply Nat.eqb_eq in E. exfalso. apply (H (OAttempt n0 k r) n0); cbn; auto.
  Qed.

  Lemma split_app : forall (A : Type) (a b c d : list A) x,
    a ++ b = c ++ x :: d -> ~ In x b -> exists d', d = d' ++ b /\ a = c ++ x :: d'.
  Proof.
    intros A a b c d x E N. revert c E. induction a as [|y a IH]; intros c E; cbn in E.
    - exfalso. apply N. rewrite E. apply in_or_app. right. now left.
    - destruct c as [|z c]; cbn in E.
      + injection E as -> <-. exists a. auto.
      + injection E as -> E. destruct (IH _ E) as [d' [-> ->]]. exists d'. auto.
  Qed.

  Lemma expired_fold : forall dead t k id, wf t ->
    cnt k id (remove_dead dead t) =
    fold_left (fun c e => if key_eqb (fst e) k && (snd e =? id) then 0 else c) dead (cnt k id t).
  Proof.
    unfold Delivery.remove_dead. induction dead as [|[k0 id0] dead IH]; intros t k id W; cbn; [reflexivity|].
    rewrite IH by now apply wf_unsubscribe. now rewrite cnt_unsubscribe.
  Qed.

  (** A decomposition at a publication, after more observations. *)
  Lemma history_app : forall s s' tr o,
    history s tr ->
    (forall n t m, ~ In (OPublished n t m) o) ->
    (forall n, attempts n o = [] \/
       exists t m todo since dead, ph s = Delivering n t m todo since dead /\
         exists rest, targets (subs s) t = attempts n (tr ++ o) ++ rest) ->
    (forall n, In (OFinished n) o -> attempts n o = [] /\ exists t m since dead, ph s = Delivering n t m [] since dead /\
         targets (subs s) t = attempts n tr) ->
    (forall n, In (OFinished n) tr -> attempts n o = []) ->
    (forall n t m todo since dead, ph s' = Delivering n t m todo since dead ->
       subs s' = subs s /\ exists m2 todo2 since2 dead2, ph s = Delivering n t m2 todo2 since2 dead2) ->
    history s' (tr ++ o).
  Proof.
    intros s s' tr o H NP HA HF HF2 HC T1 n t m T2 E.
    apply split_app in E; [|apply NP]. destruct E as [T2' [-> ->]].
    destruct (H T1 n t m T2' eq_refl) as (tb & W & C & (rest & R) & F & CU).
    exists tb. split; [exact W|]. split; [exact C|]. split; [|split].
    - destruct (HA n) as [A|(t' & m' & todo & since & dead & P & rest' & R')].
      + exists rest. now rewrite attempts_app, A, app_nil_r.
      + destruct (CU _ _ _ _ _ P) as [-> ->]. exists rest'. exact R'.
    - intro I. apply in_app_or in I. destruct I as [I|I].
      + rewrite attempts_app, (HF2 _ I), app_nil_r. auto.
      + destruct (HF _ I) as (A & t' & m' & since & dead & P & R').
        destruct (CU _ _ _ _ _ P) as [-> ->]. now rewrite attempts_app, A, app_nil_r.
    - intros t' m' todo since dead P. destruct (HC _ _ _ _ _ _ P) as (-> & m2 & todo2 & since2 & dead2 & P2).
      exact (CU _ _ _ _ _ P2).
  Qed.

  Lemma quiet_inner : forall o, Forall quiet o -> Forall inner o.
  Proof. intros o H. eapply Forall_impl; [|exact H]. intros []; cbn; tauto. Qed.

  Lemma quiet_attempts : forall n o, Forall quiet o -> attempts n o = [].
  Proof.
    intros n o H. induction H as [|x o Q H IH]; [reflexivity|].
    change (attempts n (x :: o)) with (attempts n ([x] ++ o)). rewrite attempts_app, IH.
    destruct x; cbn in Q; try tauto; reflexivity.
  Qed.

  Lemma quiet_num : forall o x n, Forall quiet o -> In x o -> num x = Some n -> False.
  Proof. intros o x n H I N. rewrite Forall_forall in H. apply H in I. destruct x; cbn in *; try tauto; discriminate. Qed.

  Lemma in_set_nth : forall (A : Type) i (x y : A) l, In x (set_nth i y l) -> x = y \/ In x l.
  Proof.
    intros A. induction i as [|i IH]; intros x y [|z l] H; cbn in *; auto.
    - destruct H; auto.
    - destruct H as [H|H]; auto. apply IH in H. tauto.
  Qed.

  (** Tasks keep their publication; new ones belong to the current one. *)
  Lemma step_tasks : forall s e s' o, step s e = Some (s', o) ->
    (forall tk, In tk (tasks s') ->
       (exists tk', In tk' (tasks s) /\ tn tk = tn tk' /\ tkey tk = tkey tk' /\ treg tk = treg tk' /\ tmsg tk = tmsg tk') \/
       (exists n t m k r todo since dead d, ph s = Delivering n t m ((k, r) :: todo) since dead /\
          tk = mk_task n k r m None TSending /\ mode_of strat = MSpawn d)) /\
    ((forall d, mode_of strat <> MSpawn d) -> tasks s = [] -> tasks s' = []).
  Proof.
    intros s e s' o E.
    destruct e; unfold Delivery.step, settle in E; cases E; cbn;
      try (split; [intros tk I; left; exists tk; auto | auto]; fail).
    - split.
      + intros tk I. apply in_app_or in I. destruct I as [I|[<-|[]]].
        * left; exists tk; auto.
        * right. repeat eexists; eauto.
      + intros N. exfalso. eapply N; reflexivity.
    - split; [|intros _ N; rewrite N in *; destruct i; discriminate].
      intros tk I. apply in_set_nth in I. left. destruct I as [->|I]; [|exists tk; auto].
      exists t. apply nth_error_In in Heqo0. auto.
    - split; [|intros _ N; rewrite N in *; destruct i; discriminate].
      intros tk I. apply in_set_nth in I. left. destruct I as [->|I]; [|exists tk; auto].
      exists t. apply nth_error_In in Heqo0. auto.
    - split; [|intros _ N; rewrite N in *; destruct i; discriminate].
      intros tk I. apply in_set_nth in I. left. destruct I as [->|I]; [|exists tk; auto].
      exists t. apply nth_error_In in Heqo0. auto.
  Qed.

  Lemma num_lt_app : forall (P : nat) tr o,
    (forall x n, In x tr -> num x = Some n -> n < P) ->
    (forall x n, In x o -> num x = Some n -> n < P) ->
    forall x n, In x (tr ++ o) -> num x = Some n -> n < P.
  Proof. intros P tr o H1 H2 x n I N. apply in_app_or in I. destruct I; eauto. Qed.

  Lemma began_inner : forall n k r (since : option nat),
    Forall inner (match since with None => [OAttempt n k r] | Some _ => [] end : list obs).
  Proof. intros n k r [t|]; repeat constructor. Qed.

  Lemma app_assoc_cons : forall (A : Type) (a : list A) x b c, (a ++ x :: b) ++ c = a ++ x :: (b ++ c).
  Proof. intros. now rewrite <- app_assoc. Qed.

  Lemma step_inv : forall s e s' o tr, INV s tr -> step s e = Some (s', o) -> INV s' (tr ++ o).
  Proof.
    intros s e s' o tr [W C NU TK NT CU HI FI] E.
    pose proof (step_tasks _ _ E) as [TS TN]. pose proof (step_kind _ _ E) as K. clear E.
    assert (NT' : (forall d, mode_of strat <> MSpawn d) -> tasks s' = []) by auto.
    assert (TK' : pubs s <= pubs s' -> forall tk, In tk (tasks s') -> tn tk < pubs s').
    { intros L tk I. apply TS in I.
      destruct I as [(tk' & I & -> & _)|(n & t & m & k & r & todo & since & dead & d & P & -> & _)].
      - apply TK in I. lia.
      - unfold current in CU. rewrite P in CU. cbn. destruct CU as [CU _]. lia. }
    destruct K as [SU PH PB Q | tk x I TP SU PH PB -> | k r P P' PB SU -> | k id P P' PB SU -> | id P P' PB SU ->
                  | t m P P' PB SU -> | n t m k r todo since dead t0 P P' PB SU ->
                  | n t m k r todo since dead x MD P P' PB SU -> | d n t m k r todo since dead MD P P' PB SU ->
                  | n t m since dead P P' PB SU -> ];
      (assert (L : pubs s <= pubs s') by lia); specialize (TK' L).
    - (* quiet *)
      pose proof (quiet_inner Q) as QI.
      assert (SC : forall t m n todo since dead, ph s' = Delivering n t m todo since dead -> subs s' = subs s /\ ph s = ph s').
      { intros t m n todo since dead P. destruct PH as [PH|PH]; [|congruence].
        destruct SU as [SU|[ID _]]; [auto|]. congruence. }
      constructor; auto.
      + destruct SU as [->|[_ [i ->]]]; auto using wf_swap.
      + intros k id. rewrite subscriptions_inner by assumption.
        destruct SU as [->|[_ [i ->]]]; [|rewrite cnt_swap by assumption]; apply C.
      + rewrite PB. apply num_lt_app; [assumption|]. intros x n I N. exfalso. eapply quiet_num; eassumption.
      + unfold current in *. destruct (ph s') as [|n t m todo since dead|] eqn:P; try exact Logic.I.
        destruct (SC _ _ _ _ _ _ eq_refl) as [-> P']. rewrite P' in CU. rewrite PB.
        destruct CU as (A1 & A2 & A3 & (T1 & T2 & -> & A4 & A5) & A6 & A7).
        split; [assumption|]. split; [now rewrite attempts_app, (quiet_attempts n Q), app_nil_r|].
        split; [assumption|]. split; [|split; [|assumption]].
        * exists T1, (T2 ++ o). split; [apply app_assoc_cons|]. split; [now apply Forall_app|].
          intros k id D. destruct (A5 k id D) as [x [X1 X2]]. exists x. split; [apply in_or_app; auto|assumption].
        * intros MD k id x X F. apply in_app_or in X. destruct X as [X|X]; [eauto|].
          destruct F as (r0 & m0 & -> & _). rewrite Forall_forall in Q. destruct (Q _ X).
      + apply history_app with (s := s); auto.
        * intros n t m X. rewrite Forall_forall in Q. destruct (Q _ X).
        * intro n. left. now apply quiet_attempts.
        * intros n X. rewrite Forall_forall in Q. destruct (Q _ X).
        * intros n X. now apply quiet_attempts.
        * intros n t m todo since dead P. destruct (SC _ _ _ _ _ _ P) as [Q1 Q2]. rewrite Q2, P. eauto 8.
      + intros n t m todo since dead P X. destruct (SC _ _ _ _ _ _ P) as [Q1 Q2]. rewrite <- Q2 in P.
        apply in_app_or in X. destruct X as [X|X]; [eapply FI; eauto|]. rewrite Forall_forall in Q. destruct (Q _ X).
    - (* a task settles *)
      assert (ATT : forall n, attempts n ([OSettled (tn tk) (tkey tk) (treg tk) x] : list obs) = []) by reflexivity.
      constructor; auto.
      + now rewrite SU.
      + intros k id. rewrite subscriptions_inner by (repeat constructor). rewrite SU. apply C.
      + rewrite PB. apply num_lt_app; [assumption|]. intros y n [<-|[]] N. cbn in N. injection N as <-. now apply TK.
      + unfold current in *. rewrite PH, SU, PB. destruct (ph s) as [|n t m todo since dead|] eqn:P; try exact Logic.I.
        destruct CU as (A1 & A2 & A3 & (T1 & T2 & -> & A4 & A5) & A6 & A7).
        split; [assumption|]. split; [now rewrite attempts_app, ATT, app_nil_r|].
        split; [assumption|]. split; [|split; [|assumption]].
        * exists T1, (T2 ++ [OSettled (tn tk) (tkey tk) (treg tk) x]). split; [apply app_assoc_cons|].
          split; [apply Forall_app; split; [assumption|repeat constructor]|].
          intros k id D. destruct (A5 k id D) as [y [X1 X2]]. exists y. split; [apply in_or_app; auto|assumption].
        * intros MD. rewrite (NT MD) in I. destruct I.
      + apply history_app with (s := s); auto.
        * intros n t m [X|[]]; discriminate.
        * intros n [X|[]]; discriminate.
        * intros n t m todo since dead P. rewrite PH in P. rewrite P. eauto 8.
      + intros n t m todo since dead P X. rewrite PH in P. apply in_app_or in X. destruct X as [X|[X|[]]]; [eapply FI; eauto|discriminate].
    - (* subscribe *)
      constructor; auto.
      + rewrite SU. now apply wf_subscribe.
      + intros k' id. rewrite subscriptions_snoc. cbn. rewrite SU, cnt_subscribe, C. reflexivity.
      + rewrite PB. apply num_lt_app; [assumption|]. intros y n [<-|[]] N. discriminate.
      + unfold current. now rewrite P'.
      + apply history_app with (s := s); auto.
        * intros n t m [X|[]]; discriminate.
        * intros n [X|[]]; discriminate.
        * congruence.
      + congruence.
    - (* unsubscribe *)
      constructor; auto.
      + rewrite SU. now apply wf_unsubscribe.
      + intros k' id'. rewrite subscriptions_snoc. cbn. rewrite SU, cnt_unsubscribe, C by assumption. reflexivity.
      + rewrite PB. apply num_lt_app; [assumption|]. intros y n [<-|[]] N. discriminate.
      + unfold current. now rewrite P'.
      + apply history_app with (s := s); auto.
        * intros n t m [X|[]]; discriminate.
        * intros n [X|[]]; discriminate.
        * congruence.
      + congruence.
    - (* unsubscribe from all *)
      constructor; auto.
      + rewrite SU. now apply wf_unsubscribe_all.
      + intros k' id'. rewrite subscriptions_snoc. cbn. rewrite SU, cnt_unsubscribe_all, C by assumption. reflexivity.
      + rewrite PB. apply num_lt_app; [assumption|]. intros y n [<-|[]] N. discriminate.
      + unfold current. now rewrite P'.
      + apply history_app with (s := s); auto.
        * intros n t m [X|[]]; discriminate.
        * intros n [X|[]]; discriminate.
        * congruence.
      + congruence.
    - (* publish *)
      assert (FR : forall o n', In o tr -> num o = Some n' -> n' <> pubs s).
      { intros y n' Y N. apply NU in N; [lia|assumption]. }
      constructor; auto.
      + now rewrite SU.
      + intros k id. rewrite subscriptions_snoc. cbn. rewrite SU. apply C.
      + rewrite PB. apply num_lt_app.
        * intros y n Y N. apply NU in N; [lia|assumption].
        * intros y n [<-|[]] N. cbn in N. injection N as <-. lia.
      + unfold current. rewrite P'. split; [assumption|]. rewrite SU. split; [|split; [congruence|split; [|split]]].
        * rewrite attempts_app, (attempts_fresh tr FR). reflexivity.
        * exists tr, []. split; [reflexivity|]. split; [constructor|]. intros ? ? [].
        * intros MD k id y Y (r0 & m0 & -> & F). apply in_app_or in Y. destruct Y as [Y|[Y|[]]]; [|discriminate].
          exfalso. eapply FR; [exact Y | reflexivity | reflexivity].
        * reflexivity.
      + intros T1 n t0 m0 T2 E.
        assert (X : In (OPublished n t0 m0) tr \/ (n = pubs s /\ t0 = t /\ m0 = m)).
        { assert (Y : In (OPublished n t0 m0) (tr ++ [OPublished (pubs s) t m])) by (rewrite E; apply in_or_app; right; now left).
          apply in_app_or in Y. destruct Y as [Y|[Y|[]]]; [auto|]. injection Y as <- <- <-. auto. }
        destruct X as [X|(-> & -> & ->)].
        * assert (NE : n <> pubs s) by (eapply FR; [exact X|reflexivity]).
          apply split_app in E; [|intros [Y|[]]; congruence]. destruct E as [T2' [-> E]].
          destruct (HI _ _ _ _ _ E) as (tb & B1 & B2 & (rest & B3) & B4 & B5).
          exists tb. split; [assumption|]. split; [assumption|]. rewrite attempts_app. cbn. rewrite app_nil_r.
          split; [eauto|]. split.
          -- intro Y. apply in_app_or in Y. destruct Y as [Y|[Y|[]]]; [auto|discriminate].
          -- intros t' m' todo since dead Z. rewrite P' in Z. congruence.
        * assert (ET : T1 = tr /\ T2 = []).
          { assert (Y : ~ In (OPublished (pubs s) t m) tr) by (intro Y; eapply FR; [exact Y|reflexivity|reflexivity]).
            clear - E Y. revert T1 E. induction tr as [|z tr IH]; intros T1 E; cbn in E.
            - destruct T1 as [|z' T1]; cbn in E; [injection E as <-; auto|]. injection E as _ E. destruct T1; discriminate.
            - destruct T1 as [|z' T1]; cbn in E; injection E as -> E.
              + exfalso. apply Y. now left.
              + destruct (IH (fun Z => Y (or_intror Z)) _ E) as [-> ->]. auto. }
          destruct ET as [-> ->]. exists (subs s). split; [assumption|]. split; [assumption|].
          rewrite attempts_app, (attempts_fresh tr FR). split; [cbn; eauto|]. split.
          -- intro Y. apply in_app_or in Y. destruct Y as [Y|[Y|[]]]; [|discriminate].
             exfalso. eapply FR; [exact Y|reflexivity|reflexivity].
          -- intros t' m' todo since dead Z. rewrite P' in Z. injection Z as <- <- <- <- <-. auto.
      + intros n t0 m0 todo since dead Z. rewrite P' in Z. injection Z as <- <- <- <- <-. intro Y.
        apply in_app_or in Y. destruct Y as [Y|[Y|[]]]; [|discriminate]. eapply FR; [exact Y|reflexivity|reflexivity].
    - (* waiting *)
      pose proof (began_inner n k r since) as BI.
      unfold current in CU. rewrite P in CU. destruct CU as (A1 & A2 & A3 & (T1 & T2 & -> & A4 & A5) & A6 & A7).
      set (tr := T1 ++ OPublished n t m :: T2) in *.
      set (o := match since with None => [OAttempt n k r] | Some _ => [] end : list obs) in *.
      assert (ATT : attempts n (tr ++ o) ++ todo = targets (subs s) t).
      { rewrite A2. unfold o. destruct since; cbn; [now rewrite app_nil_r|]. rewrite attempts_app. cbn.
        rewrite Nat.eqb_refl, <- app_assoc. reflexivity. }
      assert (OTH : forall n', attempts n' o = [] \/ n' = n).
      { intro n'. unfold o. destruct since; cbn; auto. destruct (n =? n') eqn:EN; auto. apply Nat.eqb_eq in EN. auto. }
      constructor; auto.
      + now rewrite SU.
      + intros k' id. rewrite subscriptions_inner by assumption. rewrite SU. apply C.
      + rewrite PB. apply num_lt_app; [assumption|]. intros y n' Y N. unfold o in Y.
        destruct since; [destruct Y|destruct Y as [<-|[]]]. cbn in N. injection N as <-. lia.
      + unfold current. rewrite P', PB, SU. split; [assumption|]. split; [now rewrite <- ATT|].
        split; [discriminate|]. split; [|split; [|assumption]].
        * exists T1, (T2 ++ o). split; [apply app_assoc_cons|]. split; [now apply Forall_app|].
          intros k' id D. destruct (A5 k' id D) as [y [X1 X2]]. exists y. split; [apply in_or_app; auto|assumption].
        * intros MD k' id y Y F. apply in_app_or in Y. destruct Y as [Y|Y]; [eauto|].
          destruct F as (r0 & m0 & -> & _). unfold o in Y. destruct since; [destruct Y|destruct Y as [Y|[]]; discriminate].
      + apply history_app with (s := s); auto.
        * intros n' t' m' Y. unfold o in Y. destruct since; [destruct Y|destruct Y as [Y|[]]; discriminate].
        * intro n'. destruct (OTH n') as [O| ->]; [auto|]. right. do 5 eexists. split; [eassumption|]. eauto.
        * intros n' Y. unfold o in Y. destruct since; [destruct Y|destruct Y as [Y|[]]; discriminate].
        * intros n' Y. destruct (OTH n') as [O| ->]; [auto|]. exfalso. eapply FI; eauto.
        * intros n' t' m' todo' since' dead' Z. split; [assumption|]. rewrite P' in Z. injection Z as <- <- <- <- <- <-. eauto 8.
      + intros n' t' m' todo' since' dead' Z Y. rewrite P' in Z. injection Z as <- <- <- <- <- <-.
        apply in_app_or in Y. destruct Y as [Y|Y]; [eapply FI; eauto|].
        unfold o in Y. destruct since; [destruct Y|destruct Y as [Y|[]]; discriminate].
    - (* settled *)
      pose proof (began_inner n k r since) as BI.
      unfold current in CU. rewrite P in CU. destruct CU as (A1 & A2 & A3 & (T1 & T2 & -> & A4 & A5) & A6 & A7).
      set (tr := T1 ++ OPublished n t m :: T2) in *.
      set (o := (match since with None => [OAttempt n k r] | Some _ => [] end ++ [OSettled n k r x]) : list obs) in *.
      assert (ATT : attempts n (tr ++ o) ++ todo = targets (subs s) t).
      { rewrite A2. unfold o. destruct since; cbn.
        - rewrite attempts_app. cbn. now rewrite app_nil_r.
        - rewrite attempts_app. cbn. rewrite Nat.eqb_refl, <- app_assoc. reflexivity. }
      assert (OTH : forall n', attempts n' o = [] \/ n' = n).
      { intro n'. unfold o. destruct since; cbn; auto. destruct (n =? n') eqn:EN; auto. apply Nat.eqb_eq in EN. auto. }
      assert (IO : forall y, In y o -> y = OAttempt n k r \/ y = OSettled n k r x).
      { intros y Y. unfold o in Y. destruct since; cbn in Y; intuition. }
      assert (II : Forall inner o).
      { unfold o. destruct since; repeat constructor. }
      constructor; auto.
      + now rewrite SU.
      + intros k' id. rewrite subscriptions_inner by assumption. rewrite SU. apply C.
      + rewrite PB. apply num_lt_app; [assumption|]. intros y n' Y N.
        destruct (IO _ Y) as [-> | ->]; cbn in N; injection N as <-; lia.
      + unfold current. rewrite P', PB, SU. split; [assumption|]. split; [now rewrite <- ATT|].
        split; [congruence|]. split; [|split].
        * exists T1, (T2 ++ o). split; [apply app_assoc_cons|]. split; [now apply Forall_app|].
          assert (D0 : forall k' id, In (k', id) dead -> exists y, In y (T2 ++ o) /\ found_dead rid n k' id y).
          { intros k' id D. destruct (A5 k' id D) as [y [X1 X2]]. exists y. split; [apply in_or_app; auto|assumption]. }
          intros k' id D. destruct (not_running x) eqn:NR; [|auto].
          apply in_app_or in D. destruct D as [D|[D|[]]]; [auto|]. injection D as <- <-.
          exists (OSettled n k r x). split; [apply in_or_app; right; unfold o; apply in_or_app; right; now left|].
          destruct x as [|[]]; try discriminate. repeat eexists.
        * intros _ k' id y Y F. apply in_app_or in Y. destruct Y as [Y|Y].
          -- specialize (A6 MD k' id y Y F). destruct (not_running x); [apply in_or_app|]; auto.
          -- destruct F as (r0 & m0 & -> & F). destruct (IO _ Y) as [Z|Z]; [discriminate|].
             injection Z as <- <- <-. cbn. apply in_or_app. right. left. now subst.
        * intros d MD'. exfalso. eapply MD; eassumption.
      + apply history_app with (s := s); auto.
        * intros n' t' m' Y. destruct (IO _ Y); discriminate.
        * intro n'. destruct (OTH n') as [O| ->]; [auto|]. right. do 5 eexists. split; [eassumption|]. eauto.
        * intros n' Y. destruct (IO _ Y); discriminate.
        * intros n' Y. destruct (OTH n') as [O| ->]; [auto|]. exfalso. eapply FI; eauto.
        * intros n' t' m' todo' since' dead' Z. split; [assumption|]. rewrite P' in Z. injection Z as <- <- <- <- <- <-. eauto 8.
      + intros n' t' m' todo' since' dead' Z Y. rewrite P' in Z. injection Z as <- <- <- <- <- <-.
        apply in_app_or in Y. destruct Y as [Y|Y]; [eapply FI; eauto|]. destruct (IO _ Y); discriminate.
    - (* spawned *)
      pose proof (began_inner n k r since) as BI.
      unfold current in CU. rewrite P in CU. destruct CU as (A1 & A2 & A3 & (T1 & T2 & -> & A4 & A5) & A6 & A7).
      set (tr := T1 ++ OPublished n t m :: T2) in *.
      set (o := match since with None => [OAttempt n k r] | Some _ => [] end : list obs) in *.
      assert (ATT : attempts n (tr ++ o) ++ todo = targets (subs s) t).
      { rewrite A2. unfold o. destruct since; cbn; [now rewrite app_nil_r|]. rewrite attempts_app. cbn.
        rewrite Nat.eqb_refl, <- app_assoc. reflexivity. }
      assert (OTH : forall n', attempts n' o = [] \/ n' = n).
      { intro n'. unfold o. destruct since; cbn; auto. destruct (n =? n') eqn:EN; auto. apply Nat.eqb_eq in EN. auto. }
      constructor; auto.
      + now rewrite SU.
      + intros k' id. rewrite subscriptions_inner by assumption. rewrite SU. apply C.
      + rewrite PB. apply num_lt_app; [assumption|]. intros y n' Y N. unfold o in Y.
        destruct since; [destruct Y|destruct Y as [<-|[]]]. cbn in N. injection N as <-. lia.
      + unfold current. rewrite P', PB, SU. split; [assumption|]. split; [now rewrite <- ATT|].
        split; [congruence|]. split; [|split; [|assumption]].
        * exists T1, (T2 ++ o). split; [apply app_assoc_cons|]. split; [now apply Forall_app|].
          intros k' id D. destruct (A5 k' id D) as [y [X1 X2]]. exists y. split; [apply in_or_app; auto|assumption].
        * intros MD'. exfalso. eapply MD'; eassumption.
      + apply history_app with (s := s); auto.
        * intros n' t' m' Y. unfold o in Y. destruct since; [destruct Y|destruct Y as [Y|[]]; discriminate].
        * intro n'. destruct (OTH n') as [O| ->]; [auto|]. right. do 5 eexists. split; [eassumption|]. eauto.
        * intros n' Y. unfold o in Y. destruct since; [destruct Y|destruct Y as [Y|[]]; discriminate].
        * intros n' Y. destruct (OTH n') as [O| ->]; [auto|]. exfalso. eapply FI; eauto.
        * intros n' t' m' todo' since' dead' Z. split; [assumption|]. rewrite P' in Z. injection Z as <- <- <- <- <- <-. eauto 8.
      + intros n' t' m' todo' since' dead' Z Y. rewrite P' in Z. injection Z as <- <- <- <- <- <-.
        apply in_app_or in Y. destruct Y as [Y|Y]; [eapply FI; eauto|].
        unfold o in Y. destruct since; [destruct Y|destruct Y as [Y|[]]; discriminate].
    - (* finish *)
      unfold current in CU. rewrite P in CU. destruct CU as (A1 & A2 & A3 & A4 & A6 & A7).
      assert (since = None) as ->. { destruct since; [|reflexivity]. exfalso. apply A3; congruence. }
      rewrite app_nil_r in A2.
      assert (IO : forall y, In y (map (fun e => OExpired (fst e) (snd e)) dead ++ [OFinished n] : list obs) ->
                (exists k id, y = OExpired k id) \/ y = OFinished n).
      { intros y Y. apply in_app_or in Y. destruct Y as [Y|[Y|[]]]; [|auto]. left.
        apply in_map_iff in Y. destruct Y as (e0 & <- & _). eauto. }
      assert (ATT : forall n', attempts n' (map (fun e => OExpired (fst e) (snd e)) dead ++ [OFinished n] : list obs) = []).
      { intro n'. rewrite attempts_app. cbn. rewrite app_nil_r. clear. induction dead as [|e0 dead IH]; [reflexivity|exact IH]. }
      constructor; auto.
      + rewrite SU. now apply wf_remove.
      + intros k id. rewrite app_assoc, subscriptions_snoc. cbn. rewrite subscriptions_snoc, SU, expired_fold, C by assumption.
        generalize (subscriptions tr k id). clear. induction dead as [|[k0 id0] dead IH]; intro c; cbn; [reflexivity|]. apply IH.
      + rewrite PB. apply num_lt_app; [assumption|]. intros y n' Y N.
        destruct (IO _ Y) as [(k & id & ->)| ->]; cbn in N; [discriminate|]. injection N as <-. lia.
      + unfold current. now rewrite P'.
      + apply history_app with (s := s); auto.
        * intros n' t' m' Y. destruct (IO _ Y) as [(k & id & Z)|Z]; discriminate.
        * intros n' Y. destruct (IO _ Y) as [(k & id & Z)|Z]; [discriminate|]. injection Z as ->. split; [apply ATT|].
          eauto 8.
        * congruence.
      + congruence.
  Qed.

  Lemma init_inv : forall cap caps, INV (init cap caps) [].
  Proof.
    intros. constructor; cbn; try tauto; try congruence.
    - split; cbn; [constructor|tauto].
    - intros T1 n t m T2 E. destruct T1; discriminate.
  Qed.

  Lemma run_inv : forall es s tr s' tr', INV s tr -> run s es = Some (s', tr') -> INV s' (tr ++ tr').
  Proof.
    induction es as [|e es IH]; intros s tr s' tr' H R; cbn in R.
    - injection R as <- <-. now rewrite app_nil_r.
    - destruct (step s e) as [[s1 o1]|] eqn:E1; [|discriminate].
      destruct (run s1 es) as [[s2 o2]|] eqn:E2; [|discriminate]. injection R as <- <-.
      rewrite app_assoc. eapply IH; [|eassumption]. eapply step_inv; eassumption.
  Qed.

  Lemma reach_inv : forall cap caps es s tr, run (init cap caps) es = Some (s, tr) -> INV s tr.
  Proof. intros cap caps es s tr R. exact (run_inv _ (init_inv cap caps) R). Qed.

  (** *** Where an observation was made *)

  Lemma run_app : forall es1 s es2,
    run s (es1 ++ es2) =
    match run s es1 with
    | Some (s1, o1) => match run s1 es2 with Some (s2, o2) => Some (s2, o1 ++ o2) | None => None end
    | None => None
    end.
  Proof.
    induction es1 as [|e es1 IH]; intros s es2; cbn.
    - destruct (run s es2) as [[? ?]|]; reflexivity.
    - destruct (step s e) as [[s1 o1]|]; [|reflexivity]. rewrite IH.
      destruct (run s1 es1) as [[s2 o2]|]; [|reflexivity].
      destruct (run s2 es2) as [[s3 o3]|]; [|reflexivity]. now rewrite app_assoc.
  Qed.

  Lemma app_eq_split : forall (A : Type) (a b c d : list A) x, a ++ b = c ++ x :: d ->
    (exists d1, a = c ++ x :: d1 /\ d = d1 ++ b) \/ (exists c1, c = a ++ c1 /\ b = c1 ++ x :: d).
  Proof.
    intros A a. induction a as [|y a IH]; intros b c d x E; cbn in E.
    - right. exists c. auto.
    - destruct c as [|z c]; cbn in E.
      + injection E as -> <-. left. exists a. auto.
      + injection E as -> E. destruct (IH _ _ _ _ E) as [(d1 & -> & ->)|(c1 & -> & ->)].
        * left. exists d1. auto.
        * right. exists c1. auto.
  Qed.

  Lemma find_step : forall es s s' tr T1 x T2, run s es = Some (s', tr) -> tr = T1 ++ x :: T2 ->
    exists es1 e es2 s1 tr1 s2 o1 o2, es = es1 ++ e :: es2 /\ run s es1 = Some (s1, tr1) /\
      step s1 e = Some (s2, o1 ++ x :: o2) /\ T1 = tr1 ++ o1.
  Proof.
    induction es as [|e es IH]; intros s s' tr T1 x T2 R E; cbn in R.
    - injection R as <- <-. destruct T1; discriminate.
    - destruct (step s e) as [[s1 o1]|] eqn:E1; [|discriminate].
      destruct (run s1 es) as [[s2 o2]|] eqn:E2; [|discriminate]. injection R as <- <-.
      apply app_eq_split in E. destruct E as [(d1 & -> & ->)|(c1 & -> & E)].
      + exists [], e, es, s, [], s1, T1, d1. auto.
      + destruct (IH _ _ _ _ _ _ E2 E) as (es1 & e' & es2 & s3 & tr1 & s4 & p1 & p2 & -> & R & ST & ->).
        exists (e :: es1), e', es2, s3, (o1 ++ tr1), s4, p1, p2. split; [reflexivity|].
        split; [cbn; now rewrite E1, R|]. split; [assumption|]. apply app_assoc.
  Qed.

  Local Notation within := (@within key topic reg msg).

  Lemma expired_in : forall dead (k : key) id o1 o2 n,
    map (fun e => OExpired (fst e) (snd e)) dead ++ [OFinished n] = (o1 ++ OExpired k id :: o2 : list obs) ->
    In (k, id) dead /\ Forall within o1.
  Proof.
    induction dead as [|[k0 id0] dead IH]; intros k id o1 o2 n E; cbn in E.
    - destruct o1 as [|y o1]; cbn in E; [discriminate|]. injection E as _ E. destruct o1; discriminate.
    - destruct o1 as [|y o1]; cbn in E.
      + injection E as -> -> _. split; [now left|constructor].
      + injection E as <- E. apply IH in E. destruct E. split; [now right|]. constructor; cbn; auto.
  Qed.

  Lemma inner_within : forall o, inner o -> within o.
  Proof. intros []; cbn; tauto. Qed.

  Lemma no_expired : forall s s' o k id, kind s s' o -> In (OExpired k id) o ->
    exists n t m since dead, ph s = Delivering n t m [] since dead /\
      o = map (fun e => OExpired (fst e) (snd e)) dead ++ [OFinished n].
  Proof.
    intros s s' o k id K I.
    destruct K as [SU PH PB Q | tk x I' TP SU PH PB -> | k' r P P' PB SU -> | k' id' P P' PB SU -> | id' P P' PB SU ->
                  | t m P P' PB SU -> | n t m k' r todo since dead t0 P P' PB SU ->
                  | n t m k' r todo since dead x MD P P' PB SU -> | d n t m k' r todo since dead MD P P' PB SU ->
                  | n t m since dead P P' PB SU -> ].
    - rewrite Forall_forall in Q. destruct (Q _ I).
    - destruct I as [I|[]]; discriminate.
    - destruct I as [I|[]]; discriminate.
    - destruct I as [I|[]]; discriminate.
    - destruct I as [I|[]]; discriminate.
    - destruct I as [I|[]]; discriminate.
    - destruct since; [destruct I|destruct I as [I|[]]; discriminate].
    - apply in_app_or in I. destruct I as [I|[I|[]]]; [|discriminate]. destruct since; [destruct I|destruct I as [I|[]]; discriminate].
    - destruct since; [destruct I|destruct I as [I|[]]; discriminate].
    - eauto 8.
  Qed.

  Lemma no_finished : forall s s' o n, kind s s' o -> In (OFinished n) o ->
    exists t m since dead, ph s = Delivering n t m [] since dead /\
      o = map (fun e => OExpired (fst e) (snd e)) dead ++ [OFinished n].
  Proof.
    intros s s' o n' K I.
    destruct K as [SU PH PB Q | tk x I' TP SU PH PB -> | k' r P P' PB SU -> | k' id' P P' PB SU -> | id' P P' PB SU ->
                  | t m P P' PB SU -> | n t m k' r todo since dead t0 P P' PB SU ->
                  | n t m k' r todo since dead x MD P P' PB SU -> | d n t m k' r todo since dead MD P P' PB SU ->
                  | n t m since dead P P' PB SU -> ].
    - rewrite Forall_forall in Q. destruct (Q _ I).
    - destruct I as [I|[]]; discriminate.
    - destruct I as [I|[]]; discriminate.
    - destruct I as [I|[]]; discriminate.
    - destruct I as [I|[]]; discriminate.
    - destruct I as [I|[]]; discriminate.
    - destruct since; [destruct I|destruct I as [I|[]]; discriminate].
    - apply in_app_or in I. destruct I as [I|[I|[]]]; [|discriminate]. destruct since; [destruct I|destruct I as [I|[]]; discriminate].
    - destruct since; [destruct I|destruct I as [I|[]]; discriminate].
    - apply in_app_or in I. destruct I as [I|[I|[]]].
      + apply in_map_iff in I. destruct I as (e0 & E0 & _). discriminate.
      + injection I as ->. eauto 8.
  Qed.

  Lemma expired_found : forall cap caps es s tr T1 k id T2,
    run (init cap caps) es = Some (s, tr) -> tr = T1 ++ OExpired k id :: T2 ->
    exists n t m H1 H2 o, T1 = H1 ++ OPublished n t m :: H2 /\ Forall within H2 /\ In o H2 /\
      found_dead rid n k id o.
  Proof.
    intros cap caps es s tr T1 k id T2 R E.
    destruct (@find_step _ _ _ _ _ _ _ R E) as (es1 & e & es2 & s1 & tr1 & s2 & o1 & o2 & _ & R1 & ST & ->).
    pose proof (reach_inv _ _ _ R1) as I1. pose proof (step_kind _ _ ST) as K.
    assert (IN : In (OExpired k id) (o1 ++ OExpired k id :: o2)) by (apply in_or_app; right; now left).
    destruct (@no_expired _ _ _ _ _ K IN) as (n & t & m & since & dead & P & EO). symmetry in EO. apply expired_in in EO.
    destruct EO as [D W]. pose proof (inv_cur I1) as C. unfold current in C. rewrite P in C.
    destruct C as (_ & _ & _ & (H1 & H2 & -> & F & FD) & _ & _). destruct (FD _ _ D) as (o & O1 & O2).
    exists n, t, m, H1, (H2 ++ o1), o. split; [apply app_assoc_cons|]. split; [|split; [apply in_or_app; auto|assumption]].
    apply Forall_app. split; [|assumption]. eapply Forall_impl; [|exact F]. apply inner_within.
  Qed.

  Lemma dead_gone : forall cap caps es s tr T1 n T2 k id o,
    (forall d, mode_of strat <> MSpawn d) ->
    run (init cap caps) es = Some (s, tr) -> tr = T1 ++ OFinished n :: T2 ->
    In o T1 -> found_dead rid n k id o -> subscriptions T1 k id = 0.
  Proof.
    intros cap caps es s tr T1 n T2 k id o MD R E IO FD.
    destruct (@find_step _ _ _ _ _ _ _ R E) as (es1 & e & es2 & s1 & tr1 & s2 & o1 & o2 & _ & R1 & ST & ->).
    pose proof (reach_inv _ _ _ R1) as I1. pose proof (step_kind _ _ ST) as K.
    assert (IN : In (OFinished n) (o1 ++ OFinished n :: o2)) by (apply in_or_app; right; now left).
    destruct (@no_finished _ _ _ _ K IN) as (t & m & since & dead & P & EO).
    assert (o1 = map (fun e => OExpired (fst e) (snd e)) dead) as ->.
    { clear - EO. revert dead EO. induction o1 as [|y o1 IH]; intros [|e0 dead] EO; cbn in *; try reflexivity; try discriminate.
      - injection EO as _ EO. destruct o1; discriminate.
      - injection EO as -> EO. f_equal. now apply IH. }
    pose proof (inv_cur I1) as C. unfold current in C. rewrite P in C.
    destruct C as (_ & _ & _ & _ & A & _).
    assert (D : In (k, id) dead).
    { apply in_app_or in IO. destruct IO as [IO|IO]; [eapply A; eassumption|].
      destruct FD as (r & m0 & -> & _). apply in_map_iff in IO. destruct IO as (e0 & E0 & _). discriminate. }
    rewrite subscriptions_snoc. generalize (subscriptions tr1 k id). clear - D key_ok.
    induction dead as [|[k0 id0] dead IH]; intro c; [destruct D|]. cbn. destruct D as [D|D].
    - injection D as -> ->. rewrite key_refl, Nat.eqb_refl. cbn.
      clear IH. induction dead as [|[k1 id1] dead IH]; cbn; [reflexivity|].
      destruct (key_eqb k1 k && (id1 =? id)); apply IH.
    - now apply IH.
  Qed.

  Lemma spawned_never_expires : forall d cap caps es s tr k id,
    mode_of strat = MSpawn d -> run (init cap caps) es = Some (s, tr) -> ~ In (OExpired k id) tr.
  Proof.
    intros d cap caps es s tr k id MD R I. apply in_split in I. destruct I as (T1 & T2 & E).
    destruct (@find_step _ _ _ _ _ _ _ R E) as (es1 & e & es2 & s1 & tr1 & s2 & o1 & o2 & _ & R1 & ST & ->).
    pose proof (reach_inv _ _ _ R1) as I1. pose proof (step_kind _ _ ST) as K.
    assert (IN : In (OExpired k id) (o1 ++ OExpired k id :: o2)) by (apply in_or_app; right; now left).
    destruct (@no_expired _ _ _ _ _ K IN) as (n & t & m & since & dead & P & EO). symmetry in EO. apply expired_in in EO.
    destruct EO as [D _]. pose proof (inv_cur I1) as C. unfold current in C. rewrite P in C.
    destruct C as (_ & _ & _ & _ & _ & A). rewrite (A _ MD) in D. destruct D.
  Qed.

  (** *** Sends and their results *)

  Local Notation is_attempt := (@is_attempt key topic reg msg key_eqb rid).
  Local Notation is_settled := (@is_settled key topic reg msg key_eqb rid).

  Definition pending_task (n : nat) (k : key) (id : nat) (tk : @task key reg msg) : bool :=
    match tph tk with
    | TSending => (tn tk =? n) && (key_eqb (tkey tk) k && (rid (treg tk) =? id))
    | _ => false
    end.

  Definition waiting (s : state) (n : nat) (k : key) (id : nat) : nat :=
    match ph s with
    | Delivering n' _ _ ((k', r) :: _) (Some _) _ =>
        if (n' =? n) && (key_eqb k' k && (rid r =? id)) then 1 else 0
    | _ => 0
    end.

  Definition open_sends (s : state) (n : nat) (k : key) (id : nat) : nat :=
    count (pending_task n k id) (tasks s) + waiting s n k id.

  Definition SET (s : state) (tr : list obs) : Prop :=
    forall n k id,
      count (is_settled n k id) tr + open_sends s n k id <= count (is_attempt n k id) tr /\
      ((ph s = Stopped -> In (OFinished n) tr) ->
       count (is_settled n k id) tr + open_sends s n k id = count (is_attempt n k id) tr).

  Lemma count_set_nth : forall (A : Type) (f : A -> bool) i x y l,
    nth_error l i = Some x ->
    count f (set_nth i y l) + (if f x then 1 else 0) = count f l + (if f y then 1 else 0).
  Proof.
    intros A f. unfold count. induction i as [|i IH]; intros x y [|z l] H; cbn in *; try discriminate.
    - injection H as ->. destruct (f x), (f y); cbn; lia.
    - specialize (IH _ y _ H). destruct (f z); cbn; lia.
  Qed.

  Lemma count_nil : forall (A : Type) (f : A -> bool) l, (forall x, In x l -> f x = false) -> count f l = 0.
  Proof.
    intros A f l H. unfold count. induction l as [|x l IH]; [reflexivity|]. cbn.
    rewrite (H x) by now left. apply IH. intros y Y. apply H. now right.
  Qed.

  Lemma count_one : forall (A : Type) (f : A -> bool) x, count f [x] = if f x then 1 else 0.
  Proof. intros. unfold count. cbn. now destruct (f x). Qed.

  Lemma step_open : forall s e s' o n k id,
    (forall t m todo since dead, ph s = Delivering n t m todo since dead -> since <> None -> todo <> []) ->
    (forall d n t m todo since dead, ph s = Delivering n t m todo since dead -> mode_of strat = MSpawn d \/ mode_of strat = MTry -> since = None) ->
    step s e = Some (s', o) ->
    (count (is_settled n k id) o + open_sends s' n k id = count (is_attempt n k id) o + open_sends s n k id /\
     (ph s' = Stopped -> ph s = Stopped)) \/
    (ph s' = Stopped /\ count (is_settled n k id) o = 0 /\ count (is_attempt n k id) o = 0 /\
     open_sends s' n k id <= open_sends s n k id /\
     (open_sends s' n k id = open_sends s n k id \/
      exists t m todo since dead, ph s = Delivering n t m todo since dead)).
  Proof.
    intros s e s' o n' k' id' NE NS E. unfold open_sends, waiting.
    destruct e; unfold Delivery.step, settle in E; cases E; cbn [ph tasks subs inbox boxes now pubs];
      try (left; split; [reflexivity|auto]; fail);
      try (left; split; [reflexivity|intro; congruence]; fail).
    - (* publish *)
      left. split; [|discriminate]. destruct (targets (subs s) t) as [|[k1 r1] l1]; reflexivity.
    - (* settled after waiting *)
      left. split; [|discriminate]. rewrite !count_app, !count_one. cbn [Delivery_spec.is_settled Delivery_spec.is_attempt].
      destruct since; cbn [count filter length]; rewrite ?count_one; cbn [Delivery_spec.is_settled Delivery_spec.is_attempt];
        destruct l as [|[k1 r1] l]; destruct ((n =? n') && (key_eqb k k' && (rid r =? id'))); cbn; lia.
    - (* waiting *)
      left. split; [|discriminate].
      destruct since; cbn [count filter length]; rewrite ?count_one; cbn [Delivery_spec.is_settled Delivery_spec.is_attempt];
        destruct ((n =? n') && (key_eqb k k' && (rid r =? id'))); cbn; lia.
    - (* tried *)
      assert (since = None) as -> by (eapply (NS None); [reflexivity|auto]).
      left. split; [|discriminate]. rewrite !count_app, !count_one. cbn [Delivery_spec.is_settled Delivery_spec.is_attempt].
      destruct l as [|[k1 r1] l]; destruct ((n =? n') && (key_eqb k k' && (rid r =? id'))); cbn; lia.
    - (* spawned *)
      assert (since = None) as -> by (eapply NS; [reflexivity|left; reflexivity]).
      left. split; [|discriminate]. rewrite count_app, !count_one. cbn [Delivery_spec.is_settled Delivery_spec.is_attempt].
      unfold pending_task at 2. cbn [tph tn tkey treg].
      destruct l as [|[k1 r1] l]; destruct ((n =? n') && (key_eqb k k' && (rid r =? id'))); cbn; lia.
    - (* panic *)
      right. repeat split; [lia|]. destruct since; [|left; reflexivity].
      destruct (n =? n') eqn:N; [|left; cbn; lia]. apply Nat.eqb_eq in N. subst n'. right. eauto 8.
    - (* finish *)
      left. split; [|discriminate]. rewrite !count_app.
      rewrite !(count_nil _ (map _ _)); [reflexivity| |]; intros x X; apply in_map_iff in X; destruct X as (e0 & <- & _); reflexivity.
    - (* a task settles *)
      left. split; [|auto].
      match goal with H : nth_error (tasks s) i = Some t |- context [set_nth i ?y _] =>
        pose proof (count_set_nth (pending_task n' k' id') i y (tasks s) H) as CS end.
      unfold pending_task in CS at 2 4. cbn [tph tn tkey treg] in CS.
      rewrite !count_one. cbn [Delivery_spec.is_settled Delivery_spec.is_attempt]. rewrite Heqt0 in CS.
      destruct (not_running t0), ((tn t =? n') && (key_eqb (tkey t) k' && (rid (treg t) =? id'))); lia.
    - (* a task waits *)
      left. split; [|auto].
      match goal with H : nth_error (tasks s) i = Some t |- context [set_nth i ?y _] =>
        pose proof (count_set_nth (pending_task n' k' id') i y (tasks s) H) as CS end.
      unfold pending_task in CS at 2 4. cbn [tph tn tkey treg] in CS. rewrite Heqt0 in CS.
      destruct ((tn t =? n') && (key_eqb (tkey t) k' && (rid (treg t) =? id'))); cbn [count filter length]; lia.
    - (* a task reports *)
      left. split; [|auto].
      match goal with H : nth_error (tasks s) i = Some t |- context [set_nth i ?y _] =>
        pose proof (count_set_nth (pending_task n' k' id') i y (tasks s) H) as CS end.
      unfold pending_task in CS at 2 4. cbn [tph tn tkey treg] in CS. rewrite Heqt0 in CS.
      match goal with |- context [if not_running ?x then _ else _] => destruct (not_running x) end; cbn [count filter length Delivery_spec.is_settled Delivery_spec.is_attempt]; lia.
    - (* stop *)
      right. repeat split; [|].
      + destruct (ph s) as [|? ? ? [|[? ?] ?] [?|] ?|]; lia.
      + destruct (ph s) as [|n t m todo since dead|]; [left; reflexivity| |left; reflexivity].
        destruct (n =? n') eqn:N.
        * apply Nat.eqb_eq in N. subst n'. right. eauto 8.
        * left. destruct todo as [|[k1 r1] todo]; [reflexivity|]. destruct since; reflexivity.
  Qed.

  (** A strategy that does not wait never has a send in the middle. *)
  Definition prompt (s : state) : Prop :=
    forall d n t m todo since dead, ph s = Delivering n t m todo since dead ->
      mode_of strat = MSpawn d \/ mode_of strat = MTry -> since = None.

  Lemma step_prompt : forall s e s' o, prompt s -> step s e = Some (s', o) -> prompt s'.
  Proof.
    intros s e s' o PR E d n t m todo since dead P MD.
    destruct e; unfold Delivery.step, settle in E; cases E; cbn [ph] in P; try discriminate P;
      try (eapply PR; eassumption); try (injection P as <- <- <- <- <- <-; reflexivity).
    destruct MD; congruence.
  Qed.

  Record INV2 (s : state) (tr : list obs) : Prop := mk_INV2 {
    inv2_inv : INV s tr;
    inv2_prompt : prompt s;
    inv2_set : SET s tr
  }.

  Lemma step_inv2 : forall s e s' o tr, INV2 s tr -> step s e = Some (s', o) -> INV2 s' (tr ++ o).
  Proof.
    intros s e s' o tr [HI HP HS] E. pose proof (step_inv _ HI E) as HI'. pose proof (step_prompt _ HP E) as HP'.
    split; [assumption|assumption|]. intros n k id. rewrite !count_app.
    assert (NE : forall t m todo since dead, ph s = Delivering n t m todo since dead -> since <> None -> todo <> []).
    { intros t m todo since dead P. pose proof (inv_cur HI) as C. unfold current in C. rewrite P in C. tauto. }
    destruct (HS n k id) as [H1 H2].
    assert (NF : ph s' = Stopped -> ~ In (OFinished n) o).
    { intros P' F. destruct (@no_finished _ _ _ _ (step_kind _ _ E) F) as (t & m & since & dead & P2 & _).
      unfold Delivery.step, settle in E. clear - E F P2 P'. destruct e; cases E; cbn [ph] in P'; try congruence;
        cbn in F; try tauto; destruct F as [F|F]; try tauto; discriminate. }
    destruct (@step_open _ _ _ _ n k id NE HP E) as [[Q S]|(P' & Q1 & Q2 & Q3 & Q4)].
    - split; [lia|]. intro F. assert (X : ph s = Stopped -> In (OFinished n) tr).
      { intro P. assert (P' : ph s' = Stopped).
        { pose proof (step_kind _ _ E) as K. clear - K P. destruct K; try congruence. destruct H0; congruence. }
        specialize (F P'). apply in_app_or in F. destruct F as [F|F]; [assumption|]. exfalso. now apply NF. }
      specialize (H2 X). lia.
    - rewrite Q1, Q2. split; [lia|]. intro F. specialize (F P'). apply in_app_or in F.
      destruct F as [F|F]; [|exfalso; now apply NF].
      destruct Q4 as [Q4|(t & m & todo & since & dead & P)].
      + rewrite Q4, !Nat.add_0_r. now apply H2.
      + exfalso. eapply (inv_fin HI); eassumption.
  Qed.

  Lemma init_inv2 : forall cap caps, INV2 (init cap caps) [].
  Proof.
    intros. split; [apply init_inv| |].
    - intros d n t m todo since dead P. discriminate.
    - intros n k id. cbn. auto.
  Qed.

  Lemma run_inv2 : forall es s tr s' tr', INV2 s tr -> run s es = Some (s', tr') -> INV2 s' (tr ++ tr').
  Proof.
    induction es as [|e es IH]; intros s tr s' tr' H R; cbn in R.
    - injection R as <- <-. now rewrite app_nil_r.
    - destruct (step s e) as [[s1 o1]|] eqn:E1; [|discriminate].
      destruct (run s1 es) as [[s2 o2]|] eqn:E2; [|discriminate]. injection R as <- <-.
      rewrite app_assoc. eapply IH; [|eassumption]. eapply step_inv2; eassumption.
  Qed.

  Lemma reach_inv2 : forall cap caps es s tr, run (init cap caps) es = Some (s, tr) -> INV2 s tr.
  Proof. intros cap caps es s tr R. exact (run_inv2 _ (init_inv2 cap caps) R). Qed.

  (** *** Results *)

  Lemma settled_once : forall cap caps es s tr n k id, run (init cap caps) es = Some (s, tr) ->
    count (is_settled n k id) tr <= count (is_attempt n k id) tr.
  Proof. intros cap caps es s tr n k id R. pose proof (proj1 (inv2_set (reach_inv2 _ _ _ R) n k id)). lia. Qed.

  Lemma settled_all : forall cap caps es s tr n k id,
    (forall d, mode_of strat <> MSpawn d) ->
    run (init cap caps) es = Some (s, tr) -> In (OFinished n) tr ->
    count (is_settled n k id) tr = count (is_attempt n k id) tr.
  Proof.
    intros cap caps es s tr n k id MD R F. pose proof (reach_inv2 _ _ _ R) as [HI HP HS].
    destruct (HS n k id) as [_ H]. rewrite <- H by auto. unfold open_sends, waiting. rewrite (inv_none HI MD).
    destruct (ph s) as [|n0 t m [|[k0 r0] todo] [t0|] dead|] eqn:P; cbn; try lia.
    destruct (n0 =? n) eqn:N; [|cbn; lia]. apply Nat.eqb_eq in N. subst n0. exfalso. eapply (inv_fin HI); eassumption.
  Qed.

  Lemma attempts_count : forall n k id tr,
    count (is_attempt n k id) tr = count (fun e => key_eqb (fst e) k && (rid (snd e) =? id)) (attempts n tr).
  Proof.
    intros n k id tr. induction tr as [|o tr IH]; [reflexivity|].
    change (attempts n (o :: tr)) with (attempts n ([o] ++ tr)). rewrite attempts_app, count_app, <- IH.
    change (o :: tr) with ([o] ++ tr). rewrite count_app. f_equal. rewrite count_one.
    destruct o; try reflexivity. unfold attempts. cbn [Delivery_spec.is_attempt flat_map app].
    destruct (n0 =? n); cbn [andb app]; rewrite ?count_one; reflexivity.
  Qed.

  (** *** What is read *)

  Local Notation reads := (@reads key topic reg msg).
  Local Notation sends := (@sends key topic reg msg recipient).

  Lemma reads_app : forall a x y, reads a (x ++ y) = reads a x ++ reads a y.
  Proof. intros. unfold Delivery_spec.reads. now rewrite flat_map_app. Qed.
  Lemma sends_app : forall a x y, sends a (x ++ y) = sends a x ++ sends a y.
  Proof. intros. unfold Delivery_spec.sends. now rewrite flat_map_app. Qed.

  (** Publication [n], message [m] is being delivered by the broker or a task. *)
  Definition source (s : state) (n : nat) (m : msg) : Prop :=
    (exists t todo since dead, ph s = Delivering n t m todo since dead) \/
    (exists tk, In tk (tasks s) /\ tn tk = n /\ tmsg tk = m).

  Inductive bchange (s s' : state) (o : list obs) (a : nat) : Prop :=
  | BSame : items (boxes s' a) = items (boxes s a) -> reads a o = [] -> sends a o = [] -> bchange s s' o a
  | BCopy : forall n m, items (boxes s' a) = items (boxes s a) ++ [Copy n m] -> reads a o = [] -> sends a o = [n] ->
      source s n m -> bchange s s' o a
  | BForeign : forall v, items (boxes s' a) = items (boxes s a) ++ [Foreign v] -> reads a o = [] -> sends a o = [] ->
      bchange s s' o a
  | BRead : forall i, items (boxes s a) = i :: items (boxes s' a) -> reads a o = [i] -> sends a o = [] -> bchange s s' o a
  | BEnd : items (boxes s' a) = [] -> reads a o = [] -> sends a o = [] -> In (OEnded a) o -> bchange s s' o a.

  Lemma poll_tell_out : forall (M I : Type) f (b : box I) i (m : M) b' x, poll_tell f b i m = Some (b', x) ->
    (b' = put i b /\ x = Ok tt /\ bopen b = true /\ room b = true) \/
    (b' = b /\ x = Err (Timeout (Some m)) /\ bopen b = true /\ room b = false /\ f = true) \/
    (b' = b /\ x = Err (ActorNotRunning m) /\ bopen b = false).
  Proof.
    intros M I f b i m b' x H. unfold poll_tell in H.
    destruct (bopen b); [|injection H as <- <-; auto]. destruct (room b); [injection H as <- <-; auto|].
    destruct f; [|discriminate]. injection H as <- <-. auto 8.
  Qed.

  Lemma try_tell_out : forall (M I : Type) (b : box I) i (m : M) b' x, try_tell b i m = (b', x) ->
    (b' = put i b /\ x = Ok tt /\ bopen b = true /\ room b = true) \/
    (b' = b /\ x = Err (MailboxFull m) /\ bopen b = true /\ room b = false) \/
    (b' = b /\ x = Err (ActorNotRunning m) /\ bopen b = false).
  Proof.
    intros M I b i m b' x H. unfold try_tell in H.
    destruct (bopen b); [|injection H as <- <-; auto]. destruct (room b); injection H as <- <-; auto 8.
  Qed.

  Lemma reads_none : forall a o, (forall i, ~ In (ORead a i) o) -> reads a o = [].
  Proof.
    intros a o H. induction o as [|x o IH]; [reflexivity|].
    change (reads a (x :: o)) with (reads a ([x] ++ o)). rewrite reads_app, IH by (intros i I; apply (H i); now right).
    destruct x; try reflexivity. unfold Delivery_spec.reads. cbn. destruct (a0 =? a) eqn:E; [|reflexivity].
    apply Nat.eqb_eq in E. subst. exfalso. apply (H i). now left.
  Qed.

  Lemma sends_none : forall a o, (forall n k r, recipient r = a -> ~ In (OSettled n k r (Ok tt)) o) -> sends a o = [].
  Proof.
    intros a o H. induction o as [|x o IH]; [reflexivity|].
    change (sends a (x :: o)) with (sends a ([x] ++ o)). rewrite sends_app, IH by (intros n k r Q I; apply (H n k r Q); now right).
    destruct x; try reflexivity. unfold Delivery_spec.sends. cbn. destruct x as [[]|]; [|reflexivity].
    destruct (recipient r =? a) eqn:E; [|reflexivity].
    apply Nat.eqb_eq in E. subst. exfalso. eapply H; [reflexivity|now left].
  Qed.

  Lemma step_boxes : forall s e s' o a, step s e = Some (s', o) -> bchange s s' o a.
  Proof.
    intros s e s' o a E.
    destruct e; unfold Delivery.step, settle in E; cases E; try (apply BSame; reflexivity).
    - (* settled by the broker *)
      assert (RD : reads a ((match since with None => [OAttempt n k r] | Some _ => [] end) ++ [OSettled n k r t0]) = []) by (destruct since; reflexivity).
      assert (SD : sends a ((match since with None => [OAttempt n k r] | Some _ => [] end) ++ [OSettled n k r t0]) =
                   sends a [OSettled n k r t0]) by (destruct since; reflexivity).
      match goal with H : poll_tell _ _ _ _ = _ |- _ => apply poll_tell_out in H; rename H into PT end.
      destruct (recipient r =? a) eqn:RA.
      + apply Nat.eqb_eq in RA.
        destruct PT as [(-> & -> & _)|[(-> & -> & _)|(-> & -> & _)]].
        * apply BCopy with (n := n) (m := m); [| |rewrite SD; unfold Delivery_spec.sends; cbn; rewrite RA, Nat.eqb_refl; reflexivity|left; eauto 8];
            [cbn; unfold upd; now rewrite RA, Nat.eqb_refl | assumption].
        * apply BSame; [cbn; unfold upd; destruct (a =? recipient r); [congruence|reflexivity]|assumption|now rewrite SD].
        * apply BSame; [cbn; unfold upd; destruct (a =? recipient r); [congruence|reflexivity]|assumption|now rewrite SD].
      + apply BSame; [cbn; unfold upd; rewrite Nat.eqb_sym, RA; reflexivity|assumption|].
        rewrite SD. unfold Delivery_spec.sends. cbn. destruct t0; [rewrite RA|]; reflexivity.
    - apply BSame; [reflexivity| |]; destruct since; reflexivity.
    - (* tried *)
      assert (RD : reads a ((match since with None => [OAttempt n k r] | Some _ => [] end) ++ [OSettled n k r t0]) = []) by (destruct since; reflexivity).
      assert (SD : sends a ((match since with None => [OAttempt n k r] | Some _ => [] end) ++ [OSettled n k r t0]) =
                   sends a [OSettled n k r t0]) by (destruct since; reflexivity).
      match goal with H : try_tell _ _ _ = _ |- _ => apply try_tell_out in H; rename H into PT end.
      destruct (recipient r =? a) eqn:RA.
      + apply Nat.eqb_eq in RA.
        destruct PT as [(-> & -> & _)|[(-> & -> & _)|(-> & -> & _)]].
        * apply BCopy with (n := n) (m := m); [| |rewrite SD; unfold Delivery_spec.sends; cbn; rewrite RA, Nat.eqb_refl; reflexivity|left; eauto 8];
            [cbn; unfold upd; now rewrite RA, Nat.eqb_refl | assumption].
        * apply BSame; [cbn; unfold upd; destruct (a =? recipient r); [congruence|reflexivity]|assumption|now rewrite SD].
        * apply BSame; [cbn; unfold upd; destruct (a =? recipient r); [congruence|reflexivity]|assumption|now rewrite SD].
      + apply BSame; [cbn; unfold upd; rewrite Nat.eqb_sym, RA; reflexivity|assumption|].
        rewrite SD. unfold Delivery_spec.sends. cbn. destruct t0; [rewrite RA|]; reflexivity.
    - apply BSame; [reflexivity| |]; destruct since; reflexivity.
    - (* finish *)
      apply BSame; [reflexivity|apply reads_none|apply sends_none].
      + intros i I. apply in_app_or in I. destruct I as [I|[I|[]]]; [|discriminate].
        apply in_map_iff in I. destruct I as (e0 & E0 & _). discriminate.
      + intros n0 k0 r0 _ I. apply in_app_or in I. destruct I as [I|[I|[]]]; [|discriminate].
        apply in_map_iff in I. destruct I as (e0 & E0 & _). discriminate.
    - (* a task settles *)
      match goal with H : nth_error (tasks s) i = Some t |- _ => apply nth_error_In in H; rename H into IT end.
      match goal with H : poll_tell _ _ _ _ = _ |- _ => apply poll_tell_out in H; rename H into PT end.
      destruct (recipient (treg t) =? a) eqn:RA.
      + apply Nat.eqb_eq in RA.
        destruct PT as [(-> & -> & _)|[(-> & -> & _)|(-> & -> & _)]].
        * apply BCopy with (n := tn t) (m := tmsg t); [|reflexivity|unfold Delivery_spec.sends; cbn; rewrite RA, Nat.eqb_refl; reflexivity|right; eauto 8].
          cbn; unfold upd; now rewrite RA, Nat.eqb_refl.
        * apply BSame; [cbn; unfold upd; destruct (a =? recipient (treg t)); [congruence|reflexivity]|reflexivity|reflexivity].
        * apply BSame; [cbn; unfold upd; destruct (a =? recipient (treg t)); [congruence|reflexivity]|reflexivity|reflexivity].
      + apply BSame; [cbn; unfold upd; rewrite Nat.eqb_sym, RA; reflexivity|reflexivity|].
        destruct PT as [(_ & -> & _)|[(_ & -> & _)|(_ & -> & _)]]; unfold Delivery_spec.sends; cbn; rewrite ?RA; reflexivity.
    - match goal with |- context [if not_running ?x then _ else _] => destruct (not_running x) end;
        apply BSame; reflexivity.
    - (* other *)
      destruct (a =? a0) eqn:RA.
      + apply Nat.eqb_eq in RA. subst a0. apply BForeign with (v := v); try reflexivity.
        cbn. unfold upd. now rewrite Nat.eqb_refl.
      + apply BSame; try reflexivity. cbn. unfold upd. now rewrite RA.
    - (* read *)
      destruct (a =? a0) eqn:RA.
      + apply Nat.eqb_eq in RA. subst a0. apply BRead with (i := d); try reflexivity.
        * cbn. unfold upd. now rewrite Nat.eqb_refl.
        * unfold Delivery_spec.reads. cbn. now rewrite Nat.eqb_refl.
      + apply BSame; [cbn; unfold upd; now rewrite RA| |reflexivity].
        unfold Delivery_spec.reads. cbn. now rewrite Nat.eqb_sym, RA.
    - (* end *)
      destruct (a =? a0) eqn:RA.
      + apply Nat.eqb_eq in RA. subst a0. apply BEnd; try reflexivity; [|now left].
        cbn. unfold upd. now rewrite Nat.eqb_refl.
      + apply BSame; try reflexivity. cbn. unfold upd. now rewrite RA.
    - apply BSame; try reflexivity. cbn. unfold upd. destruct (a =? a0) eqn:RA; [|reflexivity]. apply Nat.eqb_eq in RA. now subst.
    - apply BSame; try reflexivity. cbn. unfold upd. destruct (a =? a0) eqn:RA; [|reflexivity]. apply Nat.eqb_eq in RA. now subst.
  Qed.

  Local Notation copies := (@copies msg).

  Lemma copies_app : forall x y, copies (x ++ y) = copies x ++ copies y.
  Proof. intros. unfold Delivery_spec.copies. now rewrite flat_map_app. Qed.

  Record BOX (s : state) (tr : list obs) : Prop := mk_BOX {
    box_sent : forall a, exists lost, sends a tr = copies (reads a tr ++ items (boxes s a)) ++ lost /\
      (~ In (OEnded a) tr -> lost = []);
    box_closed : forall a, In (OEnded a) tr -> bopen (boxes s a) = false;
    box_pub : forall a n m, In (Copy n m) (items (boxes s a)) -> exists t, In (OPublished n t m) tr;
    box_read : forall a n m, In (ORead a (Copy n m)) tr -> exists t, In (OPublished n t m) tr;
    box_src : forall n m, source s n m -> exists t, In (OPublished n t m) tr
  }.

  Lemma step_closed : forall s e s' o a, step s e = Some (s', o) ->
    (bopen (boxes s a) = false -> bopen (boxes s' a) = false /\ items (boxes s' a) = tl (items (boxes s a)) \/
       bopen (boxes s' a) = false /\ items (boxes s' a) = items (boxes s a) \/
       bopen (boxes s' a) = false /\ items (boxes s' a) = []) /\
    (In (OEnded a) o -> bopen (boxes s' a) = false).
  Proof.
    intros s e s' o a E.
    destruct e; unfold Delivery.step, settle in E; cases E; cbn [boxes];
      try (split; [auto|cbn; intuition discriminate]; fail).
    - split.
      + intro C. unfold upd. destruct (a =? recipient r) eqn:A; [|auto]. apply Nat.eqb_eq in A. subst a.
        match goal with H : poll_tell _ _ _ _ = _ |- _ => apply poll_tell_out in H; rename H into PT end.
        destruct PT as [(-> & -> & PO & _)|[(-> & -> & _)|(-> & -> & _)]]; [congruence|auto|auto].
      + intro I. apply in_app_or in I. destruct I as [I|[I|[]]]; [|discriminate]. destruct since; [destruct I|destruct I as [I|[]]; discriminate].
    - split; [auto|]. intro I. destruct since; [destruct I|destruct I as [I|[]]; discriminate].
    - split.
      + intro C. unfold upd. destruct (a =? recipient r) eqn:A; [|auto]. apply Nat.eqb_eq in A. subst a.
        match goal with H : try_tell _ _ _ = _ |- _ => apply try_tell_out in H; rename H into PT end.
        destruct PT as [(-> & -> & PO & _)|[(-> & -> & _)|(-> & -> & _)]]; [congruence|auto|auto].
      + intro I. apply in_app_or in I. destruct I as [I|[I|[]]]; [|discriminate]. destruct since; [destruct I|destruct I as [I|[]]; discriminate].
    - split; [auto|]. intro I. destruct since; [destruct I|destruct I as [I|[]]; discriminate].
    - split; [auto|]. intro I. apply in_app_or in I. destruct I as [I|[I|[]]]; [|discriminate].
      apply in_map_iff in I. destruct I as (e0 & E0 & _). discriminate.
    - split; [|intros [I|[]]; discriminate].
      intro C. unfold upd. destruct (a =? recipient (treg t)) eqn:A; [|auto]. apply Nat.eqb_eq in A. subst a.
      match goal with H : poll_tell _ _ _ _ = _ |- _ => apply poll_tell_out in H; rename H into PT end.
      destruct PT as [(-> & -> & PO & _)|[(-> & -> & _)|(-> & -> & _)]]; [congruence|auto|auto].
    - split; [auto|]. match goal with |- context [if not_running ?x then _ else _] => destruct (not_running x) end; cbn; intuition discriminate.
    - split; [|intros []]. intro C. unfold upd. destruct (a =? a0) eqn:A; [|auto]. apply Nat.eqb_eq in A. subst a.
      match goal with H : _ && _ = true |- _ => apply andb_true_iff in H; destruct H; congruence end.
    - split; [|intros [I|[]]; discriminate]. intro C. unfold upd. destruct (a =? a0) eqn:A; [|auto]. apply Nat.eqb_eq in A. subst a.
      left. cbn. match goal with H : items _ = _ |- _ => rewrite H end. auto.
    - split.
      + intro C. unfold upd. destruct (a =? a0); auto.
      + intros [I|[]]. injection I as ->. unfold upd. now rewrite Nat.eqb_refl.
    - split; [|intros []]. intro C. unfold upd. destruct (a =? a0) eqn:A; [|auto]. apply Nat.eqb_eq in A. subst a. auto.
    - split; [|intros []]. intro C. unfold upd. destruct (a =? a0) eqn:A; [|auto]. apply Nat.eqb_eq in A. subst a. auto.
  Qed.

  Lemma copies_cons : forall i l, copies (i :: l) = copies [i] ++ copies l.
  Proof. intros i l. change (i :: l) with ([i] ++ l). now rewrite copies_app. Qed.

  Lemma step_box : forall s e s' o tr, INV s tr -> BOX s tr -> step s e = Some (s', o) -> BOX s' (tr ++ o).
  Proof.
    intros s e s' o tr HI HB E. destruct HB as [H1 H2 H3 H4 H5].
    assert (PUB : forall n m, (exists t, In (OPublished n t m) tr) -> exists t, In (OPublished n t m) (tr ++ o)).
    { intros n m [t T]. exists t. apply in_or_app. auto. }
    constructor.
    - intro a. destruct (H1 a) as (lost & EQ & NL). rewrite sends_app, reads_app.
      assert (NL' : ~ In (OEnded a) (tr ++ o) -> lost = []) by (intro N; apply NL; intro N'; apply N; apply in_or_app; auto).
      destruct (step_boxes _ _ a E) as [B1 B2 B3|n m B1 B2 B3 B4|v B1 B2 B3|i B1 B2 B3|B1 B2 B3 B4]; rewrite B2, B3, ?app_nil_r.
      + rewrite B1. exists lost. auto.
      + assert (lost = []) as ->.
        { apply NL. intro I. pose proof (H2 _ I) as C. destruct (step_closed _ _ a E) as [SC _].
          assert (X : length (items (boxes s' a)) = S (length (items (boxes s a)))) by (rewrite B1, app_length; cbn; lia).
          destruct (SC C) as [[_ Y]|[[_ Y]|[_ Y]]]; rewrite Y in X; [|lia|cbn in X; lia].
          destruct (items (boxes s a)); cbn in X; lia. }
        exists []. split; [|auto]. rewrite EQ, B1, !app_nil_r, app_assoc, (copies_app _ [Copy n m]). reflexivity.
      + rewrite B1. exists lost. split; [|auto]. rewrite EQ. rewrite app_assoc, (copies_app _ [Foreign v]). cbn. now rewrite app_nil_r.
      + exists lost. split; [|auto]. rewrite EQ, B1. rewrite <- app_assoc. reflexivity.
      + exists (copies (items (boxes s a)) ++ lost). split.
        * rewrite EQ, B1, app_nil_r, copies_app, app_assoc. reflexivity.
        * intro N. exfalso. apply N. apply in_or_app. auto.
    - intros a I. destruct (step_closed _ _ a E) as [SC SE]. apply in_app_or in I. destruct I as [I|I]; [|auto].
      apply H2 in I. destruct (SC I) as [[? _]|[[? _]|[? _]]]; assumption.
    - intros a n m I. apply PUB.
      destruct (step_boxes _ _ a E) as [B1 B2 B3|n' m' B1 B2 B3 B4|v B1 B2 B3|i B1 B2 B3|B1 B2 B3 B4].
      + rewrite B1 in I. eauto.
      + rewrite B1 in I. apply in_app_or in I. destruct I as [I|[I|[]]]; [eauto|]. injection I as <- <-. auto.
      + rewrite B1 in I. apply in_app_or in I. destruct I as [I|[I|[]]]; [eauto|]. discriminate.
      + apply (H3 a). rewrite B1. now right.
      + rewrite B1 in I. destruct I.
    - intros a n m I. apply PUB. apply in_app_or in I. destruct I as [I|I]; [eauto|].
      assert (RI : In (Copy n m) (reads a o)).
      { unfold Delivery_spec.reads. apply in_flat_map. eexists. split; [exact I|]. cbn. rewrite Nat.eqb_refl. now left. }
      destruct (step_boxes _ _ a E) as [B1 B2 B3|n' m' B1 B2 B3 B4|v B1 B2 B3|i B1 B2 B3|B1 B2 B3 B4]; rewrite B2 in RI; try destruct RI as [].
      + apply (H3 a). rewrite B1. now left.
      + destruct H.
    - intros n m [(t & todo & since & dead & P)|(tk & I & <- & <-)].
      + pose proof (step_kind _ _ E) as K.
        destruct K as [SU PH PB Q | tk x I TP SU PH PB -> | k r P0 P' PB SU -> | k id P0 P' PB SU -> | id P0 P' PB SU ->
                  | t' m' P0 P' PB SU -> | n' t' m' k r todo' since' dead' t0 P0 P' PB SU ->
                  | n' t' m' k r todo' since' dead' x MD P0 P' PB SU -> | d n' t' m' k r todo' since' dead' MD P0 P' PB SU ->
                  | n' t' m' since' dead' P0 P' PB SU -> ]; try congruence.
        * destruct PH as [PH|PH]; [|congruence]. apply PUB, H5. left. rewrite <- PH, P. eauto.
        * apply PUB, H5. left. rewrite <- PH, P. eauto.
        * exists t. apply in_or_app. right. rewrite P' in P. injection P as <- <- <- <- <- <-. now left.
        * apply PUB, H5. left. rewrite P0. rewrite P' in P. injection P as <- <- <- <- <- <-. eauto.
        * apply PUB, H5. left. rewrite P0. rewrite P' in P. injection P as <- <- <- <- <- <-. eauto.
        * apply PUB, H5. left. rewrite P0. rewrite P' in P. injection P as <- <- <- <- <- <-. eauto.
      + apply PUB. destruct (step_tasks _ _ E) as [TS _].
        destruct (TS _ I) as [(tk' & I' & -> & _ & _ & ->)|(n & t & m & k & r & todo & since & dead & d & P & -> & _)].
        * apply H5. right. eauto.
        * apply H5. left. cbn. eauto.
  Qed.

  Lemma run_box : forall es s tr s' tr', INV s tr -> BOX s tr -> run s es = Some (s', tr') -> BOX s' (tr ++ tr').
  Proof.
    induction es as [|e es IH]; intros s tr s' tr' HI H R; cbn in R.
    - injection R as <- <-. now rewrite app_nil_r.
    - destruct (step s e) as [[s1 o1]|] eqn:E1; [|discriminate].
      destruct (run s1 es) as [[s2 o2]|] eqn:E2; [|discriminate]. injection R as <- <-.
      rewrite app_assoc. eapply IH; [| |eassumption]; [eapply step_inv|eapply step_box]; eassumption.
  Qed.

  Lemma reach_box : forall cap caps es s tr, run (init cap caps) es = Some (s, tr) -> BOX s tr.
  Proof.
    intros cap caps es s tr R. apply (run_box _ (init_inv cap caps) (tr := [])) in R; [exact R|].
    constructor; cbn; try tauto.
    - intro a. exists []. auto.
    - intros n m [(t & todo & since & dead & P)|(tk & [] & _)]. discriminate.
  Qed.

  (** *** The order of copies *)

  Lemma ascending_snoc : forall l x, ascending l -> (forall y, In y l -> y <= x) -> ascending (l ++ [x]).
  Proof.
    intros l x A U i j y z L Hi Hj.
    assert (J : j < length (l ++ [x])) by (apply nth_error_Some; congruence). rewrite app_length in J. cbn in J.
    rewrite nth_error_app1 in Hi by lia.
    destruct (Nat.eq_dec j (length l)) as [->|N].
    - rewrite nth_error_app2, Nat.sub_diag in Hj by lia. injection Hj as <-. apply U. eapply nth_error_In; eassumption.
    - rewrite nth_error_app1 in Hj by lia. exact (A i j y z L Hi Hj).
  Qed.

  Lemma sends_num : forall a n tr, In n (sends a tr) -> exists o, In o tr /\ num o = Some n.
  Proof.
    intros a n tr I. unfold Delivery_spec.sends in I. apply in_flat_map in I. destruct I as (o & O & I). exists o. split; [assumption|].
    destruct o; try destruct I. destruct x; [|destruct I]. destruct (recipient r =? a); [|destruct I].
    destruct I as [<-|[]]. reflexivity.
  Qed.

  Lemma run_ordered : forall cap caps es s tr a, (forall d, mode_of strat <> MSpawn d) ->
    run (init cap caps) es = Some (s, tr) -> ascending (sends a tr).
  Proof.
    intros cap caps es s tr a MD. revert s tr. induction es as [|e es IH] using rev_ind; intros s tr R.
    - cbn in R. injection R as <- <-. intros i j x y _ H. destruct i; discriminate.
    - rewrite run_app in R. destruct (run (init cap caps) es) as [[s1 tr1]|] eqn:R1; [|discriminate].
      cbn in R. destruct (step s1 e) as [[s2 o]|] eqn:ST; [|discriminate]. injection R as <- <-. rewrite app_nil_r.
      specialize (IH _ _ eq_refl). pose proof (reach_inv _ _ _ R1) as HI.
      rewrite sends_app.
      destruct (step_boxes _ _ a ST) as [B1 B2 B3|n' m' B1 B2 B3 B4|v B1 B2 B3|i B1 B2 B3|B1 B2 B3 B4]; rewrite B3, ?app_nil_r; auto.
      apply ascending_snoc; [assumption|]. intros y Y.
      apply sends_num in Y. destruct Y as (x & X & N). apply (inv_num HI) in N; [|assumption].
      destruct B4 as [(t & todo & since & dead & P)|(tk & I & _)].
      + pose proof (inv_cur HI) as C. unfold current in C. rewrite P in C. destruct C as [C _]. lia.
      + rewrite (inv_none HI MD) in I. destruct I.
  Qed.

  (** *** Reports of spawned tasks *)

  Definition REP (s : state) (tr : list obs) : Prop :=
    forall tk, In tk (tasks s) -> tph tk = TReporting ->
      exists o, In o tr /\ found_dead rid (tn tk) (tkey tk) (rid (treg tk)) o.

  Lemma step_rep : forall s e s' o tr, REP s tr -> step s e = Some (s', o) -> REP s' (tr ++ o).
  Proof.
    intros s e s' o tr H E.
    assert (OLD : forall tk, In tk (tasks s) -> tph tk = TReporting ->
      exists x, In x (tr ++ o) /\ found_dead rid (tn tk) (tkey tk) (rid (treg tk)) x).
    { intros tk I P. destruct (H tk I P) as (x & X & F). exists x. split; [apply in_or_app; auto|assumption]. }
    intros tk I P.
    destruct e; unfold Delivery.step, settle in E; cases E; cbn [tasks] in I; try (apply OLD; assumption).
    - apply in_app_or in I. destruct I as [I|[<-|[]]]; [auto|discriminate].
    - apply in_set_nth in I. destruct I as [->|I]; [|auto]. cbn in P |- *.
      match goal with H : poll_tell _ _ _ _ = _ |- _ => apply poll_tell_out in H; rename H into PT end.
      destruct PT as [(_ & -> & _)|[(_ & -> & _)|(_ & -> & _)]]; try discriminate.
      eexists. split; [apply in_or_app; right; now left|]. repeat eexists.
    - apply in_set_nth in I. destruct I as [->|I]; [discriminate|auto].
    - apply in_set_nth in I. destruct I as [->|I]; [discriminate|auto].
  Qed.

  Lemma run_rep : forall es s tr s' tr', REP s tr -> run s es = Some (s', tr') -> REP s' (tr ++ tr').
  Proof.
    induction es as [|e es IH]; intros s tr s' tr' H R; cbn in R.
    - injection R as <- <-. now rewrite app_nil_r.
    - destruct (step s e) as [[s1 o1]|] eqn:E1; [|discriminate].
      destruct (run s1 es) as [[s2 o2]|] eqn:E2; [|discriminate]. injection R as <- <-.
      rewrite app_assoc. eapply IH; [|eassumption]. eapply step_rep; eassumption.
  Qed.

  Lemma reported_dead : forall cap caps es s tr T1 k id T2,
    run (init cap caps) es = Some (s, tr) -> tr = T1 ++ OReported k id :: T2 ->
    exists n o, In o T1 /\ found_dead rid n k id o.
  Proof.
    intros cap caps es s tr T1 k id T2 R E.
    destruct (@find_step _ _ _ _ _ _ _ R E) as (es1 & e & es2 & s1 & tr1 & s2 & o1 & o2 & _ & R1 & ST & ->).
    assert (RP : REP s1 tr1).
    { apply (run_rep _ (tr := [])) in R1; [exact R1|]. intros tk []. }
    assert (IN : In (OReported k id) (o1 ++ OReported k id :: o2)) by (apply in_or_app; right; now left).
    set (o := o1 ++ OReported k id :: o2) in *. clearbody o.
    assert (TK : exists tk, In tk (tasks s1) /\ tph tk = TReporting /\ tkey tk = k /\ rid (treg tk) = id).
    { clear R1 RP. destruct e; unfold Delivery.step, settle in ST; cases ST; cbn in IN;
        try (repeat (destruct IN as [IN|IN]; try discriminate IN); destruct IN; fail).
      - apply in_app_or in IN. destruct IN as [IN|[IN|[]]]; [|discriminate]. destruct since; [destruct IN|destruct IN as [IN|[]]; discriminate].
      - destruct since; [destruct IN|destruct IN as [IN|[]]; discriminate].
      - apply in_app_or in IN. destruct IN as [IN|[IN|[]]]; [|discriminate]. destruct since; [destruct IN|destruct IN as [IN|[]]; discriminate].
      - destruct since; [destruct IN|destruct IN as [IN|[]]; discriminate].
      - apply in_app_or in IN. destruct IN as [IN|[IN|[]]]; [|discriminate]. apply in_map_iff in IN. destruct IN as (e0 & E0 & _). discriminate.
      - match type of IN with In _ (if ?c then _ else _) => destruct c end; [destruct IN|]. destruct IN as [IN|[]].
        injection IN as <- <-. exists t. match goal with H : nth_error _ _ = Some t |- _ => apply nth_error_In in H end. auto. }
    destruct TK as (tk & I & P & <- & <-). destruct (RP tk I P) as (x & X & F).
    exists (tn tk), x. split; [apply in_or_app; auto|assumption].
  Qed.

  (** *** Why a send has its result *)

  Lemma room_spec : forall (I : Type) (b : box I), reflect (has_room b) (room b).
  Proof.
    intros I b. unfold has_room, room. destruct (bcap b) as [c|]; [|now constructor]. apply Nat.ltb_spec0.
  Qed.

  Definition reason (s : state) (n : nat) (r : reg) (x : told msg) : Prop :=
    let b := boxes s (recipient r) in
    match x with
    | Ok _ => bopen b = true /\ has_room b
    | Err (ActorNotRunning m) => bopen b = false /\ source s n m
    | Err (MailboxFull m) => bopen b = true /\ ~ has_room b /\ strat = BestEffort /\ source s n m
    | Err (Timeout (Some m)) => bopen b = true /\ ~ has_room b /\
        (exists d, strat = TimedDelivery d \/ strat = SpawnedWithTimeout d) /\ source s n m
    | _ => False
    end.

  Lemma mode_wait_timeout : forall d, mode_of strat = MWait (Some d) -> strat = TimedDelivery d.
  Proof. intros d. destruct strat; cbn; congruence. Qed.

  Lemma mode_spawn_timeout : forall d, mode_of strat = MSpawn (Some d) -> strat = SpawnedWithTimeout d.
  Proof. intros d. destruct strat; cbn; congruence. Qed.

  Lemma step_reason : forall s e s' o n k r x, step s e = Some (s', o) -> In (OSettled n k r x) o -> reason s n r x.
  Proof.
    intros s e s' o n k r x E IN.
    destruct e; unfold Delivery.step, settle in E; cases E; cbn in IN;
      try (repeat (destruct IN as [IN|IN]; try discriminate IN); destruct IN; fail).
    - apply in_app_or in IN. destruct IN as [IN|[IN|[]]]; [destruct since; [destruct IN|destruct IN as [IN|[]]; discriminate]|].
      injection IN as -> -> -> ->. unfold reason.
      match goal with H : poll_tell _ _ _ _ = _ |- _ => apply poll_tell_out in H; rename H into PT end.
      destruct PT as [(_ & -> & PO & PR)|[(_ & -> & PO & PR & PF)|(_ & -> & PO)]].
      + split; [assumption|]. destruct (room_spec (boxes s (recipient r))); [assumption|discriminate].
      + split; [assumption|]. split; [destruct (room_spec (boxes s (recipient r))); [discriminate|assumption]|].
        split; [|left; eauto]. destruct d as [d|]; [|discriminate]. exists d. left. now apply mode_wait_timeout.
      + split; [assumption|left; eauto].
    - destruct since; [destruct IN|destruct IN as [IN|[]]; discriminate].
    - apply in_app_or in IN. destruct IN as [IN|[IN|[]]]; [destruct since; [destruct IN|destruct IN as [IN|[]]; discriminate]|].
      injection IN as -> -> -> ->. unfold reason.
      match goal with H : try_tell _ _ _ = _ |- _ => apply try_tell_out in H; rename H into PT end.
      destruct PT as [(_ & -> & PO & PR)|[(_ & -> & PO & PR)|(_ & -> & PO)]].
      + split; [assumption|]. destruct (room_spec (boxes s (recipient r))); [assumption|discriminate].
      + split; [assumption|]. split; [destruct (room_spec (boxes s (recipient r))); [discriminate|assumption]|].
        split; [|left; eauto]. match goal with H : mode_of strat = MTry |- _ => revert H end. destruct strat; cbn; congruence.
      + split; [assumption|left; eauto].
    - destruct since; [destruct IN|destruct IN as [IN|[]]; discriminate].
    - apply in_app_or in IN. destruct IN as [IN|[IN|[]]]; [|discriminate]. apply in_map_iff in IN. destruct IN as (e0 & E0 & _). discriminate.
    - destruct IN as [IN|[]]. injection IN as <- <- <- <-. unfold reason.
      match goal with H : nth_error _ _ = Some t |- _ => apply nth_error_In in H end.
      match goal with H : poll_tell _ _ _ _ = _ |- _ => apply poll_tell_out in H; rename H into PT end.
      destruct PT as [(_ & -> & PO & PR)|[(_ & -> & PO & PR & PF)|(_ & -> & PO)]].
      + split; [assumption|]. destruct (room_spec (boxes s (recipient (treg t)))); [assumption|discriminate].
      + split; [assumption|]. split; [destruct (room_spec (boxes s (recipient (treg t)))); [discriminate|assumption]|].
        split; [|right; eauto]. unfold task_timeout in PF. destruct (mode_of strat) as [?| |[d|]] eqn:MD; try discriminate.
        exists d. right. now apply mode_spawn_timeout.
      + split; [assumption|right; eauto].
    - match type of IN with In _ (if ?c then _ else _) => destruct c end; [destruct IN|destruct IN as [IN|[]]; discriminate].
  Qed.

  Lemma settled_why : forall cap caps es s tr T1 n k r x T2,
    run (init cap caps) es = Some (s, tr) -> tr = T1 ++ OSettled n k r x :: T2 ->
    exists es1 e es2 s1 tr1, es = es1 ++ e :: es2 /\ run (init cap caps) es1 = Some (s1, tr1) /\
      let b := boxes s1 (recipient r) in
      match x with
      | Ok _ => bopen b = true /\ has_room b
      | Err (ActorNotRunning m) => bopen b = false /\ exists t, In (OPublished n t m) T1
      | Err (MailboxFull m) => bopen b = true /\ ~ has_room b /\ strat = BestEffort /\ exists t, In (OPublished n t m) T1
      | Err (Timeout (Some m)) => bopen b = true /\ ~ has_room b /\
          (exists d, strat = TimedDelivery d \/ strat = SpawnedWithTimeout d) /\ exists t, In (OPublished n t m) T1
      | _ => False
      end.
  Proof.
    intros cap caps es s tr T1 n k r x T2 R E.
    destruct (@find_step _ _ _ _ _ _ _ R E) as (es1 & e & es2 & s1 & tr1 & s2 & o1 & o2 & -> & R1 & ST & ->).
    exists es1, e, es2, s1, tr1. split; [reflexivity|]. split; [assumption|].
    assert (IN : In (OSettled n k r x) (o1 ++ OSettled n k r x :: o2)) by (apply in_or_app; right; now left).
    pose proof (step_reason _ _ _ _ _ _ ST IN) as RE. pose proof (reach_box _ _ _ R1) as HB.
    assert (SRC : forall m, source s1 n m -> exists t, In (OPublished n t m) (tr1 ++ o1)).
    { intros m M. destruct (box_src HB M) as [t T]. exists t. apply in_or_app. auto. }
    unfold reason in RE. cbn zeta in *. destruct x as [u|[m| |m|u|[m|]]]; try tauto.
    - split; [tauto|apply SRC; tauto].
    - split; [tauto|]. split; [tauto|]. split; [tauto|]. apply SRC; tauto.
    - split; [tauto|]. split; [tauto|]. split; [tauto|]. apply SRC; tauto.
  Qed.

  (** *** Time *)

  Lemma ticks_app : forall (a b : list (@event key topic reg msg)), ticks (a ++ b) = ticks a + ticks b.
  Proof. intros. apply count_app. Qed.

  Lemma step_now : forall s e s' o, step s e = Some (s', o) -> now s' = now s + ticks [e].
  Proof.
    intros s e s' o E. destruct e; unfold Delivery.step, settle in E; cases E; cbn; lia.
  Qed.

  Lemma run_now : forall es s s' tr, run s es = Some (s', tr) -> now s' = now s + ticks es.
  Proof.
    induction es as [|e es IH]; intros s s' tr R; cbn in R.
    - injection R as <- <-. cbn. lia.
    - destruct (step s e) as [[s1 o1]|] eqn:E1; [|discriminate].
      destruct (run s1 es) as [[s2 o2]|] eqn:E2; [|discriminate]. injection R as <- <-.
      apply IH in E2. apply step_now in E1. change (e :: es) with ([e] ++ es). rewrite ticks_app. lia.
  Qed.

  (** An attempt made during [es], not later than [t0]. *)
  Definition begun (s0 : state) (es : list (@event key topic reg msg)) (n : nat) (k : key) (r : reg) (t0 : nat) : Prop :=
    exists es1 e1 es2 s1 tr1 s2 o, es = es1 ++ e1 :: es2 /\ run s0 es1 = Some (s1, tr1) /\
      step s1 e1 = Some (s2, o) /\ In (OAttempt n k r) o /\ now s1 <= t0.

  Definition TIM (s0 : state) (es : list (@event key topic reg msg)) (s : state) : Prop :=
    (forall n t m k r todo t0 dead, ph s = Delivering n t m ((k, r) :: todo) (Some t0) dead -> begun s0 es n k r t0) /\
    (forall tk, In tk (tasks s) -> tph tk = TSending ->
       begun s0 es (tn tk) (tkey tk) (treg tk) (match tsince tk with Some t0 => t0 | None => now s end)).

  Lemma begun_app : forall s0 es e n k r t0 t1, begun s0 es n k r t0 -> t0 <= t1 -> begun s0 (es ++ [e]) n k r t1.
  Proof.
    intros s0 es e n k r t0 t1 (es1 & e1 & es2 & s1 & tr1 & s2 & o & -> & A & B & C & D) L.
    exists es1, e1, (es2 ++ [e]), s1, tr1, s2, o. split; [now rewrite <- app_assoc|]. repeat split; auto. lia.
  Qed.

  Lemma step_tim : forall s0 es s tr e s' o, prompt s -> run s0 es = Some (s, tr) -> TIM s0 es s ->
    step s e = Some (s', o) -> TIM s0 (es ++ [e]) s'.
  Proof.
    intros s0 es s tr e s' o PR R [H1 H2] E.
    assert (HERE : forall n k r t0, In (OAttempt n k r) o -> now s <= t0 -> begun s0 (es ++ [e]) n k r t0).
    { intros n k r t0 I L. exists es, e, [], s, tr, s', o. auto 8. }
    assert (OLD : forall n t m k r todo t0 dead, ph s = Delivering n t m ((k, r) :: todo) (Some t0) dead -> begun s0 (es ++ [e]) n k r t0).
    { intros n t m k r todo t0 dead P. eapply begun_app; eauto. }
    pose proof (step_now _ _ E) as SN.
    assert (OLDT : forall tk, In tk (tasks s) -> tph tk = TSending ->
       begun s0 (es ++ [e]) (tn tk) (tkey tk) (treg tk) (match tsince tk with Some t0 => t0 | None => now s' end)).
    { intros tk I P. eapply begun_app; eauto. destruct (tsince tk); lia. }
    split.
    - intros n t m k r todo t0 dead P.
      destruct e; unfold Delivery.step, settle in E; cases E; cbn [ph] in P; try discriminate P; try (eapply OLD; eassumption).
      injection P as <- <- <- <- <- <- <- <-. destruct since.
      + eapply OLD. reflexivity.
      + apply HERE; [now left|lia].
    - intros tk I P.
      destruct e; unfold Delivery.step, settle in E; cases E; cbn [tasks] in I; try (apply OLDT; assumption).
      + apply in_app_or in I. destruct I as [I|[<-|[]]]; [auto|]. cbn.
        assert (since = None) as -> by (eapply PR; [eassumption|left; eassumption]). apply HERE; [now left|lia].
      + apply in_set_nth in I. destruct I as [->|I]; [|auto]. cbn in P. destruct (not_running t0); discriminate.
      + apply in_set_nth in I. destruct I as [->|I]; [|auto]. cbn.
        match goal with H : nth_error _ _ = Some t |- _ => apply nth_error_In in H; rename H into IT end.
        eapply begun_app; [apply H2; [exact IT|assumption]|]. destruct (tsince t); lia.
      + apply in_set_nth in I. destruct I as [->|I]; [discriminate|auto].
  Qed.

  Lemma reach_prompt : forall cap caps es s tr, run (init cap caps) es = Some (s, tr) -> prompt s.
  Proof. intros cap caps es s tr R. exact (inv2_prompt (reach_inv2 _ _ _ R)). Qed.

  Lemma run_tim : forall cap caps es s tr, run (init cap caps) es = Some (s, tr) -> TIM (init cap caps) es s.
  Proof.
    intros cap caps es. induction es as [|e es IH] using rev_ind; intros s tr R.
    - cbn in R. injection R as <- <-. split; [discriminate|intros tk []].
    - pose proof R as R0. rewrite run_app in R. destruct (run (init cap caps) es) as [[s1 tr1]|] eqn:R1; [|discriminate].
      cbn in R. destruct (step s1 e) as [[s2 o]|] eqn:ST; [|discriminate]. injection R as <- <-.
      eapply step_tim; [exact (reach_prompt _ _ _ R1)|exact R1|eapply IH; reflexivity|exact ST].
  Qed.

  Lemma timeout_after : forall cap caps es s tr e s' o d n k r x,
    strat = TimedDelivery d \/ strat = SpawnedWithTimeout d ->
    run (init cap caps) es = Some (s, tr) -> step s e = Some (s', o) -> In (OSettled n k r (Err (Timeout x))) o ->
    exists es1 e1 es2 s1 tr1 s2 o1, es ++ [e] = es1 ++ e1 :: es2 /\ run (init cap caps) es1 = Some (s1, tr1) /\
      step s1 e1 = Some (s2, o1) /\ In (OAttempt n k r) o1 /\ d <= ticks es2.
  Proof.
    intros cap caps es s tr e s' o d n k r x SD R E IN.
    pose proof (reach_prompt _ _ _ R) as PR. destruct (run_tim _ _ _ R) as [T1 T2].
    assert (KEY : forall t0, t0 + d <= now s -> begun (init cap caps) es n k r t0 ->
      exists es1 e1 es2 s1 tr1 s2 o1, es ++ [e] = es1 ++ e1 :: es2 /\ run (init cap caps) es1 = Some (s1, tr1) /\
      step s1 e1 = Some (s2, o1) /\ In (OAttempt n k r) o1 /\ d <= ticks es2).
    { intros t0 L (es1 & e1 & es2 & s1 & tr1 & s2 & o1 & -> & A & B & C & D).
      exists es1, e1, (es2 ++ [e]), s1, tr1, s2, o1. split; [now rewrite <- app_assoc|]. repeat split; auto.
      apply run_now in R. change (e1 :: es2) with ([e1] ++ es2) in R. rewrite !ticks_app in R.
      apply run_now in A.
      assert (TE : ticks [e1] = 0).
      { destruct e1; try reflexivity. cbn in B. injection B as <- <-. destruct C. }
      rewrite ticks_app. cbn [init now] in R, A. lia. }
    pose proof E as E0.
    destruct e; unfold Delivery.step, settle in E; cases E; cbn in IN;
      try (repeat (destruct IN as [IN|IN]; try discriminate IN); destruct IN; fail).
    - apply in_app_or in IN. destruct IN as [IN|[IN|[]]]; [destruct since; [destruct IN|destruct IN as [IN|[]]; discriminate]|].
      injection IN as -> -> -> ->.
      match goal with H : poll_tell _ _ _ _ = _ |- _ => apply poll_tell_out in H; rename H into PT end.
      destruct PT as [(_ & Q & _)|[(_ & _ & _ & _ & PF)|(_ & Q & _)]]; try discriminate.
      assert (d0 = Some d) as ->.
      { match goal with H : mode_of strat = MWait d0 |- _ => revert H end. destruct SD as [-> | ->]; cbn; congruence. }
      cbn in PF. apply Nat.leb_le in PF. destruct since.
      + eapply KEY; [exact PF|]. eapply T1. reflexivity.
      + exists es, EDeliver, [], s, tr. do 2 eexists. split; [reflexivity|]. split; [assumption|].
        split; [exact E0|]. split; [now left|]. cbn. lia.
    - destruct since; [destruct IN|destruct IN as [IN|[]]; discriminate].
    - apply in_app_or in IN. destruct IN as [IN|[IN|[]]]; [destruct since; [destruct IN|destruct IN as [IN|[]]; discriminate]|].
      injection IN as -> -> -> ->.
      match goal with H : try_tell _ _ _ = _ |- _ => apply try_tell_out in H; rename H into PT end.
      destruct PT as [(_ & Q & _)|[(_ & Q & _)|(_ & Q & _)]]; discriminate.
    - destruct since; [destruct IN|destruct IN as [IN|[]]; discriminate].
    - apply in_app_or in IN. destruct IN as [IN|[IN|[]]]; [|discriminate]. apply in_map_iff in IN. destruct IN as (e0 & Q & _). discriminate.
    - destruct IN as [IN|[]]. injection IN as <- <- <- ->.
      match goal with H : nth_error _ _ = Some t |- _ => apply nth_error_In in H; rename H into IT end.
      match goal with H : poll_tell _ _ _ _ = _ |- _ => apply poll_tell_out in H; rename H into PT end.
      destruct PT as [(_ & Q & _)|[(_ & _ & _ & _ & PF)|(_ & Q & _)]]; try discriminate.
      assert (TO : task_timeout strat = Some d \/ task_timeout strat = None).
      { unfold task_timeout. destruct SD as [-> | ->]; cbn; auto. }
      destruct TO as [TO|TO]; rewrite TO in PF; [|discriminate].
      cbn in PF. apply Nat.leb_le in PF.
      match goal with H : tph t = TSending |- _ => specialize (T2 _ IT H) end. eapply KEY; eassumption.
    - match type of IN with In _ (if ?c then _ else _) => destruct c end; [destruct IN|destruct IN as [IN|[]]; discriminate].
  Qed.

  (** *** Waiting *)

  Lemma waits_only_if_full : forall s s' o n t m k r todo t0 dead,
    step s EDeliver = Some (s', o) -> ph s' = Delivering n t m ((k, r) :: todo) (Some t0) dead ->
    bopen (boxes s (recipient r)) = true /\ ~ has_room (boxes s (recipient r)) /\
    (strat = Guaranteed \/ exists d, strat = TimedDelivery d /\ now s < t0 + d).
  Proof.
    intros s s' o n t m k r todo t0 dead E P.
    unfold Delivery.step, settle in E; cases E; cbn [ph] in P; try discriminate P.
    injection P as <- <- <- <- <- <- <- <-.
    match goal with H : poll_tell _ _ _ _ = None |- _ => unfold poll_tell in H; rename H into PT end.
    destruct (bopen (boxes s (recipient r0))) eqn:BO; [|discriminate].
    destruct (room_spec (boxes s (recipient r0))); [discriminate|].
    split; [reflexivity|]. split; [assumption|].
    match goal with H : mode_of strat = MWait _ |- _ => revert H end. intro MD.
    destruct strat eqn:SE; cbn in MD; try discriminate; [now left|]. right. injection MD as <-. exists d0. split; [reflexivity|].
    cbn in PT. destruct (_ + _ <=? _) eqn:LE in PT; [discriminate|]. apply Nat.leb_gt in LE. exact LE.
  Qed.

  Lemma deliver_settles : forall s n t m k r todo since dead,
    ph s = Delivering n t m ((k, r) :: todo) since dead -> usable t r = true ->
    (bopen (boxes s (recipient r)) = true -> ~ has_room (boxes s (recipient r)) ->
       strat = BestEffort \/ (exists d, mode_of strat = MSpawn d) \/
       exists d t0, strat = TimedDelivery d /\ since = Some t0 /\ t0 + d <= now s) ->
    exists s' o dead', step s EDeliver = Some (s', o) /\ ph s' = Delivering n t m todo None dead' /\
      ((exists d, mode_of strat = MSpawn d) \/ exists x, In (OSettled n k r x) o).
  Proof.
    intros s n t m k r todo since dead P U W. unfold Delivery.step, settle. rewrite P, U.
    destruct (mode_of strat) as [d| |d] eqn:MD.
    - unfold poll_tell. destruct (bopen (boxes s (recipient r))) eqn:BO.
      + destruct (room_spec (boxes s (recipient r))) as [RM|RM].
        * do 3 eexists. split; [reflexivity|]. split; [reflexivity|]. right. eexists. apply in_or_app. right. now left.
        * destruct (W eq_refl RM) as [Q|[[d' Q]|(d' & t0 & Q & -> & L)]]; [rewrite Q in MD; discriminate|discriminate|].
          rewrite Q in MD. cbn in MD. injection MD as <-. cbn [fired]. apply Nat.leb_le in L. rewrite L.
          do 3 eexists. split; [reflexivity|]. split; [reflexivity|]. right. eexists. apply in_or_app. right. now left.
      + do 3 eexists. split; [reflexivity|]. split; [reflexivity|]. right. eexists. apply in_or_app. right. now left.
    - destruct (try_tell (boxes s (recipient r)) (Copy n m) m) as [b x].
      do 3 eexists. split; [reflexivity|]. split; [reflexivity|]. right. eexists. apply in_or_app. right. now left.
    - do 3 eexists. split; [reflexivity|]. split; [reflexivity|]. eauto.
  Qed.

  Lemma prompt_finishes : forall todo s n t m since dead,
    strat = BestEffort \/ (exists d, mode_of strat = MSpawn d) ->
    ph s = Delivering n t m todo since dead -> (forall k r, In (k, r) todo -> usable t r = true) ->
    exists s' o, run s (repeat EDeliver (length todo) ++ [EFinish]) = Some (s', o) /\ ph s' = Idle /\ In (OFinished n) o.
  Proof.
    induction todo as [|[k r] todo IH]; intros s n t m since dead ST P U.
    - cbn. rewrite P. do 2 eexists. split; [reflexivity|]. split; [reflexivity|]. rewrite app_nil_r. apply in_or_app. right. now left.
    - destruct (@deliver_settles s n t m k r todo since dead P) as (s1 & o1 & dead' & E & P' & _).
      + eapply U. now left.
      + destruct ST; auto.
      + destruct (IH s1 n t m None dead' ST P') as (s2 & o2 & R & P2 & F).
        { intros k' r' I. eapply U. right. exact I. }
        exists s2, (o1 ++ o2). cbn [length repeat app Delivery.run]. rewrite E, R. split; [reflexivity|].
        split; [assumption|]. apply in_or_app. auto.
  Qed.

  (** *** What is subscribed fits *)

  Definition FIT (s : state) : Prop :=
    (forall k rs r, In (k, rs) (subs s) -> In r rs -> fits k r = true) /\
    (forall k r, In (Subscribe k r) (items (inbox s)) -> fits k r = true).

  Lemma in_subscribe : forall t k r k' rs r', In (k', rs) (subscribe k r t) -> In r' rs ->
    (exists rs', In (k', rs') t /\ In r' rs') \/ (k' = k /\ r' = r).
  Proof.
    induction t as [|[k0 rs0] t IH]; intros k r k' rs r' I J; cbn in I.
    - destruct I as [I|[]]. injection I as <- <-. destruct J as [<-|[]]. auto.
    - destruct (key_ok k0 k) as [->|N]; destruct I as [I|I].
      + injection I as <- <-. apply in_app_or in J. destruct J as [J|[<-|[]]]; [|auto]. left. exists rs0. cbn. auto.
      + left. exists rs. cbn. auto.
      + injection I as <- <-. left. exists rs0. cbn. auto.
      + destruct (IH _ _ _ _ _ I J) as [(rs' & A & B)|Q]; [|auto]. left. exists rs'. cbn. auto.
  Qed.

  Lemma in_set_entry : forall t k rs k' rs' , In (k', rs') (set_entry k rs t) -> In (k', rs') t \/ (k' = k /\ rs' = rs).
  Proof.
    induction t as [|[k0 rs0] t IH]; intros k rs k' rs' I; cbn in I; [destruct I|].
    destruct (key_ok k0 k) as [->|N].
    - destruct rs; [cbn; auto|]. destruct I as [I|I]; [|cbn; auto]. injection I as <- <-. auto.
    - destruct I as [I|I]; [cbn; auto|]. apply IH in I. cbn. tauto.
  Qed.

  Lemma get_some_in : forall t k rs, get k t = Some rs -> In (k, rs) t.
  Proof.
    induction t as [|[k0 rs0] t IH]; intros k rs G; cbn in G; [discriminate|].
    destruct (key_ok k0 k) as [->|N]; [injection G as ->; now left|right; auto].
  Qed.

  Lemma in_unsubscribe : forall t k id k' rs r, In (k', rs) (unsubscribe k id t) -> In r rs ->
    exists rs', In (k', rs') t /\ In r rs'.
  Proof.
    intros t k id k' rs r I J. unfold Delivery.unsubscribe in I. destruct (get k t) as [rs0|] eqn:G; [|eauto].
    apply in_set_entry in I. destruct I as [I|[-> ->]]; [eauto|]. exists rs0. split; [now apply get_some_in|].
    unfold retain in J. apply filter_In in J. tauto.
  Qed.

  Lemma in_remove : forall d t k' rs r, In (k', rs) (remove_dead d t) -> In r rs -> exists rs', In (k', rs') t /\ In r rs'.
  Proof.
    unfold Delivery.remove_dead. induction d as [|[k id] d IH]; intros t k' rs r I J; cbn in I; [eauto|].
    destruct (IH _ _ _ _ I J) as (rs1 & A & B). eapply in_unsubscribe; eassumption.
  Qed.

  Lemma step_fit : forall s e s' o, FIT s -> step s e = Some (s', o) -> FIT s'.
  Proof.
    intros s e s' o [F1 F2] E.
    destruct e; unfold Delivery.step, settle in E; cases E; unfold FIT; cbn [subs inbox];
      try (split; [assumption|assumption]; fail).
    - split; [assumption|]. intros k r I. cbn in I. apply in_app_or in I. destruct I as [I|[I|[]]]; [auto|].
      subst b. repeat match goal with H : _ && _ = true |- _ => apply andb_true_iff in H; destruct H end. assumption.
    - assert (F2' : forall k r, In (Subscribe k r) l -> fits k r = true).
      { intros k' r' I. apply F2. now right. }
      split; [|assumption]. intros k' rs r' I J. destruct (@in_subscribe _ _ _ _ _ _ I J) as [(rs' & A & B)|[-> ->]]; [eauto|].
      apply F2. now left.
    - split; [|intros k' r' I; apply F2; now right].
      intros k' rs r' I J. destruct (@in_unsubscribe _ _ _ _ _ _ I J) as (rs' & A & B). eauto.
    - split; [|intros k' r' I; apply F2; now right].
      intros k' rs r' I J. unfold Delivery.unsubscribe_all in I. apply filter_In in I. destruct I as [I _].
      apply in_map_iff in I. destruct I as ([k1 rs1] & Q & I). cbn in Q. injection Q as <- <-.
      unfold retain in J. apply filter_In in J. destruct J. eauto.
    - split; [assumption|]. intros k' r' I. apply F2. now right.
    - split; [assumption|intros ? ? []].
    - split; [|assumption]. intros k' rs r' I J. destruct (@in_remove _ _ _ _ _ I J) as (rs' & A & B). eauto.
    - split; [assumption|].
      match goal with H : poll_tell _ _ _ _ = Some (?ib, _) |- _ => apply poll_tell_out in H; rename H into PT end.
      destruct PT as [(-> & _)|[(-> & _)|(-> & _)]]; auto.
      intros k r I. cbn in I. apply in_app_or in I. destruct I as [I|[I|[]]]; [auto|discriminate].
    - split; [assumption|intros ? ? []].
    - split; [|assumption]. intros k rs r I J. apply swap_in in I. eauto.
  Qed.

  Lemma reach_fit : forall cap caps es s tr, run (init cap caps) es = Some (s, tr) -> FIT s.
  Proof.
    intros cap caps es. induction es as [|e es IH] using rev_ind; intros s tr R.
    - cbn in R. injection R as <- <-. split; intros; contradiction.
    - rewrite run_app in R. destruct (run (init cap caps) es) as [[s1 tr1]|] eqn:R1; [|discriminate].
      cbn in R. destruct (step s1 e) as [[s2 o]|] eqn:ST; [|discriminate]. injection R as <- <-.
      eapply step_fit; [eauto|eassumption].
  Qed.

  (** What is still to be delivered is in the table. *)
  Definition TODO (s : state) : Prop :=
    forall n t m todo since dead k r, ph s = Delivering n t m todo since dead -> In (k, r) todo ->
      In (k, r) (targets (subs s) t).

  Lemma step_todo : forall s e s' o, TODO s -> step s e = Some (s', o) -> TODO s'.
  Proof.
    intros s e s' o T E n t m todo since dead k r P I.
    destruct e; unfold Delivery.step, settle in E; cases E; cbn [ph subs] in *; try discriminate P;
      try (eapply T; eassumption);
      try (injection P as <- <- <- <- <- <-; first [assumption | eapply T; [eassumption|first [assumption | now right]]]).
    all: try congruence.
  Qed.

  Lemma reach_todo : forall cap caps es s tr, run (init cap caps) es = Some (s, tr) -> TODO s.
  Proof.
    intros cap caps es. induction es as [|e es IH] using rev_ind; intros s tr R.
    - cbn in R. injection R as <- <-. intros n t m todo since dead k r P. discriminate.
    - rewrite run_app in R. destruct (run (init cap caps) es) as [[s1 tr1]|] eqn:R1; [|discriminate].
      cbn in R. destruct (step s1 e) as [[s2 o]|] eqn:ST; [|discriminate]. injection R as <- <-.
      eapply step_todo; [eauto|eassumption].
  Qed.

  (** *** The effect of a publication on the table *)

  Lemma subscriptions_expired : forall dead h k id, ~ In (k, id) dead ->
    subscriptions (h ++ map (fun e => OExpired (fst e) (snd e)) dead) k id = subscriptions h k id.
  Proof.
    intros dead h k id N. rewrite subscriptions_snoc. generalize (subscriptions h k id).
    induction dead as [|[k0 id0] dead IH]; intro c; [reflexivity|]. cbn.
    destruct (key_ok k0 k) as [->|]; destruct (Nat.eqb_spec id0 id) as [->|]; cbn [andb];
      try (apply IH; intro I; apply N; now right). exfalso. apply N. now left.
  Qed.

  Lemma publish_effect : forall cap caps es s tr H n T,
    run (init cap caps) es = Some (s, tr) -> tr = H ++ OFinished n :: T ->
    exists T1 t m T2, H = T1 ++ OPublished n t m :: T2 /\ Forall within T2 /\ forall k id,
      ((forall o, In o T2 -> ~ found_dead rid n k id o) -> subscriptions H k id = subscriptions T1 k id) /\
      ((exists d, mode_of strat = MSpawn d) -> subscriptions H k id = subscriptions T1 k id) /\
      ((forall d, mode_of strat <> MSpawn d) -> (exists o, In o T2 /\ found_dead rid n k id o) ->
         subscriptions H k id = 0).
  Proof.
    intros cap caps es s tr H n T R E. pose proof E as E0.
    destruct (@find_step _ _ _ _ _ _ _ R E) as (es1 & e & es2 & s1 & tr1 & s2 & o1 & o2 & _ & R1 & ST & ->).
    pose proof (reach_inv _ _ _ R1) as I1. pose proof (step_kind _ _ ST) as K.
    assert (IN : In (OFinished n) (o1 ++ OFinished n :: o2)) by (apply in_or_app; right; now left).
    destruct (@no_finished _ _ _ _ K IN) as (t & m & since & dead & P & EO).
    assert (OO : o1 = map (fun e => OExpired (fst e) (snd e)) dead).
    { clear - EO. revert o1 o2 EO. induction dead as [|d dead IH]; intros o1 o2 EO; cbn in EO.
      - destruct o1 as [|y o1]; [reflexivity|]. cbn in EO. injection EO as _ EO. destruct o1; discriminate.
      - destruct o1 as [|y o1]; cbn in EO; [discriminate|]. injection EO as -> EO. cbn. f_equal. eapply IH. exact EO. }
    pose proof (inv_cur I1) as C. unfold current in C. rewrite P in C.
    destruct C as (_ & _ & _ & (H1 & H2 & HE & F & FD) & A & SP).
    exists H1, t, m, (H2 ++ o1). split; [subst tr1; now rewrite <- app_assoc|].
    assert (FW : Forall within o1) by (subst o1; apply Forall_map, Forall_forall; intros; exact Logic.I).
    split; [apply Forall_app; split; [eapply Forall_impl; [apply inner_within|assumption]|assumption]|].
    assert (SAME : forall k id, subscriptions tr1 k id = subscriptions H1 k id).
    { intros k id. rewrite HE. change (OPublished n t m :: H2) with ([OPublished n t m] ++ H2).
      rewrite app_assoc, subscriptions_inner by assumption. rewrite subscriptions_snoc. reflexivity. }
    intros k id. split; [|split].
    - intro N. rewrite <- SAME, OO. apply subscriptions_expired. intro D. destruct (FD _ _ D) as (o & O1 & O2).
      apply (N o); [apply in_or_app; auto|assumption].
    - intros [d MD]. rewrite <- SAME, OO. rewrite (SP _ MD). cbn. now rewrite app_nil_r.
    - intros MD (o & O1 & O2). eapply dead_gone; [exact MD|exact R|exact E0| |exact O2].
      rewrite HE, <- app_assoc. apply in_or_app. right. right. assumption.
  Qed.

  (** *** Publications are numbered *)

  Local Notation is_publication := (@is_publication key topic reg msg).

  Lemma step_pubs : forall s e s' o, step s e = Some (s', o) -> pubs s' = pubs s + count is_publication o.
  Proof.
    intros s e s' o E. pose proof (step_kind _ _ E) as K. unfold count.
    destruct K; try subst o; try (cbn; lia); try (destruct since; cbn; lia).
    - match goal with H : Forall quiet _ |- _ => rename H into Q end.
      cut (filter is_publication o = []); [intros ->; cbn; lia|]. clear - Q.
      induction Q as [|x l X Q IH]; [reflexivity|]. cbn. destruct x; cbn in *; tauto.
    - rewrite filter_app, app_length. cbn.
      cut (filter is_publication (map (fun e => OExpired (fst e) (snd e)) dead) = []); [intros ->; cbn; lia|].
      clear. induction dead; cbn; auto.
  Qed.

  Lemma run_pubs : forall es s s' tr, run s es = Some (s', tr) -> pubs s' = pubs s + count is_publication tr.
  Proof.
    induction es as [|e es IH]; intros s s' tr R; cbn in R.
    - injection R as <- <-. cbn. lia.
    - destruct (step s e) as [[s1 o1]|] eqn:E1; [|discriminate].
      destruct (run s1 es) as [[s2 o2]|] eqn:E2; [|discriminate]. injection R as <- <-.
      apply IH in E2. apply step_pubs in E1. rewrite count_app. lia.
  Qed.

  Lemma published_number : forall cap caps es s tr T1 n t m T2,
    run (init cap caps) es = Some (s, tr) -> tr = T1 ++ OPublished n t m :: T2 -> n = count is_publication T1.
  Proof.
    intros cap caps es s tr T1 n t m T2 R E.
    destruct (@find_step _ _ _ _ _ _ _ R E) as (es1 & e & es2 & s1 & tr1 & s2 & o1 & o2 & _ & R1 & ST & ->).
    pose proof (run_pubs _ _ R1) as PB. cbn [init pubs] in PB.
    assert (IN : In (OPublished n t m) (o1 ++ OPublished n t m :: o2)) by (apply in_or_app; right; now left).
    assert (o1 = [] /\ n = pubs s1) as [-> ->].
    { remember (o1 ++ OPublished n t m :: o2) as o eqn:EO. clear - ST IN EO.
      destruct e; unfold Delivery.step, settle in ST; cases ST; cbn in IN;
        try (repeat (destruct IN as [IN|IN]; try discriminate IN); destruct IN; fail).
      - destruct o1 as [|y o1]; cbn in EO; [injection EO as <- <- <- <-; auto|injection EO as _ EO; destruct o1; discriminate].
      - apply in_app_or in IN. destruct IN as [IN|[IN|[]]]; [|discriminate]. destruct since; [destruct IN|destruct IN as [IN|[]]; discriminate].
      - destruct since; [destruct IN|destruct IN as [IN|[]]; discriminate].
      - apply in_app_or in IN. destruct IN as [IN|[IN|[]]]; [|discriminate]. destruct since; [destruct IN|destruct IN as [IN|[]]; discriminate].
      - destruct since; [destruct IN|destruct IN as [IN|[]]; discriminate].
      - apply in_app_or in IN. destruct IN as [IN|[IN|[]]]; [|discriminate]. apply in_map_iff in IN. destruct IN as (e0 & Q & _). discriminate.
      - match type of IN with In _ (if ?c then _ else _) => destruct c end; [destruct IN|destruct IN as [IN|[]]; discriminate]. }
    rewrite app_nil_r. lia.
  Qed.

  Lemma nth_publication : forall tr n, n < count is_publication tr ->
    exists T1 n' t m T2, tr = T1 ++ OPublished n' t m :: T2 /\ n = count is_publication T1.
  Proof.
    induction tr as [|o tr IH] using rev_ind; intros n L; [cbn in L; lia|].
    rewrite count_app, count_one in L. destruct (Nat.lt_ge_cases n (count is_publication tr)) as [L'|L'].
    - destruct (IH _ L') as (T1 & n' & t & m & T2 & -> & Q). exists T1, n', t, m, (T2 ++ [o]).
      split; [now rewrite <- app_assoc|assumption].
    - destruct o; cbn in L; try lia. exists tr, n0, t, m, []. split; [reflexivity|lia].
  Qed.

  Lemma attempt_published : forall cap caps es s tr o n,
    run (init cap caps) es = Some (s, tr) -> In o tr -> num o = Some n ->
    exists T1 t m T2, tr = T1 ++ OPublished n t m :: T2.
  Proof.
    intros cap caps es s tr o n R I N.
    pose proof (inv_num (reach_inv _ _ _ R) _ I N) as L. rewrite (run_pubs _ _ R) in L. cbn [init pubs] in L.
    destruct (@nth_publication tr n L) as (T1 & n' & t & m & T2 & -> & Q).
    pose proof (@published_number _ _ _ _ _ _ _ _ _ _ R eq_refl). exists T1, t, m, T2. congruence.
  Qed.

  (** The sends of a publication against the table it met. *)
  Lemma attempts_targets : forall cap caps es s tr T1 n t m T2,
    run (init cap caps) es = Some (s, tr) -> tr = T1 ++ OPublished n t m :: T2 ->
    exists tb, wf tb /\ (forall k id, cnt k id tb = subscriptions T1 k id) /\
      (exists rest, targets tb t = attempts n tr ++ rest) /\
      (In (OFinished n) tr -> targets tb t = attempts n tr).
  Proof.
    intros cap caps es s tr T1 n t m T2 R E.
    destruct (inv_hist (reach_inv _ _ _ R) T1 n t m T2 E) as (tb & A & B & C & D & _). eauto.
  Qed.

  (** *** Whence an unsubscription *)

  Definition UNS (es : list (@event key topic reg msg)) (tr : list obs) (s : state) : Prop :=
    forall k id, In (Unsubscribe k id) (items (inbox s)) ->
      In (ESend (Unsubscribe k id)) es \/ exists k', k = Some k' /\ In (OReported k' id) tr.

  Lemma step_uns : forall es tr s e s' o, UNS es tr s -> step s e = Some (s', o) -> UNS (es ++ [e]) (tr ++ o) s'.
  Proof.
    intros es tr s e s' o U E k id I.
    assert (OLD : In (Unsubscribe k id) (items (inbox s)) ->
      In (ESend (Unsubscribe k id)) (es ++ [e]) \/ exists k', k = Some k' /\ In (OReported k' id) (tr ++ o)).
    { intro J. destruct (U _ _ J) as [J'|(k' & Q & J')]; [left; apply in_or_app; auto|]. right. exists k'. split; [assumption|]. apply in_or_app. auto. }
    destruct e; unfold Delivery.step, settle in E; cases E; cbn [inbox items] in I; auto;
      try (apply OLD; right; exact I); try (destruct I; fail).
    - cbn in I. apply in_app_or in I. destruct I as [I|[I|[]]]; [auto|]. subst. left. apply in_or_app. right. now left.
    - match goal with H : poll_tell _ _ _ _ = Some (?ib, _) |- _ => apply poll_tell_out in H; rename H into PT end.
      destruct PT as [(-> & -> & _)|[(-> & _ & _ & _ & PF)|(-> & _)]]; [|discriminate|auto].
      cbn in I. apply in_app_or in I. destruct I as [I|[I|[]]]; [auto|]. injection I as <- <-.
      right. eexists. split; [reflexivity|]. cbn. apply in_or_app. right. now left.
  Qed.

  Lemma reach_uns : forall cap caps es s tr, run (init cap caps) es = Some (s, tr) -> UNS es tr s.
  Proof.
    intros cap caps es. induction es as [|e es IH] using rev_ind; intros s tr R.
    - cbn in R. injection R as <- <-. intros k id [].
    - rewrite run_app in R. destruct (run (init cap caps) es) as [[s1 tr1]|] eqn:R1; [|discriminate].
      cbn in R. destruct (step s1 e) as [[s2 o]|] eqn:ST; [|discriminate]. injection R as <- <-. rewrite app_nil_r.
      eapply step_uns; [eauto|eassumption].
  Qed.

  Lemma unsubscribed_why : forall cap caps es s tr T1 k id T2,
    run (init cap caps) es = Some (s, tr) -> tr = T1 ++ OUnsubscribed k id :: T2 ->
    In (ESend (Unsubscribe k id)) es \/
    exists k' n o, k = Some k' /\ In o T1 /\ found_dead rid n k' id o.
  Proof.
    intros cap caps es s tr T1 k id T2 R E.
    destruct (@find_step _ _ _ _ _ _ _ R E) as (es1 & e & es2 & s1 & tr1 & s2 & o1 & o2 & -> & R1 & ST & ->).
    assert (IN : In (OUnsubscribed k id) (o1 ++ OUnsubscribed k id :: o2)) by (apply in_or_app; right; now left).
    assert (J : In (Unsubscribe k id) (items (inbox s1))).
    { set (o := o1 ++ OUnsubscribed k id :: o2) in *. clearbody o. clear - ST IN.
      destruct e; unfold Delivery.step, settle in ST; cases ST; cbn in IN;
        try (repeat (destruct IN as [IN|IN]; try discriminate IN); destruct IN; fail);
        try (destruct IN as [IN|[]]; injection IN as <- <-; now left).
      - apply in_app_or in IN. destruct IN as [IN|[IN|[]]]; [|discriminate]. destruct since; [destruct IN|destruct IN as [IN|[]]; discriminate].
      - destruct since; [destruct IN|destruct IN as [IN|[]]; discriminate].
      - apply in_app_or in IN. destruct IN as [IN|[IN|[]]]; [|discriminate]. destruct since; [destruct IN|destruct IN as [IN|[]]; discriminate].
      - destruct since; [destruct IN|destruct IN as [IN|[]]; discriminate].
      - apply in_app_or in IN. destruct IN as [IN|[IN|[]]]; [|discriminate]. apply in_map_iff in IN. destruct IN as (e0 & Q & _). discriminate.
      - match type of IN with In _ (if ?c then _ else _) => destruct c end; [destruct IN|destruct IN as [IN|[]]; discriminate]. }
    destruct (reach_uns _ _ _ R1 _ _ J) as [J'|(k' & -> & J')].
    - left. apply in_or_app. auto.
    - right. apply in_split in J'. destruct J' as (A & B & ->).
      destruct (@reported_dead _ _ _ _ _ _ _ _ _ R1 eq_refl) as (n & o & O1 & O2).
      exists k', n, o. split; [reflexivity|]. split; [|assumption]. apply in_or_app. left. apply in_or_app. auto.
  Qed.

  (** *** No panic when what is subscribed is usable *)

  Lemma panicked_why : forall cap caps es s tr n, run (init cap caps) es = Some (s, tr) -> In (OPanicked n) tr ->
    exists tb t k r, (forall k rs r, In (k, rs) tb -> In r rs -> fits k r = true) /\ In (k, r) (targets tb t) /\ usable t r = false.
  Proof.
    intros cap caps es s tr n R I. apply in_split in I. destruct I as (T1 & T2 & E).
    destruct (@find_step _ _ _ _ _ _ _ R E) as (es1 & e & es2 & s1 & tr1 & s2 & o1 & o2 & -> & R1 & ST & ->).
    assert (IN : In (OPanicked n) (o1 ++ OPanicked n :: o2)) by (apply in_or_app; right; now left).
    assert (J : exists m t todo k r since dead, ph s1 = Delivering n t m ((k, r) :: todo) since dead /\ usable t r = false).
    { set (o := o1 ++ OPanicked n :: o2) in *. clearbody o. clear - ST IN.
      destruct e; unfold Delivery.step, settle in ST; cases ST; cbn in IN;
        try (repeat (destruct IN as [IN|IN]; try discriminate IN); destruct IN; fail).
      - apply in_app_or in IN. destruct IN as [IN|[IN|[]]]; [|discriminate]. destruct since; [destruct IN|destruct IN as [IN|[]]; discriminate].
      - destruct since; [destruct IN|destruct IN as [IN|[]]; discriminate].
      - apply in_app_or in IN. destruct IN as [IN|[IN|[]]]; [|discriminate]. destruct since; [destruct IN|destruct IN as [IN|[]]; discriminate].
      - destruct since; [destruct IN|destruct IN as [IN|[]]; discriminate].
      - destruct IN as [IN|[]]. injection IN as <-. eauto 12.
      - apply in_app_or in IN. destruct IN as [IN|[IN|[]]]; [|discriminate]. apply in_map_iff in IN. destruct IN as (e0 & Q & _). discriminate.
      - match type of IN with In _ (if ?c then _ else _) => destruct c end; [destruct IN|destruct IN as [IN|[]]; discriminate]. }
    destruct J as (m & t & todo & k & r & since & dead & P & U).
    exists (subs s1), t, k, r. split; [apply (reach_fit _ _ _ R1)|]. split; [|assumption].
    eapply (reach_todo _ _ _ R1); [exact P|now left].
  Qed.

  Lemma attempt_target : forall cap caps es s tr n k r, run (init cap caps) es = Some (s, tr) -> In (OAttempt n k r) tr ->
    exists tb t m, (forall k rs r, In (k, rs) tb -> In r rs -> fits k r = true) /\ In (k, r) (targets tb t) /\
      In (OPublished n t m) tr.
  Proof.
    intros cap caps es s tr n k r R I. apply in_split in I. destruct I as (T1 & T2 & E).
    destruct (@find_step _ _ _ _ _ _ _ R E) as (es1 & e & es2 & s1 & tr1 & s2 & o1 & o2 & -> & R1 & ST & ->).
    assert (IN : In (OAttempt n k r) (o1 ++ OAttempt n k r :: o2)) by (apply in_or_app; right; now left).
    assert (J : exists m t todo since dead, ph s1 = Delivering n t m ((k, r) :: todo) since dead).
    { pose proof (step_kind _ _ ST) as K. clear - K IN. set (o := o1 ++ OAttempt n k r :: o2) in *. clearbody o.
      destruct K; try subst o; cbn in IN; try (destruct IN as [IN|[]]; discriminate).
      - match goal with H : Forall quiet _ |- _ => rewrite Forall_forall in H; specialize (H _ IN); destruct H end.
      - destruct since; [destruct IN|destruct IN as [IN|[]]; injection IN as -> -> ->]. eauto 8.
      - destruct since; cbn in IN; [destruct IN as [IN|[]]; discriminate|destruct IN as [IN|[IN|[]]]; [|discriminate]]. injection IN as -> -> ->. eauto 8.
      - destruct since; [destruct IN|destruct IN as [IN|[]]; injection IN as -> -> ->]. eauto 8.
      - apply in_app_or in IN. destruct IN as [IN|[IN|[]]]; [|discriminate]. apply in_map_iff in IN. destruct IN as (e0 & Q & _). discriminate. }
    destruct J as (m & t & todo & since & dead & P).
    exists (subs s1), t, m. split; [apply (reach_fit _ _ _ R1)|]. split; [eapply (reach_todo _ _ _ R1); [exact P|now left]|].
    pose proof (inv_cur (reach_inv _ _ _ R1)) as C. unfold current in C. rewrite P in C.
    destruct C as (_ & _ & _ & (H1 & H2 & HE & _) & _). rewrite E, HE. apply in_or_app. left. apply in_or_app. left.
    apply in_or_app. right. now left.
  Qed.

  (** *** Blocked by a full recipient *)

  Lemma upd_same : forall (A : Type) (f : nat -> A) n v, upd f n v n = v.
  Proof. intros. unfold upd. now rewrite Nat.eqb_refl. Qed.
  Lemma upd_other : forall (A : Type) (f : nat -> A) n v k, k <> n -> upd f n v k = f k.
  Proof. intros A f n v k N. unfold upd. destruct (Nat.eqb_spec k n); congruence. Qed.

  Definition blocked (s : state) (a : nat) : Prop := bopen (boxes s a) = true /\ ~ has_room (boxes s a).

  Lemma room_false : forall (I : Type) (b : box I), ~ has_room b -> room b = false.
  Proof. intros I b N. destruct (room_spec b); tauto. Qed.

  Lemma poll_blocked : forall s a b (i : @ditem msg) (m : msg) f x, blocked s a ->
    poll_tell f (boxes s a) i m = Some (b, x) -> b = boxes s a.
  Proof.
    intros s a b i m f x [BO BR] P. unfold poll_tell in P. rewrite BO, (room_false _ BR) in P.
    destruct f; congruence.
  Qed.

  Lemma step_blocked : forall s e s' o a, blocked s a -> leaves_alone a e -> step s e = Some (s', o) -> blocked s' a.
  Proof.
    intros s e s' o a B L E. pose proof B as [BO BR]. pose proof (room_false _ BR) as RF.
    assert (UPD : forall c b, (c = a -> b = boxes s a) -> upd (boxes s) c b a = boxes s a).
    { intros c b H. destruct (Nat.eq_dec c a) as [->|N]; [rewrite upd_same; auto|apply upd_other; congruence]. }
    assert (DONE : boxes s' a = boxes s a -> blocked s' a) by (intro Q; unfold blocked; now rewrite Q).
    destruct e; unfold Delivery.step, settle in E; cases E; cbn [boxes] in *; cbn in L; try (apply DONE; reflexivity); try tauto.
    - apply DONE. apply UPD. intros <-. eapply poll_blocked; eassumption.
    - apply DONE. apply UPD. intros <-. match goal with H : try_tell _ _ _ = _ |- _ => unfold try_tell in H; rewrite BO, RF in H; congruence end.
    - apply DONE. apply UPD. intros <-. eapply poll_blocked; eassumption.
    - apply DONE. apply UPD. intros ->. repeat match goal with H : _ && _ = true |- _ => apply andb_true_iff in H; destruct H end. congruence.
    - apply DONE. apply upd_other. congruence.
    - apply DONE. apply upd_other. congruence.
    - apply DONE. apply UPD. intros ->. repeat match goal with H : _ && _ = true |- _ => apply andb_true_iff in H; destruct H end. congruence.
    - apply DONE. apply upd_other. congruence.
  Qed.

  Lemma step_stuck : forall s e s' o n t m k r todo since dead, strat = Guaranteed -> usable t r = true ->
    ph s = Delivering n t m ((k, r) :: todo) since dead ->
    blocked s (recipient r) -> leaves_alone (recipient r) e -> step s e = Some (s', o) ->
    exists since', ph s' = Delivering n t m ((k, r) :: todo) since' dead.
  Proof.
    intros s e s' o n t m k r todo since dead G U P [BO BR] L E. pose proof (room_false _ BR) as RF.
    destruct e; unfold Delivery.step, settle in E; rewrite ?P in E; cbn in L; try tauto; try discriminate;
      try (cases E; cbn [ph]; eauto; fail).
    rewrite U, G in E. cbn [mode_of fired] in E. unfold poll_tell in E. rewrite BO, RF in E.
    injection E as <- <-. cbn. eauto.
  Qed.

  Lemma guaranteed_blocks : forall es s s' tr n t m k r todo since dead, strat = Guaranteed -> usable t r = true ->
    ph s = Delivering n t m ((k, r) :: todo) since dead ->
    bopen (boxes s (recipient r)) = true -> ~ has_room (boxes s (recipient r)) ->
    Forall (leaves_alone (recipient r)) es -> run s es = Some (s', tr) ->
    (exists since', ph s' = Delivering n t m ((k, r) :: todo) since' dead) /\
    bopen (boxes s' (recipient r)) = true /\ ~ has_room (boxes s' (recipient r)).
  Proof.
    induction es as [|e es IH]; intros s s' tr n t m k r todo since dead G U P BO BR F R; cbn in R.
    - injection R as <- <-. eauto.
    - pose proof (Forall_inv F) as F1. pose proof (Forall_inv_tail F) as F2.
      destruct (step s e) as [[s1 o1]|] eqn:E1; [|discriminate].
      destruct (run s1 es) as [[s2 o2]|] eqn:E2; [|discriminate]. injection R as <- <-.
      destruct (@step_stuck _ _ _ _ _ _ _ _ _ _ _ _ G U P (conj BO BR) F1 E1) as [since' P'].
      destruct (@step_blocked _ _ _ _ _ (conj BO BR) F1 E1) as [BO' BR'].
      eapply IH; eassumption.
  Qed.

  (** *** In the form of the theorems *)

  Lemma not_spawned : (forall d, strat <> Spawned /\ strat <> SpawnedWithTimeout d) -> forall d, mode_of strat <> MSpawn d.
  Proof. intros H d E. destruct strat; cbn in E; try discriminate; [destruct (H 0)|destruct (H d0)]; congruence. Qed.

  Lemma settled_counts : forall cap caps es s tr n k id, run (init cap caps) es = Some (s, tr) ->
    count (is_settled n k id) tr <= count (is_attempt n k id) tr /\
    ((forall d, strat <> Spawned /\ strat <> SpawnedWithTimeout d) -> In (OFinished n) tr ->
       count (is_settled n k id) tr = count (is_attempt n k id) tr).
  Proof.
    intros cap caps es s tr n k id R. split; [eapply settled_once; eassumption|].
    intros NS F. eapply settled_all; [now apply not_spawned|eassumption|assumption].
  Qed.

  Lemma received : forall cap caps es s tr a, run (init cap caps) es = Some (s, tr) ->
    (exists lost, sends a tr = copies (reads a tr ++ items (boxes s a)) ++ lost /\
       (~ In (OEnded a) tr -> lost = [])) /\
    (forall n m, In (ORead a (Copy n m)) tr -> exists t, In (OPublished n t m) tr).
  Proof.
    intros cap caps es s tr a R. pose proof (reach_box _ _ _ R) as B. split; [apply (box_sent B)|apply (box_read B)].
  Qed.

  Lemma ascending_prefix : forall l l', ascending (l ++ l') -> ascending l.
  Proof.
    intros l l' A i j x y L Hi Hj. apply (A i j x y L).
    - rewrite nth_error_app1; [assumption|]. apply nth_error_Some. congruence.
    - rewrite nth_error_app1; [assumption|]. apply nth_error_Some. congruence.
  Qed.

  Lemma read_ordered : forall cap caps es s tr a, (forall d, strat <> Spawned /\ strat <> SpawnedWithTimeout d) ->
    run (init cap caps) es = Some (s, tr) -> ascending (sends a tr) /\ ascending (copies (reads a tr)).
  Proof.
    intros cap caps es s tr a NS R. pose proof (run_ordered _ _ _ a (not_spawned NS) R) as O. split; [assumption|].
    destruct (received _ _ _ a R) as [(lost & Q & _) _]. rewrite Q in O. apply ascending_prefix in O.
    unfold Delivery_spec.copies in *. rewrite flat_map_app in O. now apply ascending_prefix in O.
  Qed.
End Proofs.
