(** Proofs about PeerLoss. *)
From Coq Require Import List Bool Arith PeanoNat Permutation Lia.
From Verif Require Import ActorId PeerLoss PeerLoss_spec.
Import ListNotations.

Section Proofs.
Variable P : peers.
Variable me : peer P.

Local Notation node := (node P).
Local Notation obs := (obs P).
Local Notation event := (event P).
Local Notation id_t := (actor_id P).

(** ** Runs *)

Lemma exec_app : forall es1 es2 n,
  exec me n (es1 ++ es2) =
  match exec me n es1 with
  | None => None
  | Some (n1, o1) =>
      match exec me n1 es2 with None => None | Some (n2, o2) => Some (n2, o1 ++ o2) end
  end.
Proof.
  induction es1 as [|e es1 IH]; intros es2 n; cbn [exec app].
  - destruct (exec me n es2) as [[n2 o2]|]; reflexivity.
  - destruct (step me n e) as [[n1 o1]|]; [|reflexivity].
    rewrite IH. destruct (exec me n1 es1) as [[n2 o2]|]; [|reflexivity].
    destruct (exec me n2 es2) as [[n3 o3]|]; [|reflexivity].
    rewrite app_assoc. reflexivity.
Qed.

Lemma exec_invariant : forall (I : node -> list obs -> Prop) n0,
  I n0 [] ->
  (forall n t e n' o, I n t -> step me n e = Some (n', o) -> I n' (t ++ o)) ->
  forall es n t, exec me n0 es = Some (n, t) -> I n t.
Proof.
  intros I n0 H0 Hstep es. induction es as [|e es IH] using rev_ind; intros n t H.
  - cbn in H. inversion H; subst. exact H0.
  - rewrite exec_app in H. destruct (exec me n0 es) as [[n1 o1]|] eqn:E; [|discriminate].
    cbn [exec] in H. destruct (step me n1 e) as [[n3 o3]|] eqn:E2; [|discriminate].
    inversion H; subst. rewrite app_nil_r. eapply Hstep; eauto.
Qed.

(** ** Lists *)

Lemma told_app : forall i (a b : list obs), told i (a ++ b) = told i a ++ told i b.
Proof.
  induction a as [|x a IH]; intros b; [reflexivity|].
  destruct x as [j l|j c l|j c x ok|j]; cbn; rewrite ?IH; try reflexivity.
  destruct (Nat.eqb i j); reflexivity.
Qed.

Lemma visited_app : forall i (a b : list obs), visited i (a ++ b) = visited i a ++ visited i b.
Proof.
  induction a as [|x a IH]; intros b; [reflexivity|].
  destruct x as [j l|j c l|j c x ok|j]; cbn; rewrite ?IH; try reflexivity.
  destruct (Nat.eqb i j); reflexivity.
Qed.

Lemma nth_set : forall (ts : list (task P)) i j s, nth_error (set_task i s ts) j =
  match nth_error ts j with
  | Some t => Some (if Nat.eqb i j then mk_task (t_peer t) s else t)
  | None => None
  end.
Proof.
  induction ts as [|c cs IH]; intros [|i] [|j] p; cbn; try reflexivity.
  - destruct (nth_error cs j); reflexivity.
  - apply IH.
Qed.

Lemma drop_perm : forall A (l : list A) k x, nth_error l k = Some x -> Permutation l (x :: drop_nth k l).
Proof.
  induction l as [|y l IH]; intros [|k] x E; cbn in *; try discriminate.
  - injection E as ->. reflexivity.
  - rewrite (IH _ _ E) at 1. apply perm_swap.
Qed.

Lemma remove_perm : forall a l, NoDup l -> In a l -> Permutation l (a :: remove Nat.eq_dec a l).
Proof.
  induction l as [|b l IH]; intros N I; [destruct I|].
  inversion N as [|? ? X Y]; subst. cbn. destruct (Nat.eq_dec a b) as [->|D].
  - rewrite notin_remove by exact X. reflexivity.
  - destruct I as [E|I]; [congruence|]. rewrite (IH Y I) at 1. apply perm_swap.
Qed.

Lemma mem : forall a l, existsb (Nat.eqb a) l = true <-> In a l.
Proof.
  intros a l. rewrite existsb_exists. split.
  - intros (b & I & E). apply Nat.eqb_eq in E. subst. exact I.
  - intros I. exists a. split; [exact I|apply Nat.eqb_refl].
Qed.

(** ** What a step does to a task *)

Definition due (p : peer P) (maps : list (nat * list id_t)) : list (nat * id_t) :=
  flat_map (fun m => pushed me p (fst m) (snd m)) maps.

Definition scanned (i : nat) (p : peer P) (s : state P) (t : list obs) : Prop :=
  match s with
  | AtTable => told i t = [] /\ visited i t = [] /\ ~ In (OEnd i) t
  | Scanning rest fs =>
      told i t = [] /\ ~ In (OEnd i) t /\ fs = due p (visited i t)
      /\ exists actors, In (OTable i actors) t /\ NoDup actors
         /\ Permutation (map fst (visited i t) ++ rest) actors
  | Telling fs =>
      ~ In (OEnd i) t /\ Permutation (told i t ++ fs) (due p (visited i t))
      /\ exists actors, In (OTable i actors) t /\ NoDup actors
         /\ Permutation (map fst (visited i t)) actors
  | Ended =>
      Permutation (told i t) (due p (visited i t))
      /\ exists actors, In (OTable i actors) t /\ NoDup actors
         /\ Permutation (map fst (visited i t)) actors
  end.

Definition inv (i : nat) (n : node) (t : list obs) : Prop :=
  NoDup (n_table n)
  /\ match nth_error (n_tasks n) i with
     | None => told i t = [] /\ visited i t = [] /\ ~ In (OEnd i) t
     | Some (mk_task p s) => scanned i p s t
     end.

Definition about (i : nat) (o : obs) : Prop :=
  match o with OTable j _ | ORead j _ _ | OTold j _ _ _ | OEnd j => j = i end.

Lemma scanned_other : forall i p s t o, scanned i p s t -> (forall x, In x o -> ~ about i x) ->
  scanned i p s (t ++ o).
Proof.
  intros i p s t o H N.
  assert (T : told i o = []).
  { clear H. induction o as [|x o IH]; [reflexivity|].
    assert (N' : forall y, In y o -> ~ about i y) by (intros y I; apply N; right; exact I).
    specialize (IH N'). assert (X := N x (or_introl eq_refl)).
    destruct x as [j l|j c l|j c x ok|j]; cbn; rewrite ?IH; auto.
    destruct (Nat.eqb_spec i j) as [->|]; [exfalso; apply X; reflexivity|reflexivity]. }
  assert (V : visited i o = []).
  { clear H. induction o as [|x o IH]; [reflexivity|].
    assert (N' : forall y, In y o -> ~ about i y) by (intros y I; apply N; right; exact I).
    cbn in T. assert (X := N x (or_introl eq_refl)).
    destruct x as [j l|j c l|j c x ok|j]; cbn; auto.
    - destruct (Nat.eqb_spec i j) as [->|]; [exfalso; apply X; reflexivity|]. auto.
    - destruct (Nat.eqb_spec i j) as [->|]; [exfalso; apply X; reflexivity|]. auto. }
  assert (E : In (OEnd i) (t ++ o) -> In (OEnd i) t).
  { intros I. apply in_app_or in I. destruct I as [I|I]; [exact I|].
    destruct (N _ I). reflexivity. }
  destruct s as [|rest fs|fs|]; unfold scanned in *; rewrite ?told_app, ?visited_app, T, V, ?app_nil_r.
  - intuition.
  - destruct H as (A & B & C & (l & D & F)). split; [exact A|]. split; [auto|]. split; [exact C|].
    exists l. split; [apply in_or_app; auto|exact F].
  - destruct H as (B & C & (l & D & F)). split; [auto|]. split; [exact C|].
    exists l. split; [apply in_or_app; auto|exact F].
  - destruct H as (C & (l & D & F)). split; [exact C|].
    exists l. split; [apply in_or_app; auto|exact F].
Qed.

Lemma inv_set : forall i n t j s o, inv i n t ->
  (forall x, In x o -> about j x) ->
  (i = j -> forall p s0, nth_error (n_tasks n) i = Some (mk_task p s0) -> scanned i p s0 t ->
     NoDup (n_table n) -> scanned i p s (t ++ o)) ->
  (nth_error (n_tasks n) j <> None) ->
  inv i (mk_node (n_table n) (n_links n) (set_task j s (n_tasks n))) (t ++ o).
Proof.
  intros i n t j s o (N & H) A K X. split; [exact N|]. cbn [n_tasks n_table]. rewrite nth_set.
  destruct (Nat.eqb_spec j i) as [->|D].
  - destruct (nth_error (n_tasks n) i) as [[p s0]|] eqn:E; [|congruence].
    cbn. apply (K eq_refl p s0); auto.
  - assert (O : forall x, In x o -> ~ about i x).
    { intros x I Q. apply A in I. destruct x; cbn in *; congruence. }
    destruct (nth_error (n_tasks n) i) as [[p s0]|].
    + apply scanned_other; assumption.
    + exact (scanned_other i (me) AtTable t o H O).
Qed.

Lemma insert_nodup : forall a l, NoDup l -> NoDup (if existsb (Nat.eqb a) l then l else a :: l).
Proof.
  intros a l N. destruct (existsb (Nat.eqb a) l) eqn:E; [exact N|].
  constructor; [|exact N]. intros I. apply mem in I. congruence.
Qed.

Lemma remove_nodup : forall a l, NoDup l -> NoDup (remove Nat.eq_dec a l).
Proof.
  intros a l N. induction N as [|b l X N IH]; [constructor|]. cbn.
  destruct (Nat.eq_dec a b); [exact IH|]. constructor; [|exact IH].
  intros I. apply in_remove in I. tauto.
Qed.

Lemma inv_step : forall i n t e n' o, inv i n t -> step me n e = Some (n', o) -> inv i n' (t ++ o).
Proof.
  intros i n t e n' o I H. pose proof I as (N & C).
  destruct e as [a|a|a l|p left|j|j a|j|j k ok|j]; cbn [step] in H.
  - destruct (table_locked n); [discriminate|]. injection H as <- <-. rewrite app_nil_r.
    split; [apply insert_nodup, N|exact C].
  - destruct (table_locked n); [discriminate|]. injection H as <- <-. rewrite app_nil_r.
    split; [apply remove_nodup, N|exact C].
  - injection H as <- <-. rewrite app_nil_r. split; [exact N|exact C].
  - injection H as <- <-. rewrite app_nil_r. split; [exact N|]. cbn [n_tasks].
    destruct (nth_error (n_tasks n) i) as [k|] eqn:Q.
    + rewrite nth_error_app1; [rewrite Q; exact C|]. apply nth_error_Some. congruence.
    + apply nth_error_None in Q. rewrite nth_error_app2 by exact Q.
      destruct (i - length (n_tasks n)) as [|m]; cbn; [exact C|]. destruct m; cbn; exact C.
  - destruct (nth_error (n_tasks n) j) as [[p [| | |]]|] eqn:Q; try discriminate.
    destruct (table_locked n); [discriminate|]. injection H as <- <-.
    apply inv_set; [exact I| |intros -> p0 s0 Q' S0 _|congruence].
    + intros x [<-|[]]. reflexivity.
    + rewrite Q in Q'. injection Q' as <- <-. destruct S0 as (A & B & D). unfold scanned.
      rewrite told_app, visited_app, A, B. cbn. split; [reflexivity|]. split.
      * intros X. apply in_app_or in X. destruct X as [X|[X|[]]]; [auto|discriminate X].
      * split; [reflexivity|]. exists (n_table n). split; [apply in_or_app; right; left; reflexivity|].
        split; [exact N|reflexivity].
  - destruct (nth_error (n_tasks n) j) as [[p [|rest fs| |]]|] eqn:Q; try discriminate.
    destruct (existsb (Nat.eqb a) rest) eqn:M; [|discriminate]. injection H as <- <-.
    apply mem in M.
    apply inv_set; [exact I| |intros -> p0 s0 Q' S0 _|congruence].
    + intros x [<-|[]]. reflexivity.
    + rewrite Q in Q'. injection Q' as <- <-. destruct S0 as (A & B & D & (l & F & G & K)).
      unfold scanned. rewrite told_app, visited_app, A. cbn. rewrite Nat.eqb_refl. split; [reflexivity|].
      split; [intros X; apply in_app_or in X; destruct X as [X|[X|[]]]; [auto|discriminate X]|].
      split.
      * unfold due. rewrite flat_map_app. cbn. rewrite app_nil_r. rewrite D. reflexivity.
      * exists l. split; [apply in_or_app; auto|]. split; [exact G|].
        rewrite map_app. cbn. rewrite <- K.
        assert (R : NoDup rest).
        { apply (Permutation_NoDup (Permutation_sym K)) in G. clear - G. revert G.
          induction (map fst (visited j t)) as [|y l IH]; intros G; [exact G|].
          inversion G; auto. }
        rewrite <- app_assoc. cbn. apply Permutation_app_head.
        symmetry. apply remove_perm; assumption.
  - destruct (nth_error (n_tasks n) j) as [[p [|[|] fs| |]]|] eqn:Q; try discriminate.
    injection H as <- <-.
    apply inv_set; [exact I|intros x []|intros -> p0 s0 Q' S0 _|congruence].
    rewrite Q in Q'. injection Q' as <- <-. destruct S0 as (A & B & D & (l & F & G & K)).
    unfold scanned. rewrite app_nil_r, A. split; [exact B|]. split; [cbn; rewrite D; reflexivity|].
    exists l. rewrite app_nil_r in K. auto.
  - destruct (nth_error (n_tasks n) j) as [[p [| |fs|]]|] eqn:Q; try discriminate.
    destruct (nth_error fs k) as [[a x]|] eqn:R; [|discriminate]. injection H as <- <-.
    apply inv_set; [exact I| |intros -> p0 s0 Q' S0 _|congruence].
    + intros y [<-|[]]. reflexivity.
    + rewrite Q in Q'. injection Q' as <- <-. destruct S0 as (B & D & (l & F & G & K)).
      unfold scanned. rewrite told_app, visited_app. cbn. rewrite Nat.eqb_refl, app_nil_r.
      split; [intros X; apply in_app_or in X; destruct X as [X|[X|[]]]; [auto|discriminate X]|].
      split.
      * rewrite <- D, <- app_assoc. cbn. apply Permutation_app_head. symmetry. apply drop_perm, R.
      * exists l. split; [apply in_or_app; auto|]. auto.
  - destruct (nth_error (n_tasks n) j) as [[p [| |[|] |]]|] eqn:Q; try discriminate.
    injection H as <- <-.
    apply inv_set; [exact I| |intros -> p0 s0 Q' S0 _|congruence].
    + intros y [<-|[]]. reflexivity.
    + rewrite Q in Q'. injection Q' as <- <-. destruct S0 as (B & D & (l & F & G & K)).
      unfold scanned. rewrite told_app, visited_app. cbn. rewrite !app_nil_r in *.
      split; [exact D|]. exists l. split; [apply in_or_app; auto|]. auto.
Qed.

Lemma inv_run : forall i es n t, exec me fresh es = Some (n, t) -> inv i n t.
Proof.
  intros i es n t H. revert H. apply (exec_invariant (inv i)).
  - split; [constructor|]. destruct i; cbn; auto.
  - intros. eapply inv_step; eauto.
Qed.

(** ** Links and peers *)

Lemma on_peer_lives : forall p x, on_peer me p x = true <-> lives_on me p x.
Proof.
  intros p x. unfold on_peer, lives_on. destruct (kind x) as [|q]; cbn; rewrite (peer_eqb_eq P).
  - split; congruence.
  - tauto.
Qed.

Lemma in_due : forall p maps a x, In (a, x) (due p maps) <->
  exists l, In (a, l) maps /\ In x l /\ lives_on me p x.
Proof.
  intros p maps a x. unfold due. rewrite in_flat_map. split.
  - intros ([b l] & I & J). unfold pushed in J. cbn in J. apply in_map_iff in J.
    destruct J as (y & E & J). injection E as -> ->. apply filter_In in J. destruct J as (J & K).
    exists l. split; [exact I|]. split; [exact J|]. apply on_peer_lives, K.
  - intros (l & I & J & K). exists (a, l). split; [exact I|]. unfold pushed. cbn.
    apply in_map_iff. exists x. split; [reflexivity|]. apply filter_In. split; [exact J|].
    apply on_peer_lives, K.
Qed.

Lemma nodup_app : forall A (u v : list A), NoDup u -> NoDup v -> (forall x, In x u -> ~ In x v) ->
  NoDup (u ++ v).
Proof.
  induction u as [|y u IH]; intros v A0 B D; [exact B|].
  inversion A0; subst. cbn. constructor.
  - intros I. apply in_app_or in I. destruct I as [I|I]; [contradiction|].
    exact (D y (or_introl eq_refl) I).
  - apply IH; [assumption|assumption|]. intros x I. apply D. right. exact I.
Qed.

Lemma due_nodup : forall p maps, (forall a l, In (a, l) maps -> NoDup l) -> NoDup (map fst maps) ->
  NoDup (due p maps).
Proof.
  intros p maps. induction maps as [|[a l] maps IH]; intros L N; cbn; [constructor|].
  inversion N as [|? ? X Y]; subst.
  assert (A : NoDup (pushed me p a l)).
  { unfold pushed. apply FinFun.Injective_map_NoDup.
    - intros u v E. congruence.
    - apply NoDup_filter. apply (L a). left. reflexivity. }
  assert (B : NoDup (due p maps)) by (apply IH; [intros b k I; apply (L b); right; exact I|exact Y]).
  apply nodup_app; [exact A|exact B|].
  intros [b x] U V. unfold pushed in U. apply in_map_iff in U. destruct U as (y & E & _).
  injection E as -> ->. apply in_due in V. destruct V as (k & V & _).
  apply X. apply in_map_iff. exists (b, k). auto.
Qed.

(** ** The theorems *)

Lemma exact : forall es n t i, exec me fresh es = Some (n, t) -> In (OEnd i) t ->
  exists p actors, nth_error (n_tasks n) i = Some (mk_task p Ended)
    /\ In (OTable i actors) t /\ Permutation (map fst (visited i t)) actors
    /\ one_per_link me p (visited i t) (told i t).
Proof.
  intros es n t i H E. pose proof (inv_run i es n t H) as (_ & C).
  destruct (nth_error (n_tasks n) i) as [[p [|rest fs|fs|]]|].
  - destruct C as (_ & _ & X). destruct (X E).
  - destruct C as (_ & X & _). destruct (X E).
  - destruct C as (X & _). destruct (X E).
  - destruct C as (D & (l & F & G & K)). exists p, l. split; [reflexivity|]. split; [exact F|].
    split; [exact K|]. split.
    + intros a x. rewrite <- in_due. split; apply Permutation_in; [exact D|symmetry; exact D].
    + intros L N. apply (Permutation_NoDup (Permutation_sym D)). apply due_nodup; assumption.
  - destruct C as (_ & _ & X). destruct (X E).
Qed.

(** Also while the task is under way: only links on the peer of a visited actor. *)
Lemma only_affected : forall es n t i a x, exec me fresh es = Some (n, t) -> In (a, x) (told i t) ->
  exists p s l, nth_error (n_tasks n) i = Some (mk_task p s) /\ In (a, l) (visited i t)
    /\ In x l /\ lives_on me p x.
Proof.
  intros es n t i a x H I. pose proof (inv_run i es n t H) as (_ & C).
  assert (Q : forall p s, nth_error (n_tasks n) i = Some (mk_task p s) -> scanned i p s t ->
    In (a, x) (due p (visited i t))).
  { intros p s _ S0. destruct s as [|rest fs|fs|].
    - destruct S0 as (X & _). rewrite X in I. destruct I.
    - destruct S0 as (X & _). rewrite X in I. destruct I.
    - destruct S0 as (_ & D & _). apply (Permutation_in _ D). apply in_or_app. auto.
    - destruct S0 as (D & _). apply (Permutation_in _ D). exact I. }
  destruct (nth_error (n_tasks n) i) as [[p s]|] eqn:E.
  - specialize (Q p s eq_refl C). apply in_due in Q. destruct Q as (l & A & B & D). eauto 8.
  - destruct C as (X & _). rewrite X in I. destruct I.
Qed.

(** ** Seen from outside *)

Lemma reads_true : forall es n0 n t i a l, exec me n0 es = Some (n, t) -> In (a, l) (visited i t) ->
  l = n_links n0 a \/ In (Relink a l) es.
Proof.
  induction es as [|e es IH]; intros n0 n t i a l H I; cbn [exec] in H.
  - injection H as <- <-. destruct I.
  - destruct (step me n0 e) as [[n1 o1]|] eqn:E; [|discriminate].
    destruct (exec me n1 es) as [[n2 o2]|] eqn:E2; [|discriminate]. injection H as <- <-.
    rewrite visited_app in I. apply in_app_or in I. destruct I as [I|I].
    + left. destruct e as [b|b|b l0|p left|j|j b|j|j k ok|j]; cbn [step] in E.
      * destruct (table_locked n0); [discriminate|]. injection E as <- <-. destruct I.
      * destruct (table_locked n0); [discriminate|]. injection E as <- <-. destruct I.
      * injection E as <- <-. destruct I.
      * injection E as <- <-. destruct I.
      * destruct (nth_error (n_tasks n0) j) as [[p [| | |]]|]; try discriminate.
        destruct (table_locked n0); [discriminate|]. injection E as <- <-. destruct I.
      * destruct (nth_error (n_tasks n0) j) as [[p [|rest fs| |]]|]; try discriminate.
        destruct (existsb (Nat.eqb b) rest); [|discriminate]. injection E as <- <-.
        cbn in I. destruct (Nat.eqb i j); [|destruct I].
        destruct I as [I|[]]. injection I as -> ->. reflexivity.
      * destruct (nth_error (n_tasks n0) j) as [[p [|[|] fs| |]]|]; try discriminate.
        injection E as <- <-. destruct I.
      * destruct (nth_error (n_tasks n0) j) as [[p [| |fs|]]|]; try discriminate.
        destruct (nth_error fs k) as [[b x]|]; [|discriminate]. injection E as <- <-. destruct I.
      * destruct (nth_error (n_tasks n0) j) as [[p [| |[|] |]]|]; try discriminate.
        injection E as <- <-. destruct I.
    + destruct (IH _ _ _ _ _ _ E2 I) as [K|K]; [|right; right; exact K].
      destruct e as [b|b|b l0|p left|j|j b|j|j k ok|j]; cbn [step] in E.
      * destruct (table_locked n0); [discriminate|]. injection E as <- <-. auto.
      * destruct (table_locked n0); [discriminate|]. injection E as <- <-. auto.
      * injection E as <- <-. cbn in K. destruct (Nat.eqb_spec a b) as [->|D]; [|auto].
        right. left. congruence.
      * injection E as <- <-. auto.
      * destruct (nth_error (n_tasks n0) j) as [[p [| | |]]|]; try discriminate.
        destruct (table_locked n0); [discriminate|]. injection E as <- <-. auto.
      * destruct (nth_error (n_tasks n0) j) as [[p [|rest fs| |]]|]; try discriminate.
        destruct (existsb (Nat.eqb b) rest); [|discriminate]. injection E as <- <-. auto.
      * destruct (nth_error (n_tasks n0) j) as [[p [|[|] fs| |]]|]; try discriminate.
        injection E as <- <-. auto.
      * destruct (nth_error (n_tasks n0) j) as [[p [| |fs|]]|]; try discriminate.
        destruct (nth_error fs k) as [[b x]|]; [|discriminate]. injection E as <- <-. auto.
      * destruct (nth_error (n_tasks n0) j) as [[p [| |[|] |]]|]; try discriminate.
        injection E as <- <-. auto.
Qed.

(** The table a task gets, compared with an earlier one. *)
Lemma step_table : forall n e n' o, step me n e = Some (n', o) ->
  (forall b, In b (n_table n') -> In b (n_table n) \/ e = Insert b)
  /\ (forall b, In b (n_table n) -> In b (n_table n') \/ e = Remove b)
  /\ (forall i actors, In (OTable i actors) o -> actors = n_table n /\ n_table n' = n_table n).
Proof.
  intros n e n' o E.
  destruct e as [b|b|b l0|p left|j|j b|j|j k ok|j]; cbn [step] in E.
  - destruct (table_locked n); [discriminate|]. injection E as <- <-. cbn [n_table].
    destruct (existsb (Nat.eqb b) (n_table n)).
    + split; [auto|]. split; [auto|intros i l []].
    + split; [|split; [intros c I; left; right; exact I|intros i l []]].
      intros c [->|I]; auto.
  - destruct (table_locked n); [discriminate|]. injection E as <- <-. cbn [n_table].
    split; [|split; [|intros i l []]].
    + intros c I. apply in_remove in I. tauto.
    + intros c I. destruct (Nat.eq_dec c b) as [->|D]; [auto|]. left. apply in_in_remove; assumption.
  - injection E as <- <-. split; [auto|]. split; [auto|intros i l []].
  - injection E as <- <-. split; [auto|]. split; [auto|intros i l []].
  - destruct (nth_error (n_tasks n) j) as [[p [| | |]]|]; try discriminate.
    destruct (table_locked n); [discriminate|]. injection E as <- <-.
    split; [auto|]. split; [auto|]. intros i l [I|[]]. injection I as <- <-. auto.
  - destruct (nth_error (n_tasks n) j) as [[p [|rest fs| |]]|]; try discriminate.
    destruct (existsb (Nat.eqb b) rest); [|discriminate]. injection E as <- <-.
    split; [auto|]. split; [auto|]. intros i l [I|[]]. discriminate I.
  - destruct (nth_error (n_tasks n) j) as [[p [|[|] fs| |]]|]; try discriminate.
    injection E as <- <-. split; [auto|]. split; [auto|intros i l []].
  - destruct (nth_error (n_tasks n) j) as [[p [| |fs|]]|]; try discriminate.
    destruct (nth_error fs k) as [[b x]|]; [|discriminate]. injection E as <- <-.
    split; [auto|]. split; [auto|]. intros i l [I|[]]. discriminate I.
  - destruct (nth_error (n_tasks n) j) as [[p [| |[|] |]]|]; try discriminate.
    injection E as <- <-. split; [auto|]. split; [auto|]. intros i l [I|[]]. discriminate I.
Qed.

Lemma table_true : forall es n0 n t i actors, exec me n0 es = Some (n, t) -> In (OTable i actors) t ->
  (forall a, In a actors -> In a (n_table n0) \/ In (Insert a) es)
  /\ (forall a, In a (n_table n0) -> ~ In (Remove a) es -> In a actors).
Proof.
  induction es as [|e es IH]; intros n0 n t i actors H I; cbn [exec] in H.
  - injection H as <- <-. destruct I.
  - destruct (step me n0 e) as [[n1 o1]|] eqn:E; [|discriminate].
    destruct (exec me n1 es) as [[n2 o2]|] eqn:E2; [|discriminate]. injection H as <- <-.
    destruct (step_table _ _ _ _ E) as (A & B & C).
    apply in_app_or in I. destruct I as [I|I].
    + destruct (C _ _ I) as (-> & _). auto.
    + destruct (IH _ _ _ _ _ E2 I) as (D & F). split.
      * intros a J. destruct (D a J) as [K|K]; [|right; right; exact K].
        destruct (A a K) as [G|G]; [auto|right; left; exact G].
      * intros a J N. apply F.
        -- destruct (B a J) as [K|K]; [exact K|]. destruct N. left. exact K.
        -- intros K. apply N. right. exact K.
Qed.

Lemma new_task : forall es1 n1 t1 p left es2 n2 t2,
  exec me fresh es1 = Some (n1, t1) -> exec me n1 (Closed p left :: es2) = Some (n2, t2) ->
  let i := length (n_tasks n1) in
  told i t1 = [] /\ visited i t1 = [] /\ ~ In (OEnd i) t1
  /\ (forall actors, ~ In (OTable i actors) t1)
  /\ exists s, nth_error (n_tasks n2) i = Some (mk_task p s).
Proof.
  intros es1 n1 t1 p left es2 n2 t2 H1 H2 i.
  pose proof (inv_run i _ _ _ H1) as (_ & C).
  assert (Z : nth_error (n_tasks n1) i = None) by (apply nth_error_None; unfold i; lia).
  rewrite Z in C. destruct C as (A & B & D). split; [exact A|]. split; [exact B|]. split; [exact D|].
  split.
  - revert Z. revert H1. clear.
    assert (X : forall es n t, exec me fresh es = Some (n, t) ->
      forall k, nth_error (n_tasks n) k = None -> forall actors, ~ In (OTable k actors) t).
    { intros es n t H. revert H.
      apply (exec_invariant (fun n t => forall k, nth_error (n_tasks n) k = None ->
        forall actors, ~ In (OTable k actors) t)); [intros k _ l []|].
      intros m u e m' o IH E k Z l I. apply in_app_or in I.
      assert (L : nth_error (n_tasks m) k = None /\ ~ In (OTable k l) o).
      { destruct e as [b|b|b l0|p left|j|j b|j|j q ok|j]; cbn [step] in E.
        - destruct (table_locked m); [discriminate|]. injection E as <- <-. auto.
        - destruct (table_locked m); [discriminate|]. injection E as <- <-. auto.
        - injection E as <- <-. auto.
        - injection E as <- <-. cbn in Z. split; [|auto]. apply nth_error_None in Z.
          rewrite app_length in Z. apply nth_error_None. cbn in Z. lia.
        - destruct (nth_error (n_tasks m) j) as [[p [| | |]]|] eqn:Q; try discriminate.
          destruct (table_locked m); [discriminate|]. injection E as <- <-.
          cbn in Z. rewrite nth_set in Z. destruct (nth_error (n_tasks m) k) eqn:R; [discriminate|].
          split; [reflexivity|]. intros [J|[]]. congruence.
        - destruct (nth_error (n_tasks m) j) as [[p [|rest fs| |]]|]; try discriminate.
          destruct (existsb (Nat.eqb b) rest); [|discriminate]. injection E as <- <-.
          cbn in Z. rewrite nth_set in Z. destruct (nth_error (n_tasks m) k) eqn:R; [discriminate|].
          split; [reflexivity|]. intros [J|[]]. discriminate J.
        - destruct (nth_error (n_tasks m) j) as [[p [|[|] fs| |]]|]; try discriminate.
          injection E as <- <-.
          cbn in Z. rewrite nth_set in Z. destruct (nth_error (n_tasks m) k) eqn:R; [discriminate|].
          split; [reflexivity|]. intros [].
        - destruct (nth_error (n_tasks m) j) as [[p [| |fs|]]|]; try discriminate.
          destruct (nth_error fs q) as [[b x]|]; [|discriminate]. injection E as <- <-.
          cbn in Z. rewrite nth_set in Z. destruct (nth_error (n_tasks m) k) eqn:R; [discriminate|].
          split; [reflexivity|]. intros [J|[]]. discriminate J.
        - destruct (nth_error (n_tasks m) j) as [[p [| |[|] |]]|]; try discriminate.
          injection E as <- <-.
          cbn in Z. rewrite nth_set in Z. destruct (nth_error (n_tasks m) k) eqn:R; [discriminate|].
          split; [reflexivity|]. intros [J|[]]. discriminate J. }
      destruct L as (L & N). destruct I as [I|I]; [exact (IH k L l I)|exact (N I)]. }
    intros H1 Z actors. eapply X; eauto.
  - cbn [exec step] in H2.
    destruct (exec me _ es2) as [[n3 o3]|] eqn:E; [|discriminate]. injection H2 as <- _.
    revert E. apply (exec_invariant (fun n _ => exists s, nth_error (n_tasks n) i = Some (mk_task p s))).
    + cbn. exists AtTable. unfold i. rewrite nth_error_app2, Nat.sub_diag by lia. reflexivity.
    + clear. intros m u e m' o (s & Q) E.
      destruct e as [b|b|b l0|p0 left|j|j b|j|j q ok|j]; cbn [step] in E.
      * destruct (table_locked m); [discriminate|]. injection E as <- <-. eauto.
      * destruct (table_locked m); [discriminate|]. injection E as <- <-. eauto.
      * injection E as <- <-. eauto.
      * injection E as <- <-. exists s. cbn. rewrite nth_error_app1; [exact Q|].
        apply nth_error_Some. congruence.
      * destruct (nth_error (n_tasks m) j) as [[p1 [| | |]]|] eqn:R; try discriminate.
        destruct (table_locked m); [discriminate|]. injection E as <- <-.
        cbn. rewrite nth_set, Q. destruct (Nat.eqb j i); cbn; eauto.
      * destruct (nth_error (n_tasks m) j) as [[p1 [|rest fs| |]]|]; try discriminate.
        destruct (existsb (Nat.eqb b) rest); [|discriminate]. injection E as <- <-.
        cbn. rewrite nth_set, Q. destruct (Nat.eqb j i); cbn; eauto.
      * destruct (nth_error (n_tasks m) j) as [[p1 [|[|] fs| |]]|]; try discriminate.
        injection E as <- <-. cbn. rewrite nth_set, Q. destruct (Nat.eqb j i); cbn; eauto.
      * destruct (nth_error (n_tasks m) j) as [[p1 [| |fs|]]|]; try discriminate.
        destruct (nth_error fs q) as [[b x]|]; [|discriminate]. injection E as <- <-.
        cbn. rewrite nth_set, Q. destruct (Nat.eqb j i); cbn; eauto.
      * destruct (nth_error (n_tasks m) j) as [[p1 [| |[|] |]]|]; try discriminate.
        injection E as <- <-. cbn. rewrite nth_set, Q. destruct (Nat.eqb j i); cbn; eauto.
Qed.

Lemma whole : forall es1 n1 t1 e n2 t2, exec me fresh es1 = Some (n1, t1) ->
  exec me n1 e = Some (n2, t2) -> exec me fresh (es1 ++ e) = Some (n2, t1 ++ t2).
Proof. intros. rewrite exec_app, H, H0. reflexivity. Qed.

Lemma link_told : forall es1 n1 t1 p left es2 n2 t2 a x,
  exec me fresh es1 = Some (n1, t1) -> exec me n1 (Closed p left :: es2) = Some (n2, t2) ->
  In (OEnd (length (n_tasks n1))) t2 ->
  In a (n_table n1) -> ~ In (Remove a) es2 ->
  In x (n_links n1 a) -> (forall l, In (Relink a l) es2 -> In x l) ->
  lives_on me p x -> In (a, x) (told (length (n_tasks n1)) t2).
Proof.
  intros es1 n1 t1 p left es2 n2 t2 a x H1 H2 E A R X L V.
  set (i := length (n_tasks n1)) in *.
  destruct (new_task _ _ _ _ _ _ _ _ H1 H2) as (T & W & _ & B & (s & Q)). fold i in T, W, B, Q.
  pose proof (whole _ _ _ _ _ _ H1 H2) as H.
  destruct (exact _ _ _ i H) as (p' & actors & Q' & J & K & O); [apply in_or_app; auto|].
  rewrite Q in Q'. injection Q' as <- _.
  rewrite told_app, visited_app, T, W in *. cbn [app] in *.
  assert (J2 : In (OTable i actors) t2).
  { apply in_app_or in J. destruct J as [J|J]; [destruct (B _ J)|exact J]. }
  destruct (table_true _ _ _ _ _ _ H2 J2) as (_ & F).
  assert (Ia : In a actors).
  { apply F; [exact A|]. intros [I|I]; [discriminate I|exact (R I)]. }
  apply (Permutation_in _ (Permutation_sym K)) in Ia. apply in_map_iff in Ia.
  destruct Ia as ([a' l] & Ea & Ia). cbn in Ea. subst a'.
  apply O. exists l. split; [exact Ia|]. split; [|exact V].
  destruct (reads_true _ _ _ _ _ _ _ H2 Ia) as [->|[I|I]]; [exact X|discriminate I|exact (L _ I)].
Qed.

Lemma told_affected : forall es1 n1 t1 p left es2 n2 t2 a x,
  exec me fresh es1 = Some (n1, t1) -> exec me n1 (Closed p left :: es2) = Some (n2, t2) ->
  In (a, x) (told (length (n_tasks n1)) t2) ->
  lives_on me p x /\ (In a (n_table n1) \/ In (Insert a) es2)
  /\ (In x (n_links n1 a) \/ exists l, In (Relink a l) es2 /\ In x l).
Proof.
  intros es1 n1 t1 p left es2 n2 t2 a x H1 H2 I.
  set (i := length (n_tasks n1)) in *.
  destruct (new_task _ _ _ _ _ _ _ _ H1 H2) as (T & W & _ & B & (s & Q)). fold i in T, W, B, Q.
  pose proof (whole _ _ _ _ _ _ H1 H2) as H.
  destruct (only_affected _ _ _ i a x H) as (p' & s' & l & Q' & Va & X & V).
  { rewrite told_app. apply in_or_app. auto. }
  rewrite Q in Q'. injection Q' as <- _. rewrite visited_app, W in Va. cbn [app] in Va.
  split; [exact V|]. split.
  - pose proof (inv_run i _ _ _ H) as (_ & C). rewrite Q in C.
    assert (Z : exists actors rest, In (OTable i actors) (t1 ++ t2)
      /\ Permutation (map fst (visited i (t1 ++ t2)) ++ rest) actors).
    { destruct s as [|rest fs|fs|].
      - destruct C as (_ & C & _). rewrite visited_app, W in C. cbn in C. rewrite C in Va. destruct Va.
      - destruct C as (_ & _ & _ & (l0 & J & _ & K)). eauto.
      - destruct C as (_ & _ & (l0 & J & _ & K)). exists l0, []. rewrite app_nil_r. auto.
      - destruct C as (_ & (l0 & J & _ & K)). exists l0, []. rewrite app_nil_r. auto. }
    destruct Z as (actors & rest & J & K). apply in_app_or in J.
    destruct J as [J|J]; [destruct (B _ J)|].
    destruct (table_true _ _ _ _ _ _ H2 J) as (D & _).
    assert (Ia : In a actors).
    { apply (Permutation_in _ K). apply in_or_app. left. rewrite visited_app, W. cbn [app].
      apply in_map_iff. exists (a, l). auto. }
    destruct (D a Ia) as [K2|[K2|K2]]; [auto|discriminate K2|auto].
  - destruct (reads_true _ _ _ _ _ _ _ H2 Va) as [->|[K|K]]; [auto|discriminate K|eauto].
Qed.

Lemma told_once : forall es n t i, exec me fresh es = Some (n, t) ->
  (forall a l, In (Relink a l) es -> NoDup l) -> NoDup (told i t).
Proof.
  intros es n t i H L. pose proof (inv_run i _ _ _ H) as (_ & C).
  assert (M : forall a l, In (a, l) (visited i t) -> NoDup l).
  { intros a l I. destruct (reads_true _ _ _ _ _ _ _ H I) as [->|K]; [constructor|exact (L _ _ K)]. }
  destruct (nth_error (n_tasks n) i) as [[p [|rest fs|fs|]]|].
  - destruct C as (-> & _). constructor.
  - destruct C as (-> & _). constructor.
  - destruct C as (_ & D & (l & _ & G & K)).
    assert (X : NoDup (told i t ++ fs)).
    { apply (Permutation_NoDup (Permutation_sym D)). apply due_nodup; [exact M|].
      apply (Permutation_NoDup (Permutation_sym K)), G. }
    clear - X. induction (told i t) as [|u us IH]; [constructor|]. inversion X; subst.
    constructor; [|auto]. intros I. apply H1. apply in_or_app. auto.
  - destruct C as (D & (l & _ & G & K)).
    apply (Permutation_NoDup (Permutation_sym D)). apply due_nodup; [exact M|].
    apply (Permutation_NoDup (Permutation_sym K)), G.
  - destruct C as (-> & _). constructor.
Qed.

(** ** The table is free before anybody is told *)

Lemma told_state : forall n e n' o i a x ok, step me n e = Some (n', o) -> In (OTold i a x ok) o ->
  exists p fs, nth_error (n_tasks n') i = Some (mk_task p (Telling fs)).
Proof.
  intros n e n' o i a x ok E I.
  destruct e as [b|b|b l0|p left|j|j b|j|j k ok'|j]; cbn [step] in E.
  - destruct (table_locked n); [discriminate|]. injection E as <- <-. destruct I.
  - destruct (table_locked n); [discriminate|]. injection E as <- <-. destruct I.
  - injection E as <- <-. destruct I.
  - injection E as <- <-. destruct I.
  - destruct (nth_error (n_tasks n) j) as [[p [| | |]]|]; try discriminate.
    destruct (table_locked n); [discriminate|]. injection E as <- <-.
    destruct I as [I|[]]; discriminate I.
  - destruct (nth_error (n_tasks n) j) as [[p [|rest fs| |]]|]; try discriminate.
    destruct (existsb (Nat.eqb b) rest); [|discriminate]. injection E as <- <-.
    destruct I as [I|[]]; discriminate I.
  - destruct (nth_error (n_tasks n) j) as [[p [|[|] fs| |]]|]; try discriminate.
    injection E as <- <-. destruct I.
  - destruct (nth_error (n_tasks n) j) as [[p [| |fs|]]|] eqn:Q; try discriminate.
    destruct (nth_error fs k) as [[b y]|]; [|discriminate]. injection E as <- <-.
    destruct I as [I|[]]. injection I as -> -> -> ->. cbn. rewrite nth_set, Q, Nat.eqb_refl. eauto.
  - destruct (nth_error (n_tasks n) j) as [[p [| |[|] |]]|]; try discriminate.
    injection E as <- <-. destruct I as [I|[]]; discriminate I.
Qed.

Definition past_scan (i : nat) (n : node) : Prop :=
  exists p s, nth_error (n_tasks n) i = Some (mk_task p s)
    /\ match s with Telling _ | Ended => True | _ => False end.

Lemma past_scan_step : forall i n e n' o, past_scan i n -> step me n e = Some (n', o) ->
  past_scan i n' /\ visited i o = [].
Proof.
  intros i n e n' o (p & s & Q & K) E. unfold past_scan.
  destruct e as [b|b|b l0|p0 left|j|j b|j|j k ok'|j]; cbn [step] in E.
  - destruct (table_locked n); [discriminate|]. injection E as <- <-. eauto 6.
  - destruct (table_locked n); [discriminate|]. injection E as <- <-. eauto 6.
  - injection E as <- <-. eauto 6.
  - injection E as <- <-. split; [|reflexivity]. exists p, s. split; [|exact K]. cbn.
    rewrite nth_error_app1; [exact Q|]. apply nth_error_Some. congruence.
  - destruct (nth_error (n_tasks n) j) as [[p1 [| | |]]|] eqn:R; try discriminate.
    destruct (table_locked n); [discriminate|]. injection E as <- <-. split; [|reflexivity].
    cbn. rewrite nth_set, Q. destruct (Nat.eqb_spec j i) as [->|]; [|eauto].
    rewrite Q in R. injection R as <- ->. destruct K.
  - destruct (nth_error (n_tasks n) j) as [[p1 [|rest fs| |]]|] eqn:R; try discriminate.
    destruct (existsb (Nat.eqb b) rest); [|discriminate]. injection E as <- <-.
    destruct (Nat.eq_dec j i) as [->|D].
    + rewrite Q in R. injection R as <- ->. destruct K.
    + split; [|cbn; destruct (Nat.eqb_spec i j); [congruence|reflexivity]].
      cbn. rewrite nth_set, Q. destruct (Nat.eqb_spec j i); [congruence|eauto].
  - destruct (nth_error (n_tasks n) j) as [[p1 [|[|] fs| |]]|] eqn:R; try discriminate.
    injection E as <- <-. split; [|reflexivity]. cbn. rewrite nth_set, Q.
    destruct (Nat.eqb j i); cbn; [do 2 eexists; split; [reflexivity|exact I]|eauto].
  - destruct (nth_error (n_tasks n) j) as [[p1 [| |fs|]]|] eqn:R; try discriminate.
    destruct (nth_error fs k) as [[b y]|]; [|discriminate]. injection E as <- <-.
    split; [|reflexivity]. cbn. rewrite nth_set, Q. destruct (Nat.eqb j i); cbn; [do 2 eexists; split; [reflexivity|exact I]|eauto].
  - destruct (nth_error (n_tasks n) j) as [[p1 [| |[|] |]]|]; try discriminate.
    injection E as <- <-. split; [|reflexivity]. cbn. rewrite nth_set, Q.
    destruct (Nat.eqb j i); cbn; [do 2 eexists; split; [reflexivity|exact I]|eauto].
Qed.

Lemma short_obs : forall n e n' o, step me n e = Some (n', o) -> length o <= 1.
Proof.
  intros n e n' o E.
  destruct e as [b|b|b l0|p0 left|j|j b|j|j k ok'|j]; cbn [step] in E.
  - destruct (table_locked n); [discriminate|]. injection E as <- <-. auto.
  - destruct (table_locked n); [discriminate|]. injection E as <- <-. auto.
  - injection E as <- <-. auto.
  - injection E as <- <-. auto.
  - destruct (nth_error (n_tasks n) j) as [[p1 [| | |]]|] eqn:R; try discriminate.
    destruct (table_locked n); [discriminate|]. injection E as <- <-. auto.
  - destruct (nth_error (n_tasks n) j) as [[p1 [|rest fs| |]]|] eqn:R; try discriminate.
    destruct (existsb (Nat.eqb b) rest); [|discriminate]. injection E as <- <-. auto.
  - destruct (nth_error (n_tasks n) j) as [[p1 [|[|] fs| |]]|] eqn:R; try discriminate.
    injection E as <- <-. auto.
  - destruct (nth_error (n_tasks n) j) as [[p1 [| |fs|]]|] eqn:R; try discriminate.
    destruct (nth_error fs k) as [[b y]|]; [|discriminate]. injection E as <- <-. auto.
  - destruct (nth_error (n_tasks n) j) as [[p1 [| |[|] |]]|]; try discriminate.
    injection E as <- <-. auto.
Qed.

Lemma free_before : forall es n0 n t1 i a x ok t2,
  exec me n0 es = Some (n, t1 ++ OTold i a x ok :: t2) -> visited i t2 = [].
Proof.
  induction es as [|e es IH]; intros n0 n t1 i a x ok t2 H; cbn [exec] in H.
  - injection H as _ H. destruct t1; discriminate H.
  - destruct (step me n0 e) as [[n1 o1]|] eqn:E; [|discriminate].
    destruct (exec me n1 es) as [[n2 o2]|] eqn:E2; [|discriminate]. injection H as -> H.
    pose proof (short_obs _ _ _ _ E) as S1.
    destruct o1 as [|y [|z o1]]; cbn in H, S1; [| |lia].
    + apply (IH n1 n t1 i a x ok t2). rewrite E2, H. reflexivity.
    + destruct t1 as [|w t1]; cbn in H; injection H as -> H.
      * subst o2. destruct (told_state _ _ _ _ i a x ok E (or_introl eq_refl)) as (p & fs & Q).
        apply (exec_invariant (fun n t => past_scan i n /\ visited i t = []) n1) in E2.
        -- apply E2.
        -- split; [|reflexivity]. exists p, (Telling fs). auto.
        -- clear. intros n t e n' o (A & B) E. destruct (past_scan_step _ _ _ _ _ A E) as (C & D).
           split; [exact C|]. rewrite visited_app, B, D. reflexivity.
      * apply (IH n1 n t1 i a x ok t2). rewrite E2, H. reflexivity.
Qed.

(** ** Tasks end *)

Fixpoint width (f : nat -> list id_t) (l : list nat) : nat :=
  match l with [] => 0 | a :: l' => S (length (f a)) + width f l' end.

Definition weight (n : node) (t : task P) : nat :=
  match t_state t with
  | AtTable => 3 + width (n_links n) (n_table n)
  | Scanning rest fs => 2 + width (n_links n) rest + length fs
  | Telling fs => 1 + length fs
  | Ended => 0
  end.

Definition total (n : node) : nat := list_sum (map (weight n) (n_tasks n)).

Lemma width_remove : forall f a l, In a l ->
  width f (remove Nat.eq_dec a l) + S (length (f a)) <= width f l.
Proof.
  intros n a l. induction l as [|b l IH]; intros I; [destruct I|].
  cbn [remove width]. destruct (Nat.eq_dec a b) as [<-|D].
  - destruct (in_dec Nat.eq_dec a l) as [J|J]; [specialize (IH J); lia|].
    rewrite notin_remove by exact J. lia.
  - destruct I as [I|I]; [congruence|]. specialize (IH I). cbn [width]. lia.
Qed.

Lemma filter_length_le' : forall (l : list id_t) p, length (filter (on_peer me p) l) <= length l.
Proof. intros l p. induction l as [|x l IH]; cbn; [lia|]. destruct (on_peer me p x); cbn; lia. Qed.

Lemma sum_cons : forall x l, list_sum (x :: l) = x + list_sum l.
Proof. reflexivity. Qed.

Lemma total_set : forall n i s t, nth_error (n_tasks n) i = Some t ->
  weight n (mk_task (t_peer t) s) < weight n t ->
  total (mk_node (n_table n) (n_links n) (set_task i s (n_tasks n))) < total n.
Proof.
  intros n i s t Q L. unfold total. cbn [n_tasks].
  assert (W : forall u, weight (mk_node (n_table n) (n_links n) (set_task i s (n_tasks n))) u = weight n u)
    by reflexivity.
  rewrite (map_ext _ _ W). clear W. revert i t Q L.
  induction (n_tasks n) as [|u us IH]; intros [|i] t Q L; try discriminate Q.
  - injection Q as ->. cbn [set_task map]. rewrite !sum_cons. lia.
  - cbn [set_task map]. rewrite !sum_cons. specialize (IH i t Q L). lia.
Qed.

Lemma scan_dec : forall n : node, table_locked n = false \/
  exists i p rest fs, nth_error (n_tasks n) i = Some (mk_task p (Scanning rest fs)).
Proof.
  intros n. unfold table_locked. induction (n_tasks n) as [|[p s] ts IH]; [auto|].
  destruct s as [|rest fs|fs|]; cbn.
  2:{ right. exists 0. cbn. eauto. }
  all: destruct IH as [IH|(i & q & rest & fs' & IH)]; [auto|right; exists (S i); cbn; eauto].
Qed.

Lemma all_ended_dec : forall ts : list (task P), Forall (fun t => t_state t = Ended) ts
  \/ exists i t, nth_error ts i = Some t /\ t_state t <> Ended.
Proof.
  induction ts as [|t ts IH]; [auto|].
  assert (D : t_state t = Ended \/ t_state t <> Ended) by (destruct (t_state t); auto; right; discriminate).
  destruct D as [D|D]; [|right; exists 0, t; auto].
  destruct IH as [IH|(i & u & Q & K)]; [auto|]. right. exists (S i), u. auto.
Qed.

Lemma progress : forall n : node, Forall (fun t => t_state t = Ended) (n_tasks n)
  \/ exists e n' o, of_task e = true /\ step me n e = Some (n', o) /\ total n' < total n.
Proof.
  intros n. destruct (all_ended_dec (n_tasks n)) as [D|(i & [p s] & Q & K)]; [auto|]. right.
  destruct (scan_dec n) as [F|(j & q & rest & fs & R)].
  - destruct s as [|rest fs|fs|]; cbn in K; [| | |congruence].
    + exists (Lock i). cbn [step]. rewrite Q, F. eexists. eexists. split; [reflexivity|].
      split; [reflexivity|]. eapply total_set; [exact Q|]. cbn. lia.
    + destruct rest as [|a rest].
      * exists (Leave i). cbn [step]. rewrite Q. eexists. eexists. split; [reflexivity|].
        split; [reflexivity|]. eapply total_set; [exact Q|]. cbn. lia.
      * exists (Read i a). cbn [step]. rewrite Q.
        replace (existsb (Nat.eqb a) (a :: rest)) with true by (symmetry; apply mem; left; reflexivity).
        eexists. eexists. split; [reflexivity|]. split; [reflexivity|]. eapply total_set; [exact Q|].
        pose proof (width_remove (n_links n) a (a :: rest) (or_introl eq_refl)) as W.
        unfold weight. cbn [t_state]. rewrite app_length. unfold pushed. rewrite map_length.
        pose proof (filter_length_le' (n_links n a) p). lia.
    + destruct fs as [|[a x] fs].
      * exists (Finish i). cbn [step]. rewrite Q. eexists. eexists. split; [reflexivity|].
        split; [reflexivity|]. eapply total_set; [exact Q|]. cbn. lia.
      * exists (Tell i 0 true). cbn [step nth_error]. rewrite Q. eexists. eexists. split; [reflexivity|].
        split; [reflexivity|]. eapply total_set; [exact Q|]. cbn. lia.
  - destruct rest as [|a rest].
    * exists (Leave j). cbn [step]. rewrite R. eexists. eexists. split; [reflexivity|].
      split; [reflexivity|]. eapply total_set; [exact R|]. cbn. lia.
    * exists (Read j a). cbn [step]. rewrite R.
      replace (existsb (Nat.eqb a) (a :: rest)) with true by (symmetry; apply mem; left; reflexivity).
      eexists. eexists. split; [reflexivity|]. split; [reflexivity|]. eapply total_set; [exact R|].
      pose proof (width_remove (n_links n) a (a :: rest) (or_introl eq_refl)) as W.
      unfold weight. cbn [t_state]. rewrite app_length. unfold pushed. rewrite map_length.
      pose proof (filter_length_le' (n_links n a) q). lia.
Qed.

Lemma all_end : forall n : node, exists es n' t, forallb of_task es = true /\ exec me n es = Some (n', t)
  /\ Forall (fun k => t_state k = Ended) (n_tasks n').
Proof.
  intros n. remember (total n) as m eqn:M. revert n M.
  induction m as [m IH] using (well_founded_induction lt_wf). intros n ->.
  destruct (progress n) as [D|(e & n' & o & T & S1 & L)].
  - exists [], n, []. auto.
  - destruct (IH _ L n' eq_refl) as (es & n2 & t & A & B & C).
    exists (e :: es), n2, (o ++ t). cbn. rewrite T, S1, B. auto.
Qed.

(** ** The lock of the table *)
Lemma holding_snoc : forall i (es : list event) e,
  holding i (es ++ [e]) <-> e = Lock i \/ (holding i es /\ e <> Leave i).
Proof.
  intros i es e. split.
  - intros (es1 & es2 & E & N). destruct es2 as [|e2 es2 _] using rev_ind.
    + apply app_inj_tail in E. left. tauto.
    + rewrite app_comm_cons, app_assoc in E. apply app_inj_tail in E. destruct E as [-> ->].
      right. split.
      * exists es1, es2. split; [reflexivity|]. intros I. apply N, in_or_app. auto.
      * intros ->. apply N, in_or_app. right. left. reflexivity.
  - intros [->|((es1 & es2 & -> & N) & M)].
    + exists es, []. split; [reflexivity|intros []].
    + exists es1, (es2 ++ [e]). split; [now rewrite <- app_assoc|].
      intros I. apply in_app_or in I. destruct I as [I|[I|[]]]; auto.
Qed.

Definition scanning (n : node) (i : nat) : Prop :=
  exists p rest fs, nth_error (n_tasks n) i = Some (mk_task p (Scanning rest fs)).

Lemma go_scanning : forall n i s o n' o', go n i s o = Some (n', o') -> forall j,
  scanning n' j <-> (i = j /\ (exists rest fs, s = Scanning rest fs) /\ nth_error (n_tasks n) i <> None)
                    \/ (i <> j /\ scanning n j).
Proof.
  unfold go, scanning. intros n i s o n' o' E j. injection E as <- _. cbn [n_tasks].
  rewrite nth_set. destruct (Nat.eqb_spec i j) as [<-|NE].
  - destruct (nth_error (n_tasks n) i) as [[p s0]|]; cbn.
    + split.
      * intros (q & rest & fs & E). injection E as _ E. left. split; [reflexivity|]. split; [eauto|discriminate].
      * intros [(_ & (rest & fs & ->) & _)|(X & _)]; [eauto|contradiction].
    + split; [intros (q & rest & fs & E); discriminate|]. intros [(_ & _ & X)|(X & _)]; contradiction.
  - destruct (nth_error (n_tasks n) j) as [t|]; (split; [auto|]); intros [(X & _)|(_ & X)]; auto; contradiction.
Qed.

Lemma scanning_holding : forall es n t, exec me fresh es = Some (n, t) ->
  forall i, scanning n i <-> holding i es.
Proof.
  induction es as [|e es IH] using rev_ind; intros n t E i.
  - injection E as <- _. split.
    + intros (p & rest & fs & X). destruct i; discriminate.
    + intros (es1 & es2 & X & _). destruct es1; discriminate.
  - rewrite exec_app in E. destruct (exec me fresh es) as [[n1 t1]|] eqn:E1; [|discriminate].
    cbn [exec] in E. destruct (step me n1 e) as [[n2 o2]|] eqn:E2; [|discriminate]. injection E as <- <-.
    rewrite holding_snoc, <- (IH _ _ eq_refl i). clear IH E1.
    destruct e as [a|a|a l|p c|k|k a|k|k m ok|k]; cbn [step] in E2.
    + destruct (table_locked n1); [discriminate|]. injection E2 as <- <-. unfold scanning. cbn [n_tasks].
      split; [intros X; right; split; [exact X|discriminate]|intros [X|(X & _)]; [discriminate|exact X]].
    + destruct (table_locked n1); [discriminate|]. injection E2 as <- <-. unfold scanning. cbn [n_tasks].
      split; [intros X; right; split; [exact X|discriminate]|intros [X|(X & _)]; [discriminate|exact X]].
    + injection E2 as <- <-. unfold scanning. cbn [n_tasks].
      split; [intros X; right; split; [exact X|discriminate]|intros [X|(X & _)]; [discriminate|exact X]].
    + injection E2 as <- <-. unfold scanning. cbn [n_tasks]. split.
      * intros (q & rest & fs & X). right. split; [|discriminate].
        destruct (Nat.lt_ge_cases i (length (n_tasks n1))) as [L|L].
        -- rewrite nth_error_app1 in X by exact L. eauto.
        -- rewrite nth_error_app2 in X by exact L. destruct (i - length (n_tasks n1)) as [|[|]]; discriminate.
      * intros [X|((q & rest & fs & X) & _)]; [discriminate|]. exists q, rest, fs. rewrite nth_error_app1; [exact X|].
        apply nth_error_Some. congruence.
    + destruct (nth_error (n_tasks n1) k) as [[p [| | |]]|] eqn:K; try discriminate.
      destruct (table_locked n1); [discriminate|]. rewrite (go_scanning _ _ _ _ _ _ E2 i). split.
      * intros [(-> & _)|(_ & X)]; [auto|right; split; [exact X|discriminate]].
      * intros [X|(X & _)].
        -- injection X as ->. left. split; [reflexivity|]. split; [eauto|congruence].
        -- right. split; [|exact X]. intros ->. destruct X as (q & rest & fs & X). congruence.
    + destruct (nth_error (n_tasks n1) k) as [[p [|rest fs| |]]|] eqn:K; try discriminate.
      destruct (existsb (Nat.eqb a) rest); [|discriminate]. rewrite (go_scanning _ _ _ _ _ _ E2 i). split.
      * intros [(-> & _)|(_ & X)]; right; (split; [|discriminate]); [unfold scanning; eauto|exact X].
      * intros [X|(X & _)]; [discriminate|]. destruct (Nat.eq_dec k i) as [->|NE]; [|auto].
        left. split; [reflexivity|]. split; [eauto|congruence].
    + destruct (nth_error (n_tasks n1) k) as [[p [|[|] fs| |]]|] eqn:K; try discriminate.
      rewrite (go_scanning _ _ _ _ _ _ E2 i). split.
      * intros [(_ & (rest & fs' & X) & _)|(NE & X)]; [discriminate|]. right. split; [exact X|]. congruence.
      * intros [X|(X & NE)]; [discriminate|]. right. split; [congruence|exact X].
    + destruct (nth_error (n_tasks n1) k) as [[p [| |fs|]]|] eqn:K; try discriminate.
      destruct (nth_error fs m) as [[b y]|]; [|discriminate].
      rewrite (go_scanning _ _ _ _ _ _ E2 i). split.
      * intros [(_ & (rest & fs' & X) & _)|(NE & X)]; [discriminate|]. right. split; [exact X|discriminate].
      * intros [X|(X & _)]; [discriminate|]. right. split; [|exact X]. intros ->.
        destruct X as (q & rest & fs' & X). congruence.
    + destruct (nth_error (n_tasks n1) k) as [[p [| |[|]|]]|] eqn:K; try discriminate.
      rewrite (go_scanning _ _ _ _ _ _ E2 i). split.
      * intros [(_ & (rest & fs' & X) & _)|(NE & X)]; [discriminate|]. right. split; [exact X|discriminate].
      * intros [X|(X & _)]; [discriminate|]. right. split; [|exact X]. intros ->.
        destruct X as (q & rest & fs' & X). congruence.
Qed.

Lemma locked_scanning : forall n, table_locked n = true <-> exists i, scanning n i.
Proof.
  intros n. unfold table_locked, scanning. rewrite existsb_exists. split.
  - intros ([p s] & I & S). apply In_nth_error in I. destruct I as [i I]. cbn in S.
    destruct s; try discriminate. eauto.
  - intros (i & p & rest & fs & X). apply nth_error_In in X. eexists. split; [exact X|reflexivity].
Qed.

Lemma table_lock : forall es n t e, exec me fresh es = Some (n, t) ->
  (exists a, e = Insert a \/ e = Remove a) \/ (exists i p, e = Lock i /\ nth_error (n_tasks n) i = Some (mk_task p AtTable)) ->
  (step me n e <> None <-> forall i, ~ holding i es).
Proof.
  intros es n t e E H.
  assert (L : table_locked n = false <-> forall i, ~ holding i es).
  { destruct (table_locked n) eqn:T.
    - split; [discriminate|]. intros N. apply locked_scanning in T. destruct T as [i T].
      apply (scanning_holding _ _ _ E) in T. now apply N in T.
    - split; [|reflexivity]. intros _ i X. apply (scanning_holding _ _ _ E) in X.
      assert (Y : table_locked n = true) by (apply locked_scanning; eauto). congruence. }
  rewrite <- L. destruct H as [(a & [-> | ->]) | (i & p & -> & K)]; cbn [step]; rewrite ?K;
    destruct (table_locked n); split; try congruence; discriminate.
Qed.

End Proofs.
