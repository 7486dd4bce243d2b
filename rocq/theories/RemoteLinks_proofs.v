(** Proofs about RemoteLinks. *)
From Coq Require Import List Bool Arith PeanoNat Lia FinFun.
From Verif Require Import RemoteLinks RemoteLinks_spec.
Import ListNotations.

Section Proofs.
Variable known : nat -> nat -> bool.

Local Notation step := (step known).
Local Notation exec := (exec known).

(** ** Ids, lists *)

Lemma aid_ok : forall x y, reflect (x = y) (aid_eqb x y).
Proof.
  intros [h n] [h' n']. unfold aid_eqb. cbn.
  destruct (Nat.eqb_spec h h') as [<-|H]; destruct (Nat.eqb_spec n n') as [<-|H2]; cbn; constructor; congruence.
Qed.

Lemma aid_refl : forall x, aid_eqb x x = true.
Proof. intros x. destruct (aid_ok x x); congruence. Qed.

Lemma update_same : forall A i (x : A) l y, nth_error l i = Some y -> nth_error (update i x l) i = Some x.
Proof. induction i as [|i IH]; intros x [|z l] y H; cbn in *; try discriminate; eauto. Qed.

Lemma update_other : forall A i j (x : A) l, i <> j -> nth_error (update i x l) j = nth_error l j.
Proof.
  induction i as [|i IH]; intros [|j] x [|z l] H; cbn; try reflexivity; try congruence.
  apply IH. congruence.
Qed.

Lemma update_length : forall A i (x : A) l, length (update i x l) = length l.
Proof. induction i as [|i IH]; intros x [|z l]; cbn; congruence. Qed.

Lemma update_in : forall A i (x y : A) l, In y (update i x l) -> y = x \/ In y l.
Proof.
  induction i as [|i IH]; intros x y [|z l] H; cbn in *; try tauto.
  - destruct H as [H|H]; auto.
  - destruct H as [H|H]; auto. destruct (IH _ _ _ H); auto.
Qed.

Lemma update_map : forall A B (f : A -> B) i x l y, nth_error l i = Some y -> f x = f y ->
  map f (update i x l) = map f l.
Proof.
  induction i as [|i IH]; intros x [|z l] y H E; cbn in *; try reflexivity.
  - injection H as ->. congruence.
  - f_equal. eapply IH; eauto.
Qed.

Lemma unlink_in : forall y l z rid, In (z, rid) (unlink_from y l) <-> In (z, rid) l /\ z <> y.
Proof.
  intros y l z rid. unfold unlink_from. rewrite filter_In. cbn.
  destruct (aid_ok y z) as [E|E]; cbn; split; intros [H1 H2]; split; try congruence; try assumption; now intros <-.
Qed.

Lemma link_in : forall y r l z rid, In (z, rid) (link_to y r l) <->
  (z = y /\ rid = r) \/ (In (z, rid) l /\ z <> y).
Proof.
  intros y r l z rid. unfold link_to. cbn [In]. rewrite unlink_in. split.
  - intros [[= -> ->]|H]; auto.
  - intros [[-> ->]|H]; auto.
Qed.

Lemma unlink_keys : forall y l, map fst (unlink_from y l) = filter (fun z => negb (aid_eqb y z)) (map fst l).
Proof.
  unfold unlink_from. induction l as [|[z r] l IH]; cbn; [reflexivity|].
  destruct (negb (aid_eqb y z)); cbn; congruence.
Qed.

Lemma unlink_nodup : forall y l, NoDup (map fst l) -> NoDup (map fst (unlink_from y l)).
Proof. intros y l H. rewrite unlink_keys. apply NoDup_filter, H. Qed.

Lemma link_nodup : forall y r l, NoDup (map fst l) -> NoDup (map fst (link_to y r l)).
Proof.
  intros y r l H. unfold link_to. cbn [map fst]. constructor.
  - rewrite unlink_keys, filter_In, aid_refl. intros [_ E]. discriminate E.
  - apply unlink_nodup, H.
Qed.

(** ** Runs *)

Lemma exec_app : forall es1 es2 w,
  exec w (es1 ++ es2) =
  match exec w es1 with
  | None => None
  | Some (w1, o1) =>
      match exec w1 es2 with None => None | Some (w2, o2) => Some (w2, o1 ++ o2) end
  end.
Proof.
  induction es1 as [|e es1 IH]; intros es2 w; cbn [RemoteLinks.exec app].
  - destruct (exec w es2) as [[w2 o2]|]; reflexivity.
  - destruct (step w e) as [[w1 o1]|]; [|reflexivity].
    rewrite IH. destruct (exec w1 es1) as [[w2 o2]|]; [|reflexivity].
    destruct (exec w2 es2) as [[w3 o3]|]; [|reflexivity].
    rewrite app_assoc. reflexivity.
Qed.

Lemma exec_invariant : forall (I : world -> list obs -> Prop) (Q : event -> Prop) w0,
  I w0 [] ->
  (forall w t e w' o, I w t -> Q e -> step w e = Some (w', o) -> I w' (t ++ o)) ->
  forall es w t, Forall Q es -> exec w0 es = Some (w, t) -> I w t.
Proof.
  intros I Q w0 H0 Hstep es. induction es as [|e es IH] using rev_ind; intros w t F H.
  - cbn in H. inversion H; subst. exact H0.
  - apply Forall_app in F. destruct F as [F1 F2]. inversion F2; subst.
    rewrite exec_app in H. destruct (exec w0 es) as [[w1 o1]|] eqn:E; [|discriminate].
    cbn [RemoteLinks.exec] in H. destruct (step w1 e) as [[w3 o3]|] eqn:E2; [|discriminate].
    inversion H; subst. rewrite app_nil_r. eapply Hstep; eauto.
Qed.

Lemma exec_inv : forall (I : world -> list obs -> Prop) w0,
  I w0 [] -> (forall w t e w' o, I w t -> step w e = Some (w', o) -> I w' (t ++ o)) ->
  forall es w t, exec w0 es = Some (w, t) -> I w t.
Proof.
  intros I w0 H0 Hs es w t H.
  apply (exec_invariant I (fun _ => True) w0) with (es := es); auto.
  - intros w1 t1 e w' o HI _ E. eauto.
  - apply Forall_forall. auto.
Qed.

Ltac cases H :=
  unfold RemoteLinks.step, poll, find_step, apply_step, find_note, signal_note, at_request, at_point, note_at in H;
  repeat (cbv beta zeta in H; match type of H with
  | context [match ?x with _ => _ end] => destruct x eqn:?
  end; try discriminate H);
  try (injection H as <- <-).

(** Where the actors are. *)
Lemma actors_set : forall x a w z, w_actors (set_actor x a w) z = if aid_eqb x z then Some a else w_actors w z.
Proof. reflexivity. Qed.

Ltac ids := repeat match goal with |- context [aid_eqb ?u ?v] => destruct (aid_ok u v) as [<-|] end.

(** Actors keep their type; they never disappear. *)
Lemma actor_stays : forall w e w' o x a, step w e = Some (w', o) -> w_actors w x = Some a ->
  exists a', w_actors w' x = Some a' /\ a_rid a' = a_rid a.
Proof.
  intros w e w' o x a H Ha. destruct e; cases H; cbn; ids.
  all: try (eexists; split; [eassumption|reflexivity]).
  all: try (eexists; split; [reflexivity|]; cbn; congruence).
Qed.

(** ** The maps are what was observed *)

(** [linked] as a test. *)
Definition linkedb (w : world) (x y : aid) : bool :=
  match w_actors w x with
  | Some a => existsb (fun e => aid_eqb y (fst e)) (a_links a)
  | None => false
  end.

Lemma linkedb_ok : forall w x y, linkedb w x y = true <-> linked w x y.
Proof.
  intros w x y. unfold linkedb, linked. destruct (w_actors w x) as [a|].
  - rewrite existsb_exists. split.
    + intros ([z r] & I & E). cbn in E. destruct (aid_ok y z) as [<-|]; [|discriminate]. eauto.
    + intros (a' & rid & [= <-] & I). exists (y, rid). split; [exact I|apply aid_refl].
  - split; [discriminate|]. intros (a & _ & E & _). discriminate E.
Qed.

Lemma exists_unlink : forall y z l,
  existsb (fun e => aid_eqb y (fst e)) (unlink_from z l)
  = negb (aid_eqb y z) && existsb (fun e => aid_eqb y (fst e)) l.
Proof.
  intros y z l. unfold unlink_from. induction l as [|[u r] l IH]; cbn.
  - now rewrite andb_false_r.
  - destruct (aid_ok z u) as [<-|N]; cbn; rewrite ?IH.
    + destruct (aid_ok y z); cbn; reflexivity.
    + destruct (aid_ok y u) as [<-|]; cbn; [|reflexivity].
      destruct (aid_ok y z); [congruence|reflexivity].
Qed.

Lemma exists_link : forall y z r l,
  existsb (fun e => aid_eqb y (fst e)) (link_to z r l)
  = aid_eqb y z || existsb (fun e => aid_eqb y (fst e)) l.
Proof.
  intros y z r l. unfold link_to. cbn. rewrite exists_unlink.
  destruct (aid_eqb y z); reflexivity.
Qed.

Lemma link_after_app : forall x y t1 b t2,
  link_after x y b (t1 ++ t2) = link_after x y (link_after x y b t1) t2.
Proof. induction t1 as [|o t1 IH]; intros b t2; cbn; [reflexivity|apply IH]. Qed.

Ltac at_id x :=
  match goal with |- context [if aid_eqb ?u x then _ else _] => destruct (aid_ok u x) as [<-|] end;
  repeat match goal with
  | |- context [aid_eqb ?u ?u] => rewrite (aid_refl u)
  | N : ?u <> x |- context [aid_eqb x ?u] => destruct (aid_ok x u); [congruence|]
  end; cbn.

Lemma map_step : forall w e w' o x y, step w e = Some (w', o) ->
  linkedb w' x y = link_after x y (linkedb w x y) o.
Proof.
  intros w e w' o x y H. unfold linkedb.
  destruct e; cases H; cbn; try reflexivity; at_id x;
  repeat match goal with
       | E : w_actors w ?z = _ |- context [w_actors w ?z] => rewrite E
       end; cbn; rewrite ?exists_unlink, ?exists_link; try reflexivity;
  try (match goal with |- context [aid_eqb y ?u] => destruct (aid_eqb y u) end; reflexivity).
Qed.

Lemma map_history : forall es w t x y, exec fresh es = Some (w, t) ->
  (linked w x y <-> link_after x y false t = true).
Proof.
  intros es w t x y H. rewrite <- linkedb_ok.
  enough (E : linkedb w x y = link_after x y false t) by (rewrite E; tauto).
  revert es w t H. apply (exec_inv (fun w t => linkedb w x y = link_after x y false t)).
  - reflexivity.
  - intros w t e w' o IH E. rewrite link_after_app, <- IH. eapply map_step, E.
Qed.

Lemma map_from : forall es w w' t x y, exec w es = Some (w', t) ->
  linkedb w' x y = link_after x y (linkedb w x y) t.
Proof.
  intros es w w' t x y H. revert es w' t H.
  apply (exec_inv (fun w' t => linkedb w' x y = link_after x y (linkedb w x y) t)).
  - reflexivity.
  - intros w1 t e w' o IH E. rewrite link_after_app, <- IH. eapply map_step, E.
Qed.

Lemma keeps_true : forall x y t, keeps x y t -> link_after x y true t = true.
Proof.
  intros x y t. induction t as [|o t IH]; intros (K1 & K2 & K3); cbn; [reflexivity|].
  assert (K : link_after x y true t = true).
  { apply IH. repeat split.
    - intros i I. apply (K1 i). now right.
    - intros I. apply K2. now right.
    - intros r l I. apply (K3 r l). now right. }
  destruct o as [i u v|i u v|i r|u r l|k r|u d r|u v|u]; try exact K.
  - destruct (_ && _); exact K.
  - destruct (aid_ok x u) as [<-|]; cbn; [|exact K]. destruct (aid_ok y v) as [<-|]; cbn; [|exact K].
    exfalso. apply (K1 i). now left.
  - destruct (aid_ok x u) as [<-|]; [|exact K]. exfalso. apply (K3 r l). now left.
  - destruct (aid_ok x u) as [<-|]; cbn; [|exact K]. destruct (aid_ok y v) as [<-|]; cbn; [|exact K].
    exfalso. apply K2. now left.
Qed.

Lemma keeps_linked : forall i x y t b, keeps x y t -> In (OLinked i x y) t -> link_after x y b t = true.
Proof.
  intros i x y t b K I. apply in_split in I. destruct I as (t1 & t2 & ->).
  rewrite link_after_app. cbn. rewrite !aid_refl. cbn. apply keeps_true.
  destruct K as (K1 & K2 & K3). repeat split.
  - intros j I. apply (K1 j), in_or_app. right. now right.
  - intros I. apply K2, in_or_app. right. now right.
  - intros r l I. apply (K3 r l), in_or_app. right. now right.
Qed.

(** ** What a call has done *)

Lemma order_weaken : forall l t o, in_order l t -> in_order l (t ++ o).
Proof.
  induction l as [|a l IH]; intros t o H; cbn in *; [exact I|].
  destruct H as (t1 & t2 & -> & H). exists t1, (t2 ++ o). split; [now rewrite <- app_assoc|auto].
Qed.

Lemma order_add : forall l a t o, in_order l t -> In a o -> in_order (l ++ [a]) (t ++ o).
Proof.
  induction l as [|b l IH]; intros a t o H Ia; cbn in *.
  - apply in_split in Ia. destruct Ia as (o1 & o2 & ->). exists (t ++ o1), o2.
    split; [now rewrite <- app_assoc|exact I].
  - destruct H as (t1 & t2 & -> & H). exists t1, (t2 ++ o). split; [now rewrite <- app_assoc|auto].
Qed.

Lemma order_in : forall a l t, in_order l t -> In a l -> In a t.
Proof.
  induction l as [|b l IH]; intros t H Ia; [destruct Ia|]. cbn in H.
  destruct H as (t1 & t2 & -> & H). apply in_or_app. right.
  destruct Ia as [->|Ia]; [now left|right; auto].
Qed.

(** The observations of a call that has come this far. *)
Definition call_ok (t : list obs) (i : nat) (c : call) : Prop :=
  if aid_eqb (c_from c) (c_to c) then
    c_half c = false /\ c_req c = Unsent /\ c_at c <> AtLinks /\ c_at c <> AtSwarm /\ c_at c <> Waiting
  else
    let a := mark i (c_op c) (c_from c) (c_to c) in
    let b := mark i (c_op c) (c_to c) (c_from c) in
    let own := if c_half c then [] else [a] in
    (c_at c = AtSwarm \/ c_req c <> Unsent -> in_order own t)
    /\ (c_req c = Served Success -> in_order (own ++ [b]) t)
    /\ (c_at c = Returned Success -> in_order (own ++ [b; OReturned i Success]) t)
    /\ (c_at c = AtStart \/ c_at c = AtLinks -> c_req c = Unsent /\ c_half c = false)
    /\ (c_at c = AtLinks -> c_op c = OpLink).

Lemma call_weaken : forall t o i c, call_ok t i c -> call_ok (t ++ o) i c.
Proof.
  intros t o i c. unfold call_ok. destruct (aid_eqb _ _); [auto|].
  cbv zeta. intros (H1 & H2 & H3 & H4 & H5). repeat split; intros; auto using order_weaken; now apply H4.
Qed.

Definition calls_ok (w : world) (t : list obs) : Prop :=
  forall i c, nth_error (w_calls w) i = Some c -> call_ok t i c.

Lemma calls_weaken : forall w w' t o, calls_ok w t -> w_calls w' = w_calls w -> calls_ok w' (t ++ o).
Proof. intros w w' t o H E i c N. rewrite E in N. apply call_weaken, H, N. Qed.

Lemma calls_update : forall w w' t o i c c', calls_ok w t -> nth_error (w_calls w) i = Some c ->
  w_calls w' = update i c' (w_calls w) -> call_ok (t ++ o) i c' -> calls_ok w' (t ++ o).
Proof.
  intros w w' t o i c c' H N E K j d Nj. rewrite E in Nj.
  destruct (Nat.eq_dec i j) as [<-|Ne].
  - rewrite (update_same _ _ _ _ _ N) in Nj. injection Nj as <-. exact K.
  - rewrite update_other in Nj by exact Ne. apply call_weaken, H, Nj.
Qed.

Ltac finish_call K1 K2 K3 K4 K5 :=
  match goal with
  | C : _ |- _ => solve [exfalso; first [specialize (K4 (or_introl C))|specialize (K4 (or_intror C))]; destruct K4; congruence]
  | C : _ |- _ => congruence
  | C : _ |- _ => solve [exact (K5 C)]
  | |- in_order _ (_ ++ _) => apply order_weaken; solve [apply K1; (left; congruence) || (right; congruence)
                                                        | apply K2; congruence | apply K3; congruence]
  | |- in_order [?a] (?t ++ ?o) => apply (order_add [] a t o); [exact I|left; congruence]
  | |- in_order [?b; ?a] (?t ++ ?o) => apply (order_add [b] a t o); [first [apply K1; right; congruence|apply K2; congruence]|left; congruence]
  | |- in_order [?c; ?b; ?a] (?t ++ ?o) => apply (order_add [c; b] a t o); [apply K2; congruence|left; congruence]
  | |- in_order [] _ => exact I
  | |- _ = Unsent /\ _ => apply K4; auto
  end.

Lemma calls_step : forall w t e w' o, calls_ok w t -> step w e = Some (w', o) -> calls_ok w' (t ++ o).
Proof.
  intros w t e w' o H E.
  destruct e; cases E;
  try (eapply calls_weaken; [exact H|reflexivity]);
  try (match goal with N : nth_error (w_calls _) ?i = Some ?c |- _ =>
              eapply calls_update; [exact H|exact N|reflexivity|];
              pose proof (H _ _ N) as K end;
            unfold call_ok in *; cbn [c_from c_to c_op c_at c_req c_half];
            match goal with K : context [aid_eqb ?u ?v] |- _ => destruct (aid_eqb u v) eqn:? end;
            [destruct K as (K1 & K2 & K3 & K4 & K5); repeat split; cbn in *; congruence|];
            destruct K as (K1 & K2 & K3 & K4 & K5);
            try (match goal with Ha : c_at _ = AtLinks |- _ => rewrite (K5 Ha) in * end);
            try (match goal with Ho : c_op _ = _ |- _ => rewrite Ho in * end);
            unfold mark in *; cbv zeta in *;
            match goal with K : context [c_half ?c] |- _ => destruct (c_half c) eqn:? end; cbn [app] in *;
            (split; [|split; [|split; [|split]]]); intros C; try (destruct C as [C|C]);
            try (finish_call K1 K2 K3 K4 K5)).
  - intros j c N. cbn in N. rewrite app_nil_r.
    destruct (Nat.lt_ge_cases j (length (w_calls w))) as [L|L].
    + rewrite nth_error_app1 in N by exact L. apply H, N.
    + rewrite nth_error_app2 in N by exact L. destruct (j - length (w_calls w)) as [|m]; cbn in N.
      * injection N as <-. unfold call_ok. cbn. destruct (aid_eqb x y); repeat split; intros; try discriminate; try tauto.
        destruct H0; [discriminate|tauto].
      * destruct m; discriminate N.
  - intros j c N. cbn in N. rewrite app_nil_r.
    destruct (Nat.lt_ge_cases j (length (w_calls w))) as [L|L].
    + rewrite nth_error_app1 in N by exact L. apply H, N.
    + rewrite nth_error_app2 in N by exact L. destruct (j - length (w_calls w)) as [|m]; cbn in N.
      * injection N as <-. unfold call_ok. cbn. destruct (aid_eqb x y); [discriminate|].
        intuition discriminate.
      * destruct m; discriminate N.
Qed.

Lemma calls_run : forall es w t, exec fresh es = Some (w, t) -> calls_ok w t.
Proof.
  apply (exec_inv calls_ok); [|intros; eapply calls_step; eauto].
  intros [|i] c N; discriminate N.
Qed.

(** What a call was made with does not change. *)
Definition same_call (c c' : call) : Prop :=
  c_op c' = c_op c /\ c_from c' = c_from c /\ c_to c' = c_to c /\ c_rid c' = c_rid c
  /\ c_half c' = c_half c /\ c_me c' = c_me c /\ c_own c' = c_own c.

Lemma nth_old : forall A (l l' : list A) i x, nth_error l i = Some x -> nth_error (l ++ l') i = Some x.
Proof.
  intros A l l' i x H. rewrite nth_error_app1; [exact H|]. apply nth_error_Some. congruence.
Qed.

Lemma call_next : forall w e w' o i c, step w e = Some (w', o) -> nth_error (w_calls w) i = Some c ->
  exists c', nth_error (w_calls w') i = Some c' /\ same_call c c'
  /\ (forall r, c_at c = Returned r -> c_at c' = Returned r)
  /\ (c_at c = Dropped -> c_at c' = Dropped).
Proof.
  intros w e w' o i c H N. unfold same_call.
  destruct e; cases H; cbn;
  try (exists c; split; [exact N|auto 20]; fail);
  try (exists c; split; [apply nth_old, N|auto 20]; fail);
  match goal with N0 : nth_error (w_calls w) ?j = Some ?d |- context [update ?j ?d' _] =>
    destruct (Nat.eq_dec j i) as [<-|Ne];
    [rewrite N0 in N; injection N as <-; exists d'; split; [exact (update_same _ _ _ _ _ N0)|];
     cbn; split; [auto 20|]; split; intros; congruence
    |rewrite (update_other _ _ _ _ _ Ne); exists c; auto 20]
  end.
Qed.

Lemma call_later : forall es w w' t i c, exec w es = Some (w', t) -> nth_error (w_calls w) i = Some c ->
  exists c', nth_error (w_calls w') i = Some c' /\ same_call c c'
  /\ (forall r, c_at c = Returned r -> c_at c' = Returned r).
Proof.
  induction es as [|e es IH]; intros w w' t i c H N; cbn in H.
  - injection H as <- <-. exists c. unfold same_call. auto 20.
  - destruct (step w e) as [[w1 o1]|] eqn:E; [|discriminate].
    destruct (exec w1 es) as [[w2 o2]|] eqn:E2; [|discriminate]. injection H as <- <-.
    destruct (call_next _ _ _ _ _ _ E N) as (c1 & N1 & (A1 & A2 & A3 & A4 & A5 & A6 & A7) & R1 & _).
    destruct (IH _ _ _ _ _ E2 N1) as (c2 & N2 & (B1 & B2 & B3 & B4 & B5 & B6 & B7) & R2).
    exists c2. unfold same_call. repeat split; try congruence. auto.
Qed.

Definition obs_call (o : obs) : option nat :=
  match o with
  | OLinked i _ _ | OUnlinked i _ _ | OReturned i _ => Some i
  | _ => None
  end.

Lemma obs_known : forall w e w' o i a, step w e = Some (w', o) -> In a o -> obs_call a = Some i ->
  exists c, nth_error (w_calls w) i = Some c /\ nth_error (w_calls w') i <> None.
Proof.
  intros w e w' o i a H Ia Ha.
  assert (X : exists c, nth_error (w_calls w) i = Some c).
  { destruct e; cases H; cbn in Ia; try (destruct Ia; fail);
    repeat (destruct Ia as [<-|Ia]; [try discriminate Ha; cbn in Ha; injection Ha as <-; eauto|]);
    destruct Ia. }
  destruct X as (c & N). exists c. split; [exact N|].
  destruct (call_next _ _ _ _ _ _ H N) as (c' & N' & _). congruence.
Qed.

Lemma obs_old : forall es w t i a, exec fresh es = Some (w, t) -> In a t -> obs_call a = Some i ->
  nth_error (w_calls w) i <> None.
Proof.
  intros es w t i a H. revert es w t H.
  apply (exec_inv (fun w t => In a t -> obs_call a = Some i -> nth_error (w_calls w) i <> None)).
  - intros [].
  - intros w t e w' o IH E I0 Ha. apply in_app_or in I0. destruct I0 as [I0|I0].
    + destruct (nth_error (w_calls w) i) as [c|] eqn:N; [|exfalso; now apply IH].
      destruct (call_next _ _ _ _ _ _ E N) as (c' & N' & _). congruence.
    + destruct (obs_known _ _ _ _ _ _ E I0 Ha) as (c & _ & N). exact N.
Qed.

Lemma returned_is : forall es w t i r, exec fresh es = Some (w, t) -> In (OReturned i r) t ->
  exists c, nth_error (w_calls w) i = Some c /\ c_at c = Returned r.
Proof.
  intros es w t i r H. revert es w t H.
  apply (exec_inv (fun w t => In (OReturned i r) t ->
           exists c, nth_error (w_calls w) i = Some c /\ c_at c = Returned r)).
  - intros [].
  - intros w t e w' o IH E I0. apply in_app_or in I0. destruct I0 as [I0|I0].
    + destruct (IH I0) as (c & N & R). destruct (call_next _ _ _ _ _ _ E N) as (c' & N' & _ & S' & _).
      exists c'. auto.
    + destruct e; cases E; cbn in I0; try (destruct I0; fail);
      repeat (destruct I0 as [I0|I0]; [try discriminate I0; injection I0 as <- <-|]); try (destruct I0; fail);
      cbn; match goal with N0 : nth_error (w_calls w) ?j = Some ?d |- context [update ?j ?d' _] =>
        exists d'; split; [exact (update_same _ _ _ _ _ N0)|reflexivity] end.
Qed.

Lemma success_order : forall es w t i c, exec fresh es = Some (w, t) ->
  nth_error (w_calls w) i = Some c -> c_from c <> c_to c -> In (OReturned i Success) t ->
  in_order ((if c_half c then [] else [mark i (c_op c) (c_from c) (c_to c)])
            ++ [mark i (c_op c) (c_to c) (c_from c); OReturned i Success]) t.
Proof.
  intros es w t i c H N D I0. destruct (returned_is _ _ _ _ _ H I0) as (c' & N' & R).
  rewrite N in N'. injection N' as <-.
  pose proof (calls_run _ _ _ H _ _ N) as K. unfold call_ok in K.
  destruct (aid_ok (c_from c) (c_to c)); [congruence|]. now apply K.
Qed.

Lemma exec_call : forall w1 o x y rid es2 w2 t2,
  exec w1 (Call o x y rid :: es2) = Some (w2, t2) ->
  exists c, nth_error (w_calls w2) (length (w_calls w1)) = Some c
  /\ c_op c = o /\ c_from c = x /\ c_to c = y /\ c_half c = false.
Proof.
  intros w1 o x y rid es2 w2 t2 H. cbn in H.
  destruct (w_actors w1 x) as [a|]; [|discriminate].
  match type of H with match ?e with _ => _ end = _ => destruct e as [[w3 o3]|] eqn:E; [|discriminate] end.
  injection H as <- <-.
  destruct (call_later _ _ _ _ (length (w_calls w1))
              (mk_call o false (home x) x (a_rid a) y rid AtStart Unsent 0) E) as (c & N & S1 & _).
  - cbn. rewrite nth_error_app2, Nat.sub_diag by lia. reflexivity.
  - exists c. destruct S1 as (A & B & C & D & F & _). auto 10.
Qed.

Lemma exec_half : forall w1 o me x own y rid es2 w2 t2,
  exec w1 (Half o me x own y rid :: es2) = Some (w2, t2) -> x <> y /\
  exists c, nth_error (w_calls w2) (length (w_calls w1)) = Some c
  /\ c_op c = o /\ c_from c = x /\ c_to c = y /\ c_half c = true.
Proof.
  intros w1 o me x own y rid es2 w2 t2 H. cbn in H. destruct (aid_ok x y) as [|D]; [discriminate|].
  split; [exact D|].
  match type of H with match ?e with _ => _ end = _ => destruct e as [[w3 o3]|] eqn:E; [|discriminate] end.
  injection H as <- <-.
  destruct (call_later _ _ _ _ (length (w_calls w1))
              (mk_call o true me x own y rid AtSwarm Unsent 0) E) as (c & N & S1 & _).
  - cbn. rewrite nth_error_app2, Nat.sub_diag by lia. reflexivity.
  - exists c. destruct S1 as (A & B & C & F & G & _). auto 10.
Qed.

Lemma success_later : forall o es1 w1 t1 x y rid es2 w2 t2,
  exec fresh es1 = Some (w1, t1) -> exec w1 (Call o x y rid :: es2) = Some (w2, t2) -> x <> y ->
  In (OReturned (length (w_calls w1)) Success) t2 ->
  let i := length (w_calls w1) in
  In (mark i o x y) t2 /\ In (mark i o y x) t2
  /\ in_order [mark i o x y; mark i o y x; OReturned i Success] (t1 ++ t2).
Proof.
  intros o es1 w1 t1 x y rid es2 w2 t2 H1 H2 D I2 i.
  assert (H : exec fresh (es1 ++ Call o x y rid :: es2) = Some (w2, t1 ++ t2)).
  { rewrite exec_app, H1, H2. reflexivity. }
  destruct (exec_call _ _ _ _ _ _ _ _ H2) as (c & N & Ho & Hx & Hy & Hh).
  assert (O : in_order [mark i o x y; mark i o y x; OReturned i Success] (t1 ++ t2)).
  { rewrite <- Ho, <- Hx, <- Hy. pose proof (success_order _ _ _ i _ H N) as Q. rewrite Hh in Q.
    apply Q; [congruence|]. apply in_or_app. now right. }
  assert (New : forall a, obs_call a = Some i -> In a (t1 ++ t2) -> In a t2).
  { intros a Ha Ia. apply in_app_or in Ia. destruct Ia as [Ia|Ia]; [|exact Ia].
    exfalso. apply (obs_old _ _ _ _ _ H1 Ia Ha). apply nth_error_None. unfold i. lia. }
  split; [|split; [|exact O]]; apply New.
  - destruct o; reflexivity.
  - eapply order_in; [exact O|]. cbn. auto.
  - destruct o; reflexivity.
  - eapply order_in; [exact O|]. cbn. auto.
Qed.

(** The futures of calls on a [RemoteActorRef]. *)
Lemma half_later : forall o es1 w1 t1 me x own y rid es2 w2 t2,
  exec fresh es1 = Some (w1, t1) -> exec w1 (Half o me x own y rid :: es2) = Some (w2, t2) ->
  In (OReturned (length (w_calls w1)) Success) t2 ->
  let i := length (w_calls w1) in
  x <> y /\ In (mark i o y x) t2 /\ in_order [mark i o y x; OReturned i Success] (t1 ++ t2).
Proof.
  intros o es1 w1 t1 me x own y rid es2 w2 t2 H1 H2 I2 i.
  assert (H : exec fresh (es1 ++ Half o me x own y rid :: es2) = Some (w2, t1 ++ t2)).
  { rewrite exec_app, H1, H2. reflexivity. }
  destruct (exec_half _ _ _ _ _ _ _ _ _ _ H2) as (D & c & N & Ho & Hx & Hy & Hh).
  assert (O : in_order [mark i o y x; OReturned i Success] (t1 ++ t2)).
  { rewrite <- Ho, <- Hx, <- Hy. pose proof (success_order _ _ _ i _ H N) as Q. rewrite Hh in Q.
    apply Q; [congruence|]. apply in_or_app. now right. }
  split; [exact D|split; [|exact O]].
  assert (Ia : In (mark i o y x) (t1 ++ t2)) by (eapply order_in; [exact O|now left]).
  apply in_app_or in Ia. destruct Ia as [Ia|Ia]; [|exact Ia].
  exfalso. assert (Ha : obs_call (mark i o y x) = Some i) by (destruct o; reflexivity).
  apply (obs_old _ _ _ _ _ H1 Ia Ha). apply nth_error_None. unfold i. lia.
Qed.

Lemma mutual : forall es1 w1 t1 x y rid es2 w2 t2,
  exec fresh es1 = Some (w1, t1) -> exec w1 (Call OpLink x y rid :: es2) = Some (w2, t2) -> x <> y ->
  In (OReturned (length (w_calls w1)) Success) t2 -> keeps x y t2 -> keeps y x t2 ->
  linked w2 x y /\ linked w2 y x.
Proof.
  intros es1 w1 t1 x y rid es2 w2 t2 H1 H2 D I2 K1 K2.
  destruct (success_later _ _ _ _ _ _ _ _ _ _ H1 H2 D I2) as (A & B & _).
  rewrite <- !linkedb_ok, !(map_from _ _ _ _ _ _ H2).
  split; eapply keeps_linked; eauto; cbn; eauto.
Qed.

(** Nothing puts the link of [x] to [y] back. *)
Lemma gone_false : forall x y t, (forall i, ~ In (OLinked i x y) t) -> link_after x y false t = false.
Proof.
  intros x y t. induction t as [|o t IH]; intros K; cbn; [reflexivity|].
  assert (K' : link_after x y false t = false) by (apply IH; intros i I; apply (K i); now right).
  destruct o as [i u v|i u v|i r|u r l|k r|u d r|u v|u]; try exact K';
    try (destruct (_ && _); exact K'); try (destruct (aid_eqb _ _); exact K').
  destruct (aid_ok x u) as [<-|]; cbn; [|exact K']. destruct (aid_ok y v) as [<-|]; cbn; [|exact K'].
  exfalso. apply (K i). now left.
Qed.

Lemma unlinked_false : forall i x y t b, (forall j, ~ In (OLinked j x y) t) ->
  In (OUnlinked i x y) t -> link_after x y b t = false.
Proof.
  intros i x y t b K I. apply in_split in I. destruct I as (t1 & t2 & ->).
  rewrite link_after_app. cbn. rewrite !aid_refl. cbn. apply gone_false.
  intros j I. apply (K j), in_or_app. right. now right.
Qed.

Lemma severed : forall es1 w1 t1 x y rid es2 w2 t2,
  exec fresh es1 = Some (w1, t1) -> exec w1 (Call OpUnlink x y rid :: es2) = Some (w2, t2) -> x <> y ->
  In (OReturned (length (w_calls w1)) Success) t2 ->
  (forall i, ~ In (OLinked i x y) t2) -> (forall i, ~ In (OLinked i y x) t2) ->
  ~ linked w2 x y /\ ~ linked w2 y x.
Proof.
  intros es1 w1 t1 x y rid es2 w2 t2 H1 H2 D I2 K1 K2.
  destruct (success_later _ _ _ _ _ _ _ _ _ _ H1 H2 D I2) as (A & B & _). cbn in A, B.
  rewrite <- !linkedb_ok, !(map_from _ _ _ _ _ _ H2).
  rewrite (unlinked_false _ _ _ _ _ K1 A), (unlinked_false _ _ _ _ _ K2 B). split; discriminate.
Qed.

(** ** The linking actor is in its node's table *)

Lemma table_next : forall w e w' o x a, step w e = Some (w', o) -> w_actors w x = Some a ->
  a_table a = true -> In (OLeft x) o \/ exists a', w_actors w' x = Some a' /\ a_table a' = true.
Proof.
  intros w e w' o x a H Ha T. destruct e; cases H; cbn; ids;
  try (right; eexists; split; [eassumption|congruence]; fail);
  try (right; eexists; split; [reflexivity|]; cbn; congruence);
  try (left; left; reflexivity).
Qed.

Lemma start_next : forall w e w' o i c c', step w e = Some (w', o) -> nth_error (w_calls w) i = Some c ->
  nth_error (w_calls w') i = Some c' -> c_at c = AtStart -> c_op c = OpLink -> c_from c <> c_to c ->
  c_at c' = AtStart \/ c_at c' = Dropped \/ exists a, w_actors w' (c_from c) = Some a /\ a_table a = true.
Proof.
  intros w e w' o i c c' H N N' Hs Ho D.
  destruct e; cases H; cbn in N';
  try (rewrite N in N'; injection N' as <-; auto; fail);
  try (rewrite (nth_old _ _ _ _ _ N) in N'; injection N' as <-; auto; fail);
  try (match goal with N0 : nth_error (w_calls w) ?j = Some ?d |- _ =>
    destruct (Nat.eq_dec j i) as [->|Ne];
    [rewrite (update_same _ _ _ _ _ N0) in N'; injection N' as <-; rewrite N in N0; injection N0 as <-;
     cbn; auto; try congruence
    |rewrite (update_other _ _ _ _ _ Ne), N in N'; injection N' as <-; auto]
  end).
  - exfalso. destruct (aid_ok (c_from c) (c_to c)); congruence.
  - right. right. rewrite aid_refl. eexists. split; reflexivity.
Qed.

Lemma tabled : forall es1 w1 t1 x y rid es2 w2 t2,
  exec fresh es1 = Some (w1, t1) -> exec w1 (Call OpLink x y rid :: es2) = Some (w2, t2) -> x <> y ->
  In (OReturned (length (w_calls w1)) Success) t2 -> ~ In (OLeft x) t2 ->
  exists a, w_actors w2 x = Some a /\ a_table a = true.
Proof.
  intros es1 w1 t1 x y rid es2 w2 t2 H1 H2 D I2 NL.
  set (i := length (w_calls w1)) in *.
  assert (H : exec fresh (es1 ++ Call OpLink x y rid :: es2) = Some (w2, t1 ++ t2)).
  { rewrite exec_app, H1, H2. reflexivity. }
  destruct (returned_is _ _ _ i Success H) as (c & N & R); [apply in_or_app; now right|].
  cbn in H2. destruct (w_actors w1 x) as [a|] eqn:Ea; [|discriminate].
  match type of H2 with match exec ?w es2 with _ => _ end = _ =>
    set (w1' := w) in *; destruct (exec w1' es2) as [[w3 o3]|] eqn:E; [|discriminate] end.
  injection H2 as <- <-. cbn in NL.
  pose (J := fun (w : world) (t : list obs) =>
       exists c, nth_error (w_calls w) i = Some c /\ c_op c = OpLink /\ c_from c = x /\ c_to c = y
                  /\ (c_at c = AtStart \/ c_at c = Dropped \/ In (OLeft x) t
                      \/ exists a, w_actors w x = Some a /\ a_table a = true)).
  assert (Inv : J w3 o3).
  { apply (exec_inv J w1') with (es := es2); [| |exact E].
    - exists (mk_call OpLink false (home x) x (a_rid a) y rid AtStart Unsent 0). split; [|cbn; auto].
      unfold w1'. cbn. unfold i. rewrite nth_error_app2, Nat.sub_diag by lia. reflexivity.
    - intros w t e w' o (d & Nd & Do & Dx & Dy & Dc) Es.
      destruct (call_next _ _ _ _ _ _ Es Nd) as (d' & Nd' & (S1 & S2 & S3 & S4) & _ & SD).
      exists d'. split; [exact Nd'|]. repeat (split; [congruence|]).
      destruct Dc as [Dc|[Dc|[Dc|(a1 & Ea1 & Ta1)]]].
      + assert (Dn : c_from d <> c_to d) by congruence.
        destruct (start_next _ _ _ _ _ _ _ Es Nd Nd' Dc Do Dn) as [K|[K|K]]; auto.
        rewrite Dx in K. auto.
      + right. left. auto.
      + right. right. left. apply in_or_app. now left.
      + right. right. destruct (table_next _ _ _ _ _ _ Es Ea1 Ta1) as [K|K]; [|auto].
        left. apply in_or_app. now right. }
  destruct Inv as (d & Nd & _ & _ & _ & Dc). rewrite N in Nd. injection Nd as <-.
  destruct Dc as [K|[K|[K|K]]]; congruence.
Qed.

(** ** Link deaths *)

Lemma deaths_app : forall x d t1 t2, deaths x d (t1 ++ t2) = deaths x d t1 ++ deaths x d t2.
Proof.
  induction t1 as [|o t1 IH]; intros t2; cbn; [reflexivity|].
  destruct o; try apply IH. destruct (_ && _); cbn; now rewrite IH.
Qed.

Lemma stops_app : forall x t1 t2, stops x (t1 ++ t2) = stops x t1 ++ stops x t2.
Proof.
  induction t1 as [|o t1 IH]; intros t2; cbn; [reflexivity|].
  destruct o; try apply IH. destruct (aid_eqb _ _); cbn; now rewrite IH.
Qed.

Lemma deaths_in : forall x d t r, In r (deaths x d t) <-> In (OGot x d r) t.
Proof.
  induction t as [|o t IH]; intros r; cbn; [tauto|].
  destruct o as [i u v|i u v|i q|u q l|k q|u v q|u v|u]; cbn; rewrite ?IH;
    try (split; [auto|intros [E|E]; [discriminate E|exact E]]).
  destruct (aid_ok x u) as [<-|N1]; [destruct (aid_ok d v) as [<-|N2]|]; cbn; rewrite ?IH;
    (split; [intros [E|E] || intros E; auto; left; congruence
            |intros [E|E]; auto; try (injection E; intros; subst; auto; congruence)]).
Qed.

Lemma stops_in : forall x t r l, In (r, l) (stops x t) <-> In (ODrained x r l) t.
Proof.
  induction t as [|o t IH]; intros r l; cbn; [tauto|].
  destruct o as [i u v|i u v|i q|u q m|k q|u v q|u v|u]; cbn; rewrite ?IH;
    try (split; [auto|intros [E|E]; [discriminate E|exact E]]).
  destruct (aid_ok x u) as [<-|N1]; cbn; rewrite ?IH;
    (split; [intros [E|E] || intros E; auto; left; congruence
            |intros [E|E]; auto; try (injection E; intros; subst; auto; congruence)]).
Qed.

Definition key (n : note) : aid * aid := (n_dead n, n_to n).

(** Links are maps; notifications come from one stop each, once per link; the deaths
    received are the notifications carried out. *)
Record notes_ok (w : world) (t : list obs) : Prop := mk_notes_ok {
  no_keys : forall x a, w_actors w x = Some a -> NoDup (map fst (a_links a));
  no_from : forall n, In n (w_notes w) -> exists l, In (ODrained (n_dead n) (n_reason n) l) t /\ In (n_to n) l;
  no_stopped : forall x r l, In (ODrained x r l) t -> exists a, w_actors w x = Some a /\ a_phase a <> Alive;
  no_once : NoDup (map key (w_notes w));
  no_stop_once : forall x, length (stops x t) <= 1;
  no_got : forall x d r, In (OGot x d r) t ->
    exists k n, nth_error (w_notes w) k = Some n /\ key n = (d, x) /\ n_reason n = r /\ n_req n = Served Success;
  no_got_once : forall x d, length (deaths x d t) <= 1
}.

Lemma phase_next : forall w e w' o x a, step w e = Some (w', o) -> w_actors w x = Some a ->
  a_phase a <> Alive -> exists a', w_actors w' x = Some a' /\ a_phase a' <> Alive.
Proof.
  intros w e w' o x a H Ha T. destruct e; cases H; cbn; ids;
  try (eexists; split; [eassumption|congruence]; fail);
  try (eexists; split; [reflexivity|]; cbn; congruence).
Qed.

Lemma keys_next : forall w e w' o, step w e = Some (w', o) ->
  (forall x a, w_actors w x = Some a -> NoDup (map fst (a_links a))) ->
  (forall x a, w_actors w' x = Some a -> NoDup (map fst (a_links a))).
Proof.
  intros w e w' o H K x a. destruct e; cases H; cbn; intros Ha; try (eapply K; exact Ha);
  match type of Ha with (if ?b then _ else _) = _ => destruct b; [injection Ha as <-|eapply K; exact Ha] end;
  cbn [a_links set_links set_table set_phase set_box map]; try (constructor; fail);
  try apply link_nodup; try apply unlink_nodup; eauto.
Qed.

(** What a step does to the notifications. *)
Lemma notes_next : forall w e w' o k n, step w e = Some (w', o) -> nth_error (w_notes w) k = Some n ->
  exists n', nth_error (w_notes w') k = Some n' /\ key n' = key n /\ n_reason n' = n_reason n /\ n_rid n' = n_rid n
  /\ (forall r, n_req n = Served r -> n_req n' = Served r).
Proof.
  intros w e w' o k n H N. unfold key.
  destruct e; cases H; cbn;
  try (exists n; split; [exact N|auto 20]; fail);
  try (exists n; split; [apply nth_old, N|auto 20]; fail);
  try (match goal with N0 : nth_error (w_notes w) ?j = Some ?d |- context [update ?j ?d' _] =>
    destruct (Nat.eq_dec j k) as [<-|Ne];
    [rewrite N0 in N; injection N as <-; exists d'; split; [exact (update_same _ _ _ _ _ N0)|];
     cbn; repeat (split; [reflexivity|]); intros; congruence
    |rewrite (update_other _ _ _ _ _ Ne); exists n; auto 20]
  end).
  unfold drop_notes. rewrite nth_error_map, N. cbn. eexists. split; [reflexivity|].
  destruct (aid_eqb _ _); cbn; auto 20.
Qed.

Lemma note_later : forall es w w' t k n, exec w es = Some (w', t) -> nth_error (w_notes w) k = Some n ->
  exists n', nth_error (w_notes w') k = Some n' /\ key n' = key n /\ n_reason n' = n_reason n.
Proof.
  induction es as [|e es IH]; intros w w' t k n H N; cbn in H.
  - injection H as <- <-. eauto.
  - destruct (step w e) as [[w1 o1]|] eqn:E; [|discriminate].
    destruct (exec w1 es) as [[w2 o2]|] eqn:E2; [|discriminate]. injection H as <- <-.
    destruct (notes_next _ _ _ _ _ _ E N) as (n1 & N1 & A1 & A2 & _).
    destruct (IH _ _ _ _ _ E2 N1) as (n2 & N2 & B1 & B2).
    exists n2. repeat split; congruence.
Qed.

Lemma keys_same : forall w e w' o, step w e = Some (w', o) ->
  (exists x r a, e = Stop x r /\ w_actors w x = Some a /\ a_phase a = Alive
    /\ o = [ODrained x r (map fst (a_links a))]
    /\ w_notes w' = w_notes w ++ (if w_boot w (home x) then notes_of x r (a_links a) else []))
  \/ (map key (w_notes w') = map key (w_notes w) /\ (forall x r l, ~ In (ODrained x r l) o)).
Proof.
  intros w e w' o H. destruct e; cases H; cbn.
  all: try (match goal with Ea : w_actors _ ?x = Some ?a |- context [ODrained ?x ?r _] =>
         left; exists x, r, a; split; [reflexivity|]; split; [exact Ea|]; split; [assumption|];
         split; [reflexivity|]; match goal with Hb : w_boot _ _ = _ |- _ => rewrite Hb; reflexivity end end).
  all: right; (split; [|intros ? ? ?; cbn; intuition discriminate]); try reflexivity.
  all: try (match goal with N0 : nth_error (w_notes _) ?j = Some ?d |- _ =>
         eapply update_map; [exact N0|reflexivity] end).
  unfold drop_notes. rewrite map_map. apply map_ext. intros n. destruct (aid_eqb _ _); reflexivity.
Qed.

Lemma got_next : forall w e w' o x d r, step w e = Some (w', o) -> In (OGot x d r) o ->
  exists k n, e = Signal k /\ nth_error (w_notes w) k = Some n /\ key n = (d, x) /\ n_reason n = r
  /\ n_req n = Found /\ o = [OGot x d r; ONoted k Success]
  /\ exists n', nth_error (w_notes w') k = Some n' /\ key n' = (d, x) /\ n_reason n' = r /\ n_req n' = Served Success.
Proof.
  intros w e w' o x d r H I0.
  destruct e; cases H; cbn in I0; try (destruct I0; fail);
  repeat (destruct I0 as [I0|I0]; [try discriminate I0|]); try (destruct I0; fail);
  injection I0 as <- <- <-; cbn [w_notes set_actor set_note];
  (match goal with N0 : nth_error (w_notes w) ?j = Some ?m |- context [update ?j ?m' _] =>
    exists j, m; split; [reflexivity|]; split; [exact N0|]; repeat (split; [(reflexivity || assumption)|]);
    exists m'; split; [exact (update_same _ _ _ _ _ N0)|auto]
  end).
Qed.

Lemma no_got_nil : forall x d o, (forall r, ~ In (OGot x d r) o) -> deaths x d o = [].
Proof.
  intros x d o K. destruct (deaths x d o) as [|r l] eqn:E; [reflexivity|].
  exfalso. apply (K r), deaths_in. rewrite E. now left.
Qed.

Lemma no_stop_nil : forall x o, (forall r l, ~ In (ODrained x r l) o) -> stops x o = [].
Proof.
  intros x o K. destruct (stops x o) as [|[r l] m] eqn:E; [reflexivity|].
  exfalso. apply (K r l), stops_in. rewrite E. now left.
Qed.

Lemma nodup_nth : forall A B (f : A -> B) l i j x y, NoDup (map f l) ->
  nth_error l i = Some x -> nth_error l j = Some y -> f x = f y -> i = j.
Proof.
  intros A B f l i j x y ND Hi Hj E.
  apply (proj1 (NoDup_nth_error (map f l)) ND).
  - apply nth_error_Some. rewrite nth_error_map, Hi. discriminate.
  - rewrite !nth_error_map, Hi, Hj. cbn. congruence.
Qed.

Lemma nodup_app_intro : forall A (l1 l2 : list A), NoDup l1 -> NoDup l2 ->
  (forall x, In x l1 -> ~ In x l2) -> NoDup (l1 ++ l2).
Proof.
  induction l1 as [|a l1 IH]; intros l2 N1 N2 D; cbn; [exact N2|].
  inversion N1; subst. constructor.
  - intros I0. apply in_app_or in I0. destruct I0 as [I0|I0]; [contradiction|].
    apply (D a); [now left|exact I0].
  - apply IH; auto. intros x I0. apply D. now right.
Qed.

Lemma notes_step : forall w t e w' o, notes_ok w t -> step w e = Some (w', o) -> notes_ok w' (t ++ o).
Proof.
  intros w t e w' o [K1 K2 K3 K4 K5 K6 K7] H.
  pose proof (keys_same _ _ _ _ H) as KS.
  constructor.
  - eapply keys_next; eauto.
  - intros n In0. apply In_nth_error in In0. destruct In0 as (k & Nk).
    destruct (nth_error (w_notes w) k) as [m|] eqn:Nm.
    + destruct (notes_next _ _ _ _ _ _ H Nm) as (m' & Nm' & Ky & Rs & _).
      rewrite Nk in Nm'. injection Nm' as <-. unfold key in Ky. injection Ky as Ky1 Ky2.
      destruct (K2 m (nth_error_In _ _ Nm)) as (l & A & B).
      exists l. rewrite Ky1, Ky2, Rs. split; [apply in_or_app; now left|exact B].
    + destruct KS as [(x & r & a & -> & Ea & _ & -> & En)|[Em _]].
      * rewrite En in Nk. rewrite nth_error_app2 in Nk by (apply nth_error_None, Nm).
        apply nth_error_In in Nk. destruct (w_boot w (home x)); [|destruct Nk].
        unfold notes_of in Nk. apply in_map_iff in Nk. destruct Nk as ([y q] & <- & Iy). cbn.
        exists (map fst (a_links a)). split; [apply in_or_app; right; now left|].
        apply in_map_iff. now exists (y, q).
      * exfalso. apply nth_error_None in Nm. assert (L : k < length (w_notes w')) by (apply nth_error_Some; congruence).
        apply (f_equal (@length _)) in Em. rewrite !map_length in Em. lia.
  - intros x r l I0. apply in_app_or in I0. destruct I0 as [I0|I0].
    + destruct (K3 _ _ _ I0) as (a & Ea & P). eapply phase_next; eauto.
    + destruct KS as [(x' & r' & a & -> & Ea & Pa & -> & _)|[_ Nd]]; [|exfalso; eapply Nd, I0].
      destruct I0 as [I0|[]]. injection I0 as -> -> _. clear - H Ea Pa. cbn in H. rewrite Ea, Pa in H.
      injection H as <-. cbn. rewrite aid_refl. eexists. split; [reflexivity|discriminate].
  - destruct KS as [(x & r & a & -> & Ea & Pa & -> & En)|[Em _]]; [|now rewrite Em].
    rewrite En, map_app. destruct (w_boot w (home x)); [|now rewrite app_nil_r].
    assert (Ex : map key (notes_of x r (a_links a)) = map (pair x) (map fst (a_links a))).
    { unfold notes_of. rewrite !map_map. reflexivity. }
    rewrite Ex. apply nodup_app_intro; [exact K4| |].
    + apply FinFun.Injective_map_NoDup; [intros u v [= ->]; reflexivity|]. eapply K1, Ea.
    + intros ky I1 I2. apply in_map_iff in I1. destruct I1 as (n & <- & In0).
      apply in_map_iff in I2. destruct I2 as (z & E & _). unfold key in E. injection E as -> _.
      destruct (K2 n In0) as (l & A & _). destruct (K3 _ _ _ A) as (a' & Ea' & P). congruence.
  - intros x. rewrite stops_app, app_length.
    destruct KS as [(x' & r & a & -> & Ea & Pa & -> & _)|[_ Nd]].
    + cbn. destruct (aid_ok x x') as [<-|]; cbn; [|specialize (K5 x); lia].
      rewrite no_stop_nil; [cbn; lia|]. intros r' l' I0. destruct (K3 _ _ _ I0) as (a' & Ea' & P). congruence.
    + rewrite (no_stop_nil x o); [|apply Nd]. cbn. specialize (K5 x). lia.
  - intros x d r I0. apply in_app_or in I0. destruct I0 as [I0|I0].
    + destruct (K6 _ _ _ I0) as (k & n & Nk & Ky & Rs & Rq).
      destruct (notes_next _ _ _ _ _ _ H Nk) as (n' & Nk' & Ky' & Rs' & _ & Rq').
      exists k, n'. repeat split; try congruence; auto.
    + destruct (got_next _ _ _ _ _ _ _ H I0) as (k & n & _ & _ & _ & _ & _ & _ & n' & X). eauto.
  - intros x d. rewrite deaths_app, app_length.
    destruct (deaths x d o) as [|r l] eqn:Ed; [specialize (K7 x d); cbn; lia|].
    assert (I0 : In (OGot x d r) o) by (apply deaths_in; rewrite Ed; now left).
    destruct (got_next _ _ _ _ _ _ _ H I0) as (k & n & _ & Nk & Ky & Rs & Rq & -> & _).
    cbn in Ed. rewrite !aid_refl in Ed. cbn in Ed. injection Ed as <-.
    rewrite no_got_nil; [cbn; lia|].
    intros r' I1. destruct (K6 _ _ _ I1) as (k' & n' & Nk' & Ky' & _ & Rq').
    assert (k = k') by (eapply (nodup_nth _ _ key); eauto; congruence). subst k'.
    congruence.
Qed.

Lemma notes_run : forall es w t, exec fresh es = Some (w, t) -> notes_ok w t.
Proof.
  apply (exec_inv notes_ok); [|intros; eapply notes_step; eauto].
  constructor; cbn; try (intros; contradiction); try (intros; lia); try discriminate. constructor.
Qed.

Lemma app_split : forall A (t o t1 t2 : list A) a, t ++ o = t1 ++ a :: t2 ->
  (exists u, t = t1 ++ a :: u) \/ (exists u, t1 = t ++ u /\ o = u ++ a :: t2).
Proof.
  induction t as [|b t IH]; intros o t1 t2 a E; cbn in E.
  - right. exists t1. auto.
  - destruct t1 as [|c t1]; cbn in E; injection E as -> E.
    + left. exists t. reflexivity.
    + destruct (IH _ _ _ _ E) as [(u & ->)|(u & -> & ->)]; [left|right]; exists u; auto.
Qed.

(** A link death comes from an earlier stop of that actor, with its reason, while it had
    the link. *)
Lemma got_sound : forall es w t x d r t1 t2, exec fresh es = Some (w, t) ->
  t = t1 ++ OGot x d r :: t2 -> exists l, In (ODrained d r l) t1 /\ In x l.
Proof.
  intros es w t x d r t1 t2 H E.
  cut (notes_ok w t /\ forall t1 t2, t = t1 ++ OGot x d r :: t2 -> exists l, In (ODrained d r l) t1 /\ In x l).
  { intros [_ C]. exact (C _ _ E). }
  clear t1 t2 E. revert es w t H.
  apply (exec_inv (fun w t => notes_ok w t /\ forall t1 t2, t = t1 ++ OGot x d r :: t2 ->
                     exists l, In (ODrained d r l) t1 /\ In x l)).
  - split; [apply (notes_run [] fresh []); reflexivity|]. intros [|b t1] t2 E; discriminate E.
  - intros w t e w' o [N IH] H. split; [eapply notes_step; eauto|].
    intros t1 t2 E. apply app_split in E. destruct E as [(u & E)|(u & -> & E)]; [eauto|].
    assert (I0 : In (OGot x d r) o) by (rewrite E; apply in_or_app; right; now left).
    destruct (got_next _ _ _ _ _ _ _ H I0) as (k & n & _ & Nk & Ky & Rs & _ & _).
    destruct (no_from _ _ N n (nth_error_In _ _ Nk)) as (l & A & B).
    unfold key in Ky. injection Ky as K1 K2. rewrite K1, Rs in A. rewrite K2 in B.
    exists l. split; [apply in_or_app; now left|exact B].
Qed.

Lemma got_once : forall es w t x d, exec fresh es = Some (w, t) -> length (deaths x d t) <= 1.
Proof. intros es w t x d H. apply (no_got_once _ _ (notes_run _ _ _ H)). Qed.

Lemma stop_once : forall es w t x, exec fresh es = Some (w, t) -> length (stops x t) <= 1.
Proof. intros es w t x H. apply (no_stop_once _ _ (notes_run _ _ _ H)). Qed.

(** An actor that stopped without the link: no link death, ever. *)
Lemma never_told : forall es w t x d r l, exec fresh es = Some (w, t) ->
  In (ODrained d r l) t -> ~ In x l -> deaths x d t = [].
Proof.
  intros es w t x d r l H I0 N. apply no_got_nil. intros r' I1.
  apply in_split in I1. destruct I1 as (t1 & t2 & ->).
  destruct (got_sound _ _ _ _ _ _ _ _ H eq_refl) as (l' & A & B).
  pose proof (stop_once _ _ _ d H) as L.
  apply stops_in in I0.
  assert (A' : In (r', l') (stops d (t1 ++ OGot x d r' :: t2))) by (apply stops_in, in_or_app; now left).
  destruct (stops d (t1 ++ OGot x d r' :: t2)) as [|q [|q' m]]; cbn in *; try contradiction; try lia.
  destruct I0 as [I0|[]]. destruct A' as [A'|[]]. congruence.
Qed.

(** ** From a stop to the link death *)

(** The remote ids in link maps. *)
Definition typed_ok (x y : aid) (rho : nat) (w : world) : Prop :=
  (forall c, In c (w_calls w) -> c_half c = true -> c_at c <> AtStart /\ c_at c <> AtLinks)
  /\ (forall c, In c (w_calls w) -> c_half c = false -> c_from c = y -> c_to c = x -> c_rid c = rho)
  /\ (forall c, In c (w_calls w) -> c_from c = x -> c_to c = y ->
        c_own c = rho \/ exists a, w_actors w x = Some a /\ a_rid a = c_own c)
  /\ forall b rid, w_actors w y = Some b -> In (x, rid) (a_links b) ->
        rid = rho \/ exists a, w_actors w x = Some a /\ a_rid a = rid.

Lemma half_next : forall w e w' o i c c', step w e = Some (w', o) ->
  nth_error (w_calls w) i = Some c -> nth_error (w_calls w') i = Some c' ->
  c_at c <> AtStart -> c_at c <> AtLinks -> c_at c' <> AtStart /\ c_at c' <> AtLinks.
Proof.
  intros w e w' o i c c' H N N' A B.
  destruct e; cases H; cbn in N';
  try (assert (c' = c) by congruence; subst c'; auto; fail);
  try (rewrite (nth_old _ _ _ _ _ N) in N'; injection N' as <-; auto; fail);
  (match goal with N0 : nth_error (w_calls w) ?j = Some _ |- _ =>
     destruct (Nat.eq_dec j i) as [->|Ne];
     [rewrite (update_same _ _ _ _ _ N0) in N'; injection N' as <-; rewrite N in N0; injection N0 as <-
     |rewrite (update_other _ _ _ _ _ Ne), N in N'; injection N' as <-; auto; fail] end);
  cbn; split; congruence.
Qed.

Lemma typed_step : forall x y rho w e w' o,
  (forall o rid, e = Call o y x rid -> rid = rho) -> (forall o me own rid, e = Half o me x own y rid -> own = rho) ->
  typed_ok x y rho w -> step w e = Some (w', o) -> typed_ok x y rho w'.
Proof.
  intros x y rho w e w' o Q1 Q2 (Z & A & C & B) H.
  assert (Stay : forall a z, w_actors w z = Some a -> exists a', w_actors w' z = Some a' /\ a_rid a' = a_rid a)
    by (intros a z Ez; eapply actor_stays; eauto).
  assert (Up : forall rid, (rid = rho \/ exists a, w_actors w x = Some a /\ a_rid a = rid) ->
                 rid = rho \/ exists a, w_actors w' x = Some a /\ a_rid a = rid).
  { intros rid [K|(a & Ea & Ra)]; [auto|right]. destruct (Stay _ _ Ea) as (a' & Ea' & Ra'). exists a'. split; congruence. }
  assert (Calls : forall c, In c (w_calls w') ->
            (exists d, In d (w_calls w) /\ same_call d c /\ (c_half d = true -> c_at c <> AtStart /\ c_at c <> AtLinks))
            \/ (exists o u v rid a, e = Call o u v rid /\ w_actors w u = Some a
                  /\ c = mk_call o false (home u) u (a_rid a) v rid AtStart Unsent 0)
            \/ (exists o me u own v rid, e = Half o me u own v rid /\ c = mk_call o true me u own v rid AtSwarm Unsent 0)).
  { intros c Ic. apply In_nth_error in Ic. destruct Ic as (k & Nk).
    destruct (nth_error (w_calls w) k) as [d|] eqn:Nd.
    - left. exists d. destruct (call_next _ _ _ _ _ _ H Nd) as (c' & N' & Sc & _).
      rewrite Nk in N'. injection N' as <-. split; [eapply nth_error_In; eauto|split; [exact Sc|]].
      intros Hh. destruct (Z _ (nth_error_In _ _ Nd) Hh). eapply half_next; eauto.
    - right. apply nth_error_None in Nd.
      assert (L : k < length (w_calls w')) by (apply nth_error_Some; congruence).
      destruct e; cases H; cbn in *; try lia; try (rewrite update_length in L; lia);
      (rewrite nth_error_app2 in Nk by lia; destruct (k - length (w_calls w)) as [|m]; cbn in Nk;
       [injection Nk as <-; eauto 12|destruct m; discriminate Nk]). }
  split; [|split; [|split]].
  - intros c Ic Hh. destruct (Calls _ Ic) as [(d & Id & Sc & Hd)|[(o1 & u & v & rid & a & E & _ & ->)|(o1 & me & u & own & v & rid & E & ->)]].
    + apply Hd. destruct Sc as (_ & _ & _ & _ & S5 & _). congruence.
    + discriminate Hh.
    + split; discriminate.
  - intros c Ic Hh Hf Ht. destruct (Calls _ Ic) as [(d & Id & Sc & _)|[(o1 & u & v & rid & a & E & _ & ->)|(o1 & me & u & own & v & rid & E & ->)]].
    + destruct Sc as (_ & S2 & S3 & S4 & S5 & _). rewrite S4. apply A; congruence.
    + cbn in *. subst. eapply Q1. reflexivity.
    + discriminate Hh.
  - intros c Ic Hf Ht. apply Up. destruct (Calls _ Ic) as [(d & Id & Sc & _)|[(o1 & u & v & rid & a & E & Ea & ->)|(o1 & me & u & own & v & rid & E & ->)]].
    + destruct Sc as (_ & S2 & S3 & _ & _ & _ & S7). rewrite S7. apply C; congruence.
    + cbn in *. subst. right. eauto.
    + cbn in *. subst. left. eapply Q2. reflexivity.
  - intros b rid Eb Ib.
    assert (Old : forall b0, w_actors w y = Some b0 -> In (x, rid) (a_links b0) ->
              rid = rho \/ exists a, w_actors w' x = Some a /\ a_rid a = rid).
    { intros b0 E0 I0. apply Up, (B _ _ E0 I0). }
    clear Calls.
    destruct e; cases H; cbn in Eb; try (eapply Old; eauto; fail);
    match type of Eb with (if aid_eqb ?u y then _ else _) = _ =>
      destruct (aid_ok u y) as [<-|]; [injection Eb as <-|eapply Old; eauto; fail] end;
    cbn [a_links set_links set_table set_phase set_box] in Ib;
    try (destruct Ib; fail); try (eapply Old; eauto; fail);
    try (apply unlink_in in Ib; destruct Ib as [Ib _]; eapply Old; eauto; fail).
    + apply link_in in Ib. destruct Ib as [[-> ->]|[Ib _]]; [|eapply Old; eauto].
      left. match goal with N0 : nth_error (w_calls w) _ = Some ?c |- _ =>
        apply A; auto; [eapply nth_error_In; eassumption|];
        destruct (c_half c) eqn:Hh; [|reflexivity]; destruct (Z _ (nth_error_In _ _ N0) Hh); congruence end.
    + apply link_in in Ib. destruct Ib as [[-> ->]|[Ib _]]; [|eapply Old; eauto].
      apply Up. apply C; auto. eapply nth_error_In; eassumption.
Qed.

Lemma typed : forall x y rho es w t, exec fresh es = Some (w, t) ->
  (forall o rid, In (Call o y x rid) es -> rid = rho) -> (forall o me own rid, In (Half o me x own y rid) es -> own = rho) ->
  forall b rid, w_actors w y = Some b -> In (x, rid) (a_links b) ->
  rid = rho \/ exists a, w_actors w x = Some a /\ a_rid a = rid.
Proof.
  intros x y rho es w t H Q1 Q2. cut (typed_ok x y rho w); [intros T; apply T|].
  apply (exec_invariant (fun w _ => typed_ok x y rho w)
       (fun e => (forall o rid, e = Call o y x rid -> rid = rho)
                 /\ (forall o me own rid, e = Half o me x own y rid -> own = rho)) fresh) with (es := es) (t := t);
    [| | |exact H].
  - split; [intros c []|split; [intros c []|split; [intros c []|]]]. intros b rid E. discriminate E.
  - intros w1 t1 e w' o T [K1 K2] E. eapply typed_step; eauto.
  - apply Forall_forall. intros e Ie. split; intros; subst; eauto.
Qed.

(** An actor in the table that does not end stays there. *)
Lemma present_next : forall w e w' o x a, step w e = Some (w', o) ->
  e <> Leave x -> e <> Crash x -> e <> Vanish x ->
  w_actors w x = Some a -> a_table a = true -> a_phase a = Alive \/ a_phase a = Drained ->
  exists a', w_actors w' x = Some a' /\ a_table a' = true /\ a_rid a' = a_rid a
  /\ (a_phase a' = Alive \/ a_phase a' = Drained).
Proof.
  intros w e w' o x a H N1 N2 N3 Ha T P. destruct e; cases H; cbn; ids;
  try (eexists; split; [eassumption|auto]; fail);
  try congruence;
  (eexists; split; [reflexivity|]); cbn;
  try match goal with E : w_actors w _ = Some ?b |- _ => assert (b = a) by congruence; subst b end;
  try (repeat split; auto; destruct P; congruence).
  all: repeat split; auto.
Qed.

Section Told.
Variables (x y : aid) (r k rho : nat) (crash : bool).

(** Notification [k] on its way to an actor that is there. *)
Definition on_way (w : world) (t : list obs) : Prop :=
  exists a n, w_actors w x = Some a /\ a_table a = true /\ a_rid a = rho
  /\ (a_phase a = Alive \/ a_phase a = Drained)
  /\ nth_error (w_notes w) k = Some n /\ n_to n = x /\ n_dead n = y /\ n_reason n = r /\ n_rid n = rho
  /\ (match n_req n with
      | Unsent => crash = false -> n_over n = false
      | Sent | Found => n_node n = home x
      | Served q => q = Success /\ In (OGot x y r) t
      end)
  /\ (forall out, In (ONoted k out) t -> n_req n = Served out).

Definition fine (e : event) : Prop :=
  e <> Leave x /\ e <> Crash x /\ e <> Vanish x /\ e <> Send k true /\ (crash = false -> e <> Crash y).

Lemma way_next : known (home x) rho = true -> forall w t e w' o, on_way w t -> fine e ->
  step w e = Some (w', o) -> on_way w' (t ++ o).
Proof.
  intros Kn w t e w' o (a & n & Ea & Ta & Ra & Pa & Nk & Hto & Hd & Hr & Hrid & Hq & Ho) (F1 & F2 & F3 & F4 & F5) H.
  destruct (present_next _ _ _ _ _ _ H F1 F2 F3 Ea Ta Pa) as (a' & Ea' & Ta' & Ra' & Pa').
  destruct (notes_next _ _ _ _ _ _ H Nk) as (n' & Nk' & Ky & Hr' & Hrid' & Hs).
  unfold key in Ky. injection Ky as Hd' Hto'.
  exists a', n'. repeat (split; [congruence || assumption|]).
  clear Ea' Ta' Ra' Pa' a' Hd' Hto' Hr' Hrid'.
  assert (Keep : n' = n -> (forall out, ~ In (ONoted k out) o) ->
            (match n_req n' with
            | Unsent => crash = false -> n_over n' = false
            | Sent | Found => n_node n' = home x
            | Served q => q = Success /\ In (OGot x y r) (t ++ o)
            end) /\ (forall out, In (ONoted k out) (t ++ o) -> n_req n' = Served out)).
  { intros -> A. split.
    - destruct (n_req n); auto. destruct Hq. split; [assumption|]. apply in_or_app. now left.
    - intros out I0. apply in_app_or in I0. destruct I0 as [I0|I0]; [auto|exfalso; eapply A, I0]. }
  destruct e; cases H; cbn in Nk';
  try (apply Keep; [congruence|intros out I0; cbn in I0; intuition discriminate]; fail);
  try (apply Keep; [|intros out I0; cbn in I0; intuition discriminate]; rewrite (nth_old _ _ _ _ _ Nk) in Nk';
       congruence).
  all: try (match goal with N0 : nth_error (w_notes _) ?j = Some ?d |- _ =>
    destruct (Nat.eq_dec j k) as [->|Ne];
    [rewrite N0 in Nk; injection Nk as ->; rewrite (update_same _ _ _ _ _ N0) in Nk'; injection Nk' as <-;
     clear Keep; cbn
    |apply Keep; [rewrite (update_other _ _ _ _ _ Ne) in Nk'; congruence|
                  intros out I0; cbn in I0; intuition congruence]] end).
  all: try (match goal with E : n_req _ = _ |- _ => rewrite E in Hq end).
  all: try (match goal with L : lookup _ _ _ _ _ = ?q |- _ =>
         rewrite Hq, Hto, Hrid in L; unfold lookup in L; rewrite Kn, Ea, Nat.eqb_refl, Ta, Ra, Nat.eqb_refl in L;
         cbn in L; try discriminate L end).
  all: try (split; [assumption|]; intros out I0; rewrite app_nil_r in I0; apply Ho in I0; congruence).
  - split.
    + destruct alone; [congruence|]. cbn. congruence.
    + intros out I0. rewrite app_nil_r in I0. apply Ho in I0. congruence.
  - split; [split; [reflexivity|]|].
    + apply in_or_app. right. left. congruence.
    + intros out I0. apply in_app_or in I0. destruct I0 as [I0|I0]; [apply Ho in I0; congruence|].
      cbn in I0. intuition congruence.
  - split; [split; [reflexivity|]|].
    + apply in_or_app. right. left. congruence.
    + intros out I0. apply in_app_or in I0. destruct I0 as [I0|I0]; [apply Ho in I0; congruence|].
      cbn in I0. intuition congruence.
  - split; [split; [reflexivity|]|].
    + apply in_or_app. right. left. congruence.
    + intros out I0. apply in_app_or in I0. destruct I0 as [I0|I0]; [apply Ho in I0; congruence|].
      cbn in I0. intuition congruence.
  - exfalso. destruct Pa; congruence.
  - destruct Hq as [-> Hq]. rewrite app_nil_r. auto.
  - clear Keep. unfold drop_notes in Nk'. rewrite nth_error_map, Nk in Nk'. cbn in Nk'. injection Nk' as <-.
    rewrite app_nil_r. destruct (aid_ok x0 (n_dead n)) as [->|Ne]; [|auto].
    cbn. split; [|exact Ho]. destruct (n_req n); auto.
    intros C. exfalso. apply (F5 C). congruence.
Qed.

Lemma way_run : known (home x) rho = true -> forall es w t w' t', on_way w t -> Forall fine es ->
  exec w es = Some (w', t') -> on_way w' (t ++ t').
Proof.
  intros Kn es w t w' t' W F H.
  apply (exec_invariant (fun w' t' => on_way w' (t ++ t')) fine w) with (es := es); auto.
  - now rewrite app_nil_r.
  - intros w1 t1 e w2 o W1 Fe E. rewrite app_assoc. eapply way_next; eauto.
Qed.

(** The remaining pieces of the notification. *)
Lemma way_end : known (home x) rho = true -> crash = false -> forall w t, on_way w t ->
  In (OGot x y r) t \/ exists es w' t', forallb (carries k) es = true /\ exec w es = Some (w', t') /\ In (OGot x y r) t'.
Proof.
  intros Kn Cr w t (a & n & Ea & Ta & Ra & Pa & Nk & Hto & Hd & Hr & Hrid & Hq & Ho).
  assert (SF : forall w1 n1, nth_error (w_notes w1) k = Some n1 -> n_req n1 = Found -> n_to n1 = x -> n_dead n1 = y ->
     n_reason n1 = r -> w_actors w1 x = Some a -> exists w', exec w1 [Signal k] = Some (w', [OGot x y r; ONoted k Success])).
  { intros w1 n1 N1 Q1 T1 D1 R1 A1. cbn. rewrite N1. unfold signal_note. rewrite Q1, T1, A1, D1, R1.
    destruct Pa as [-> | ->]; eexists; reflexivity. }
  assert (SS : forall w1 n1, nth_error (w_notes w1) k = Some n1 -> n_req n1 = Sent -> n_to n1 = x -> n_dead n1 = y ->
     n_reason n1 = r -> n_rid n1 = rho -> n_node n1 = home x -> w_actors w1 x = Some a ->
     exists w', exec w1 [FindNote k; Signal k] = Some (w', [OGot x y r; ONoted k Success])).
  { intros w1 n1 N1 Q1 T1 D1 R1 I1 O1 A1. change [FindNote k; Signal k] with ([FindNote k] ++ [Signal k]).
    rewrite exec_app. cbn [RemoteLinks.exec RemoteLinks.step]. rewrite N1. unfold find_note. rewrite Q1.
    assert (L : lookup known w1 (n_node n1) (n_to n1) (n_rid n1) = Success).
    { unfold lookup. rewrite O1, T1, I1, Kn, A1, Nat.eqb_refl, Ta, Ra, Nat.eqb_refl. reflexivity. }
    rewrite L. destruct (SF (set_note k (note_at Found n1) w1) (note_at Found n1)) as (w' & E); auto.
    - cbn. exact (update_same _ _ _ _ _ N1).
    - cbn [RemoteLinks.exec RemoteLinks.step app] in E. cbn [app]. rewrite E. eauto. }
  destruct (n_req n) eqn:Q.
  - right. exists [Send k false; FindNote k; Signal k].
    change [Send k false; FindNote k; Signal k] with ([Send k false] ++ [FindNote k; Signal k]).
    rewrite exec_app. cbn [RemoteLinks.exec RemoteLinks.step]. rewrite Nk, Q, (Hq Cr). cbn [app].
    match goal with |- context [set_note k ?m w] => destruct (SS (set_note k m w) m) as (w' & E); auto end.
    + cbn. exact (update_same _ _ _ _ _ Nk).
    + cbn. congruence.
    + cbn [RemoteLinks.exec RemoteLinks.step app] in E. rewrite E. exists w'. eexists.
      split; [cbn; rewrite !Nat.eqb_refl; reflexivity|]. split; [reflexivity|now left].
  - right. destruct (SS w n) as (w' & E); auto. exists [FindNote k; Signal k], w'. eexists.
    split; [cbn; rewrite !Nat.eqb_refl; reflexivity|]. split; [exact E|now left].
  - right. destruct (SF w n) as (w' & E); auto. exists [Signal k], w'. eexists.
    split; [cbn; rewrite !Nat.eqb_refl; reflexivity|]. split; [exact E|now left].
  - left. apply Hq.
Qed.

End Told.

Lemma stop_way : forall es1 w1 t1 x a y r w2 o crash,
  exec fresh es1 = Some (w1, t1) -> w_actors w1 x = Some a -> a_table a = true -> a_phase a = Alive ->
  linked w1 y x -> w_boot w1 (home y) = true ->
  (forall c rid, In (Call c y x rid) es1 -> rid = a_rid a) ->
  (forall c me own rid, In (Half c me x own y rid) es1 -> own = a_rid a) ->
  step w1 (Stop y r) = Some (w2, o) ->
  exists k, on_way x y r k (a_rid a) crash w2 o.
Proof.
  intros es1 w1 t1 x a y r w2 o crash H1 Ea Ta Pa (b & rid & Eb & Ib) Bt Ty Ty2 H.
  assert (Rid : rid = a_rid a).
  { destruct (typed _ _ _ _ _ _ H1 Ty Ty2 _ _ Eb Ib) as [K|(a' & Ea' & Ra')]; congruence. }
  cbn in H. rewrite Eb in H. destruct (a_phase b) eqn:Pb; try discriminate H. rewrite Bt in H.
  injection H as <- <-.
  apply In_nth_error in Ib. destruct Ib as (j & Nj).
  exists (length (w_notes w1) + j). unfold on_way. cbn.
  assert (Hx : exists a', (if aid_eqb y x then Some (set_links [] (set_phase Drained b)) else w_actors w1 x) = Some a'
             /\ a_table a' = true /\ a_rid a' = a_rid a /\ (a_phase a' = Alive \/ a_phase a' = Drained)).
  { destruct (aid_ok y x) as [<-|].
    - eexists. split; [reflexivity|]. cbn. assert (b = a) by congruence. subst b. auto.
    - exists a. auto. }
  destruct Hx as (a' & Hx). exists a', (mk_note y x rid r Unsent 0 false).
  destruct Hx as (A & B & C & D). repeat (split; [assumption|]). cbn.
  split.
  - rewrite nth_error_app2 by lia. replace (length (w_notes w1) + j - length (w_notes w1)) with j by lia.
    unfold notes_of. rewrite nth_error_map, Nj. reflexivity.
  - repeat (split; [auto|]). intros out [E|[]]. discriminate E.
Qed.

Lemma fine_all : forall x y k crash es, ~ In (Leave x) es -> ~ In (Crash x) es -> ~ In (Vanish x) es ->
  ~ In (Send k true) es -> (crash = false -> ~ In (Crash y) es) -> Forall (fine x y k crash) es.
Proof.
  intros x y k crash es A B C D E. apply Forall_forall. intros e Ie.
  repeat split; try (intros ->; contradiction). intros F ->. exact (E F Ie).
Qed.

Lemma told : forall es1 w1 t1 x a y r es2 w2 t2,
  exec fresh es1 = Some (w1, t1) -> w_actors w1 x = Some a -> a_table a = true -> a_phase a = Alive ->
  known (home x) (a_rid a) = true -> linked w1 y x -> w_boot w1 (home y) = true ->
  (forall c rid, In (Call c y x rid) es1 -> rid = a_rid a) ->
  (forall c me own rid, In (Half c me x own y rid) es1 -> own = a_rid a) ->
  exec w1 (Stop y r :: es2) = Some (w2, t2) ->
  ~ In (Leave x) es2 -> ~ In (Crash x) es2 -> ~ In (Vanish x) es2 ->
  exists k, notifies w2 k x y r /\ (~ In (Send k true) es2 ->
    (forall out, In (ONoted k out) t2 -> out = Success /\ In (OGot x y r) t2)
    /\ (~ In (Crash y) es2 -> In (OGot x y r) t2 \/
         exists es3 w3 t3, forallb (carries k) es3 = true /\ exec w2 es3 = Some (w3, t3) /\ In (OGot x y r) t3)).
Proof.
  intros es1 w1 t1 x a y r es2 w2 t2 H1 Ea Ta Pa Kn L Bt Ty Ty2 H2 N1 N2 N3.
  cbn [RemoteLinks.exec] in H2. destruct (step w1 (Stop y r)) as [[w o]|] eqn:E; [|discriminate].
  destruct (exec w es2) as [[w3 o3]|] eqn:E2; [|discriminate]. injection H2 as <- <-.
  assert (Both : forall crash, exists k, on_way x y r k (a_rid a) crash w o) by (intros; eapply stop_way; eauto).
  assert (K : exists k, forall crash, on_way x y r k (a_rid a) crash w o).
  { destruct (Both false) as (k & W). exists k. intros [|]; [|exact W].
    destruct W as (a' & n & W). exists a', n. decompose [and] W.
    repeat (split; [assumption|]). split; [|assumption].
    destruct (n_req n); auto; discriminate. }
  destruct K as (k & W). exists k. split.
  { destruct (W true) as (a' & n & W'). decompose [and] W'.
    destruct (note_later _ _ _ _ _ _ E2 ltac:(eassumption)) as (n' & N' & Ky & Rs).
    exists n'. unfold key in Ky. injection Ky as K1 K2. repeat split; congruence. }
  intros N4.
  pose proof (way_run _ _ _ _ _ true Kn es2 w o w3 o3 (W true)) as W1.
  specialize (W1 (fine_all x y k true es2 N1 N2 N3 N4 ltac:(discriminate)) E2).
  split.
  - intros out I0. destruct W1 as (a' & n & W1). decompose [and] W1.
    match goal with Ho : forall out, In (ONoted k out) _ -> _ |- _ => specialize (Ho _ I0); rewrite Ho in * end. tauto.
  - intros N5. pose proof (way_run _ _ _ _ _ false Kn es2 w o w3 o3 (W false)) as W2.
    specialize (W2 (fine_all x y k false es2 N1 N2 N3 N4 (fun _ => N5)) E2).
    exact (way_end _ _ _ _ _ _ Kn eq_refl _ _ W2).
Qed.

(** ** Refused calls *)

Definition call_ok2 (t : list obs) (i : nat) (c : call) : Prop :=
  c_from c <> c_to c ->
  (In (mark i (c_op c) (c_to c) (c_from c)) t -> c_req c = Served Success)
  /\ (forall r, c_at c = Returned r ->
      (r = NotBootstrapped /\ c_req c = Unsent) \/ r = Failure \/ c_req c = Served r)
  /\ (c_at c = AtStart \/ c_at c = AtLinks \/ c_at c = AtSwarm -> c_req c = Unsent)
  /\ (c_half c = false -> c_at c = AtSwarm \/ (exists r, c_at c = Returned r) \/ c_at c = Waiting ->
      In (mark i (c_op c) (c_from c) (c_to c)) t)
  /\ (c_at c = AtLinks -> c_op c = OpLink).

Definition calls_ok2 (w : world) (t : list obs) : Prop :=
  (forall i c, nth_error (w_calls w) i = Some c -> call_ok2 t i c)
  /\ (forall i a, In a t -> obs_call a = Some i -> nth_error (w_calls w) i <> None).

Ltac other_obs :=
  let a := fresh in let Ia := fresh in
  intros a Ia; cbn in Ia; repeat (destruct Ia as [<-|Ia]); try (destruct Ia); cbn; congruence.

Ltac fin1 A C :=
  let I0 := fresh in
  intros I0; apply in_app_or in I0; destruct I0 as [I0|I0];
  [apply A in I0; first [congruence|rewrite C in I0 by auto; discriminate]|cbn in I0; intuition congruence].
Ltac fin2 B :=
  let r := fresh in let R := fresh in
  intros r R; first [congruence|specialize (B _ R); intuition congruence|injection R as <-; intuition congruence].
Ltac fin3 C :=
  let K := fresh in
  intros K; first [destruct K as [K|[K|K]]; congruence|specialize (C K); congruence|apply C; auto].
Ltac fin4 F :=
  let K0 := fresh in let K := fresh in
  intros K0 K; first [destruct K as [K|[[? K]|K]]; congruence
    |apply in_or_app; left; apply F; [exact K0|]; first [exact K|now left|now (right; left; eexists; eassumption)|now (right; right)]
    |apply in_or_app; right; now left].
Ltac fin5 G :=
  let K := fresh in intros K; first [congruence|exact (G K)|reflexivity].

Lemma calls2_step : forall w t e w' o, calls_ok2 w t -> step w e = Some (w', o) -> calls_ok2 w' (t ++ o).
Proof.
  intros w t e w' o [H H'] E. split.
  2:{ intros i a I0 Ha. apply in_app_or in I0. destruct I0 as [I0|I0].
      - specialize (H' _ _ I0 Ha). destruct (nth_error (w_calls w) i) as [c|] eqn:N; [|congruence].
        destruct (call_next _ _ _ _ _ _ E N) as (c' & N' & _). congruence.
      - destruct (obs_known _ _ _ _ _ _ E I0 Ha) as (c & _ & N). exact N. }
  assert (Keep : forall i c, nth_error (w_calls w) i = Some c -> (forall a, In a o -> obs_call a <> Some i) ->
                   call_ok2 (t ++ o) i c).
  { intros i c N No D. destruct (H _ _ N D) as (A & B & C & F & G). repeat split; auto.
    - intros I0. apply in_app_or in I0. destruct I0 as [I0|I0]; [auto|].
      exfalso. apply (No _ I0). destruct (c_op c); reflexivity.
    - intros K0 K. apply in_or_app. left. auto. }
  intros i c N'.
  destruct (nth_error (w_calls w) i) as [d|] eqn:Nd.
  - destruct e; cases E; cbn in N';
    try (assert (c = d) by congruence; subst c; apply Keep; [exact Nd|other_obs]; fail);
    try (rewrite (nth_old _ _ _ _ _ Nd) in N'; injection N' as <-; apply Keep; [exact Nd|intros ? []]; fail);
    (match goal with N0 : nth_error (w_calls w) ?j = Some _ |- _ =>
       destruct (Nat.eq_dec j i) as [->|Ne];
       [rewrite (update_same _ _ _ _ _ N0) in N'; injection N' as <-; rewrite Nd in N0; injection N0 as <-
       |rewrite (update_other _ _ _ _ _ Ne), Nd in N'; injection N' as <-; apply Keep; [exact Nd|other_obs]] end);
    (intros D; cbn [c_from c_to c_op c_at c_req c_half] in *; destruct (H _ _ Nd D) as (A & B & C & F & G);
     try (match goal with Ha : c_at _ = AtLinks |- _ => rewrite (G Ha) in * end);
     try (match goal with Ho : c_op _ = _ |- _ => rewrite Ho in * end);
     try (exfalso; match goal with Q : aid_eqb ?u ?v = true |- _ => destruct (aid_ok u v); congruence end);
     unfold mark in *; try destruct (c_op d) eqn:?;
     (split; [fin1 A C|split; [fin2 B|split; [fin3 C|split; [fin4 F|fin5 G]]]])).
  - destruct e; cases E; cbn in N'; try congruence; apply nth_error_None in Nd;
    try (exfalso; match type of N' with nth_error ?l _ = _ =>
           assert (L : i < length l) by (apply nth_error_Some; congruence) end;
         rewrite update_length in L; lia);
    (match type of N' with nth_error (_ ++ [?d]) _ = _ =>
       assert (i = length (w_calls w)) as ->;
       [assert (L : i < length (w_calls w ++ [d])) by (apply nth_error_Some; congruence);
        rewrite app_length in L; cbn in L; lia|];
       rewrite nth_error_app2, Nat.sub_diag in N' by lia; cbn in N'; injection N' as <-;
       intros D; cbn [c_from c_to c_op c_at c_req c_half] in *; rewrite app_nil_r; repeat split; intros;
       try discriminate; auto;
       try (match goal with K : _ \/ (exists _, _) \/ _ |- _ => destruct K as [K|[[? K]|K]]; discriminate end);
       exfalso; eapply (H' (length (w_calls w))); [eassumption|destruct o0; reflexivity|]; apply nth_error_None; lia
     end).
Qed.

Lemma calls2_run : forall es w t, exec fresh es = Some (w, t) -> calls_ok2 w t.
Proof.
  apply exec_inv.
  - split; [intros [|i] c N; discriminate N|intros i a []].
  - intros w t e w' o. apply calls2_step.
Qed.

Lemma lookup_refusal : forall w n y rid r, lookup known w n y rid = r -> r <> Success -> refusal known w n y rid r.
Proof.
  intros w n y rid r E N. unfold RemoteLinks.lookup in E. destruct (known n rid) eqn:K.
  - destruct (w_actors w y) as [a|] eqn:Ea.
    + destruct (Nat.eqb_spec (home y) n) as [Hn|Hn]; cbn in E.
      * destruct (a_table a) eqn:T.
        -- destruct (Nat.eqb_spec (a_rid a) rid) as [R|R]; subst r; [congruence|].
           eapply ref_type; eauto.
        -- subst r. apply ref_absent; [exact K|]. intros (_ & b & B & T'). congruence.
      * subst r. apply ref_absent; [exact K|]. tauto.
    + subst r. apply ref_absent; [exact K|]. intros (_ & b & B & _). congruence.
  - subst r. now apply ref_unknown.
Qed.

Definition origin (w1 : world) (es : list event) (i : nat) (c : call) : Prop :=
  (c_req c <> Unsent -> c_node c = c_me c \/ c_node c = home (c_to c))
  /\ (forall r, c_req c = Served r -> r <> Success ->
      exists es3 es4 w3 t3, es = es3 ++ Find i :: es4 /\ exec w1 es3 = Some (w3, t3)
        /\ refusal known w3 (c_node c) (c_to c) (c_rid c) r)
  /\ (c_at c = Returned NotBootstrapped ->
      exists es3 es4 w3 t3 b, es = es3 ++ Poll i b :: es4 /\ exec w1 es3 = Some (w3, t3)
        /\ w_boot w3 (c_me c) = false).

Lemma origin_weaken : forall w1 es e i c, origin w1 es i c -> origin w1 (es ++ [e]) i c.
Proof.
  intros w1 es e i c (A & B & C). split; [exact A|split].
  - intros r R N. destruct (B r R N) as (es3 & es4 & w3 & t3 & -> & X). exists es3, (es4 ++ [e]), w3, t3.
    rewrite <- app_assoc. split; [reflexivity|exact X].
  - intros R. destruct (C R) as (es3 & es4 & w3 & t3 & b & -> & X). exists es3, (es4 ++ [e]), w3, t3, b.
    rewrite <- app_assoc. split; [reflexivity|exact X].
Qed.

Lemma origin_step : forall w1 es w t e w' o i c c', exec w1 es = Some (w, t) -> step w e = Some (w', o) ->
  nth_error (w_calls w) i = Some c -> nth_error (w_calls w') i = Some c' ->
  origin w1 es i c -> origin w1 (es ++ [e]) i c'.
Proof.
  intros w1 es w t e w' o i c c' H E N N' O.
  pose proof (origin_weaken _ _ e _ _ O) as (A & B & C). destruct O as (_ & B0 & _).
  assert (NB : c_req c = Served NotBootstrapped -> False).
  { intros R. destruct (B0 _ R) as (es3 & es4 & w3 & t3 & _ & _ & X); [discriminate|]. inversion X. }
  destruct e; cases E; cbn in N';
    try (assert (c' = c) by congruence; subst c'; repeat split; assumption);
    try (rewrite (nth_old _ _ _ _ _ N) in N'; injection N' as <-; repeat split; assumption);
    (match goal with N0 : nth_error (w_calls w) ?j = Some _ |- _ =>
       destruct (Nat.eq_dec j i) as [->|Ne];
       [rewrite (update_same _ _ _ _ _ N0) in N'; injection N' as <-; rewrite N in N0; injection N0 as <-
       |rewrite (update_other _ _ _ _ _ Ne), N in N'; injection N' as <-; repeat split; assumption] end);
    (split; [|split]; cbn [c_from c_to c_op c_at c_req c_node c_rid c_me]; intros;
      try congruence; try (apply A; congruence); auto;
      unfold served_by).
  - destruct alone; auto.
  - exists es, [], w, t, alone. auto.
  - exists es, [], w, t. split; [reflexivity|split; [exact H|]]. apply lookup_refusal; congruence.
  - exists es, [], w, t. split; [reflexivity|split; [exact H|]]. apply lookup_refusal; congruence.
  - exists es, [], w, t. split; [reflexivity|split; [exact H|]]. apply lookup_refusal; congruence.
  - exists es, [], w, t. split; [reflexivity|split; [exact H|]]. apply lookup_refusal; congruence.
  - exists es, [], w, t. split; [reflexivity|split; [exact H|]]. apply lookup_refusal; congruence.
  - apply B; congruence.
Qed.

Lemma origin_run : forall w1 i c0, nth_error (w_calls w1) i = Some c0 -> c_req c0 = Unsent ->
  c_at c0 = AtStart \/ c_at c0 = AtSwarm ->
  forall es w t c, exec w1 es = Some (w, t) -> nth_error (w_calls w) i = Some c -> origin w1 es i c.
Proof.
  intros w1 i c0 N0 R0 P0 es. induction es as [|e es IH] using rev_ind; intros w t c H N.
  - cbn in H. injection H as <- <-. rewrite N in N0. injection N0 as ->.
    split; [congruence|split; intros; destruct P0; congruence].
  - rewrite exec_app in H. destruct (exec w1 es) as [[w2 o2]|] eqn:E; [|discriminate].
    cbn [RemoteLinks.exec] in H. destruct (step w2 e) as [[w3 o3]|] eqn:E2; [|discriminate].
    injection H as <- <-.
    destruct (call_later _ _ _ _ _ _ E N0) as (c2 & N2 & _).
    eapply origin_step; eauto.
Qed.

Lemma refused_call : forall es1 w1 t1 w2 c0 es2 w3 t3 r,
  exec fresh (es1 ++ es2) = Some (w3, t1 ++ t3) -> exec fresh es1 = Some (w1, t1) ->
  exec w2 (tl es2) = Some (w3, t3) ->
  let i := length (w_calls w1) in
  nth_error (w_calls w2) i = Some c0 -> c_req c0 = Unsent ->
  (c_at c0 = AtStart \/ c_at c0 = AtSwarm) -> c_from c0 <> c_to c0 ->
  In (OReturned i r) t3 -> r <> Success ->
  (c_half c0 = false -> In (mark i (c_op c0) (c_from c0) (c_to c0)) t3)
  /\ (r = Failure
      \/ ~ In (mark i (c_op c0) (c_to c0) (c_from c0)) t3
         /\ ((r = NotBootstrapped /\ exists es3 es4 w4 t4 b, tl es2 = es3 ++ Poll i b :: es4
                /\ exec w2 es3 = Some (w4, t4) /\ w_boot w4 (c_me c0) = false)
             \/ exists es3 es4 w4 t4 n, tl es2 = es3 ++ Find i :: es4 /\ exec w2 es3 = Some (w4, t4)
                /\ (n = c_me c0 \/ n = home (c_to c0)) /\ refusal known w4 n (c_to c0) (c_rid c0) r)).
Proof.
  intros es1 w1 t1 w2 c0 es2 w3 t3 r H H1 H2 i N2 U0 P0 D I2 NS.
  destruct (call_later _ _ _ _ _ _ H2 N2) as (c & N3 & (Ho & Hx & Hy & Hr & Hh & Hm & _) & _).
  pose proof (origin_run _ _ _ N2 U0 P0 _ _ _ _ H2 N3) as (Oa & Ob & Oc).
  destruct (returned_is _ _ _ i r H) as (c' & N' & R); [apply in_or_app; now right|].
  rewrite N3 in N'. injection N' as <-.
  assert (New : forall a, obs_call a = Some i -> In a (t1 ++ t3) -> In a t3).
  { intros a Ha Ia. apply in_app_or in Ia. destruct Ia as [Ia|Ia]; [|exact Ia].
    exfalso. apply (obs_old _ _ _ _ _ H1 Ia Ha). apply nth_error_None. unfold i. lia. }
  destruct (proj1 (calls2_run _ _ _ H) _ _ N3) as (A & B & C & F & G); [congruence|].
  rewrite Ho, Hx, Hy, Hh in *. rewrite Hr, Hm in *. split.
  { intros K. apply New; [destruct (c_op c0); reflexivity|]. apply F; eauto. }
  assert (Q : c_req c <> Served Success -> ~ In (mark i (c_op c0) (c_to c0) (c_from c0)) t3).
  { intros Q I3. apply Q, A, in_or_app. now right. }
  destruct (B _ R) as [[-> U]|[->|U]]; [right|now left|right].
  - split; [apply Q; congruence|]. left. split; [reflexivity|]. apply Oc. exact R.
  - split; [apply Q; congruence|]. right.
    destruct (Ob _ U NS) as (es3 & es4 & w4 & t4 & X0 & X & Y).
    exists es3, es4, w4, t4, (c_node c). repeat (split; [first [exact X0|exact X|apply Oa; congruence]|]). exact Y.
Qed.

Lemma refused : forall o es1 w1 t1 x y rid w2 o2 es2 w3 t3 r,
  exec fresh es1 = Some (w1, t1) -> step w1 (Call o x y rid) = Some (w2, o2) -> exec w2 es2 = Some (w3, t3) ->
  x <> y -> let i := length (w_calls w1) in
  In (OReturned i r) t3 -> r <> Success ->
  In (mark i o x y) t3
  /\ (r = Failure
      \/ ~ In (mark i o y x) t3
         /\ ((r = NotBootstrapped /\ exists es3 es4 w4 t4 b, es2 = es3 ++ Poll i b :: es4
                /\ exec w2 es3 = Some (w4, t4) /\ w_boot w4 (home x) = false)
             \/ exists es3 es4 w4 t4 n, es2 = es3 ++ Find i :: es4 /\ exec w2 es3 = Some (w4, t4)
                /\ (n = home x \/ n = home y) /\ refusal known w4 n y rid r)).
Proof.
  intros o es1 w1 t1 x y rid w2 o2 es2 w3 t3 r H1 E H2 D i I2 NS.
  assert (H : exec fresh (es1 ++ Call o x y rid :: es2) = Some (w3, t1 ++ o2 ++ t3)).
  { rewrite exec_app, H1. cbn [RemoteLinks.exec]. rewrite E, H2. reflexivity. }
  cbn in E. destruct (w_actors w1 x) as [a|] eqn:Ea; [|discriminate]. injection E as <- <-. cbn [app] in H.
  destruct (refused_call _ _ _ _ (mk_call o false (home x) x (a_rid a) y rid AtStart Unsent 0) _ _ _ r H H1 H2)
    as [A B]; cbn; auto.
  rewrite nth_error_app2, Nat.sub_diag by lia. reflexivity.
Qed.

Lemma half_refused : forall o es1 w1 t1 me x own y rid w2 o2 es2 w3 t3 r,
  exec fresh es1 = Some (w1, t1) -> step w1 (Half o me x own y rid) = Some (w2, o2) -> exec w2 es2 = Some (w3, t3) ->
  let i := length (w_calls w1) in
  In (OReturned i r) t3 -> r <> Success ->
  r = Failure
  \/ ~ In (mark i o y x) t3
     /\ ((r = NotBootstrapped /\ exists es3 es4 w4 t4 b, es2 = es3 ++ Poll i b :: es4
            /\ exec w2 es3 = Some (w4, t4) /\ w_boot w4 me = false)
         \/ exists es3 es4 w4 t4 n, es2 = es3 ++ Find i :: es4 /\ exec w2 es3 = Some (w4, t4)
            /\ (n = me \/ n = home y) /\ refusal known w4 n y rid r).
Proof.
  intros o es1 w1 t1 me x own y rid w2 o2 es2 w3 t3 r H1 E H2 i I2 NS.
  assert (H : exec fresh (es1 ++ Half o me x own y rid :: es2) = Some (w3, t1 ++ o2 ++ t3)).
  { rewrite exec_app, H1. cbn [RemoteLinks.exec]. rewrite E, H2. reflexivity. }
  cbn in E. destruct (aid_ok x y) as [|D]; [discriminate|]. injection E as <- <-. cbn [app] in H.
  destruct (refused_call _ _ _ _ (mk_call o true me x own y rid AtSwarm Unsent 0) _ _ _ r H H1 H2)
    as [A B]; cbn; auto.
  rewrite nth_error_app2, Nat.sub_diag by lia. reflexivity.
Qed.

(** Both futures of a call on a [RemoteActorRef]. *)
Lemma pair_later : forall o es1 w1 t1 me x rx y ry es2 w2 t2,
  exec fresh es1 = Some (w1, t1) ->
  exec w1 (Half o me x rx y ry :: Half o me y ry x rx :: es2) = Some (w2, t2) ->
  let i := length (w_calls w1) in
  In (OReturned i Success) t2 -> In (OReturned (S i) Success) t2 ->
  x <> y /\ In (mark i o y x) t2 /\ In (mark (S i) o x y) t2.
Proof.
  intros o es1 w1 t1 me x rx y ry es2 w2 t2 H1 H2 i I1 I2.
  destruct (half_later _ _ _ _ _ _ _ _ _ _ _ _ H1 H2 I1) as (D & A & _).
  split; [exact D|split; [exact A|]].
  cbn [RemoteLinks.exec] in H2.
  destruct (step w1 (Half o me x rx y ry)) as [[w3 o3]|] eqn:E; [|discriminate].
  destruct (exec w3 (Half o me y ry x rx :: es2)) as [[w4 o4]|] eqn:E4; cbn [RemoteLinks.exec] in E4;
    rewrite E4 in H2; [|discriminate]. injection H2 as <- <-.
  assert (o3 = [] /\ length (w_calls w3) = S i) as [-> L].
  { cbn in E. destruct (aid_eqb x y); [discriminate|]. injection E as <- <-. cbn. rewrite app_length. cbn.
    unfold i. split; [reflexivity|lia]. }
  assert (H3 : exec fresh (es1 ++ [Half o me x rx y ry]) = Some (w3, t1)).
  { rewrite exec_app, H1. cbn [RemoteLinks.exec]. rewrite E. cbn. now rewrite app_nil_r. }
  cbn [app] in *. rewrite <- L in *.
  destruct (half_later _ _ _ _ _ _ _ _ _ _ _ _ H3 E4 I2) as (_ & B & _). exact B.
Qed.

Lemma pair_mutual : forall es1 w1 t1 me x rx y ry es2 w2 t2,
  exec fresh es1 = Some (w1, t1) ->
  exec w1 (Half OpLink me x rx y ry :: Half OpLink me y ry x rx :: es2) = Some (w2, t2) ->
  let i := length (w_calls w1) in
  In (OReturned i Success) t2 -> In (OReturned (S i) Success) t2 -> keeps x y t2 -> keeps y x t2 ->
  linked w2 x y /\ linked w2 y x.
Proof.
  intros es1 w1 t1 me x rx y ry es2 w2 t2 H1 H2 i I1 I2 K1 K2.
  destruct (pair_later _ _ _ _ _ _ _ _ _ _ _ _ H1 H2 I1 I2) as (D & A & B).
  rewrite <- !linkedb_ok, !(map_from _ _ _ _ _ _ H2).
  split; eapply keeps_linked; eauto; cbn; eauto.
Qed.

Lemma pair_severed : forall es1 w1 t1 me x rx y ry es2 w2 t2,
  exec fresh es1 = Some (w1, t1) ->
  exec w1 (Half OpUnlink me x rx y ry :: Half OpUnlink me y ry x rx :: es2) = Some (w2, t2) ->
  let i := length (w_calls w1) in
  In (OReturned i Success) t2 -> In (OReturned (S i) Success) t2 ->
  (forall j, ~ In (OLinked j x y) t2) -> (forall j, ~ In (OLinked j y x) t2) ->
  ~ linked w2 x y /\ ~ linked w2 y x.
Proof.
  intros es1 w1 t1 me x rx y ry es2 w2 t2 H1 H2 i I1 I2 K1 K2.
  destruct (pair_later _ _ _ _ _ _ _ _ _ _ _ _ H1 H2 I1 I2) as (D & A & B). cbn in A, B.
  rewrite <- !linkedb_ok, !(map_from _ _ _ _ _ _ H2).
  rewrite (unlinked_false _ _ _ _ _ K1 B), (unlinked_false _ _ _ _ _ K2 A). split; discriminate.
Qed.

(** ** Notifications that are never sent *)

Definition dumb (d : aid) (w : world) : Prop :=
  (exists a, w_actors w d = Some a /\ a_phase a = Gone)
  /\ forall n, In n (w_notes w) -> n_dead n = d -> n_req n = Unsent /\ n_over n = true.

Lemma dumb_step : forall d w e w' o, dumb d w -> step w e = Some (w', o) ->
  dumb d w' /\ forall x r, ~ In (OGot x d r) o.
Proof.
  intros d w e w' o [(a & Ea & Pa) K] E. split; [split|].
  - destruct e; cases E; cbn; ids;
    try (eexists; split; [eassumption|congruence]; fail);
    try (eexists; split; [reflexivity|]; cbn; congruence).
  - destruct e; cases E; cbn; try exact K; intros m I0 Dn;
    try (apply update_in in I0; destruct I0 as [->|I0]; [cbn in *|exact (K _ I0 Dn)];
         match goal with N0 : nth_error (w_notes w) _ = Some _ |- _ =>
           destruct (K _ (nth_error_In _ _ N0) Dn); split; congruence end).
    + apply in_app_or in I0. destruct I0 as [I0|I0]; [exact (K _ I0 Dn)|].
      unfold notes_of in I0. apply in_map_iff in I0. destruct I0 as (q & <- & _). cbn in Dn. congruence.
    + rewrite app_nil_r in I0. exact (K _ I0 Dn).
    + unfold drop_notes in I0. apply in_map_iff in I0. destruct I0 as (q & <- & Iq).
      destruct (aid_eqb x (n_dead q)); cbn in *; [|exact (K _ Iq Dn)].
      split; [apply (K _ Iq Dn)|reflexivity].
  - intros x r I0. destruct (got_next _ _ _ _ _ _ _ E I0) as (k & n & _ & Nk & Ky & _ & Q & _).
    unfold key in Ky. injection Ky as K1 _. destruct (K _ (nth_error_In _ _ Nk) K1). congruence.
Qed.

Lemma dumb_run : forall d es w w' t, dumb d w -> exec w es = Some (w', t) -> forall x, deaths x d t = [].
Proof.
  intros d es. induction es as [|e es IH]; intros w w' t K H x; cbn [RemoteLinks.exec] in H.
  - injection H as _ <-. reflexivity.
  - destruct (step w e) as [[w1 o1]|] eqn:E; [|discriminate].
    destruct (exec w1 es) as [[w2 o2]|] eqn:E2; [|discriminate]. injection H as <- <-.
    destruct (dumb_step _ _ _ _ _ K E) as [K' G]. rewrite deaths_app, (IH _ _ _ K' E2 x), app_nil_r.
    apply no_got_nil. apply G.
Qed.

(** A task that ended in a panic, or without having started. *)
Lemma silent : forall w d es w' o w2 t2, 
  (forall n, In n (w_notes w) -> n_dead n = d -> n_req n = Unsent) ->
  step w (Crash d) = Some (w', o) -> exec w' es = Some (w2, t2) -> forall x, deaths x d t2 = [].
Proof.
  intros w d es w' o w2 t2 U E H. apply (dumb_run d es w' w2 t2); [|exact H].
  cases E. split; cbn; rewrite ?aid_refl.
  - eexists. split; reflexivity.
  - intros n I0 Dn. unfold drop_notes in I0. apply in_map_iff in I0. destruct I0 as (q & <- & Iq).
    destruct (aid_ok d (n_dead q)); cbn in *; [|congruence]. split; [apply (U _ Iq); congruence|reflexivity].
Qed.

Lemma silent_start : forall es1 w t d es w' o w2 t2, exec fresh es1 = Some (w, t) ->
  step w (Vanish d) = Some (w', o) -> exec w' es = Some (w2, t2) -> forall x, deaths x d (t ++ t2) = [].
Proof.
  intros es1 w t d es w' o w2 t2 H1 E H x. pose proof (notes_run _ _ _ H1) as N.
  assert (Al : exists a, w_actors w d = Some a /\ a_phase a = Alive) by (cases E; eauto).
  destruct Al as (a & Ea & Pa).
  assert (No : forall r l, ~ In (ODrained d r l) t).
  { intros r l I0. destruct (no_stopped _ _ N _ _ _ I0) as (b & Eb & Pb). congruence. }
  rewrite deaths_app. rewrite (dumb_run d es w' w2 t2).
  - rewrite app_nil_r. apply no_got_nil. intros r I0. apply in_split in I0. destruct I0 as (t1 & t3 & ->).
    destruct (got_sound _ _ _ _ _ _ _ _ H1 eq_refl) as (l & A & _).
    apply (No r l), in_or_app. now left.
  - cases E. split; cbn; rewrite ?aid_refl.
    + eexists. split; reflexivity.
    + intros n I0 Dn. destruct (no_from _ _ N _ I0) as (l & A & _). rewrite Dn in A. destruct (No _ _ A).
  - exact H.
Qed.

(** An actor leaves the table of running actors after the notifications of its end are done with. *)
Lemma gone_next : forall w e w' o x a, step w e = Some (w', o) -> w_actors w x = Some a ->
  a_phase a = Gone -> exists a', w_actors w' x = Some a' /\ a_phase a' = Gone.
Proof.
  intros w e w' o x a H Ha T. destruct e; cases H; cbn; ids;
  try (eexists; split; [eassumption|congruence]; fail);
  try (eexists; split; [reflexivity|]; cbn; congruence).
Qed.

Record over_inv (es : list event) (w : world) : Prop := mk_over_inv {
  oi_sent : forall k n, nth_error (w_notes w) k = Some n -> n_req n <> Unsent -> exists b, In (Send k b) es;
  oi_over : forall k n, nth_error (w_notes w) k = Some n -> n_over n = true ->
    (In (Over k) es /\ exists b, In (Send k b) es) \/ exists a, w_actors w (n_dead n) = Some a /\ a_phase a = Gone }.

Lemma over_note : forall w e w' o k n', step w e = Some (w', o) -> nth_error (w_notes w') k = Some n' ->
  (n_req n' = Unsent /\ n_over n' = false)
  \/ exists n, nth_error (w_notes w) k = Some n /\ n_dead n' = n_dead n
     /\ (n_req n' <> Unsent -> n_req n <> Unsent \/ exists b, e = Send k b)
     /\ (n_over n' = true -> n_over n = true \/ (e = Over k /\ n_req n <> Unsent) \/ e = Crash (n_dead n)).
Proof.
  intros w e w' o k n' H N. destruct e; cases H; cbn in *;
  try (right; exists n'; split; [exact N|auto 20]; fail);
  try (match goal with N0 : nth_error (w_notes w) ?j = Some ?d |- _ =>
    destruct (Nat.eq_dec j k) as [->|Ne];
    [erewrite update_same in N by exact N0; injection N as <-; right; exists d; cbn;
     split; [exact N0|]; split; [reflexivity|]; split; intros; try congruence;
       first [right; eexists; reflexivity | left; congruence | right; left; split; congruence]
    |rewrite (update_other _ _ _ _ _ Ne) in N; right; exists n'; auto 20]
  end; fail).
  - destruct (Nat.lt_ge_cases k (length (w_notes w))) as [L|L].
    + rewrite nth_error_app1 in N by exact L. right. exists n'. auto 20.
    + rewrite nth_error_app2 in N by exact L. apply nth_error_In in N.
      unfold notes_of in N. apply in_map_iff in N. destruct N as (q & <- & _). now left.
  - rewrite app_nil_r in N. right. exists n'. auto 20.
  - unfold drop_notes in N. rewrite nth_error_map in N. destruct (nth_error (w_notes w) k) as [n|] eqn:E; [|discriminate].
    cbn in N. injection N as <-. right. exists n. split; [reflexivity|].
    destruct (aid_ok x (n_dead n)); cbn; subst; auto 20.
Qed.

Lemma over_run : forall es w t, exec fresh es = Some (w, t) -> over_inv es w.
Proof.
  intros es. induction es as [|e es IH] using rev_ind; intros w t H.
  - cbn in H. injection H as <- <-. split; intros [|k] n N; discriminate N.
  - rewrite exec_app in H. destruct (exec fresh es) as [[w1 o1]|] eqn:E; [|discriminate].
    cbn [RemoteLinks.exec] in H. destruct (step w1 e) as [[w3 o3]|] eqn:E2; [|discriminate].
    injection H as <- <-. destruct (IH _ _ eq_refl) as [Is Io].
    split; intros k n' N V; destruct (over_note _ _ _ _ _ _ E2 N) as [[A B]|(n & N1 & D & S1 & O1)]; try congruence.
    + destruct (S1 V) as [U|(b & ->)]; [destruct (Is _ _ N1 U) as (b & I0)|]; exists b; apply in_or_app; auto.
      right. now left.
    + destruct (O1 V) as [U|[[-> U]| ->]].
      * destruct (Io _ _ N1 U) as [(I1 & b & I2)|(a & Ea & Pa)].
        -- left. split; [|exists b]; apply in_or_app; now left.
        -- right. rewrite D. exact (gone_next _ _ _ _ _ _ E2 Ea Pa).
      * destruct (Is _ _ N1 U) as (b & I0). left.
        split; [|exists b]; apply in_or_app; [right; now left|now left].
      * right. rewrite D. clear - E2. cases E2. cbn. rewrite aid_refl. eexists. split; reflexivity.
Qed.

Lemma leaves_last : forall es w t x w' o k y r, exec fresh es = Some (w, t) -> step w (Leave x) = Some (w', o) ->
  notifies w k y x r -> In (Over k) es /\ exists alone, In (Send k alone) es.
Proof.
  intros es w t x w' o k y r H E (n & N & _ & D & _). destruct (over_run _ _ _ H) as [_ Io].
  assert (P : exists a, w_actors w x = Some a /\ a_phase a = Drained /\ all_over x (w_notes w) = true)
    by (cases E; eauto).
  destruct P as (a & Ea & Pa & A). unfold all_over in A. rewrite forallb_forall in A.
  specialize (A _ (nth_error_In _ _ N)). rewrite <- D in A. rewrite aid_refl in A. cbn in A.
  destruct (Io _ _ N A) as [G|(b & Eb & Pb)]; [exact G|]. congruence.
Qed.

End Proofs.
