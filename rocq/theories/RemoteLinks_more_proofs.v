(** Proofs of when actors are in the tables, how they end, and which calls can be dropped. *)
From Coq Require Import List Bool Arith PeanoNat Lia.
From Verif Require Import RemoteLinks RemoteLinks_spec RemoteLinks_proofs RemoteLinks_line_proofs.
Import ListNotations.

Section More.
Variable known : nat -> nat -> bool.

Local Notation step := (step known).
Local Notation exec := (exec known).

Ltac cases H :=
  unfold RemoteLinks.step, poll, find_step, apply_step, find_note, signal_note, at_request, at_point, note_at in H;
  repeat (cbv beta zeta in H; match type of H with
  | context [match ?x with _ => _ end] => destruct x eqn:?
  end; try discriminate H);
  try (injection H as <- <-).

Ltac ids := repeat match goal with
  | |- context [aid_eqb ?u ?u] => rewrite (aid_refl u)
  | |- context [aid_eqb ?u ?v] => destruct (aid_ok u v) as [<-|] end.

(** ** The end of an actor *)

Inductive at_stage (x : aid) : list event -> phase -> Prop :=
| st_alive : at_stage x [] Alive
| st_drained : forall r, at_stage x [Stop x r] Drained
| st_left : forall r, at_stage x [Stop x r; Leave x] Left
| st_gone : forall r, at_stage x [Stop x r; Leave x; Exit x] Gone
| st_crashed : forall r, at_stage x [Stop x r; Crash x] Gone
| st_vanished : at_stage x [Vanish x] Gone.

Lemma stage_step : forall w e w' o x, step w e = Some (w', o) ->
  match w_actors w x with
  | Some a => exists a', w_actors w' x = Some a'
      /\ forall l, at_stage x l (a_phase a) -> at_stage x (l ++ filter (end_of x) [e]) (a_phase a')
  | None => filter (end_of x) [e] = [] /\ match w_actors w' x with Some a' => a_phase a' = Alive | None => True end
  end.
Proof.
  intros w e w' o x H. destruct (w_actors w x) as [a|] eqn:Ha.
  - destruct e; cases H; cbn [filter end_of]; cbn; ids; try congruence.
    all: try (eexists; split; [eassumption|intros ? L; rewrite ?app_nil_r; exact L]; fail).
    all: eexists; (split; [reflexivity|]); cbn; intros ? L; rewrite ?app_nil_r;
      (match goal with H1 : w_actors ?W ?z = Some ?b, H2 : w_actors ?W ?z = Some ?b' |- _ =>
         lazymatch b with b' => fail | _ => assert (b = b') by congruence; subst b' end
       | _ => idtac end); try exact L; try congruence.
    all: repeat match goal with H : a_phase _ = _ |- _ => rewrite H in * end; inversion L; subst; cbn; constructor.
  - destruct e; cases H; cbn [filter end_of]; cbn; ids; try congruence; rewrite ?Ha; auto.
Qed.

Lemma stage : forall es w t x, exec fresh es = Some (w, t) ->
  match w_actors w x with
  | Some a => at_stage x (filter (end_of x) es) (a_phase a)
  | None => filter (end_of x) es = []
  end.
Proof.
  intros es. induction es as [|e es IH] using rev_ind; intros w t x H.
  - injection H as <- _. reflexivity.
  - destruct (exec_snoc _ _ _ _ _ _ H) as (w1 & t1 & o & H1 & E & _). specialize (IH _ _ x H1).
    pose proof (stage_step _ _ _ _ x E) as S. rewrite filter_app.
    destruct (w_actors w1 x) as [a|].
    + destruct S as (a' & -> & S). exact (S _ IH).
    + destruct S as (-> & S). rewrite IH. cbn. destruct (w_actors w x); [|reflexivity]. rewrite S. constructor.
Qed.

Lemma over_step : forall w e w' o k n, step w e = Some (w', o) -> nth_error (w_notes w) k = Some n ->
  exists n', nth_error (w_notes w') k = Some n' /\ n_dead n' = n_dead n
  /\ (n_over n = true \/ e = Over k -> n_over n' = true).
Proof.
  intros w e w' o k n H N.
  assert (U : forall j m (l : list note), nth_error l k = Some n -> (exists y, nth_error l j = Some y) -> 
     (j = k -> n_dead m = n_dead n /\ (n_over n = true \/ e = Over k -> n_over m = true)) -> (j <> k -> e <> Over k) ->
     exists n', nth_error (update j m l) k = Some n' /\ n_dead n' = n_dead n
       /\ (n_over n = true \/ e = Over k -> n_over n' = true)).
  { intros j m l L (y & Y) P Q. destruct (Nat.eq_dec j k) as [->|D].
    - exists m. rewrite (update_same _ _ _ _ _ Y). auto.
    - exists n. rewrite (update_other _ _ _ _ _ D). split; [exact L|]. split; [reflexivity|].
      intros [X|X]; [exact X|]. now apply Q in X. }
  destruct e; cases H; cbn;
    try (exists n; split; [exact N|split; [reflexivity|intros [X|X]; [exact X|discriminate]]]; fail);
    try (exists n; split; [rewrite nth_error_app1; [exact N|apply nth_error_Some; congruence]
                          |split; [reflexivity|intros [X|X]; [exact X|discriminate]]]; fail).
  all: try (apply U; [exact N|eauto|intros Ek; cbn|congruence]; []; subst;
            match goal with
            | M : nth_error ?W ?j = Some ?m, M' : nth_error ?W ?j = Some ?m' |- _ =>
                lazymatch m with m' => fail | _ => assert (m = m') by congruence; subst m end
            end;
            split; [reflexivity|intros [X|X]; congruence]; fail).
  - unfold drop_notes. rewrite nth_error_map, N. cbn. eexists. split; [reflexivity|].
    destruct (aid_eqb x (n_dead n)); (split; [reflexivity|]); [reflexivity|intros [X|X]; [exact X|discriminate]].
Qed.

Lemma over_when : forall es w t k n, exec fresh es = Some (w, t) -> nth_error (w_notes w) k = Some n ->
  In (Over k) es -> n_over n = true.
Proof.
  intros es. induction es as [|e es IH] using rev_ind; intros w t k n H N I.
  - destruct I.
  - destruct (exec_snoc _ _ _ _ _ _ H) as (w1 & t1 & o & H1 & E & _).
    destruct (nth_error (w_notes w1) k) as [n1|] eqn:N1.
    + destruct (over_step _ _ _ _ _ _ E N1) as (n' & N' & _ & V). rewrite N in N'. injection N' as <-. apply V.
      apply in_app_or in I. destruct I as [I|[I|[]]]; [left; eauto|right; exact I].
    + exfalso. apply in_app_or in I. destruct I as [I|[->|[]]].
      * apply in_split in I. destruct I as (es1 & es2 & ->). clear IH.
        rewrite exec_app in H1. destruct (exec fresh es1) as [[w2 t2]|]; [|discriminate].
        cbn [RemoteLinks.exec] in H1. destruct (step w2 (Over k)) as [[w3 o3]|] eqn:E3; [|discriminate].
        destruct (exec w3 es2) as [[w4 t4]|] eqn:E4; [|discriminate]. injection H1 as <- _.
        assert (K : nth_error (w_notes w3) k <> None).
        { cases E3; cbn; (erewrite update_same by eassumption); discriminate. }
        clear - E4 N1 K. revert w3 t4 E4 K. induction es2 as [|e2 es2 IH2]; intros w3 t4 E4 K.
        -- injection E4 as <- _. congruence.
        -- cbn [RemoteLinks.exec] in E4. destruct (step w3 e2) as [[w5 o5]|] eqn:E5; [|discriminate].
           destruct (exec w5 es2) as [[w6 t6]|] eqn:E6; [|discriminate]. injection E4 as <- _.
           apply (IH2 _ _ E6). destruct (nth_error (w_notes w3) k) as [n3|] eqn:N3; [|congruence].
           destruct (over_step _ _ _ _ _ _ E5 N3) as (n' & -> & _). discriminate.
      * cbn in E. rewrite N1 in E. discriminate.
Qed.

Lemma end_steps : forall es w t x a e, exec fresh es = Some (w, t) -> w_actors w x = Some a -> end_of x e = true ->
  (step w e <> None <->
   next x (filter (end_of x) es) e /\ (e = Leave x -> forall k y r, notifies w k y x r -> In (Over k) es)).
Proof.
  intros es w t x a e H A E. pose proof (stage _ _ _ x H) as S. rewrite A in S.
  assert (O : a_phase a = Drained -> (all_over x (w_notes w) = true <-> forall k y r, notifies w k y x r -> In (Over k) es)).
  { intros D. split.
    - intros V k y r N.
      assert (L : step w (Leave x) = Some (set_actor x (set_table false (set_phase Left a)) w, [OLeft x]))
        by (cbn; rewrite A, D, V; reflexivity).
      exact (proj1 (leaves_last _ _ _ _ _ _ _ _ _ _ H L N)).
    - intros V. unfold all_over. rewrite forallb_forall. intros n I. apply In_nth_error in I. destruct I as [k I].
      destruct (aid_ok x (n_dead n)) as [Ex|NE]; [|reflexivity]. cbn.
      apply (over_when _ _ _ _ _ H I), (V k (n_to n) (n_reason n)). exists n. auto. }
  destruct e; cbn in E; try discriminate; (destruct (aid_ok x x0) as [<-|]; [|discriminate]); cbn [RemoteLinks.step]; rewrite A.
  - split.
    + intros X. destruct (a_phase a) eqn:P; try congruence. inversion S. split; [constructor|discriminate].
    + intros [X _]. inversion X as [? Y| | | |]. rewrite <- Y in S. inversion S. discriminate.
  - split.
    + intros X. destruct (a_phase a) eqn:P; try congruence. inversion S. split; [constructor|].
      intros _. apply O; [reflexivity|]. destruct (all_over x (w_notes w)); [reflexivity|congruence].
    + intros [X V]. inversion X as [| |? Y| |]. rewrite <- Y in S. inversion S as [|? Z Q| | | |]. 
      rewrite (proj2 (O (eq_sym Q)) (V eq_refl)). discriminate.
  - split.
    + intros X. destruct (a_phase a) eqn:P; try congruence. inversion S. split; [constructor|discriminate].
    + intros [X _]. inversion X as [| | | |? Y]. rewrite <- Y in S. inversion S. discriminate.
  - split.
    + intros X. destruct (a_phase a) eqn:P; try congruence. inversion S. split; [constructor|discriminate].
    + intros [X _]. inversion X as [|Y| | |]. rewrite <- Y in S. inversion S. discriminate.
  - split.
    + intros X. destruct (a_phase a) eqn:P; try congruence. inversion S. split; [constructor|discriminate].
    + intros [X _]. inversion X as [| | |? Y|]. rewrite <- Y in S. inversion S. discriminate.
Qed.

(** ** Calls *)

Lemma call_step : forall w e w' o i c, step w e = Some (w', o) -> nth_error (w_calls w) i = Some c ->
  exists c', nth_error (w_calls w') i = Some c' /\ c_op c' = c_op c /\ c_from c' = c_from c /\ c_to c' = c_to c
  /\ (c_at c' = AtStart <-> c_at c = AtStart /\ (forall b, e <> Poll i b) /\ e <> Drop i)
  /\ ((forall b, e <> Poll i b) -> c_at c = AtStart \/ c_at c = Dropped -> c_at c' = AtStart \/ c_at c' = Dropped)
  /\ ((exists r, c_at c' = Returned r) <-> (exists r, c_at c = Returned r) \/ exists r, In (OReturned i r) o)
  /\ (c_at c' = Dropped <-> c_at c = Dropped \/ e = Drop i).
Proof.
  intros w e w' o i c H N.
  assert (Same : forall e o, (forall b, e <> Poll i b) -> e <> Drop i -> (forall r, ~ In (OReturned i r) o) ->
    exists c', Some c = Some c' /\ c_op c' = c_op c /\ c_from c' = c_from c /\ c_to c' = c_to c
    /\ (c_at c' = AtStart <-> c_at c = AtStart /\ (forall b, e <> Poll i b) /\ e <> Drop i)
    /\ ((forall b, e <> Poll i b) -> c_at c = AtStart \/ c_at c = Dropped -> c_at c' = AtStart \/ c_at c' = Dropped)
    /\ ((exists r, c_at c' = Returned r) <-> (exists r, c_at c = Returned r) \/ exists r, In (OReturned i r) o)
    /\ (c_at c' = Dropped <-> c_at c = Dropped \/ e = Drop i)).
  { intros e0 o0 P D R. exists c. repeat split; auto; try tauto.
    - intros [X|(r & X)]; [exact X|]. destruct (R _ X). }
  destruct e; cases H; cbn [w_calls set_call set_actor set_note];
    try (rewrite N; apply Same; [congruence|congruence|cbn; intros r0 X; intuition discriminate]; fail);
    try (rewrite nth_error_app1 by (apply nth_error_Some; congruence); rewrite N;
         apply Same; [congruence|congruence|cbn; intros r0 X; intuition discriminate]; fail).
  all: try match goal with M : nth_error (w_calls _) ?j = Some ?d |- context [update ?j _ _] =>
      destruct (Nat.eq_dec j i) as [Ej|Nj];
      [subst; assert (d = c) by congruence; subst d; rewrite (update_same _ _ _ _ _ N); eexists; split; [reflexivity|]; cbn
      |rewrite (update_other _ _ _ _ _ Nj), N; apply Same;
       [congruence|congruence|cbn; intros r0 X; intuition congruence]]
    end.
  all: repeat match goal with H : c_at _ = _ |- _ => rewrite !H; clear H end.
  all: repeat split; try (intros; discriminate); try congruence.
  all: intros; repeat match goal with
    | H : _ /\ _ |- _ => destruct H
    | H : _ \/ _ |- _ => destruct H
    | H : exists _, _ |- _ => destruct H
    | H : False |- _ => destruct H
    end; try discriminate; try congruence; auto;
    try (exfalso; match goal with H : forall b, Poll _ _ <> Poll _ b |- _ => exact (H _ eq_refl) end);
    try (left; eexists; eassumption); try (right; eexists; left; reflexivity); try (eexists; eassumption);
    try (eexists; reflexivity).
Qed.

Lemma calls_length : forall w e w' o, step w e = Some (w', o) ->
  length (w_calls w') = length (w_calls w) + length (filter is_call [e]).
Proof.
  intros w e w' o H. destruct e; cases H; cbn; rewrite ?update_length, ?app_length; cbn; lia.
Qed.

Lemma new_call : forall w e w' o, step w e = Some (w', o) -> is_call e = true ->
  exists c, nth_error (w_calls w') (length (w_calls w)) = Some c
  /\ ((exists k x y rid, e = Call k x y rid /\ c_op c = k /\ c_from c = x /\ c_to c = y /\ c_at c = AtStart)
      \/ ((exists k me x own y rid, e = Half k me x own y rid) /\ c_at c = AtSwarm))
  /\ (forall i r, ~ In (OReturned i r) o).
Proof.
  intros w e w' o H C. destruct e; try discriminate; cases H; cbn;
    rewrite nth_error_app2, Nat.sub_diag by lia; cbn; eexists; (split; [reflexivity|]); (split; [|auto]);
    [left|right]; cbn; [eauto 10|split; [eauto 10|reflexivity]].
Qed.

Definition call_inv (es : list event) (w : world) (t : list obs) : Prop :=
  length (w_calls w) = length (calls_made es)
  /\ (forall i r, In (OReturned i r) t -> i < length (w_calls w))
  /\ (forall i b, In (Poll i b) es -> i < length (w_calls w)) /\ (forall i, In (Drop i) es -> i < length (w_calls w))
  /\ forall i c, nth_error (w_calls w) i = Some c ->
     exists e, nth_error (calls_made es) i = Some e
     /\ (c_at c = AtStart -> exists y rid, e = Call (c_op c) (c_from c) y rid /\ y = c_to c)
     /\ (forall k x y rid, e = Call k x y rid -> c_op c = k /\ c_from c = x /\ c_to c = y)
     /\ (c_at c = AtStart -> forall b, ~ In (Poll i b) es)
     /\ ((exists k x y rid, e = Call k x y rid) -> (forall b, ~ In (Poll i b) es) -> c_at c = AtStart \/ c_at c = Dropped)
     /\ ((exists r, c_at c = Returned r) <-> exists r, In (OReturned i r) t)
     /\ (c_at c = Dropped <-> In (Drop i) es).

Lemma about_calls : forall w e w' o, step w e = Some (w', o) ->
  (forall i r, In (OReturned i r) o -> i < length (w_calls w))
  /\ (forall i b, e = Poll i b -> i < length (w_calls w)) /\ (forall i, e = Drop i -> i < length (w_calls w)).
Proof.
  intros w e w' o H. destruct e; cases H; cbn;
    repeat split; intros; try (match goal with H : _ \/ _ |- _ => destruct H as [H|[]] end); try discriminate; try contradiction;
    match goal with H : _ = _ |- _ < _ => injection H; intros; subst; apply nth_error_Some; congruence end.
Qed.

Lemma calls : forall es w t, exec fresh es = Some (w, t) -> call_inv es w t.
Proof.
  intros es. induction es as [|e es IH] using rev_ind; intros w t H.
  - injection H as <- <-. repeat split; cbn; try tauto. intros [|i] c X; discriminate.
  - destruct (exec_snoc _ _ _ _ _ _ H) as (w1 & t1 & o & H1 & E & ->).
    destruct (IH _ _ H1) as (L & R & P & D & C). clear IH H H1.
    pose proof (calls_length _ _ _ _ E) as LL. destruct (about_calls _ _ _ _ E) as (AR & AP & AD).
    assert (CM : calls_made (es ++ [e]) = calls_made es ++ filter is_call [e]) by apply filter_app.
    assert (Q : forall A (u v : A) l, In u (l ++ [v]) <-> In u l \/ v = u).
    { intros A u v l. rewrite in_app_iff. cbn. tauto. }
    split; [rewrite CM, app_length; lia|].
    split; [intros i r X; apply in_app_or in X; destruct X as [X|X]; [apply R in X|apply AR in X]; lia|].
    split; [intros i b X; apply Q in X; destruct X as [X|X]; [apply P in X|apply AP in X]; lia|].
    split; [intros i X; apply Q in X; destruct X as [X|X]; [apply D in X|apply AD in X]; lia|].
    intros i c N. destruct (nth_error (w_calls w1) i) as [c1|] eqn:N1.
    + destruct (call_step _ _ _ _ _ _ E N1) as (c' & N' & F1 & F2 & F3 & S1 & S2 & S3 & S4).
      rewrite N in N'. injection N' as <-.
      destruct (C _ _ N1) as (e1 & M & I1 & I2 & I3 & I4 & I5 & I6). exists e1.
      split; [rewrite CM, nth_error_app1 by (apply nth_error_Some; congruence); exact M|].
      split; [intros X; apply S1 in X; rewrite F1, F2, F3; apply I1; tauto|].
      split; [intros k x y rid X; rewrite F1, F2, F3; eauto|].
      split; [intros X b Y; apply S1 in X; apply Q in Y; destruct Y as [Y|Y]; [eapply I3; [|exact Y]; tauto|destruct X as (_ & X & _); eapply X; exact Y]|].
      split.
      { intros X Y. apply S2; [intros b ->; apply (Y b), Q; auto|]. apply I4; [exact X|]. intros b Z. apply (Y b), Q. auto. }
      split.
      { rewrite S3, I5. split.
        - intros [(r & X)|(r & X)]; exists r; apply in_or_app; auto.
        - intros (r & X). apply in_app_or in X. destruct X; eauto. }
      rewrite S4, I6, Q. tauto.
    + assert (IC : is_call e = true).
      { destruct (is_call e) eqn:IC; [reflexivity|]. cbn in LL. rewrite IC in LL. cbn in LL.
        apply nth_error_None in N1. assert (i < length (w_calls w)) by (apply nth_error_Some; congruence). lia. }
      destruct (new_call _ _ _ _ E IC) as (c' & N' & K & NR). cbn in LL. rewrite IC in LL. cbn in LL.
      assert (i = length (w_calls w1)).
      { apply nth_error_None in N1. assert (i < length (w_calls w)) by (apply nth_error_Some; congruence). lia. }
      subst i. rewrite N in N'. injection N' as <-. exists e.
      split; [rewrite CM, L, nth_error_app2, Nat.sub_diag by lia; cbn; rewrite IC; reflexivity|].
      assert (NP : forall b, ~ In (Poll (length (w_calls w1)) b) (es ++ [e])).
      { intros b X. apply Q in X. destruct X as [X| ->]; [apply P in X; lia|discriminate]. }
      assert (NDr : ~ In (Drop (length (w_calls w1))) (es ++ [e])).
      { intros X. apply Q in X. destruct X as [X| ->]; [apply D in X; lia|discriminate]. }
      assert (NO : forall r, ~ In (OReturned (length (w_calls w1)) r) (t1 ++ o)).
      { intros r X. apply in_app_or in X. destruct X as [X|X]; [apply R in X; lia|destruct (NR _ _ X)]. }
      destruct K as [(k & x & y & rid & -> & K1 & K2 & K3 & K4)|((k & me & x & own & y & rid & ->) & K4)].
      * split; [intros _; exists y, rid; subst; auto|].
        split; [intros ? ? ? ? X; injection X as <- <- <- <-; auto|]. split; [auto|]. split; [auto|].
        rewrite K4. split; split; try discriminate; try (intros (r & X); try discriminate; destruct (NO _ X)).
        intros X. destruct (NDr X).
      * rewrite K4. split; [discriminate|]. split; [discriminate|]. split; [discriminate|].
        split; [intros (? & ? & ? & ? & X); discriminate|].
        split; split; try discriminate; try (intros (r & X); try discriminate; destruct (NO _ X)).
        intros X. destruct (NDr X).
Qed.

Lemma droppable : forall es w t i, exec fresh es = Some (w, t) ->
  (step w (Drop i) <> None <->
   i < length (calls_made es) /\ (forall r, ~ In (OReturned i r) t) /\ ~ In (Drop i) es).
Proof.
  intros es w t i H. destruct (calls _ _ _ H) as (L & _ & _ & _ & C). cbn [RemoteLinks.step].
  destruct (nth_error (w_calls w) i) as [c|] eqn:N.
  - destruct (C _ _ N) as (e & M & _ & _ & _ & _ & I5 & I6).
    assert (i < length (calls_made es)) by (apply nth_error_Some; congruence). split.
    + intros X. split; [assumption|]. split.
      * intros r Y. destruct (proj2 I5 (ex_intro _ r Y)) as (r' & Z). rewrite Z in X. congruence.
      * intros Y. apply I6 in Y. rewrite Y in X. congruence.
    + intros (_ & X & Y). destruct (c_at c) eqn:A; try discriminate.
      * destruct (proj1 I5 (ex_intro _ _ eq_refl)) as (r' & Z). destruct (X _ Z).
      * destruct Y. now apply I6.
  - split; [congruence|]. intros (X & _). apply nth_error_None in N. lia.
Qed.

(** ** The tables *)

Lemma table_step : forall w e w' o x, step w e = Some (w', o) ->
  forall a', w_actors w' x = Some a' ->
  (a_table a' = true <->
   e = Register x
   \/ (exists i b c, e = Poll i b /\ nth_error (w_calls w) i = Some c /\ c_at c = AtStart /\ c_from c = x
        /\ c_op c = OpLink /\ c_to c <> x)
   \/ (exists a, w_actors w x = Some a /\ a_table a = true /\ e <> Leave x)).
Proof.
  intros w e w' o x H a' A.
  assert (Kept : forall e, (e <> Register x) -> (forall i b, e <> Poll i b) -> e <> Leave x ->
    forall a, w_actors w x = Some a ->
    (a_table a = true <->
     e = Register x
     \/ (exists i b c, e = Poll i b /\ nth_error (w_calls w) i = Some c /\ c_at c = AtStart /\ c_from c = x
          /\ c_op c = OpLink /\ c_to c <> x)
     \/ (exists a, w_actors w x = Some a /\ a_table a = true /\ e <> Leave x))).
  { clear. intros e R P V a A. split; [eauto 8|]. intros [X|[(i & b & c & X & _)|(a0 & X & Y & _)]]; [contradiction|destruct (P _ _ X)|congruence]. }
  assert (Poll_ : forall i b c, nth_error (w_calls w) i = Some c -> ~ (c_at c = AtStart /\ c_from c = x /\ c_op c = OpLink /\ c_to c <> x) ->
    forall a, w_actors w x = Some a ->
    (a_table a = true <->
     Poll i b = Register x
     \/ (exists i' b' c, Poll i b = Poll i' b' /\ nth_error (w_calls w) i' = Some c /\ c_at c = AtStart /\ c_from c = x
          /\ c_op c = OpLink /\ c_to c <> x)
     \/ (exists a, w_actors w x = Some a /\ a_table a = true /\ Poll i b <> Leave x))).
  { clear. intros i b c N P a A. split; [intros X; right; right; exists a; split; [exact A|split; [exact X|discriminate]]|].
    intros [X|[(i' & b' & c' & X & M & Y)|(a0 & X & Y & _)]]; [discriminate| |congruence].
    injection X as <- <-. rewrite N in M. injection M as <-. contradiction. }
  destruct e; cases H; cbn in A;
    repeat match type of A with context [aid_eqb ?u ?v] => destruct (aid_ok u v) end; try (injection A as <-); subst; cbn;
    try (apply Kept; congruence);
    try (match goal with K : w_actors w x = Some ?a |- _ => exact (Kept _ ltac:(congruence) ltac:(congruence) ltac:(congruence) _ K) end);
    try (match goal with M : nth_error (w_calls w) ?i = Some ?c |- _ =>
           eapply Poll_; [exact M|intuition congruence|eassumption] end).
  - split; [discriminate|]. intros [X|[(i & b & c & X & _)|(a & X & _)]]; congruence.
  - split; auto.
  - match goal with M : nth_error (w_calls w) ?i = Some ?c |- _ =>
      eapply Poll_; [exact M| |eassumption] end. intros (_ & X & _ & Y). subst.
    match goal with E : aid_eqb ?u ?v = true |- _ => destruct (aid_ok u v); congruence end.
  - split; [|reflexivity]. intros _. right. left. eexists _, _, _. split; [reflexivity|]. split; [eassumption|].
    repeat split; auto. match goal with E : aid_eqb ?u ?v = false |- _ => destruct (aid_ok u v); congruence end.
  - split; [discriminate|]. intros [X|[(i & b & c & X & _)|(a0 & _ & _ & X)]]; congruence.
Qed.

Lemma or_assoc_iff : forall A B C : Prop, A \/ B \/ C <-> (A \/ B) \/ C.
Proof. tauto. Qed.

Lemma in_table_snoc : forall x es e,
  in_table x (es ++ [e]) <-> enters x es e \/ (in_table x es /\ e <> Leave x).
Proof.
  intros x es e. split.
  - intros (es1 & e1 & es2 & E & I & N). destruct es2 as [|e2 es2 _] using rev_ind.
    + apply app_inj_tail in E. destruct E as [-> ->]. auto.
    + rewrite app_comm_cons, app_assoc in E. apply app_inj_tail in E. destruct E as [-> ->].
      right. split.
      * exists es1, e1, es2. split; [reflexivity|]. split; [exact I|]. intros X. apply N, in_or_app. auto.
      * intros ->. apply N, in_or_app. right. left. reflexivity.
  - intros [I|((es1 & e1 & es2 & -> & I & N) & D)].
    + exists es, e, []. auto.
    + exists es1, e1, (es2 ++ [e]). split; [now rewrite <- app_assoc|]. split; [exact I|].
      intros X. apply in_app_or in X. destruct X as [X|[X|[]]]; auto.
Qed.

Lemma table_when : forall es w t x a, exec fresh es = Some (w, t) -> w_actors w x = Some a ->
  (a_table a = true <-> in_table x es).
Proof.
  intros es. enough (G : forall w t x, exec fresh es = Some (w, t) ->
    match w_actors w x with Some a => a_table a = true <-> in_table x es | None => ~ in_table x es end)
    by (intros w t x a H A; specialize (G w t x H); rewrite A in G; exact G).
  induction es as [|e es IH] using rev_ind; intros w t x H.
  - injection H as <- _. cbn. intros (es1 & e & es2 & E & _). destruct es1; discriminate.
  - destruct (exec_snoc _ _ _ _ _ _ H) as (w1 & t1 & o & H1 & E & ->). specialize (IH _ _ x H1).
    destruct (calls _ _ _ H1) as (L & _ & _ & _ & C).
    assert (B : e = Register x
      \/ (exists i b c, e = Poll i b /\ nth_error (w_calls w1) i = Some c /\ c_at c = AtStart /\ c_from c = x
           /\ c_op c = OpLink /\ c_to c <> x) <-> enters x es e).
    { unfold enters. split; (intros [X|X]; [left; exact X|right]).
      - destruct X as (i & b & c & -> & N & A & F & O & T). destruct (C _ _ N) as (e1 & M & I1 & _ & I3 & _).
        destruct (I1 A) as (y & rid & -> & ->). exists i, b, (c_to c), rid. split; [reflexivity|].
        rewrite F, O in M. split; [exact M|]. split; [congruence|exact (I3 A)].
      - destruct X as (i & b & y & rid & -> & M & T & P).
        assert (exists c, nth_error (w_calls w1) i = Some c) as (c & N).
        { assert (X : i < length (w_calls w1)) by (rewrite L; apply nth_error_Some; congruence).
          destruct (nth_error (w_calls w1) i) eqn:N; [eauto|]. apply nth_error_None in N. lia. }
        destruct (C _ _ N) as (e1 & M' & _ & I2 & _ & I4 & _). rewrite M in M'. injection M' as <-.
        destruct (I2 _ _ _ _ eq_refl) as (O & F & T'). exists i, b, c. split; [reflexivity|]. split; [exact N|].
        destruct (I4 ltac:(eauto) P) as [A|A]; [split; [exact A|]; subst; auto|].
        cbn [RemoteLinks.step] in E. rewrite N in E. unfold poll in E. rewrite A in E. discriminate. }
    destruct (w_actors w x) as [a'|] eqn:A'.
    + rewrite (table_step _ _ _ _ _ E _ A'), in_table_snoc, or_assoc_iff, B.
      destruct (w_actors w1 x) as [a|].
      * rewrite <- IH. split; (intros [X|X]; [left; exact X|right]).
        -- destruct X as (a0 & Y & Z). injection Y as <-. exact Z.
        -- exists a. split; [reflexivity|exact X].
      * split; (intros [X|X]; [left; exact X|]); [destruct X as (a0 & Y & _); discriminate|destruct X as (X & _); contradiction].
    + assert (A1 : w_actors w1 x = None).
      { destruct (w_actors w1 x) as [a|] eqn:A1; [|reflexivity].
        pose proof (stage_step _ _ _ _ x E) as S. rewrite A1 in S. destruct S as (a' & S & _). congruence. }
      rewrite A1 in IH. rewrite in_table_snoc, <- B. intros [[->|X]|(X & _)]; [| |contradiction].
      * cbn in E. rewrite A1 in E. discriminate.
      * destruct X as (i & b & c & -> & N & A & F & _). cbn in E. rewrite N in E. unfold poll in E.
        rewrite A, F, A1 in E. discriminate.
Qed.
End More.
