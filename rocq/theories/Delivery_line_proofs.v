(** Proofs about the requests made of a broker or message bus: they are handled in turn. *)
From Coq Require Import List Bool PeanoNat Lia.
Import ListNotations.
From Verif Require Import Errors Delivery Broker MessageBus Delivery_spec Delivery_proofs.

Set Implicit Arguments.

Lemma merged_app : forall (A : Type) (a b c a' b' c' : list A), merged a b c -> merged a' b' c' ->
  merged (a ++ a') (b ++ b') (c ++ c').
Proof. intros A a b c a' b' c' M N. induction M; cbn; try constructor; assumption. Qed.

Section Line.
  Context {key topic reg msg : Type}.
  Variable key_eqb : key -> key -> bool.
  Variable recipient : reg -> nat.
  Variable rid : reg -> nat.
  Variable targets : list (key * list reg) -> topic -> list (key * reg).
  Variable usable : topic -> reg -> bool.
  Variable fits : key -> reg -> bool.
  Variable has_all : bool.
  Variable strat : strategy.
  Local Notation state := (@state key topic reg msg).
  Local Notation obs := (@obs key topic reg msg).
  Local Notation bmsg := (@bmsg key topic reg msg).
  Local Notation step := (@step key topic reg msg key_eqb recipient rid targets usable fits has_all strat).
  Local Notation run := (@run key topic reg msg key_eqb recipient rid targets usable fits has_all strat).

  Ltac cases E :=
    repeat match type of E with
    | None = Some _ => discriminate E
    | Some _ = Some _ => injection E as <- <-
    | (match ?x with _ => _ end) = Some _ => destruct x eqn:?; try discriminate E
    end;
    repeat match goal with
    | H : (_, _) = (_, _) |- _ => injection H; clear H; intros; subst
    end.

  Lemma sent_app : forall a b : list (@event key topic reg msg), sent (a ++ b) = sent a ++ sent b.
  Proof. intros. apply flat_map_app. Qed.
  Lemma reported_app : forall a b : list obs, reported (a ++ b) = reported a ++ reported b.
  Proof. intros. apply flat_map_app. Qed.
  Lemma handled_app : forall a b : list obs, handled (a ++ b) = handled a ++ handled b.
  Proof. intros. apply flat_map_app. Qed.

  Lemma began_none : forall n (k : key) (r : reg) (since : option nat),
    let o : list obs := match since with None => [OAttempt n k r] | Some _ => [] end in
    reported o = [] /\ handled o = [].
  Proof. intros n k r []; cbn; auto. Qed.

  Lemma expired_none : forall (dead : list (key * nat)) n,
    let o : list obs := map (fun e => OExpired (fst e) (snd e)) dead ++ [OFinished n] in
    reported o = [] /\ handled o = [].
  Proof. intros dead n. induction dead as [|x dead IH]; cbn; auto. Qed.

  (** What one step adds to the line, [new], and takes from it. *)
  Definition moves (s : state) (e : event) (s' : state) (o : list obs) : Prop :=
    exists new, merged (sent [e]) (reported o) new /\
      ((handled o ++ items (inbox s') = items (inbox s) ++ new /\ (ph s = Stopped -> ph s' = Stopped /\ handled o = []))
       \/ (ph s' = Stopped /\ items (inbox s') = [] /\ new = [] /\ handled o = [])).

  Lemma step_moves : forall s e s' o, step s e = Some (s', o) -> moves s e s' o.
  Proof.
    intros s e s' o E. unfold moves.
    assert (N : forall A, @merged A [] [] []) by constructor.
    destruct e; unfold Delivery.step, settle in E; cases E; cbn [sent flat_map app];
      try (exists []; split; [constructor|]; left; cbn; rewrite ?app_nil_r; split; [congruence|intros Z; try discriminate Z; split; congruence]);
      try (exists []; split; [constructor|]; right; cbn; auto; fail).
    all: try (destruct since; exists []; (split; [constructor|]); left; cbn; rewrite ?app_nil_r; (split; [congruence|intros Z; try discriminate Z; split; congruence])).
    - eexists. split; [apply merged_left, merged_nil|]. left. cbn. auto.
    - pose proof (expired_none dead n) as (X1 & X2). exists []. rewrite X1, X2. split; [constructor|].
      left. cbn. rewrite app_nil_r. split; [congruence|intros; split; congruence].
    - match goal with H : poll_tell _ _ _ _ = Some _ |- _ => unfold poll_tell in H; cases H end; cbn [not_running reported handled flat_map app].
      + eexists. split; [apply merged_right, merged_nil|]. left. cbn. auto.
      + exists []. split; [constructor|]. left. cbn. rewrite app_nil_r. auto.
  Qed.

  Lemma phase_dec : forall s : state, ph s = Stopped \/ ph s <> Stopped.
  Proof. intros s. destruct (ph s); auto; right; discriminate. Qed.

  Lemma run_line : forall es s line tr0 es0 s' tr, merged (sent es0) (reported tr0) line ->
    (exists rest, line = handled tr0 ++ rest /\ (ph s <> Stopped -> items (inbox s) = rest)) ->
    run s es = Some (s', tr) ->
    exists line', merged (sent (es0 ++ es)) (reported (tr0 ++ tr)) line' /\
      exists rest, line' = handled (tr0 ++ tr) ++ rest /\ (ph s' <> Stopped -> items (inbox s') = rest).
  Proof.
    induction es as [|e es IH]; intros s line tr0 es0 s' tr M (rest & L & A) R; cbn in R.
    - injection R as <- <-. rewrite !app_nil_r. eauto.
    - destruct (step s e) as [[s1 o1]|] eqn:E1; [|discriminate].
      destruct (run s1 es) as [[s2 o2]|] eqn:E2; [|discriminate]. injection R as <- <-.
      assert (B : es0 ++ e :: es = (es0 ++ [e]) ++ es) by (rewrite <- app_assoc; reflexivity).
      rewrite B, app_assoc.
      destruct (step_moves _ _ E1) as (new & N & K).
      assert (M' : merged (sent (es0 ++ [e])) (reported (tr0 ++ o1)) (line ++ new)).
      { rewrite sent_app, reported_app. apply merged_app; assumption. }
      eapply IH; [exact M'| |exact E2]. subst line. rewrite handled_app, <- !app_assoc.
      destruct K as [(K & S)|(S & I & -> & H)].
      + destruct (phase_dec s) as [D|D].
        * destruct (S D) as (D1 & ->). exists (rest ++ new). rewrite app_nil_r. split; [reflexivity|]. congruence.
        * rewrite (A D) in K. exists (items (inbox s1)). rewrite <- app_assoc, K. auto.
      + rewrite H, app_nil_r. exists rest. rewrite app_nil_r. split; [reflexivity|]. congruence.
  Qed.

  Lemma in_turn : forall cap caps es s tr, run (init cap caps) es = Some (s, tr) ->
    exists line, merged (sent es) (reported tr) line /\
      exists rest, line = handled tr ++ rest /\ (ph s <> Stopped -> items (inbox s) = rest).
  Proof.
    intros cap caps es s tr R. apply (run_line es (init cap caps) (line := []) [] []) with (3 := R); [constructor|].
    exists []. auto.
  Qed.

  Lemma step_stops : forall s e s' o, step s e = Some (s', o) ->
    ph s' = Stopped <-> ph s = Stopped \/ e = EStop \/ exists n, In (OPanicked n) o.
  Proof.
    intros s e s' o E. split.
    - intros P. destruct e; unfold Delivery.step, settle in E; cases E; cbn in P; try discriminate P; try (left; congruence); auto.
      right. right. eexists. left. reflexivity.
    - intros [P|[->|(n & P)]].
      + destruct e; unfold Delivery.step, settle in E; rewrite ?P in E; cases E; cbn; auto.
      + injection E as <- _. reflexivity.
      + destruct e; unfold Delivery.step, settle in E; cases E; try reflexivity; exfalso;
          rewrite ?in_app_iff in P; cbn in P;
          repeat (destruct P as [P|P]); try discriminate P; try destruct P;
          try (apply in_map_iff in P; destruct P as (z & Z & _); discriminate);
          (match type of P with context [match ?x with _ => _ end] => destruct x end);
          cbn in P; repeat (destruct P as [P|P]); try discriminate P; try destruct P.
  Qed.

  Lemma stops_when : forall cap caps es s tr, run (init cap caps) es = Some (s, tr) ->
    ph s = Stopped <-> In EStop es \/ exists n, In (OPanicked n) tr.
  Proof.
    intros cap caps es. induction es as [|e es IH] using rev_ind; intros s tr R.
    - injection R as <- <-. split; [discriminate|]. intros [[]|(n & [])].
    - rewrite run_app in R. destruct (run (init cap caps) es) as [[s1 t1]|] eqn:E1; [|discriminate].
      cbn [Delivery.run] in R. destruct (step s1 e) as [[s2 o]|] eqn:E2; [|discriminate]. injection R as <- <-.
      rewrite app_nil_r, (step_stops _ _ E2), (IH _ _ eq_refl). split.
      + intros [[I|(n & I)]|[->|(n & I)]].
        * left. apply in_or_app. auto.
        * right. exists n. apply in_or_app. auto.
        * left. apply in_or_app. right. left. reflexivity.
        * right. exists n. apply in_or_app. auto.
      + intros [I|(n & I)]; apply in_app_or in I; destruct I as [I|I]; eauto 6.
        destruct I as [->|[]]. auto.
  Qed.

  (** Its mailbox is open until it stops. *)
  Lemma step_inbox : forall s e s' o, step s e = Some (s', o) ->
    (bopen (inbox s) = true <-> ph s <> Stopped) ->
    (bopen (inbox s') = true <-> ph s' <> Stopped)
    /\ bcap (inbox s') = bcap (inbox s) /\ held (inbox s') = held (inbox s).
  Proof.
    intros s e s' o E I.
    destruct e; unfold Delivery.step, settle in E; cases E; cbn in *;
      repeat match goal with H : ph s = _ |- _ => rewrite H in * end;
      try (match goal with H : poll_tell _ _ _ _ = Some _ |- _ => unfold poll_tell in H; cases H end; subst; cbn in * );
      (split; [|auto]); try tauto; try (match goal with H : bopen (inbox s) = _ |- _ => rewrite H end; tauto);
      try (split; [discriminate|intros X; now contradict X]);
      (assert (X : bopen (inbox s) = true) by (apply I; discriminate); rewrite X; split; [discriminate|reflexivity]).
  Qed.

  Lemma inbox_open : forall cap caps es s tr, run (init cap caps) es = Some (s, tr) ->
    (bopen (inbox s) = true <-> ph s <> Stopped) /\ bcap (inbox s) = cap /\ held (inbox s) = 0.
  Proof.
    intros cap caps es. induction es as [|e es IH] using rev_ind; intros s tr R.
    - injection R as <- <-. cbn. split; [|auto]. split; [discriminate|reflexivity].
    - rewrite run_app in R. destruct (run (init cap caps) es) as [[s1 t1]|] eqn:E1; [|discriminate].
      cbn [Delivery.run] in R. destruct (step s1 e) as [[s2 o]|] eqn:E2; [|discriminate]. injection R as <- <-.
      destruct (IH _ _ eq_refl) as (I1 & <- & <-). exact (step_inbox _ _ E2 I1).
  Qed.

  Lemma merged_length : forall (A : Type) (a b c : list A), merged a b c -> length c = length a + length b.
  Proof. intros A a b c M. induction M; cbn; lia. Qed.

  (** What is accepted, ... *)
  Lemma accepted : forall cap caps es s tr b, run (init cap caps) es = Some (s, tr) ->
    (exists s', run (init cap caps) (es ++ [ESend b]) = Some (s', tr)) <->
    match b with Subscribe k r => fits k r = true | Unsubscribe None _ => has_all = true | _ => True end
    /\ ph s <> Stopped
    /\ match cap with Some c => length (sent es) + length (reported tr) < c + length (handled tr) | None => True end.
  Proof.
    intros cap caps es s tr b R. destruct (inbox_open _ _ _ R) as (B1 & B2 & B3).
    destruct (in_turn _ _ _ R) as (line & M & rest & L & N). rewrite run_app, R. cbn [Delivery.run Delivery.step].
    set (ok := match b with Subscribe k r => fits k r | Unsubscribe None _ => has_all | _ => true end).
    assert (OK : ok = true <-> match b with Subscribe k r => fits k r = true | Unsubscribe None _ => has_all = true | _ => True end).
    { subst ok. destruct b as [| [|] |]; tauto. }
    rewrite <- OK. destruct (phase_dec s) as [D|D].
    - destruct (bopen (inbox s)) eqn:O; [exfalso; now apply (proj1 B1 eq_refl)|].
      rewrite andb_false_r. cbn [andb]. split; [intros (x & X); discriminate|intros (_ & X & _); contradiction].
    - specialize (N D). apply B1 in D as O. rewrite O.
      assert (HR : room (inbox s) = true <->
        match cap with Some c => length (sent es) + length (reported tr) < c + length (handled tr) | None => True end).
      { unfold room. rewrite B2, B3, N. apply merged_length in M. rewrite <- M, L, app_length.
        destruct cap; [|tauto]. rewrite Nat.ltb_lt. lia. }
      rewrite <- HR. destruct ok, (room (inbox s)); cbn; (split; [intros X|intros (X & Y & Z)]); try discriminate;
        try (destruct X as (x & X); discriminate X); auto.
      rewrite app_nil_r. eauto.
  Qed.

  (** ... and that it is handled when it is its turn. *)
  Lemma taken : forall cap caps es s tr b q, run (init cap caps) es = Some (s, tr) ->
    ph s = Idle -> items (inbox s) = b :: q ->
    exists s' o, run (init cap caps) (es ++ [ETake]) = Some (s', tr ++ o) /\ handled o = [b] /\ items (inbox s') = q.
  Proof.
    intros cap caps es s tr b q R I L. rewrite run_app, R. cbn [Delivery.run Delivery.step]. rewrite I, L.
    destruct b as [k r|[k|] id|t m]; eexists; eexists; (split; [reflexivity|]); auto.
  Qed.
End Line.

Lemma bus_one_type : forall (msg : Type) st cap caps es s tr id, @bus_run msg st cap caps es = Some (s, tr) ->
  ~ In (OUnsubscribed None id) tr.
Proof.
  intros msg st cap caps es s tr id R I. apply in_split in I. destruct I as (T1 & T2 & E).
  destruct (@unsubscribed_why _ _ _ _ Nat.eqb boxed_actor actor_id bus_targets bus_usable bus_fits false st _ _ _ _ _ _ _ _ _ R E) as [J|(k & n & o & J & _)]; [|discriminate].
  apply in_split in J. destruct J as (e1 & e2 & ->). unfold bus_run in R. rewrite run_app in R.
  destruct (Delivery.run _ _ _ _ _ _ _ _ _ e1) as [[s1 o1]|]; discriminate.
Qed.

Lemma broker_accepts : forall (pattern topic msg : Type) pattern_eqb matches st cap caps es s tr b,
  @broker_run pattern topic msg pattern_eqb matches st cap caps es = Some (s, tr) ->
  (exists s', broker_run pattern_eqb matches st cap caps (es ++ [ESend b]) = Some (s', tr)) <->
  ph s <> Stopped
  /\ match cap with Some c => length (sent es) + length (reported tr) < c + length (handled tr) | None => True end.
Proof.
  intros pattern topic msg pattern_eqb matches st cap caps es s tr b R. unfold broker_run in *.
  rewrite (accepted _ _ _ _ _ _ _ _ _ _ _ b R). destruct b as [| [|] |]; tauto.
Qed.

Lemma bus_accepts : forall (msg : Type) st cap caps es s tr b, @bus_run msg st cap caps es = Some (s, tr) ->
  (exists s', bus_run st cap caps (es ++ [ESend b]) = Some (s', tr)) <->
  match b with
  | Subscribe ty r => boxed_type r = ty /\ actor_id r = boxed_actor r
  | Unsubscribe ty _ => ty <> None
  | Publish _ _ => True
  end /\ ph s <> Stopped
  /\ match cap with Some c => length (sent es) + length (reported tr) < c + length (handled tr) | None => True end.
Proof.
  intros msg st cap caps es s tr b R. unfold bus_run in *.
  rewrite (accepted _ _ _ _ _ _ _ _ _ _ _ b R). destruct b as [ty r|[ty|] id|ty m].
  - unfold bus_fits. rewrite andb_true_iff, !Nat.eqb_eq. tauto.
  - split; intros (_ & X); (split; [congruence|exact X]) || (split; auto).
  - split; intros (X & _); [discriminate|congruence].
  - tauto.
Qed.
