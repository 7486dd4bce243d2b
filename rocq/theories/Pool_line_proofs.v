(** Proofs about the order in which workers take messages, and about what is submitted and
    answered. *)
From Coq Require Import List Bool PeanoNat Lia.
From Verif Require Import Pool Pool_spec Pool_proofs Pool_more_proofs.
Import ListNotations.

Lemma got_app : forall w a b, got w (a ++ b) = got w a ++ got w b.
Proof. intros. apply flat_map_app. Qed.
Lemma ended_app : forall w a b, ended w (a ++ b) = ended w a ++ ended w b.
Proof. intros. apply flat_map_app. Qed.
Lemma got_dropped : forall w v q, got w (map (ODropped v) q) = [].
Proof. induction q; cbn; auto. Qed.
Lemma ended_dropped : forall w v q, ended w (map (ODropped v) q) = if v =? w then q else [].
Proof. intros w v q. unfold ended. destruct (v =? w) eqn:E; induction q as [|m q IH]; cbn; rewrite ?E; cbn; congruence. Qed.

Lemma add_holding : forall f v w, holding (add_load f v w) = holding (f w).
Proof. intros. unfold add_load, put. destruct (Nat.eqb_spec w v) as [->|]; reflexivity. Qed.
Lemma sub_holding : forall f v w, holding (sub_load f v w) = holding (f w).
Proof. intros. unfold sub_load, put. destruct (Nat.eqb_spec w v) as [->|]; reflexivity. Qed.
Lemma link_holding : forall f v w, holding (link f v w) = holding (f w).
Proof. intros. unfold link, put. destruct (st (f v)); try reflexivity. destruct (Nat.eqb_spec w v) as [->|]; reflexivity. Qed.
Lemma push_holding : forall f v m w, holding (push f v m w) = holding (f w) ++ (if v =? w then [m] else []).
Proof.
  intros. unfold push, put, holding. rewrite (Nat.eqb_sym v w). destruct (Nat.eqb_spec w v) as [->|]; cbn;
  [rewrite app_assoc|rewrite app_nil_r]; reflexivity.
Qed.
Lemma loads_holding : forall l f w, holding (fold_left add_load l f w) = holding (f w).
Proof. induction l as [|v l IH]; intros f w; cbn; [reflexivity|]. rewrite IH, add_holding. reflexivity. Qed.

(** One step: what a worker has afterwards is what it had without what it is done with, and
    what it was given. *)
Lemma step_holding : forall l0 s tr e s' o w, INV l0 s tr -> step s e = Some (s', o) ->
  holding (wk s w) ++ got w o = ended w o ++ holding (wk s' w).
Proof.
  intros l0 s tr e s' o w I E.
  destruct e; unfold step, next_round, after_cast, on_link_died, link_obs in E; cases E; cbn [wk with_worker];
    try (cbn; rewrite ?add_holding, ?sub_holding, ?link_holding, ?loads_holding, ?push_holding, ?app_nil_r; reflexivity);
    rewrite ?got_dropped, ?ended_dropped; cbn [got ended flat_map]; rewrite ?app_nil_r;
    try (match goal with |- context [put _ (fresh s) _ _] =>
      unfold put; destruct (Nat.eqb_spec w (fresh s)) as [->|]; [rewrite (i_new _ _ _ I (fresh s) (le_n _)); reflexivity|reflexivity] end);
    match goal with |- context [put (wk s) ?w0 _ w] => unfold put; rewrite ?(Nat.eqb_sym w0 w); destruct (Nat.eqb_spec w w0) as [->|]; [|reflexivity] end;
    unfold holding; cbn; repeat match goal with H : queue _ = _ |- _ => rewrite H | H : busy _ = _ |- _ => rewrite H end; try reflexivity.
  assert (B : st (wk s w0) <> WUp) by congruence. rewrite (proj1 (i_ending _ _ _ I _ B)). cbn. rewrite app_nil_r. reflexivity.
Qed.

Lemma reaches_snoc : forall caps c es e s tr, reaches caps c (es ++ [e]) s tr ->
  exists s1 t1 o, reaches caps c es s1 t1 /\ step s1 e = Some (s, o) /\ tr = t1 ++ o.
Proof.
  intros caps c es e s tr (s0 & N & R). rewrite run_app in R. destruct (run s0 es) as [[s1 t1]|] eqn:E; [|discriminate].
  cbn in R. destruct (step s1 e) as [[s2 o]|] eqn:E2; [|discriminate]. injection R as <- <-.
  exists s1, t1, o. rewrite app_nil_r. split; [exists s0; auto|auto].
Qed.

Lemma worker_in_turn : forall caps c es s tr w, reaches caps c es s tr ->
  got w tr = ended w tr ++ holding (wk s w).
Proof.
  intros caps c es. induction es as [|e es IH] using rev_ind; intros s tr w R.
  - destruct R as (s0 & N & R). injection R as <- <-. unfold new_pool in N.
    destruct caps as [|k caps]; [discriminate|]. destruct (existsb bad_cap _); [discriminate|]. injection N as <-.
    unfold wk. destruct (nth_error (k :: caps) w); reflexivity.
  - destruct (reaches_snoc _ _ _ _ _ _ R) as (s1 & t1 & o & R1 & E & ->).
    rewrite got_app, ended_app, (IH _ _ w R1), <- !app_assoc. f_equal.
    exact (step_holding _ _ _ _ _ _ w (reaches_inv _ _ _ _ _ R1) E).
Qed.

(** Answers. *)
Lemma step_answers : forall s e s' a x b, step s e = Some (s', a ++ x :: b) ->
  match x with
  | OFinished w m ok => b = match snd m with Some ch => [OReply ch ok] | None => [] end
  | OReply ch ok => exists w m, a = [OFinished w (m, Some ch) ok] /\ b = []
  | _ => True
  end.
Proof.
  intros s e s' a x b E. remember (a ++ x :: b) as o eqn:O.
  assert (Q : forall y, In y o -> match y with OFinished _ _ _ | OReply _ _ => False | _ => True end
              \/ (exists w m ok, o = [OFinished w m ok] /\ snd m = None)
              \/ (exists w m ch ok, o = [OFinished w (m, Some ch) ok; OReply ch ok])).
  { intros y I. destruct e; unfold step, next_round, after_cast, on_link_died, link_obs in E; cases E; cbn [In] in I;
      try (left; repeat (destruct I as [<-|I]; [exact Logic.I|]); destruct I; fail);
      try (right; left; eexists; eexists; eexists; split; [reflexivity|assumption]);
      try (right; right; match goal with m : msg |- _ => destruct m as [m0 c0]; cbn in *; subst end;
           eexists; eexists; eexists; eexists; reflexivity).
    left. apply in_map_iff in I. destruct I as (z & <- & _). exact Logic.I. }
  specialize (Q x). assert (X : In x o) by (rewrite O; apply in_or_app; right; left; reflexivity).
  destruct (Q X) as [F|[(w & m & ok & P & N)|(w & m & ch & ok & P)]].
  - destruct x; try exact Logic.I; destruct F.
  - rewrite P in O. destruct a as [|y a]; [injection O as <- <-; cbn; rewrite N; reflexivity|destruct a; discriminate].
  - rewrite P in O. destruct a as [|y a]; [injection O as <- <-; reflexivity|].
    destruct a as [|z a]; [|destruct a; discriminate]. injection O as <- <- <-. eauto.
Qed.

Lemma answered : forall caps c es s t1 w m ch ok t2, reaches caps c es s (t1 ++ OFinished w (m, Some ch) ok :: t2) ->
  exists t3, t2 = OReply ch ok :: t3.
Proof.
  intros caps c es s t1 w m ch ok t2 (s0 & N & R).
  destruct (run_split _ _ _ _ _ _ R) as (es1 & e & es2 & sa & sb & ta & oa & ob & tb & _ & _ & E & _ & _ & ->).
  rewrite (step_answers _ _ _ _ _ _ E). cbn. eauto.
Qed.

Lemma answer_why : forall caps c es s t1 ch ok t2, reaches caps c es s (t1 ++ OReply ch ok :: t2) ->
  exists t0 w m, t1 = t0 ++ [OFinished w (m, Some ch) ok].
Proof.
  intros caps c es s t1 ch ok t2 (s0 & N & R).
  destruct (run_split _ _ _ _ _ _ R) as (es1 & e & es2 & sa & sb & ta & oa & ob & tb & _ & _ & E & _ & -> & _).
  destruct (step_answers _ _ _ _ _ _ E) as (w & m & -> & _). eauto.
Qed.

(** Submitting. *)
Lemma submit_when : forall s m, (exists s' o, step s (ESubmit m) = Some (s', o)) <->
  (forall w, m <> PReport w) /\ ph s <> PStopped /\ match pcap s with None => True | Some n => length (inbox s) < n end.
Proof.
  intros s m. cbn [step].
  set (ok := match m with PReport _ => false | _ => true end).
  set (up := match ph s with PStopped => false | _ => true end).
  assert (OK : ok = true <-> forall w, m <> PReport w).
  { subst ok. destruct m; split; intros X; try congruence; try (intros w; congruence). destruct (X id eq_refl). }
  assert (UP : up = true <-> ph s <> PStopped).
  { subst up. destruct (ph s); split; congruence. }
  assert (RM : has_room (pcap s) (inbox s) = true <-> match pcap s with None => True | Some n => length (inbox s) < n end).
  { unfold has_room. destruct (pcap s); [apply Nat.ltb_lt|tauto]. }
  rewrite <- OK, <- UP, <- RM. destruct ok, up, (has_room (pcap s) (inbox s)); cbn; split;
    try (intros (x & y & X); discriminate X); try (intros (A & B & C); discriminate); eauto.
Qed.

Lemma submit_does : forall s m s' o, step s (ESubmit m) = Some (s', o) -> o = [] /\ inbox s' = inbox s ++ [m] /\ ph s' = ph s
  /\ slots s' = slots s /\ forall w, wk s' w = wk s w.
Proof. intros s m s' o E. cbn [step] in E. cases E. auto. Qed.

Lemma handle_when : forall s up k, ph s = PIdle -> inbox s <> [] ->
  exists s' o, step s (EHandle up k) = Some (s', o) /\ inbox s' = tl (inbox s).
Proof.
  intros s up k P Q. destruct (inbox s) as [|m q] eqn:E; [congruence|]. cbn [step]. rewrite P, E. destruct m as [m|m|id|].
  - destruct (next_round _ m (length (slots s))) as [s' o] eqn:N. exists s', o. split; [reflexivity|].
    unfold next_round in N. destruct (length (slots s)); [injection N as <- <-; reflexivity|].
    cbn [slots wk] in N. destruct (first_min _ _); injection N as <- <-; reflexivity.
  - eexists. eexists. split; reflexivity.
  - destruct (on_link_died _ id up k) as [s' o] eqn:N. exists s', o. split; [reflexivity|].
    unfold on_link_died in N. destruct up; [|injection N as <- <-; reflexivity].
    cbn [slots] in N. destruct (position id (slots s)); [|injection N as <- <-; reflexivity].
    destruct (bad_cap k); injection N as <- <-; reflexivity.
  - eexists. eexists. split; reflexivity.
Qed.

Lemma step_stops : forall s e s' o, step s e = Some (s', o) ->
  ph s' = PStopped <-> ph s = PStopped \/ In OStopped o.
Proof.
  intros s e s' o E. split.
  - intros P. destruct e; unfold step, next_round, after_cast, on_link_died, link_obs, start_at in E; cases E; cbn in P; try discriminate P;
      try (left; congruence); try (right; cbn; auto; fail).
  - intros [P|P].
    + exact (step_stopped _ _ _ _ E P).
    + destruct e; unfold step, next_round, after_cast, on_link_died, link_obs in E; cases E; cbn in P; try reflexivity;
        try (exfalso; intuition discriminate).
      apply in_map_iff in P. destruct P as (z & Z & _). discriminate.
Qed.

Lemma stops_when : forall caps c es s tr, reaches caps c es s tr -> ph s = PStopped <-> In OStopped tr.
Proof.
  intros caps c es. induction es as [|e es IH] using rev_ind; intros s tr R.
  - destruct R as (s0 & N & R). injection R as <- <-. unfold new_pool in N.
    destruct caps as [|k caps]; [discriminate|]. destruct (existsb bad_cap _); [discriminate|]. injection N as <-.
    split; [discriminate|intros []].
  - destruct (reaches_snoc _ _ _ _ _ _ R) as (s1 & t1 & o & R1 & E & ->).
    rewrite (step_stops _ _ _ _ E), (IH _ _ R1), in_app_iff. tauto.
Qed.
