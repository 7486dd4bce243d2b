(** Invariants and lemmas about attached streams. *)
From Coq Require Import List Bool PeanoNat Lia.
From Verif Require Import Stream Stream_spec.
Import ListNotations.

Section Proofs.
  Context {M T F : Type}.
  Variable src : nat -> option M.
  Variable sv : T.
  Variable fv : F.
  Variable cap : option nat.
  Notation run := (run src sv fv cap).
  Notation step := (step src sv fv cap).
  Notation state := (state M T F).
  Notation obs := (obs M T F).

  Lemma run_app : forall es1 es2 (s : state),
    run s (es1 ++ es2) =
    match run s es1 with
    | None => None
    | Some (s1, o1) => match run s1 es2 with None => None | Some (s2, o2) => Some (s2, o1 ++ o2) end
    end.
  Proof.
    induction es1 as [|e es1 IH]; intros es2 s; cbn [Stream.run app].
    - destruct (run s es2) as [[s2 o2]|]; reflexivity.
    - destruct (step s e) as [[s1 o1]|]; [|reflexivity]. rewrite IH.
      destruct (run s1 es1) as [[s2 o2]|]; [|reflexivity].
      destruct (run s2 es2) as [[s3 o3]|]; [|reflexivity]. rewrite app_assoc. reflexivity.
  Qed.

  Lemma run_inv : forall (I : state -> list obs -> Prop) s0,
    I s0 [] -> (forall s t e s' o, I s t -> step s e = Some (s', o) -> I s' (t ++ o)) ->
    forall es s t, run s0 es = Some (s, t) -> I s t.
  Proof.
    intros I s0 I0 IS es. induction es as [|e es IH] using rev_ind; intros s t H.
    - inversion H; subst. exact I0.
    - rewrite run_app in H. destruct (run s0 es) as [[s1 o1]|] eqn:E; [|discriminate]. cbn [Stream.run] in H.
      destruct (step s1 e) as [[s2 o2]|] eqn:E2; [|discriminate]. inversion H; subst. rewrite app_nil_r. eauto.
  Qed.

  Lemma accepted_app : forall t u : list obs, accepted (t ++ u) = accepted t ++ accepted u.
  Proof. induction t as [|o t IH]; intro u; [reflexivity|]. destruct o; cbn; rewrite ?IH; reflexivity. Qed.
  Lemma taken_app : forall t u : list obs, taken (t ++ u) = taken t ++ taken u.
  Proof. induction t as [|o t IH]; intro u; [reflexivity|]. destruct o; cbn; rewrite ?IH; reflexivity. Qed.
  Lemma ours_app : forall q r : list (item M T F), ours (q ++ r) = ours q ++ ours r.
  Proof. induction q as [|o q IH]; intro r; [reflexivity|]. destruct o; cbn; rewrite ?IH; reflexivity. Qed.

  Definition where_ok (s : state) (t : list obs) : Prop :=
    match phase s with
    | TStart => accepted t = []
    | TSelect n => exists l, first_items src n l /\ accepted t = Started sv :: map Next l
    | TSend n m => exists k l, n = S k /\ src k = Some m /\ first_items src k l /\ accepted t = Started sv :: map Next l
    | TFinish n => exists l, first_items src n l /\ src n = None /\ In (OPulled n) t /\ accepted t = Started sv :: map Next l
    | TDone (ROk n) =>
        exists l, first_items src n l
          /\ ((src n = None /\ In (OPulled n) t /\ accepted t = Started sv :: map Next l ++ [Finished fv])
              \/ (closed s = true /\ accepted t = Started sv :: map Next l))
    | TDone (RNotRunning m) => closed s = true /\ in_stream_order src sv fv (accepted t ++ [m])
    end.
  Definition inv (c : bool) (s : state) (t : list obs) : Prop :=
    where_ok s t
    /\ (forall r, In (OReturned r) t <-> phase s = TDone r)
    /\ (closed s = true <-> c = true \/ In OClosed t)
    /\ (exists rest, accepted t = ours (taken t) ++ rest)
    /\ (closed s = false -> accepted t = ours (taken t) ++ ours (queue s))
    /\ (In (Finished fv) (accepted t) -> exists n, src n = None /\ In (OPulled n) t).

  Lemma finished_not_next : forall l, ~ In (Finished fv) (map Next l : list (stream_message M T F)).
  Proof. intros l I. apply in_map_iff in I. destruct I as (x & E & _). discriminate. Qed.
  Lemma next_snoc : forall (l : list M) m,
    (Started sv :: map Next l ++ [Next m] : list (stream_message M T F)) = Started sv :: map Next (l ++ [m]).
  Proof. intros. rewrite map_app. reflexivity. Qed.

  Lemma inv_init : forall q c, (forall i, In i q -> exists v, i = Theirs v) -> inv c (init q c) [].
  Proof.
    intros q c Q. assert (E : ours q = []).
    { induction q as [|i q IH]; [reflexivity|]. destruct (Q i (or_introl eq_refl)) as [v ->]. cbn. apply IH.
      intros j J. apply Q. right. exact J. }
    split; [reflexivity|]. split; [cbn; intuition discriminate|]. split; [cbn; intuition|].
    split; [exists []; reflexivity|]. split; [cbn; intros ->; rewrite E; reflexivity|cbn; tauto].
  Qed.

  Lemma inv_step : forall c s t e s' o, inv c s t -> step s e = Some (s', o) -> inv c s' (t ++ o).
  Proof.
    intros c s t e s' o (W & R & C & (rest & TK) & TQ & FI) H.
    assert (NR : forall r, phase s <> TDone r -> ~ In (OReturned r) t).
    { intros r N I. apply R in I. contradiction. }
    destruct e; cbn [Stream.step] in H.
    - (* sent *)
      destruct (sending sv fv s) as [m|] eqn:S; [|discriminate].
      destruct (closed s) eqn:CL; [discriminate|]. destruct (room cap s); [|discriminate].
      cbn [negb andb] in H. inversion H; subst s' o. clear H. specialize (TQ eq_refl).
      assert (AC : accepted (t ++ OAccepted m :: match after_send (phase s) with TDone r => [OReturned r] | _ => [] end)
                   = accepted t ++ [m]).
      { rewrite accepted_app. cbn. destruct (after_send (phase s)); reflexivity. }
      assert (TA : taken (t ++ OAccepted m :: match after_send (phase s) with TDone r => [OReturned r] | _ => [] end) = taken t).
      { rewrite taken_app. cbn. destruct (after_send (phase s)); cbn; apply app_nil_r. }
      split; [|split; [|split; [|split; [|split]]]].
      + unfold where_ok in *. cbn [phase closed]. unfold sending in S. destruct (phase s) as [|n|n x|n|r]; cbn [after_send];
          try discriminate; inversion S; subst m; cbn [after_send] in AC; rewrite AC.
        * rewrite W. exists []. split; [constructor|reflexivity].
        * destruct W as (k & l & -> & E & FI' & A). rewrite A. exists (l ++ [x]). split; [constructor; assumption|].
          rewrite map_app. reflexivity.
        * destruct W as (l & FI' & E & P & A). exists l. split; [exact FI'|]. left. rewrite A. split; [exact E|].
          split; [apply in_or_app; left; exact P|reflexivity].
      + intro r. cbn [phase]. rewrite in_app_iff. unfold sending in S.
        destruct (phase s) as [|n|n x|n|r0] eqn:P; try discriminate; cbn [after_send].
        * split; [|discriminate]. intros [I|[I|[]]]; [apply R in I|]; discriminate.
        * split; [|discriminate]. intros [I|[I|[]]]; [apply R in I|]; discriminate.
        * split.
          -- intros [I|[I|[I|[]]]]; [apply R in I; discriminate|discriminate|inversion I; reflexivity].
          -- intro E. inversion E; subst. right. right. left. reflexivity.
      + cbn [closed]. split; [discriminate|]. intros [E|I]; [apply C; auto|]. apply in_app_or in I.
        destruct I as [I|I]; [apply C; auto|]. destruct I as [I|I]; [discriminate|].
        destruct (after_send (phase s)); cbn in I; try contradiction. destruct I as [I|[]]. discriminate.
      + rewrite AC, TA, TK. exists (rest ++ [m]). rewrite app_assoc. reflexivity.
      + intros _. rewrite AC, TA. cbn [queue]. rewrite ours_app. cbn. rewrite TQ, app_assoc. reflexivity.
      + rewrite AC. intro I. apply in_app_or in I. destruct I as [I|[I|[]]].
        * destruct (FI I) as (n & E & P). exists n. split; [exact E|apply in_or_app; auto].
        * subst m. unfold where_ok in W. unfold sending in S. destruct (phase s); try discriminate.
          destruct W as (l & _ & E & P & _). eexists. split; [exact E|apply in_or_app; auto].
    - (* refused *)
      destruct (sending sv fv s) as [m|] eqn:S; [|discriminate].
      destruct (closed s) eqn:CL; [|discriminate]. inversion H; subst s' o. clear H.
      assert (AC : accepted (t ++ [OReturned (RNotRunning m)]) = accepted t).
      { rewrite accepted_app. cbn. apply app_nil_r. }
      assert (TA : taken (t ++ [OReturned (RNotRunning m)]) = taken t).
      { rewrite taken_app. cbn. apply app_nil_r. }
      split; [|split; [|split; [|split; [|split]]]].
      + unfold where_ok in *. cbn [phase closed]. split; [reflexivity|]. rewrite AC. unfold sending in S.
        unfold in_stream_order. destruct (phase s) as [|n|n x|n|r]; try discriminate; inversion S; subst m; right.
        * rewrite W. exists 0, []. split; [constructor|left; reflexivity].
        * destruct W as (k & l & -> & E & FI' & A). rewrite A. exists (Datatypes.S k), (l ++ [x]).
          split; [constructor; assumption|]. left. rewrite map_app. reflexivity.
        * destruct W as (l & FI' & E & P & A). exists n, l. split; [exact FI'|]. right. rewrite A. split; [exact E|reflexivity].
      + intro r. cbn [phase]. rewrite in_app_iff. split.
        * intros [I|[I|[]]]; [|inversion I; reflexivity]. exfalso. apply R in I. unfold sending in S. rewrite I in S. discriminate.
        * intro E. inversion E; subst. right. left. reflexivity.
      + cbn [closed]. split; [intros _|reflexivity]. destruct (proj1 C eq_refl) as [E|I]; [auto|right; apply in_or_app; auto].
      + rewrite AC, TA. eauto.
      + cbn. discriminate.
      + rewrite AC. intro I. destruct (FI I) as (n & E & P). exists n. split; [exact E|apply in_or_app; auto].
    - (* next *)
      destruct (phase s) as [|n| | |] eqn:P; try discriminate. unfold where_ok in W. rewrite P in W.
      destruct W as (l & FL & A).
      assert (O : o = [OPulled n] /\ queue s' = queue s /\ closed s' = closed s
                  /\ phase s' = match src n with Some m => TSend (S n) m | None => TFinish n end).
      { destruct (src n); inversion H; subst; cbn; auto. }
      clear H. destruct O as (-> & EQ & EC & EP).
      assert (AC : accepted (t ++ [OPulled n]) = accepted t) by (rewrite accepted_app; cbn; apply app_nil_r).
      assert (TA : taken (t ++ [OPulled n]) = taken t) by (rewrite taken_app; cbn; apply app_nil_r).
      split; [|split; [|split; [|split; [|split]]]].
      + unfold where_ok. rewrite EP, AC. destruct (src n) as [m|] eqn:SN.
        * exists n, l. auto.
        * exists l. split; [exact FL|]. split; [exact SN|]. split; [|exact A]. apply in_or_app. right. left. reflexivity.
      + intro r. rewrite in_app_iff. split.
        * intros [I|[I|[]]]; [|discriminate]. apply R in I. discriminate.
        * rewrite EP. destruct (src n); discriminate.
      + rewrite EC, C, in_app_iff. cbn. intuition discriminate.
      + rewrite AC, TA. eauto.
      + rewrite EC, EQ, AC, TA. exact TQ.
      + rewrite AC. intro I. destruct (FI I) as (k & E & Q). exists k. split; [exact E|apply in_or_app; auto].
    - (* shutdown *)
      destruct (phase s) as [|n| | |] eqn:P; try discriminate. unfold where_ok in W. rewrite P in W.
      destruct W as (l & FL & A). destruct (closed s) eqn:CL; [|discriminate]. inversion H; subst s' o. clear H.
      assert (AC : accepted (t ++ [OReturned (ROk n)]) = accepted t) by (rewrite accepted_app; cbn; apply app_nil_r).
      assert (TA : taken (t ++ [OReturned (ROk n)]) = taken t) by (rewrite taken_app; cbn; apply app_nil_r).
      split; [|split; [|split; [|split; [|split]]]].
      + unfold where_ok. cbn [phase]. rewrite AC. exists l. split; [exact FL|]. right. auto.
      + intro r. cbn [phase]. rewrite in_app_iff. split.
        * intros [I|[I|[]]]; [|inversion I; reflexivity]. apply R in I. discriminate.
        * intro E. inversion E; subst. right. left. reflexivity.
      + cbn [closed]. split; [intros _|reflexivity]. destruct (proj1 C eq_refl) as [E|I]; [auto|right; apply in_or_app; auto].
      + rewrite AC, TA. eauto.
      + cbn. discriminate.
      + rewrite AC. intro I. destruct (FI I) as (k & E & Q). exists k. split; [exact E|apply in_or_app; auto].
    - (* other sender *)
      destruct (closed s) eqn:CL; [discriminate|]. destruct (room cap s); [|discriminate]. inversion H; subst s' o. clear H.
      rewrite app_nil_r. specialize (TQ eq_refl). split; [|split; [|split; [|split; [|split]]]]; auto.
      + unfold where_ok in *. cbn [phase closed]. rewrite CL in W. exact W.
      + eauto.
      + intros _. cbn [queue]. rewrite ours_app. cbn. rewrite app_nil_r. exact TQ.
    - (* taken *)
      destruct (queue s) as [|i q] eqn:Q; [discriminate|]. destruct (closed s) eqn:CL; [discriminate|].
      inversion H; subst s' o. clear H. specialize (TQ eq_refl).
      assert (AC : accepted (t ++ [OTaken i]) = accepted t) by (rewrite accepted_app; cbn; apply app_nil_r).
      assert (TA : ours (taken (t ++ [OTaken i])) ++ ours q = accepted t).
      { rewrite TQ, taken_app, ours_app, <- app_assoc. f_equal. cbn. destruct i; reflexivity. }
      split; [|split; [|split; [|split; [|split]]]].
      + unfold where_ok in *. cbn [phase closed]. rewrite AC. rewrite CL in W. destruct (phase s) as [| | |n|[n|m]]; auto.
        * destruct W as (l & A1 & A2 & A3 & A4). exists l. rewrite in_app_iff. auto.
        * destruct W as (l & A1 & [(A2 & A3 & A4)|(A2 & A3)]); [|discriminate]. exists l. rewrite in_app_iff. auto 6.
      + intro r. rewrite in_app_iff. cbn [phase]. rewrite R. split; [|auto]. intros [I|[I|[]]]; [exact I|discriminate].
      + cbn [closed]. rewrite in_app_iff, C. cbn. intuition discriminate.
      + exists (ours q). rewrite AC. auto.
      + intros _. cbn [queue]. rewrite AC. auto.
      + rewrite AC. intro I. destruct (FI I) as (k & E & Q'). exists k. split; [exact E|apply in_or_app; auto].
    - (* closed *)
      destruct (closed s) eqn:CL; [discriminate|]. inversion H; subst s' o. clear H.
      assert (AC : accepted (t ++ [OClosed]) = accepted t) by (rewrite accepted_app; cbn; apply app_nil_r).
      assert (TA : taken (t ++ [OClosed]) = taken t) by (rewrite taken_app; cbn; apply app_nil_r).
      split; [|split; [|split; [|split; [|split]]]].
      + unfold where_ok in *. cbn [phase closed]. rewrite AC. rewrite CL in W. destruct (phase s) as [| | |n|[n|m]]; auto.
        * destruct W as (l & A1 & A2 & A3 & A4). exists l. rewrite in_app_iff. auto.
        * destruct W as (l & A1 & [(A2 & A3 & A4)|(A2 & A3)]); [|discriminate]. exists l. rewrite in_app_iff. auto 6.
        * destruct W. discriminate.
      + intro r. rewrite in_app_iff. cbn [phase]. rewrite R. split; [|auto]. intros [I|[I|[]]]; [exact I|discriminate].
      + cbn [closed]. rewrite in_app_iff. cbn. tauto.
      + rewrite AC, TA. eauto.
      + cbn. discriminate.
      + rewrite AC. intro I. destruct (FI I) as (k & E & Q'). exists k. split; [exact E|apply in_or_app; auto].
  Qed.

  Lemma inv_run : forall q c es s t, (forall i, In i q -> exists v, i = Theirs v) ->
    run (init q c) es = Some (s, t) -> inv c s t.
  Proof.
    intros q c es s t Q H. eapply (run_inv (inv c)); [apply inv_init; exact Q| |exact H].
    intros. eapply inv_step; eauto.
  Qed.

  Lemma order_prefix : forall a m, in_stream_order src sv fv (a ++ [m]) -> in_stream_order src sv fv a.
  Proof.
    intros a m [E|(n & l & FL & [E|(N & E)])]; [destruct a; discriminate| |].
    - inversion FL as [|k l' y FL' SK]; subst.
      + left. destruct a as [|x a]; [reflexivity|]. cbn in E. inversion E. destruct a; discriminate.
      + rewrite map_app in E. cbn [map] in E. rewrite app_comm_cons in E. apply app_inj_tail in E.
        destruct E as [-> _]. right. exists k, l'. auto.
    - rewrite app_comm_cons in E. apply app_inj_tail in E. destruct E as [-> _]. right. exists n, l. auto.
  Qed.

  Lemma order_kept : forall q c es s t, (forall i, In i q -> exists v, i = Theirs v) ->
    run (init q c) es = Some (s, t) -> in_stream_order src sv fv (accepted t).
  Proof.
    intros q c es s t Q H. destruct (inv_run _ _ _ _ _ Q H) as (W & _). unfold where_ok in W. unfold in_stream_order.
    destruct (phase s) as [|n|n m|n|[n|m]].
    - auto.
    - destruct W as (l & A & B). right. exists n, l. auto.
    - destruct W as (k & l & _ & _ & A & B). right. exists k, l. auto.
    - destruct W as (l & A & _ & _ & B). right. exists n, l. auto.
    - destruct W as (l & A & [(B & _ & C)|(_ & C)]); right; exists n, l; auto.
    - destruct W as (_ & W). exact (order_prefix _ _ W).
  Qed.

  Lemma finished_after_end : forall q c es s t, (forall i, In i q -> exists v, i = Theirs v) ->
    run (init q c) es = Some (s, t) -> In (Finished fv) (accepted t) ->
    exists n, src n = None /\ In (OPulled n) t.
  Proof. intros q c es s t Q H I. destruct (inv_run _ _ _ _ _ Q H) as (_ & _ & _ & _ & _ & FI). auto. Qed.

  Lemma alive_all_delivered : forall q es s t r, (forall i, In i q -> exists v, i = Theirs v) ->
    run (init q false) es = Some (s, t) -> In (OReturned r) t -> ~ In OClosed t ->
    exists n l, first_items src n l /\ src n = None /\ r = ROk n
      /\ accepted t = Started sv :: map Next l ++ [Finished fv].
  Proof.
    intros q es s t r Q H I NC. destruct (inv_run _ _ _ _ _ Q H) as (W & R & C & _). apply R in I.
    unfold where_ok in W. rewrite I in W.
    assert (CL : closed s <> true) by (rewrite C; intuition discriminate).
    destruct r as [n|m]; [|destruct W; contradiction].
    destruct W as (l & A & [(B & _ & D)|(B & _)]); [|contradiction]. exists n, l. auto.
  Qed.

  Lemma returned_what : forall q c es s t r, (forall i, In i q -> exists v, i = Theirs v) ->
    run (init q c) es = Some (s, t) -> In (OReturned r) t ->
    match r with
    | ROk n => exists l, first_items src n l
        /\ ((src n = None /\ accepted t = Started sv :: map Next l ++ [Finished fv])
            \/ (closed s = true /\ accepted t = Started sv :: map Next l))
    | RNotRunning m => closed s = true /\ in_stream_order src sv fv (accepted t ++ [m])
    end.
  Proof.
    intros q c es s t r Q H I. destruct (inv_run _ _ _ _ _ Q H) as (W & R & _). apply R in I.
    unfold where_ok in W. rewrite I in W. destruct r as [n|m]; [|exact W].
    destruct W as (l & A & [(B & _ & D)|(B & D)]); exists l; auto.
  Qed.

  Lemma taken_in_order : forall q c es s t, (forall i, In i q -> exists v, i = Theirs v) ->
    run (init q c) es = Some (s, t) ->
    (exists rest, accepted t = ours (taken t) ++ rest)
    /\ (closed s = false -> accepted t = ours (taken t) ++ ours (queue s)).
  Proof. intros q c es s t Q H. destruct (inv_run _ _ _ _ _ Q H) as (_ & _ & _ & A & B & _). auto. Qed.

  (** At most so many steps are left once the actor is gone. *)
  Definition left_when_closed (s : state) : nat :=
    match phase s with TStart => 1 | TSelect _ => 2 | TSend _ _ => 1 | TFinish _ => 1 | TDone _ => 0 end.

  Lemma closed_step : forall s e s' o, closed s = true -> step s e = Some (s', o) ->
    closed s' = true /\ (if task_step e then 1 else 0) + left_when_closed s' <= left_when_closed s.
  Proof.
    intros s e s' o CL H. unfold left_when_closed. destruct e; cbn [Stream.step task_step] in *; rewrite CL in H; cbn in H.
    - destruct (sending sv fv s); discriminate.
    - unfold sending in H. destruct (phase s); inversion H; subst; cbn; auto.
    - destruct (phase s); try discriminate. destruct (src n); inversion H; subst; cbn; auto.
    - destruct (phase s); inversion H; subst; cbn; auto.
    - discriminate.
    - destruct (queue s); discriminate.
    - discriminate.
  Qed.

  Lemma ends_when_closed : forall es s s' o, closed s = true -> run s es = Some (s', o) ->
    length (filter task_step es) <= 2.
  Proof.
    assert (G : forall es s s' o, closed s = true -> run s es = Some (s', o) ->
              length (filter task_step es) <= left_when_closed s).
    { induction es as [|e es IH]; intros s s' o CL H; cbn [Stream.run filter] in *; [cbn; lia|].
      destruct (step s e) as [[s1 o1]|] eqn:E; [|discriminate]. destruct (run s1 es) as [[s2 o2]|] eqn:R; [|discriminate].
      destruct (closed_step _ _ _ _ CL E) as [C1 L]. specialize (IH _ _ _ C1 R). destruct (task_step e); cbn in *; lia. }
    intros es s s' o CL H. specialize (G _ _ _ _ CL H). unfold left_when_closed in G. destruct (phase s); lia.
  Qed.

  Lemma not_stuck : forall q c es s t, (forall i, In i q -> exists v, i = Theirs v) ->
    run (init q c) es = Some (s, t) -> (forall r, ~ In (OReturned r) t) ->
    if closed s then step s ERefused <> None \/ step s EShutdown <> None
    else step s ENext <> None \/ step s ESent <> None
         \/ exists k, cap = Some k /\ k <= length (queue s) /\ (k > 0 -> step s ETake <> None).
  Proof.
    intros q c es s t Q H NR. destruct (inv_run _ _ _ _ _ Q H) as (_ & R & _).
    destruct (closed s) eqn:CL.
    - cbn [Stream.step]. rewrite CL. unfold sending. destruct (phase s) eqn:P; try (left; discriminate).
      + right. discriminate.
      + exfalso. eapply NR, R. reflexivity.
    - destruct (phase s) eqn:P; try (exfalso; eapply NR, R; reflexivity).
      2: { left. cbn [Stream.step]. rewrite P. destruct (src n); discriminate. }
      all: right; cbn [Stream.step]; unfold sending; rewrite P, CL; cbn [negb andb]; unfold room;
        destruct cap as [k|]; [|left; discriminate]; destruct (Nat.ltb_spec (length (queue s)) k); [left; discriminate|];
        right; exists k; split; [reflexivity|]; split; [assumption|]; intro; destruct (queue s); [cbn in *; lia|discriminate].
  Qed.

  Lemma stream_dropped : forall m, src 0 = Some m -> cap <> Some 0 ->
    exists es s t, run (init [] false) es = Some (s, t)
      /\ In OClosed t /\ In (OReturned (RNotRunning (Next m))) t
      /\ forall es' s' t' n, run s es' = Some (s', t') -> ~ In (OReturned (ROk n)) (t ++ t').
  Proof.
    intros m E C. exists [ESent; ENext; EClose; ERefused].
    assert (HR : exists s t, run (init [] false) [ESent; ENext; EClose; ERefused] = Some (s, t)
              /\ In OClosed t /\ In (OReturned (RNotRunning (Next m))) t).
    { destruct cap as [[|k]|]; [congruence| |]; cbn; rewrite E; cbn; do 2 eexists; (split; [reflexivity|]); cbn; auto 6. }
    destruct HR as (s & t & H & A & B). exists s, t. split; [exact H|]. split; [exact A|]. split; [exact B|].
    intros es' s' t' n H' I.
    assert (HA : run (init [] false) ([ESent; ENext; EClose; ERefused] ++ es') = Some (s', t ++ t')).
    { rewrite run_app, H, H'. reflexivity. }
    destruct (inv_run [] false _ _ _ (fun i (J : In i []) => match J with end) HA) as (_ & R & _).
    apply R in I. assert (J : In (OReturned (RNotRunning (Next m))) (t ++ t')) by (apply in_or_app; auto).
    apply R in J. congruence.
  Qed.

  Lemma step_closed : forall (s : state) e s' o, step s e = Some (s', o) ->
    (closed s' = true <-> closed s = true \/ In OClosed o).
  Proof.
    intros s e s' o E.
    destruct e; cbn [Stream.step] in E;
      repeat match type of E with
      | (if ?b then _ else _) = _ => destruct b eqn:?; try discriminate E
      | (match ?x with _ => _ end) = _ => destruct x eqn:?; try discriminate E
      end; injection E as <- <-; cbn;
      repeat match goal with H : _ && _ = true |- _ => apply andb_prop in H; destruct H end;
      repeat match goal with H : negb _ = true |- _ => apply negb_true_iff in H end;
      try (destruct (after_send (phase s)); cbn);
      intuition (try discriminate; try congruence).
  Qed.

  (** The channel is closed exactly when the actor had stopped before or stops. *)
  Lemma closed_when : forall es q c s t, run (init q c) es = Some (s, t) ->
    (closed s = true <-> c = true \/ In OClosed t).
  Proof.
    intros es q c. change (forall s t, run (init q c) es = Some (s, t) ->
      (closed s = true <-> closed (init q c) = true \/ In OClosed t)).
    generalize (init q c). induction es as [|e es IH]; intros s0 s t R.
    - injection R as <- <-. cbn. tauto.
    - cbn in R. destruct (step s0 e) as [[s1 o1]|] eqn:E; [|discriminate].
      destruct (run s1 es) as [[s2 o2]|] eqn:R2; [|discriminate]. injection R as <- <-.
      rewrite (IH _ _ _ R2), (step_closed _ _ _ _ E), in_app_iff. tauto.
  Qed.

  (** A task given a stopped actor sends nothing, takes nothing from the stream and hands
      back its first message. *)
  Lemma to_stopped : forall es q s t, run (init q true) es = Some (s, t) ->
    t = [] \/ t = [OReturned (RNotRunning (Started sv))].
  Proof.
    assert (D : forall es (s s' : state) t, closed s = true -> phase s = TDone (RNotRunning (Started sv)) ->
      queue s = [] -> run s es = Some (s', t) -> t = []).
    { intros es s s' t C P Q R. destruct es as [|e es]; [injection R as <- <-; reflexivity|].
      destruct e; cbn in R; unfold sending in R; rewrite ?P, ?C, ?Q in R; cbn in R; discriminate R. }
    assert (D' : forall es (s s' : state) t, closed s = true -> phase s = TStart ->
      queue s = [] -> run s es = Some (s', t) -> t = [] \/ t = [OReturned (RNotRunning (Started sv))]).
    { intros es s s' t C P Q R. destruct es as [|e es]; [injection R as <- <-; auto|].
      destruct e; cbn in R; unfold sending in R; rewrite ?P, ?C, ?Q in R; cbn in R; try discriminate R.
      match type of R with match run ?x _ with _ => _ end = _ => set (s1 := x) in R end.
      destruct (run s1 es) as [[s2 o2]|] eqn:R2; [|discriminate R]. injection R as <- <-.
      right. rewrite (D es s1 s2 o2); try reflexivity; auto. }
    intros es q s t R. eapply D'; [| | |exact R]; reflexivity.
  Qed.
End Proofs.
