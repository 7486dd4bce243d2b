(** What ends the wait of an [ask] and of a [tell]. *)
From Coq Require Import List Bool PeanoNat Lia.
From Verif Require Import Waiting Waiting_spec Waiting_proofs Waiting_more_proofs.
Import ListNotations.

#[local] Hint Rewrite aw_box aw_line aw_does aw_cap aw_waits en_box en_line en_does en_cap en_waits
  st_box st_line st_does st_cap st_waits do_box do_line do_does do_cap do_waits li_box li_line li_does li_cap li_waits
  tk_box tk_line tk_does tk_cap tk_waits tu_waits tu_does tu_box tu_line tu_cap : parts.

Ltac other x a := destruct (Nat.eqb_spec x a); [congruence|].

(** Who awaits a reply goes on to until the message is done with. *)
Lemma reply_kept : forall w e w' a b, good w -> waits (w a) = Some (ForReply b) -> step w e = Some w' ->
  waits (w' a) = Some (ForReply b) \/ e = GiveUp a \/ e = Kill a \/ answers w e b a.
Proof.
  intros w e w' a b G W H.
  assert (T : forall c d v, waits (w c) = None -> w' = turn c d v w ->
    waits (w' a) = Some (ForReply b) \/ (c = b /\ does (w b) = Busy (Some a))).
  { intros c d v Hc ->. autorewrite with parts. destruct (asker (does (w c))) as [y|] eqn:Ea; [|auto].
    destruct (Nat.eqb_spec a y); [|auto]. subst y. right. pose proof (asker_waits _ _ _ G Ea) as Q. rewrite W in Q. injection Q as ->.
    split; [reflexivity|]. destruct (does (w c)); cbn in Ea; congruence. }
  destruct e as [c d|c d|d p|d|c|c|c|c|c|c|c|c]; cbn in H.
  - destruct (runs (w c)) eqn:Er; [|discriminate]. destruct (runs_inv _ Er) as [_ Hw]. left.
    destruct (does (w d)); try (injection H as <-; exact W);
    (destruct (room (w d)); injection H as <-; autorewrite with parts; other a c; exact W).
  - destruct (runs (w c)) eqn:Er; [|discriminate]. destruct (runs_inv _ Er) as [_ Hw]. left.
    destruct (does (w d)); try (injection H as <-; exact W);
    (destruct (room (w d)); injection H as <-; autorewrite with parts; try other a c; exact W).
  - left. destruct (does (w d)); try (injection H as <-; exact W);
    (destruct (room (w d)); [|destruct p]; injection H as <-; autorewrite with parts; exact W).
  - destruct (does (w d)) eqn:Ed; try discriminate. destruct (box (w d)) as [|r rest]; [discriminate|]. injection H as <-. left.
    fold (took d r rest w). rewrite with_rest. destruct (line (w d)) as [|[[y|] k] l] eqn:El; auto.
    destruct (Nat.eqb_spec a y); [|exact W]. subst y. destruct (in_line_waits _ _ _ _ _ G El). congruence.
  - destruct (does (w c)) eqn:Ed; try discriminate; (destruct (waits (w c)) eqn:Ew; [discriminate|]; injection H as <-;
    destruct (T c _ _ Ew eq_refl) as [Q|[-> Q]]; [auto|right; right; right; left; auto]).
  - destruct (runs (w c)) eqn:Er; [|discriminate]. destruct (runs_inv _ Er) as [_ Hw]. injection H as <-. left.
    autorewrite with parts. other a c. exact W.
  - destruct (waits (w c)) as [[]|] eqn:Ew; try discriminate. injection H as <-. left. autorewrite with parts. other a c. exact W.
  - destruct (does (w c)) as [| |[y|]| |] eqn:Ed; try discriminate. destruct (waits (w c)) eqn:Ew; [discriminate|]. injection H as <-.
    destruct (T c _ _ Ew eq_refl) as [Q|[-> Q]]; [auto|right; right; right; left; auto].
  - destruct (waits (w c)) eqn:Ew; [|discriminate]. injection H as <-. destruct (Nat.eq_dec a c) as [->|N]; [auto|]. left.
    rewrite aw_waits. other a c. exact W.
  - destruct (does (w c)) eqn:Ed; try discriminate; (destruct (waits (w c)) eqn:Ew; [discriminate|]; injection H as <-;
    destruct (T c _ _ Ew eq_refl) as [Q|[-> Q]]; [auto|right; right; right; left; auto 6]).
  - destruct (Nat.eq_dec a c) as [->|N]; [auto|].
    assert (E : w' = w \/ w' = turn c Stopping None (await c None (fun x => forget c (w x)))) by (destruct (does (w c)); injection H as <-; auto).
    destruct E as [->|E]; [auto|]. subst w'. rewrite tu_waits, aw_waits, aw_does. cbn [forget does].
    destruct (asker (match does (w c) with Busy r => Busy (disown c r) | d => d end)) as [y|] eqn:Ea.
    + destruct (Nat.eqb_spec a y).
      * subst y. right. right. right. left. destruct (does (w c)) as [| |[z|]| |] eqn:Ed; cbn in Ea; try discriminate.
        destruct (z =? c); [discriminate|]. injection Ea as ->.
        assert (Q : waits (w a) = Some (ForReply c)) by (apply asker_waits; [exact G|rewrite Ed; reflexivity]).
        rewrite W in Q. injection Q as ->. auto 6.
      * other a c. left. exact W.
    + other a c. left. exact W.
  - destruct (does (w c)) eqn:Ed; try discriminate. destruct (waits (w c)) eqn:Ew; [discriminate|]. injection H as <-.
    destruct (Nat.eq_dec b c) as [->|N]; [right; right; right; right; reflexivity|]. left.
    unfold ended. other a c. cbn. rewrite W. cbn. other b c. reflexivity.
Qed.

(** Who waits for room goes on to until it is let in. *)
Definition pending (k : bool) (w : world) (a b : actor) : Prop :=
  waits (w a) = Some (ForRoom b) /\ In (Some a, k) (line (w b)).

Lemma inl_in : forall x k l, In (Some x, k) l -> inl x l <> 0.
Proof.
  intros x k l I Z. unfold inl in Z. apply length_zero_iff_nil in Z.
  assert (J : In (Some x, k) (filter (fun e => is x (fst e)) l)) by (apply filter_In; split; [exact I|cbn; apply Nat.eqb_refl]).
  rewrite Z in J. exact J.
Qed.

Lemma room_kept : forall k w e w' a b, good w -> pending k w a b -> step w e = Some w' ->
  pending k w' a b \/ e = GiveUp a \/ e = Kill a \/ e = End_ b \/
  (e = Take b /\ waits (w' a) = if k then Some (ForReply b) else None).
Proof.
  intros k w e w' a b G [W I] H.
  assert (T : forall c d v, w' = turn c d v w -> pending k w' a b).
  { intros c d v ->. split; autorewrite with parts; [|exact I]. destruct (asker (does (w c))) as [y|] eqn:Ea; [|exact W].
    destruct (Nat.eqb_spec a y); [|exact W]. subst y. pose proof (asker_waits _ _ _ G Ea). congruence. }
  assert (S : forall c, In (Some a, k) (line (w b) ++ [c])) by (intros; apply in_or_app; auto).
  destruct e as [c d|c d|d p|d|c|c|c|c|c|c|c|c]; cbn in H.
  - destruct (runs (w c)) eqn:Er; [|discriminate]. destruct (runs_inv _ Er) as [_ Hw]. left.
    destruct (does (w d)); try (injection H as <-; split; assumption);
    (destruct (room (w d)); injection H as <-; (split; autorewrite with parts; [other a c; exact W|auto]); destruct (b =? d); auto).
  - destruct (runs (w c)) eqn:Er; [|discriminate]. destruct (runs_inv _ Er) as [_ Hw]. left.
    destruct (does (w d)); try (injection H as <-; split; assumption);
    (destruct (room (w d)); injection H as <-; (split; autorewrite with parts; [try other a c; exact W|auto]); destruct (b =? d); auto).
  - left. destruct (does (w d)); try (injection H as <-; split; assumption);
    (destruct (room (w d)); [|destruct p]; injection H as <-; (split; autorewrite with parts; [exact W|auto]); destruct (b =? d); auto).
  - destruct (does (w d)) eqn:Ed; try discriminate. destruct (box (w d)) as [|r rest]; [discriminate|]. injection H as <-.
    fold (took d r rest w). unfold pending. rewrite with_rest. destruct (line (w d)) as [|[[y|] j] l] eqn:El.
    + left. split; [exact W|]. unfold admit. rewrite tk_line, El. autorewrite with parts. exact I.
    + destruct (Nat.eqb_spec a y).
      * subst y. destruct (in_line_waits _ _ _ _ _ G El) as [Q Z]. rewrite W in Q. injection Q as ->.
        right. right. right. right. split; [reflexivity|]. rewrite El in I. destruct I as [I|I]; [injection I as ->; reflexivity|]. exfalso. exact (inl_in _ _ _ I Z).
      * left. split; [exact W|]. unfold admit. rewrite tk_line, El. autorewrite with parts. destruct (Nat.eqb_spec b d); [|exact I].
        subst d. rewrite El in I. destruct I as [I|I]; [congruence|exact I].
    + left. split; [exact W|]. unfold admit. rewrite tk_line, El. autorewrite with parts. destruct (Nat.eqb_spec b d); [|exact I].
      subst d. rewrite El in I. destruct I as [I|I]; [congruence|exact I].
  - destruct (does (w c)) eqn:Ed; try discriminate; (destruct (waits (w c)) eqn:Ew; [discriminate|]; injection H as <-; left; eapply T; reflexivity).
  - destruct (runs (w c)) eqn:Er; [|discriminate]. destruct (runs_inv _ Er) as [_ Hw]. injection H as <-. left.
    split; autorewrite with parts; [other a c; exact W|exact I].
  - destruct (waits (w c)) as [[]|] eqn:Ew; try discriminate. injection H as <-. left. split; autorewrite with parts; [other a c; exact W|exact I].
  - destruct (does (w c)) as [| |[y|]| |] eqn:Ed; try discriminate. destruct (waits (w c)) eqn:Ew; [discriminate|]. injection H as <-.
    left. eapply T. reflexivity.
  - destruct (waits (w c)) eqn:Ew; [|discriminate]. injection H as <-. destruct (Nat.eq_dec a c) as [->|N]; [auto|]. left.
    split; [rewrite aw_waits; other a c; exact W|]. rewrite aw_line. cbn. apply filter_In. split; [exact I|]. cbn. other a c. reflexivity.
  - destruct (does (w c)) eqn:Ed; try discriminate; (destruct (waits (w c)) eqn:Ew; [discriminate|]; injection H as <-; left; eapply T; reflexivity).
  - destruct (Nat.eq_dec a c) as [->|N]; [auto|]. left.
    assert (E : w' = w \/ w' = turn c Stopping None (await c None (fun x => forget c (w x)))) by (destruct (does (w c)); injection H as <-; auto).
    destruct E as [->|E]; [split; assumption|]. subst w'. split.
    + rewrite tu_waits, aw_waits, aw_does. cbn [forget does].
      destruct (asker (match does (w c) with Busy r => Busy (disown c r) | d => d end)) as [y|] eqn:Ea.
      * destruct (Nat.eqb_spec a y); [|other a c; exact W]. subst y.
        destruct (does (w c)) as [| |[z|]| |] eqn:Ed; cbn in Ea; try discriminate.
        destruct (z =? c); [discriminate|]. injection Ea as ->.
        assert (Q : waits (w a) = Some (ForReply c)) by (apply asker_waits; [exact G|rewrite Ed; reflexivity]). congruence.
      * other a c. exact W.
    + rewrite tu_line, aw_line. cbn. apply filter_In. split; [exact I|]. cbn. other a c. reflexivity.
  - destruct (does (w c)) eqn:Ed; try discriminate. destruct (waits (w c)) eqn:Ew; [discriminate|]. injection H as <-.
    destruct (Nat.eq_dec b c) as [->|N]; [auto 6|]. left.
    split; unfold ended; [other a c|other b c]; cbn; [rewrite W; cbn; other b c; reflexivity|exact I].
Qed.

Lemma happens_later : forall w e w0 es w1 e1 w2, step w e = Some w0 -> happens w0 es w1 e1 w2 -> happens w (e :: es) w1 e1 w2.
Proof.
  intros w e w0 es w1 e1 w2 H (es1 & es2 & -> & X & S). exists (e :: es1), es2. split; [reflexivity|]. split; [|exact S]. cbn. rewrite H. exact X.
Qed.

Lemma happens_now : forall w e w0 es, step w e = Some w0 -> happens w (e :: es) w e w0.
Proof. intros w e w0 es H. exists [], es. repeat split. exact H. Qed.

Lemma exec_reply : forall es w a b w', good w -> waits (w a) = Some (ForReply b) -> exec w es = Some w' ->
  target w' a = Some b \/ In (GiveUp a) es \/ In (Kill a) es \/ exists w1 e w2, happens w es w1 e w2 /\ answers w1 e b a.
Proof.
  induction es as [|e es IH]; intros w a b w' G W H; cbn in H.
  - injection H as <-. left. apply target_of. auto.
  - destruct (step w e) as [w0|] eqn:E; [|discriminate]. destruct (reply_kept _ _ _ _ _ G W E) as [K|[K|[K|K]]].
    + destruct (IH w0 a b w' (step_good _ _ _ G E) K H) as [Q|[Q|[Q|(w1 & e1 & w2 & Q & R)]]]; [auto|right; left; right; exact Q|right; right; left; right; exact Q|].
      right. right. right. exists w1, e1, w2. split; [eapply happens_later; eassumption|exact R].
    + right. left. left. exact K.
    + right. right. left. left. exact K.
    + right. right. right. exists w, e, w0. split; [apply happens_now; exact E|exact K].
Qed.

Lemma exec_room : forall es w a b w', good w -> pending true w a b -> exec w es = Some w' ->
  target w' a = Some b \/ In (GiveUp a) es \/ In (Kill a) es \/ exists w1 e w2, happens w es w1 e w2 /\ answers w1 e b a.
Proof.
  induction es as [|e es IH]; intros w a b w' G W H; cbn in H.
  - injection H as <-. left. apply target_of. right. apply W.
  - destruct (step w e) as [w0|] eqn:E; [|discriminate]. pose proof (step_good _ _ _ G E) as G0.
    assert (L : target w' a = Some b \/ In (GiveUp a) es \/ In (Kill a) es \/ (exists w1 e1 w2, happens w0 es w1 e1 w2 /\ answers w1 e1 b a) ->
      target w' a = Some b \/ In (GiveUp a) (e :: es) \/ In (Kill a) (e :: es) \/ exists w1 e1 w2, happens w (e :: es) w1 e1 w2 /\ answers w1 e1 b a).
    { intros [Q|[Q|[Q|(w1 & e1 & w2 & Q & R)]]]; [auto|right; left; right; exact Q|right; right; left; right; exact Q|].
      right. right. right. exists w1, e1, w2. split; [eapply happens_later; eassumption|exact R]. }
    destruct (room_kept _ _ _ _ _ _ G W E) as [K|[K|[K|[K|[K Q]]]]].
    + exact (L (IH w0 a b w' G0 K H)).
    + right. left. left. exact K.
    + right. right. left. left. exact K.
    + right. right. right. exists w, e, w0. split; [apply happens_now; exact E|right; exact K].
    + exact (L (exec_reply es w0 a b w' G0 Q H)).
Qed.

Lemma ask_served : forall w a b w0 es w', reached w -> step w (Ask a b) = Some w0 -> does (w b) <> Gone -> exec w0 es = Some w' ->
  target w' a = Some b \/ In (GiveUp a) es \/ In (Kill a) es \/ exists w1 e w2, happens w0 es w1 e w2 /\ answers w1 e b a.
Proof.
  intros w a b w0 es w' R H D X. pose proof (reached_good _ (reached_step _ _ _ R H)) as G.
  cbn in H. destruct (runs (w a)) eqn:Er; [|discriminate].
  assert (E : w0 = await a (Some (ForReply b)) (enter (Some a) b w) \/ w0 = await a (Some (ForRoom b)) (stand (Some a, true) b w))
    by (destruct (does (w b)); try congruence; (destruct (room (w b)); [left|right]; congruence)).
  destruct E as [E|E].
  - apply exec_reply; [exact G| |exact X]. rewrite E. autorewrite with parts. rewrite Nat.eqb_refl. reflexivity.
  - apply exec_room; [exact G| |exact X]. rewrite E. split; autorewrite with parts; rewrite Nat.eqb_refl; [reflexivity|].
    apply in_or_app. right. left. reflexivity.
Qed.

Lemma tell_served : forall w a b w0 es w', reached w -> step w (Tell a b) = Some w0 -> waits (w0 a) <> None -> exec w0 es = Some w' ->
  waits (w' a) = Some (ForRoom b) \/ In (GiveUp a) es \/ In (Kill a) es \/
  exists w1 e w2, happens w0 es w1 e w2 /\ waits (w2 a) = None /\ (e = Take b \/ e = End_ b).
Proof.
  intros w a b w0 es w' R H D X. pose proof (reached_good _ (reached_step _ _ _ R H)) as G.
  assert (P : pending false w0 a b).
  { cbn in H. destruct (runs (w a)) eqn:Er; [|discriminate]. destruct (runs_inv _ Er) as [_ Hw].
    assert (E : w0 = w \/ w0 = enter None b w \/ w0 = await a (Some (ForRoom b)) (stand (Some a, false) b w))
      by (destruct (does (w b)); [| | | |left; congruence]; right; (destruct (room (w b)); [left|right]; congruence)).
    destruct E as [->|[->|E]]; [congruence|autorewrite with parts in D; congruence|].
    rewrite E. split; autorewrite with parts; rewrite Nat.eqb_refl; [reflexivity|]. apply in_or_app. right. left. reflexivity. }
  clear R H D. revert w0 G P X. induction es as [|e es IH]; intros w0 G P X; cbn in X.
  - injection X as <-. left. apply P.
  - destruct (step w0 e) as [w1|] eqn:E; [|discriminate]. pose proof (step_good _ _ _ G E) as G1.
    destruct (room_kept _ _ _ _ _ _ G P E) as [K|[K|[K|[K|[K Q]]]]].
    + destruct (IH w1 G1 K X) as [Q|[Q|[Q|(w2 & e1 & w3 & Q & S)]]]; [auto|right; left; right; exact Q|right; right; left; right; exact Q|].
      right. right. right. exists w2, e1, w3. split; [eapply happens_later; eassumption|exact S].
    + right. left. left. exact K.
    + right. right. left. left. exact K.
    + right. right. right. exists w0, e, w1. split; [apply happens_now; exact E|]. split; [|right; exact K]. subst e.
      cbn in E. destruct (does (w0 b)); try discriminate. destruct (waits (w0 b)) eqn:Ew; [discriminate|]. injection E as <-.
      destruct P as [P _]. unfold ended. other a b. cbn. rewrite P. cbn. rewrite Nat.eqb_refl. reflexivity.
    + right. right. right. exists w0, e, w1. split; [apply happens_now; exact E|]. split; [exact Q|left; exact K].
Qed.

(** An actor stops once, and can whenever it does not wait. *)
Definition alive (d : doing) : bool := match d with Stopping | Gone => false | _ => true end.

Lemma alive_forget : forall a c, alive (does (forget a c)) = alive (does c).
Proof. intros a c. unfold forget. cbn. destruct (does c); reflexivity. Qed.

Lemma alive_turn : forall a d v w x, alive (does (turn a d v w x)) = if x =? a then alive d else alive (does (w x)).
Proof. intros. rewrite tu_does. destruct (x =? a); reflexivity. Qed.

Lemma admit_does : forall b w x, does (admit b w x) = does (w x).
Proof.
  intros b w x. unfold admit. destruct (line (w b)) as [|[[y|] k] l]; [reflexivity| |]; autorewrite with parts; reflexivity.
Qed.

Lemma step_alive : forall w e w' a, step w e = Some w' -> e <> Leave a -> e <> Kill a -> alive (does (w' a)) = alive (does (w a)) \/ e = End_ a.
Proof.
  intros w e w' a H NL NK. destruct e as [c d|c d|d p|d|c|c|c|c|c|c|c|c]; cbn in H.
  - left. destruct (runs (w c)); [|discriminate].
    destruct (does (w d)); try (injection H as <-; reflexivity); (destruct (room (w d)); injection H as <-; autorewrite with parts; reflexivity).
  - left. destruct (runs (w c)); [|discriminate].
    destruct (does (w d)); try (injection H as <-; reflexivity); (destruct (room (w d)); injection H as <-; autorewrite with parts; reflexivity).
  - left. destruct (does (w d)); try (injection H as <-; reflexivity); (destruct (room (w d)); [|destruct p]; injection H as <-; autorewrite with parts; reflexivity).
  - left. destruct (does (w d)) eqn:Ed; try discriminate. destruct (box (w d)) as [|r rest]; [discriminate|]. injection H as <-.
    rewrite admit_does. fold (took d r rest w). autorewrite with parts. destruct (Nat.eqb_spec a d); [subst; rewrite Ed|]; reflexivity.
  - left. destruct (does (w c)) eqn:Ed; try discriminate; (destruct (waits (w c)); [discriminate|]; injection H as <-;
      rewrite alive_turn; destruct (Nat.eqb_spec a c); [subst; rewrite Ed|]; reflexivity).
  - left. destruct (runs (w c)); [|discriminate]. injection H as <-. autorewrite with parts. reflexivity.
  - left. destruct (waits (w c)) as [[]|]; try discriminate. injection H as <-. autorewrite with parts. reflexivity.
  - left. destruct (does (w c)) as [| |[y|]| |] eqn:Ed; try discriminate. destruct (waits (w c)); [discriminate|]. injection H as <-.
    rewrite alive_turn. destruct (Nat.eqb_spec a c); [subst; rewrite Ed|]; reflexivity.
  - left. destruct (waits (w c)); [|discriminate]. injection H as <-. rewrite aw_does. apply alive_forget.
  - left. destruct (does (w c)) eqn:Ed; try discriminate; (destruct (waits (w c)); [discriminate|]; injection H as <-;
      rewrite alive_turn; destruct (Nat.eqb_spec a c); [congruence|reflexivity]).
  - left. destruct (does (w c)) eqn:Ed; try (injection H as <-; reflexivity); (injection H as <-; rewrite alive_turn;
      destruct (Nat.eqb_spec a c); [congruence|]; rewrite aw_does; apply alive_forget).
  - destruct (Nat.eqb_spec a c); [right; congruence|left]. destruct (does (w c)); try discriminate. destruct (waits (w c)); [discriminate|].
    injection H as <-. unfold ended. destruct (Nat.eqb_spec a c); [congruence|]. reflexivity.
Qed.

Lemma step_dead : forall w e w' a, step w e = Some w' -> alive (does (w a)) = false -> alive (does (w' a)) = false.
Proof.
  intros w e w' a H D.
  assert (K : e = Leave a \/ e = Kill a \/ e = End_ a \/ (e <> Leave a /\ e <> Kill a /\ e <> End_ a)).
  { destruct e as [c d|c d|d p|d|c|c|c|c|c|c|c|c]; try (right; right; right; repeat split; discriminate);
      (destruct (Nat.eqb_spec c a); [subst; auto|right; right; right; repeat split; congruence]). }
  destruct K as [->|[->|[->|(A & B & C)]]]; cbn in H.
  - destruct (does (w a)); try discriminate.
  - destruct (does (w a)) eqn:E; try discriminate; injection H as <-; rewrite E; reflexivity.
  - destruct (does (w a)); try discriminate. destruct (waits (w a)); [discriminate|]. injection H as <-. unfold ended.
    rewrite Nat.eqb_refl. reflexivity.
  - destruct (step_alive _ _ _ _ H A B) as [->|K]; [exact D|contradiction].
Qed.

Lemma exec_dead : forall es w w' a, exec w es = Some w' -> alive (does (w a)) = false -> alive (does (w' a)) = false.
Proof.
  induction es as [|e es IH]; intros w w' a H D; cbn in H; [injection H as <-; exact D|].
  destruct (step w e) as [w1|] eqn:E; [|discriminate]. eapply IH; [exact H|]. eapply step_dead; eassumption.
Qed.

Lemma exec_alive : forall es w w' a, exec w es = Some w' -> alive (does (w a)) = true -> ~ In (Leave a) es -> ~ In (Kill a) es ->
  alive (does (w' a)) = true.
Proof.
  induction es as [|e es IH]; intros w w' a H D NL NK; cbn in H; [injection H as <-; exact D|].
  destruct (step w e) as [w1|] eqn:E; [|discriminate].
  assert (A : e <> Leave a) by (intros ->; apply NL; left; reflexivity).
  assert (B : e <> Kill a) by (intros ->; apply NK; left; reflexivity).
  eapply IH; [exact H| |intro I; apply NL; right; exact I|intro I; apply NK; right; exact I].
  destruct (step_alive _ _ _ _ E A B) as [->|K]; [exact D|].
  subst e. cbn in E. destruct (does (w a)); discriminate.
Qed.

Lemma stops : forall caps sc es w a, exec (fresh caps sc) es = Some w -> waits (w a) = None ->
  ~ In (Leave a) es -> ~ In (Kill a) es -> exists w', exec w [Leave a; End_ a] = Some w' /\ does (w' a) = Gone.
Proof.
  intros caps sc es w a H W NL NK. pose proof (exec_alive _ _ _ a H eq_refl NL NK) as A.
  assert (E : step w (Leave a) = Some (turn a Stopping None w)) by (cbn; rewrite W; destruct (does (w a)); try discriminate; reflexivity).
  cbn [exec]. rewrite E. exists (ended a (turn a Stopping None w)).
  assert (Q : waits (turn a Stopping None w a) = None).
  { rewrite tu_waits. destruct (asker (does (w a))) as [y|]; [destruct (a =? y)|]; auto. }
  cbn. rewrite tu_does, Nat.eqb_refl, Q. split; [reflexivity|]. unfold ended. rewrite Nat.eqb_refl. reflexivity.
Qed.

Lemma stops_once : forall caps sc es1 es2 w a, exec (fresh caps sc) (es1 ++ Leave a :: es2) = Some w -> step w (Leave a) = None.
Proof.
  intros caps sc es1 es2 w a H. revert H. generalize (fresh caps sc). induction es1 as [|e es IH]; intros w0 H.
  - cbn [app exec] in H. destruct (step w0 (Leave a)) as [w1|] eqn:E; [|discriminate].
    assert (D : alive (does (w1 a)) = false).
    { cbn in E. destruct (does (w0 a)); try discriminate; (destruct (waits (w0 a)); [discriminate|]; injection E as <-;
        rewrite alive_turn, Nat.eqb_refl; reflexivity). }
    pose proof (exec_dead _ _ _ _ H D) as K. cbn. destruct (does (w a)); try discriminate; reflexivity.
  - cbn [app exec] in H. destruct (step w0 e); [|discriminate]. exact (IH _ H).
Qed.
