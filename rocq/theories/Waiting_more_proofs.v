(** More proofs about Waiting: where deadlocks come from, what ends them, and what is warned of. *)
From Coq Require Import List Bool PeanoNat Lia.
From Verif Require Import Waiting Waiting_spec Waiting_proofs.
Import ListNotations.

#[local] Hint Rewrite aw_box aw_line aw_does aw_cap aw_waits en_box en_line en_does en_cap en_waits
  st_box st_line st_does st_cap st_waits do_box do_line do_does do_cap do_waits
  li_box li_line li_does li_cap li_waits tk_box tk_line tk_does tk_cap tk_waits
  tu_box tu_line tu_does tu_cap tu_waits : parts.

Lemma exec_snoc : forall es w w1 e w', exec w es = Some w1 -> step w1 e = Some w' -> exec w (es ++ [e]) = Some w'.
Proof. intros. rewrite (exec_app _ _ _ _ H). cbn. rewrite H0. reflexivity. Qed.

Lemma reached_step : forall w e w', reached w -> step w e = Some w' -> reached w'.
Proof. intros w e w' (caps & sc & es & Hc & H) S. exists caps, sc, (es ++ [e]). split; [exact Hc|]. eapply exec_snoc; eauto. Qed.

Lemma ended_target : forall w a x y, match waits (ended a w x) with Some (ForReply b) => Some b | Some (ForRoom b) => Some b | _ => None end = Some y ->
  target w x = Some y.
Proof.
  intros w a x y T. unfold ended in T. unfold target.
  destruct (x =? a); [discriminate|]; cbn in T; destruct (waits (w x)) as [[b'|b'|]|]; cbn in T; try discriminate;
     (destruct (b' =? a); [discriminate|exact T]).
Qed.

(** Who waits for whom comes from requests. *)
Lemma turn_target : forall w a d v x y, v = None \/ v = Some ForOther -> target (turn a d v w) x = Some y -> target w x = Some y.
Proof.
  intros w a d v x y Hv T. unfold target at 1 in T. rewrite tu_waits in T. destruct (asker (does (w a))) as [z|]; [|exact T].
  destruct (x =? z); [destruct Hv as [-> | ->]; discriminate|exact T].
Qed.

Lemma step_target : forall w e w' x y, good w -> step w e = Some w' -> target w' x = Some y ->
  target w x = Some y \/ ((e = Ask x y \/ e = Tell x y) /\ waits (w x) = None).
Proof.
  intros w e w' x y G H T. destruct e as [a b|a b|b p|b|a|a|a|a|a|a|a|a]; cbn in H.
  - unfold target at 1 in T. destruct (runs (w a)) eqn:Er; [|discriminate]. destruct (runs_inv _ Er) as [_ Hw]. destruct (does (w b)); [| | | |injection H as <-; auto];
    (destruct (room (w b)); injection H as <-; autorewrite with parts in T; (destruct (Nat.eqb_spec x a); [injection T as ->; subst; auto|auto])).
  - unfold target at 1 in T. destruct (runs (w a)) eqn:Er; [|discriminate]. destruct (runs_inv _ Er) as [_ Hw]. destruct (does (w b)); [| | | |injection H as <-; auto];
    (destruct (room (w b)); injection H as <-; autorewrite with parts in T; [auto|]; (destruct (Nat.eqb_spec x a); [injection T as ->; subst; auto|auto])).
  - unfold target at 1 in T. destruct (does (w b)); [| | | |injection H as <-; auto];
    (destruct (room (w b)); [|destruct p]; injection H as <-; autorewrite with parts in T; auto).
  - destruct (does (w b)) eqn:Ed; try discriminate. destruct (box (w b)) as [|r rest]; [discriminate|]. injection H as <-.
    unfold target at 1 in T. fold (took b r rest w) in T. rewrite with_rest in T. destruct (line (w b)) as [|[[z|] k] l] eqn:El; auto.
    destruct (Nat.eqb_spec x z); auto. subst z. destruct (in_line_waits _ _ _ _ _ G El) as [Hy _]. left.
    destruct k; [injection T as ->|discriminate]. apply target_of; auto.
  - left. apply (turn_target w a Idle None x y); [auto|].
    assert (w' = turn a Idle None w) as <- by (destruct (does (w a)); try discriminate; destruct (waits (w a)); congruence). exact T.
  - unfold target at 1 in T. destruct (runs (w a)); [|discriminate]. injection H as <-. autorewrite with parts in T. destruct (x =? a); [discriminate|auto].
  - unfold target at 1 in T. destruct (waits (w a)) as [[]|] eqn:Ew; try discriminate. injection H as <-. autorewrite with parts in T. destruct (x =? a); [discriminate|auto].
  - left. apply (turn_target w a (Busy None) (Some ForOther) x y); [auto|].
    assert (w' = turn a (Busy None) (Some ForOther) w) as <- by (destruct (does (w a)) as [| |[z|]| |]; try discriminate; destruct (waits (w a)); congruence). exact T.
  - unfold target at 1 in T. destruct (waits (w a)) eqn:Ew; [|discriminate]. injection H as <-. rewrite aw_waits in T. destruct (x =? a); [discriminate|auto].
  - left. apply (turn_target w a Stopping None x y); [auto|].
    assert (w' = turn a Stopping None w) as <- by (destruct (does (w a)); try discriminate; destruct (waits (w a)); congruence). exact T.
  - left. assert (Hk : w' = w \/ w' = turn a Stopping None (await a None (fun x0 => forget a (w x0)))) by (destruct (does (w a)); injection H as <-; auto).
    destruct Hk as [-> | ->]; [exact T|].
    apply turn_target in T; [|auto]. unfold target at 1 in T. rewrite aw_waits in T. destruct (x =? a); [discriminate|exact T].
  - left. destruct (does (w a)); try discriminate; destruct (waits (w a)); try discriminate; injection H as <-; apply (ended_target w a); exact T.
Qed.

Lemma ends_not_deadlocked : forall w a, ends w a -> ~ deadlocked w a.
Proof.
  intros w a E. induction E as [a H|a b H E IH]; intros D; destruct (deadlocked_next _ _ D) as (z & Hz & Dz); [congruence|].
  apply IH. congruence.
Qed.

Lemma exec_rank : forall rank es w w', good w -> Forall (downwards rank) es -> exec w es = Some w' ->
  (forall x y, target w x = Some y -> rank y < rank x) -> forall x y, target w' x = Some y -> rank y < rank x.
Proof.
  induction es as [|e es IH]; cbn; intros w w' G F H HT.
  - injection H as <-. exact HT.
  - inversion F; subst. destruct (step w e) as [w1|] eqn:E; [|discriminate].
    apply (IH w1 w' (step_good _ _ _ G E) H3 H). intros x y T.
    destruct (step_target _ _ _ _ _ G E T) as [T'|[[-> | ->] _]]; [auto|exact H2|exact H2].
Qed.

Theorem ranked_free : forall rank caps sc es w a,
  (forall b, caps b <> Some 0) -> Forall (downwards rank) es -> exec (fresh caps sc) es = Some w -> ~ deadlocked w a.
Proof.
  intros rank caps sc es w a Hc F H (c & _ & D).
  assert (K : forall x y, target w x = Some y -> rank y < rank x).
  { eapply exec_rank; [apply fresh_good; exact Hc|exact F|exact H|]. cbn. discriminate. }
  assert (L : forall x y, waits_on w x y -> rank y < rank x).
  { intros x y W. induction W as [x y T|x y z T W IH]; [auto|]. specialize (K _ _ T). lia. }
  specialize (L _ _ D). lia.
Qed.

(** Deadlocks are closed by requests. *)
Lemma path_old : forall w e w' c, good w -> step w e = Some w' ->
  (forall x y, target w' x = Some y -> target w x = Some y \/ x = c) ->
  forall a k, waits_on w' a k -> waits_on w a k \/ (a = c \/ waits_on w' a c).
Proof.
  intros w e w' c G S HT a k W. induction W as [a b T|a b k T W IH].
  - destruct (HT _ _ T) as [T'|]; [left; apply waits_direct; exact T'|auto].
  - destruct (HT _ _ T) as [T'|]; [|auto].
    destruct IH as [IH|[->|IH]].
    + left. eapply waits_through; eauto.
    + right. right. apply waits_direct. exact T.
    + right. right. eapply waits_through; eauto.
Qed.

Lemma dead_old : forall w e w' c, good w -> step w e = Some w' ->
  (forall x y, target w' x = Some y -> target w x = Some y \/ x = c) ->
  forall a, deadlocked w' a -> deadlocked w a \/ (a = c \/ waits_on w' a c).
Proof.
  intros w e w' c G S HT a (k & Ha & Hk).
  pose proof (path_old w e w' c G S HT) as P.
  destruct (P _ _ Hk) as [Hk'|Hk'].
  - destruct Ha as [->|Ha].
    + left. exists k. auto.
    + destruct (P _ _ Ha) as [Ha'|Ha']; [left; exists k; auto|auto].
  - right. destruct Ha as [->|Ha]; [exact Hk'|]. right. destruct Hk' as [<-|Hk']; [exact Ha|eapply waits_on_trans; eauto].
Qed.

Theorem closed_by_request : forall w e w' a, reached w -> step w e = Some w' -> ~ deadlocked w a -> deadlocked w' a ->
  exists c b, (e = Ask c b \/ e = Tell c b) /\ waits (w c) = None /\ target w' c = Some b /\
              (a = c \/ waits_on w' a c) /\ (waits_on w' c c \/ deadlocked w b).
Proof.
  intros w e w' a R S ND D. pose proof (reached_good _ R) as G.
  assert (Q : (exists c b, (e = Ask c b \/ e = Tell c b)) \/ (forall x y, target w' x = Some y -> target w x = Some y)).
  { destruct e; try (left; eauto; fail); right; intros x y T; destruct (step_target _ _ _ _ _ G S T) as [T'|[[?|?] _]]; congruence. }
  destruct Q as [(c & b & He)|Q].
  - assert (HT : forall x y, target w' x = Some y -> target w x = Some y \/ x = c).
    { intros x y T. destruct (step_target _ _ _ _ _ G S T) as [T'|[He' _]]; [auto|]. right. destruct He as [-> | ->], He'; congruence. }
    destruct (dead_old w e w' c G S HT a D) as [D'|Hac]; [contradiction|].
    assert (Dc : deadlocked w' c).
    { destruct Hac as [<-|Hac]; [exact D|]. clear -D Hac. induction Hac.
      - destruct (deadlocked_next _ _ D) as (z & Hz & Dz). congruence.
      - apply IHHac. destruct (deadlocked_next _ _ D) as (z & Hz & Dz). congruence. }
    assert (Wc : waits (w c) = None).
    { destruct He as [-> | ->]; cbn in S; destruct (runs (w c)) eqn:Er; try discriminate; apply (runs_inv _ Er). }
    destruct (deadlocked_next _ _ Dc) as (z & Hz & Dz).
    assert (z = b).
    { destruct (step_target _ _ _ _ _ G S Hz) as [T'|[He' _]].
      - unfold target in T'. rewrite Wc in T'. discriminate.
      - destruct He as [-> | ->], He'; congruence. }
    subst z. exists c, b. repeat split; auto.
    destruct (dead_old w e w' c G S HT b Dz) as [Db|[->|Hbc]]; [auto| |].
    + left. apply waits_direct. exact Hz.
    + left. eapply waits_through; eauto.
  - exfalso. apply ND. destruct D as (k & Ha & Hk).
    assert (P : forall x y, waits_on w' x y -> waits_on w x y).
    { intros x y W. induction W; [apply waits_direct; auto|eapply waits_through; eauto]. }
    exists k. split; [destruct Ha; auto|auto].
Qed.

(** One timeout or one end on the way is enough. *)
Lemma cut_ends : forall w e w' y, good w -> step w e = Some w' -> e = GiveUp y \/ (e = Kill y /\ killable w y) ->
  forall a, a = y \/ waits_on w a y -> ends w' a.
Proof.
  intros w e w' y G S He.
  assert (P : (forall x, target w' x = target w x \/ target w' x = None) /\ target w' y = None).
  { destruct He as [-> | [-> [r Hr]]]; cbn in S.
    - destruct (waits (w y)); [|discriminate]. injection S as <-. unfold target. split.
      + intros x. rewrite aw_waits. destruct (x =? y); [right|left]; reflexivity.
      + rewrite aw_waits, Nat.eqb_refl. reflexivity.
    - rewrite Hr in S. injection S as <-.
      unfold target. split; [intros x|]; rewrite tu_waits, aw_waits.
      + destruct (asker _) as [z|]; [destruct (x =? z); [auto|]|]; (destruct (x =? y); auto).
      + rewrite Nat.eqb_refl. destruct (asker _) as [z|]; [destruct (y =? z)|]; reflexivity. }
  destruct P as [O Y0]. assert (Y : ends w' y) by (apply ends_here; exact Y0).
  intros a [->|W]; [exact Y|]. induction W as [a b T|a b c T W IH].
  - destruct (O a) as [E|E]; [eapply ends_next; [rewrite E; exact T|exact Y]|apply ends_here; exact E].
  - destruct (O a) as [E|E]; [eapply ends_next; [rewrite E; exact T|auto]|apply ends_here; exact E].
Qed.

Theorem one_is_enough : forall w e w' y a, reached w -> step w e = Some w' -> e = GiveUp y \/ (e = Kill y /\ killable w y) ->
  a = y \/ waits_on w a y -> ~ deadlocked w' a.
Proof. intros w e w' y a R S He Ha. apply ends_not_deadlocked. eapply cut_ends; eauto using reached_good. Qed.

(** ** Requests of an actor to itself *)

Record bounds (w : world) : Prop := {
  bd_box : forall b n, cap (w b) = Some n -> length (box (w b)) <= n;
  bd_line : forall b, line (w b) <> [] -> full w b
}.

Lemma room_full : forall w b, bounds w -> (room (w b) = false <-> full w b).
Proof.
  intros w b B. unfold room. split.
  - destruct (line (w b)) eqn:El; [|intros _; apply (bd_line _ B); congruence].
    destruct (cap (w b)) as [n|] eqn:Ec; [|discriminate]. intros E. apply Nat.ltb_ge in E. exists n. split; [exact Ec|].
    pose proof (bd_box _ B b n Ec). lia.
  - intros (n & Ec & En). destruct (line (w b)); [|reflexivity]. rewrite Ec. apply Nat.ltb_ge. lia.
Qed.

Lemma bounds_same : forall w w', bounds w ->
  (forall b, cap (w' b) = cap (w b) /\ ((length (box (w' b)) = length (box (w b)) /\ (line (w' b) <> [] -> line (w b) <> [])) \/
     (line (w' b) = [] /\ length (box (w' b)) <= length (box (w b))) \/
     (line (w' b) = [] /\ room (w b) = true /\ length (box (w' b)) = S (length (box (w b)))) \/
     (full w b /\ length (box (w' b)) = length (box (w b))))) -> bounds w'.
Proof.
  intros w w' [B1 B2] H. constructor.
  - intros b n Hc. destruct (H b) as [Ec H']. rewrite Ec in Hc. pose proof (B1 b n Hc).
    destruct H' as [[E _]|[[_ E]|[(_ & Hr & E)|[_ E]]]]; try lia.
    unfold room in Hr. destruct (line (w b)); [|discriminate]. rewrite Hc in Hr. apply Nat.ltb_lt in Hr. lia.
  - intros b Hl. destruct (H b) as [Ec H']. unfold full in *.
    destruct H' as [[E L]|[[L _]|[(L & _)|[F E]]]]; try contradiction.
    + rewrite Ec, E. apply B2. auto.
    + rewrite Ec, E. exact F.
Qed.

Lemma forget_bounds : forall w a, bounds w -> bounds (await a None (fun x => forget a (w x))).
Proof.
  intros w a B. apply (bounds_same w); auto. intros z.
  rewrite aw_cap, aw_box, aw_line. unfold forget. cbn. rewrite map_length. split; [reflexivity|]. left. split; [reflexivity|].
  intros E E'. apply E. rewrite E'. reflexivity.
Qed.

Lemma step_bounds : forall w e w', good w -> bounds w -> step w e = Some w' -> bounds w'.
Proof.
  intros w e w' G B H. destruct e as [a b|a b|b p|b|a|a|a|a|a|a|a|a]; cbn in H.
  - destruct (runs (w a)); [|discriminate]. destruct (does (w b)); [| | | |injection H as <-; exact B];
    (destruct (room (w b)) eqn:Er; injection H as <-; apply (bounds_same w); auto; intros z; autorewrite with parts; (split; [reflexivity|]);
     (destruct (Nat.eqb_spec z b) as [->|]; [|auto]);
     [right; right; left; rewrite app_length; cbn; rewrite (room_inv _ Er); repeat split; auto; lia
     |right; right; right; split; [apply room_full; auto|reflexivity]]).
  - destruct (runs (w a)); [|discriminate]. destruct (does (w b)); [| | | |injection H as <-; exact B];
    (destruct (room (w b)) eqn:Er; injection H as <-; apply (bounds_same w); auto; intros z; autorewrite with parts; (split; [reflexivity|]);
     (destruct (Nat.eqb_spec z b) as [->|]; [|auto]);
     [right; right; left; rewrite app_length; cbn; rewrite (room_inv _ Er); repeat split; auto; lia
     |right; right; right; split; [apply room_full; auto|reflexivity]]).
  - destruct (does (w b)); [| | | |injection H as <-; exact B];
    (destruct (room (w b)) eqn:Er; [|destruct p; [|injection H as <-; exact B]]; injection H as <-; apply (bounds_same w); auto; intros z; autorewrite with parts; (split; [reflexivity|]);
     (destruct (Nat.eqb_spec z b) as [->|]; [|auto]);
     [right; right; left; rewrite app_length; cbn; rewrite (room_inv _ Er); repeat split; auto; lia
     |right; right; right; split; [apply room_full; auto|reflexivity]]).
  - destruct (does (w b)); try discriminate. destruct (box (w b)) as [|r rest] eqn:Eb; [discriminate|]. injection H as <-.
    fold (took b r rest w). apply (bounds_same w); auto. intros z. unfold admit. rewrite tk_line.
    destruct (line (w b)) as [|[[y|] k] l] eqn:El; autorewrite with parts; (split; [reflexivity|]);
    (destruct (Nat.eqb_spec z b) as [->|]; [|auto]).
    + right; left. rewrite Eb. cbn. split; [exact El|lia].
    + left. rewrite Eb, app_length. cbn. split; [lia|congruence].
    + left. rewrite Eb, app_length. cbn. split; [lia|congruence].
  - assert (w' = turn a Idle None w) as -> by (destruct (does (w a)); try discriminate; destruct (waits (w a)); congruence).
    apply (bounds_same w); auto. intros z. autorewrite with parts. auto.
  - destruct (runs (w a)); [|discriminate]. injection H as <-. apply (bounds_same w); auto. intros z. autorewrite with parts. auto.
  - destruct (waits (w a)) as [[]|]; try discriminate. injection H as <-. apply (bounds_same w); auto. intros z. autorewrite with parts. auto.
  - assert (w' = turn a (Busy None) (Some ForOther) w) as -> by (destruct (does (w a)) as [| |[z|]| |]; try discriminate; destruct (waits (w a)); congruence).
    apply (bounds_same w); auto. intros z. autorewrite with parts. auto.
  - destruct (waits (w a)); [|discriminate]. injection H as <-. apply forget_bounds. exact B.
  - assert (w' = turn a Stopping None w) as -> by (destruct (does (w a)); try discriminate; destruct (waits (w a)); congruence).
    apply (bounds_same w); auto. intros z. autorewrite with parts. auto.
  - assert (Hk : w' = w \/ w' = turn a Stopping None (await a None (fun x0 => forget a (w x0)))) by (destruct (does (w a)); injection H as <-; auto).
    destruct Hk as [-> | ->]; [exact B|].
    apply (bounds_same (await a None (fun x0 => forget a (w x0)))); [apply forget_bounds; exact B|]. intros z. rewrite tu_cap, tu_box, tu_line. auto.
  - destruct (does (w a)); try discriminate; destruct (waits (w a)); try discriminate; injection H as <-; apply (bounds_same w); auto; intros z; unfold ended;
    (destruct (z =? a); cbn; [split; [reflexivity|right; left; split; [reflexivity|lia]]|auto]).
Qed.

Lemma reached_bounds : forall w, reached w -> bounds w.
Proof.
  intros w (caps & sc & es & Hc & H).
  assert (G : good (fresh caps sc)) by (apply fresh_good; exact Hc).
  assert (B : bounds (fresh caps sc)) by (constructor; cbn; [lia|congruence]).
  revert H G B. generalize (fresh caps sc). clear. induction es as [|e es IH]; cbn; intros w0 H G B.
  - injection H as <-. exact B.
  - destruct (step w0 e) eqn:E; [|discriminate]. eapply IH; eauto using step_good, step_bounds.
Qed.

Theorem self_ask : forall w a w', reached w -> step w (Ask a a) = Some w' -> deadlocked w' a.
Proof.
  intros w a w' R H. cbn in H. destruct (runs (w a)) eqn:Er; [|discriminate]. destruct (runs_inv _ Er) as [[_ Hd] _].
  exists a. split; [auto|]. apply waits_direct.
  destruct (does (w a)); try congruence; (destruct (room (w a)); injection H as <-; unfold target; rewrite aw_waits, Nat.eqb_refl; reflexivity).
Qed.

Theorem self_tell : forall w a w', reached w -> step w (Tell a a) = Some w' ->
  (full w a -> deadlocked w' a) /\ (~ full w a -> waits (w' a) = None).
Proof.
  intros w a w' R H. cbn in H. destruct (runs (w a)) eqn:Er; [|discriminate]. destruct (runs_inv _ Er) as [[_ Hd] Hw].
  pose proof (room_full w a (reached_bounds _ R)) as F.
  assert (H' : (if room (w a) then Some (enter None a w) else Some (await a (Some (ForRoom a)) (stand (Some a, false) a w))) = Some w')
    by (destruct (does (w a)); congruence).
  clear H. destruct (room (w a)); injection H' as <-.
  - split; [intros Hf; apply F in Hf; discriminate|]. intros _. rewrite en_waits. exact Hw.
  - split; [|intros N; exfalso; apply N; apply F; reflexivity]. intros _. exists a. split; [auto|]. apply waits_direct.
    unfold target. rewrite aw_waits, Nat.eqb_refl. reflexivity.
Qed.

Theorem tell_waits : forall w a b w', reached w -> step w (Tell a b) = Some w' ->
  (waits (w' a) <> None <-> full w b /\ does (w b) <> Gone).
Proof.
  intros w a b w' R H. cbn in H. destruct (runs (w a)) eqn:Er; [|discriminate]. destruct (runs_inv _ Er) as [_ Hw].
  pose proof (room_full w b (reached_bounds _ R)) as F.
  destruct (does (w b)) eqn:Ed.
  1-4: destruct (room (w b)); injection H as <-; rewrite ?aw_waits, ?en_waits, ?Nat.eqb_refl;
    (split; [intros HH|intros [HH _]]; [|]); try (exfalso; apply F in HH; discriminate); try congruence; (split; [apply F; reflexivity|congruence]).
  injection H as <-. split; [congruence|intros [_ N]; congruence].
Qed.

Theorem warned : forall w e w', reached w -> step w e = Some w' -> warns w e = true ->
  exists a, (e = Ask a a /\ deadlocked w' a) \/ (e = Tell a a /\ cap (w a) <> None /\ (deadlocked w' a <-> full w a)).
Proof.
  intros w e w' R S H. destruct e as [a b|a b|b p|b|a|a|a|a|a|a|a|a]; cbn in H; try discriminate.
  - unfold warn_ask, is_current in H. apply andb_true_iff in H. destruct H as [_ E]. apply Nat.eqb_eq in E. subst b. exists a. left.
    split; [reflexivity|]. eapply self_ask; eauto.
  - unfold warn_tell in H. destruct (cap (w b)) eqn:Ec; [|discriminate]. unfold is_current in H. apply andb_true_iff in H. destruct H as [_ E].
    apply Nat.eqb_eq in E. subst b. exists a. right. split; [reflexivity|]. split; [congruence|].
    destruct (self_tell _ _ _ R S) as [A B]. split; [|exact A]. intros D.
    pose proof (room_full w a (reached_bounds _ R)) as F. destruct (room (w a)) eqn:Er; [|apply F; reflexivity].
    exfalso. destruct (deadlocked_next _ _ D) as (z & Hz & _). unfold target in Hz. rewrite B in Hz; [discriminate|].
    intros Hf. apply F in Hf. discriminate.
Qed.

Theorem warns_iff : forall w e, warns w e = true <->
  exists a, scoped (w a) = true /\ (e = Ask a a \/ (e = Tell a a /\ cap (w a) <> None)).
Proof.
  intros w e. split.
  - destruct e as [a b|a b|b p|b|a|a|a|a|a|a|a|a]; cbn; try discriminate.
    + unfold warn_ask, is_current. rewrite andb_true_iff. intros [S E]. apply Nat.eqb_eq in E. subst. eauto.
    + unfold warn_tell. destruct (cap (w b)) eqn:Ec; [|discriminate]. unfold is_current. rewrite andb_true_iff. intros [S E]. apply Nat.eqb_eq in E. subst.
      exists b. split; [exact S|]. right. split; [reflexivity|congruence].
  - intros (a & S & [-> | [-> N]]); cbn; unfold warn_ask, warn_tell, is_current; rewrite S, Nat.eqb_refl; [reflexivity|].
    destruct (cap (w a)); [reflexivity|congruence].
Qed.

(** Two actors that ask each other: no call warns. *)
Theorem unwarned_deadlock : exists es w, exec (fresh (fun _ => None) (fun _ => true)) es = Some w /\
  unwarned (fresh (fun _ => None) (fun _ => true)) es = true /\ deadlocked w 0 /\ deadlocked w 1.
Proof.
  set (es := [Ask 0 1; Ask 1 0]).
  destruct (exec (fresh (fun _ => None) (fun _ => true)) es) as [w|] eqn:E; [|discriminate E].
  exists es, w. split; [exact E|]. split; [reflexivity|]. injection E as <-.
  split; [exists 0|exists 1]; (split; [left; reflexivity|]); (eapply waits_through; [reflexivity|apply waits_direct; reflexivity]).
Qed.
