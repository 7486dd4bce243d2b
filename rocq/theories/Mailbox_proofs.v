(** Proofs about mailboxes (C66). *)
From Coq Require Import List Bool PeanoNat Permutation Lia.
From Verif Require Import Mailbox Mailbox_spec.
Import ListNotations.

#[local] Arguments unread : simpl never.
#[local] Arguments senders : simpl never.

Definition entry (w : wait) : nat * signal := (w_id w, w_signal w).
Definition granted (ws : list wait) : list wait := filter w_granted ws.

(** The sends with a permit come before those without. *)
Definition in_line (ws : list wait) : Prop :=
  exists a b, ws = a ++ b /\ Forall (fun w => w_granted w = true) a
              /\ Forall (fun w => w_granted w = false) b.

Definition sem_ok (k : kind) (v : view) (x : semaphore) : Prop :=
  match k, x with
  | Bounded c, SBounded b f cl ws =>
      b = c /\ 1 <= c /\ cl = shut v /\ line v = map entry ws /\ NoDup (map w_id ws) /\
      f + length (granted ws) + length (unread v) = c /\
      (if shut v then owed v = map w_id (granted ws)
       else owed v = [] /\ in_line ws /\ (0 < f -> Forall (fun w => w_granted w = true) ws))
  | Unbounded, SUnbounded n cl =>
      n = length (unread v) /\ cl = shut v /\ line v = [] /\ owed v = []
  | _, _ => False
  end.

Record agrees (k : kind) (v : view) (m : mailbox) : Prop := {
  g_sem : sem_ok k v (sem m);
  g_queue : queue m = unread v;
  g_strong : strong m = senders v;
  g_loose : loose m = outside v;
  g_weak : weak m = weaks v;
  g_receiver : receiver m = negb (gone v);
  g_closed : rx_closed m = shut v;
  g_split : entered v = left_ v ++ unread v;
  g_borrow : line v <> [] -> 0 < outside v;
  g_gone : gone v = true -> shut v = true /\ unread v = [] }.

(** * Lists *)
Lemma held_app : forall a b, held (a ++ b) = held a + held b.
Proof. induction a as [|s a IH]; intros b; cbn; [reflexivity|rewrite IH; lia]. Qed.

Lemma skipn_exact : forall (a b : list signal), skipn (length a) (a ++ b) = b.
Proof. induction a; cbn; auto. Qed.

Lemma granted_app : forall a b, granted (a ++ b) = granted a ++ granted b.
Proof. intros. apply filter_app. Qed.

Lemma granted_all : forall a, Forall (fun w => w_granted w = true) a -> granted a = a.
Proof. induction 1 as [|w a H _ IH]; cbn; [reflexivity|]. rewrite H. f_equal. exact IH. Qed.

Lemma granted_none : forall a, Forall (fun w => w_granted w = false) a -> granted a = [].
Proof. induction 1 as [|w a H _ IH]; cbn; [reflexivity|]. now rewrite H. Qed.

Lemma granted_le : forall a, length (granted a) <= length a.
Proof.
  unfold granted. induction a as [|w a IH]; cbn; [lia|]. destruct (w_granted w); cbn; lia.
Qed.

Lemma drop_wait_app : forall i a b, drop_wait i (a ++ b) = drop_wait i a ++ drop_wait i b.
Proof. intros. apply filter_app. Qed.

Lemma drop_wait_none : forall i ws, ~ In i (map w_id ws) -> drop_wait i ws = ws.
Proof.
  induction ws as [|w ws IH]; intros N; [reflexivity|]. cbn in N |- *.
  destruct (Nat.eqb_spec (w_id w) i) as [E|E]; [exfalso; apply N; now left|].
  cbn. f_equal. apply IH. intros I. apply N. now right.
Qed.

Lemma find_wait_split : forall i ws w,
  NoDup (map w_id ws) -> find_wait i ws = Some w ->
  exists a b, ws = a ++ w :: b /\ w_id w = i /\ drop_wait i ws = a ++ b
              /\ ~ In i (map w_id a) /\ ~ In i (map w_id b).
Proof.
  induction ws as [|x ws IH]; intros w N F; [discriminate|]. cbn in F, N.
  inversion N as [|? ? N1 N2]; subst.
  destruct (Nat.eqb_spec (w_id x) i) as [E|E].
  - injection F as <-. exists [], ws. cbn. rewrite E, Nat.eqb_refl. cbn. repeat split; auto.
    + apply drop_wait_none. now rewrite <- E.
    + now rewrite <- E.
  - destruct (IH w N2 F) as (a & b & -> & W & D & A & B).
    exists (x :: a), b. cbn. apply Nat.eqb_neq in E as E'. rewrite E'. cbn. unfold drop_wait in D |- *. rewrite D.
    repeat split; auto. intros [I|I]; auto.
Qed.

Lemma find_wait_none : forall i ws, find_wait i ws = None <-> ~ In i (map w_id ws).
Proof.
  induction ws as [|x ws IH]; cbn; [tauto|].
  destruct (Nat.eqb_spec (w_id x) i) as [E|E]; [split; [discriminate|tauto]|].
  rewrite IH. split; [intros A [B|B]; auto|tauto].
Qed.

Lemma map_entry_fst : forall ws, map fst (map entry ws) = map w_id ws.
Proof. intros. rewrite map_map. reflexivity. Qed.

Lemma map_entry_snd : forall ws, map snd (map entry ws) = map w_signal ws.
Proof. intros. rewrite map_map. reflexivity. Qed.

Lemma leave_line : forall i ws,
  filter (fun x => negb (Nat.eqb (fst x) i)) (map entry ws) = map entry (drop_wait i ws).
Proof.
  induction ws as [|w ws IH]; cbn; [reflexivity|].
  destruct (Nat.eqb (w_id w) i); cbn; [exact IH|now rewrite IH].
Qed.

Lemma leave_owed : forall i ws,
  filter (fun j => negb (Nat.eqb j i)) (map w_id (granted ws)) = map w_id (granted (drop_wait i ws)).
Proof.
  unfold granted, drop_wait. induction ws as [|w ws IH]; cbn; [reflexivity|].
  destruct (w_granted w) eqn:G; cbn; destruct (Nat.eqb (w_id w) i) eqn:E; cbn;
    rewrite ?G; cbn; rewrite ?IH; reflexivity.
Qed.

Lemma find_entry : forall i ws,
  find (fun x => Nat.eqb (fst x) i) (map entry ws) = option_map entry (find_wait i ws).
Proof.
  induction ws as [|w ws IH]; cbn; [reflexivity|].
  destruct (Nat.eqb (w_id w) i); [reflexivity|exact IH].
Qed.

Lemma NoDup_app_snoc : forall (a : list nat) x, NoDup a -> ~ In x a -> NoDup (a ++ [x]).
Proof.
  intros a x N I. apply NoDup_Add with (a := x) (l := a); [|auto].
  rewrite <- (app_nil_r a) at 1. apply Add_app.
Qed.

Lemma NoDup_middle : forall (a b : list nat) x, NoDup (a ++ x :: b) -> NoDup (a ++ b).
Proof. intros a b x. apply NoDup_remove_1. Qed.

(** * Handing out a permit *)
Lemma grant_all : forall ws, Forall (fun w => w_granted w = true) ws -> grant ws = None.
Proof. induction 1 as [|w ws H _ IH]; cbn; [reflexivity|]. now rewrite H, IH. Qed.

Lemma grant_none : forall ws, grant ws = None -> Forall (fun w => w_granted w = true) ws.
Proof.
  induction ws as [|w ws IH]; cbn; [constructor|]. destruct (w_granted w) eqn:G; [|discriminate].
  destruct (grant ws); [discriminate|]. constructor; auto.
Qed.

Lemma grant_some : forall ws ws', grant ws = Some ws' -> in_line ws ->
  map entry ws' = map entry ws /\ map w_id ws' = map w_id ws /\
  length (granted ws') = S (length (granted ws)) /\ in_line ws'.
Proof.
  intros ws ws' G (a & b & -> & A & B). revert ws' G. induction A as [|w a W A IH]; cbn; intros ws' G.
  - destruct b as [|w b]; [discriminate|]. cbn in G.
    inversion B as [|? ? B1 B2]; subst. rewrite B1 in G. injection G as <-. cbn.
    rewrite B1. repeat split. exists [mkWait (w_id w) (w_signal w) true], b. cbn. auto.
  - rewrite W in *. destruct (grant (a ++ b)) as [x|]; [|discriminate]. cbn in G. injection G as <-.
    destruct (IH x eq_refl) as (E1 & E2 & E3 & a' & b' & -> & A' & B'). cbn. rewrite W. cbn. unfold granted in E3 |- *.
    rewrite E1, E2, E3. repeat split. exists (w :: a'), b'. cbn. auto.
Qed.

Lemma in_line_split : forall a w b, in_line (a ++ w :: b) ->
  in_line (a ++ b) /\
  (w_granted w = true -> Forall (fun w => w_granted w = true) a) /\
  (w_granted w = false -> Forall (fun w => w_granted w = false) b).
Proof.
  intros a w b (x & y & E & X & Y). revert y E X Y. revert x.
  induction a as [|z a IH]; cbn; intros x y E X Y.
  - destruct x as [|x0 x]; cbn in E.
    + subst y. inversion Y; subst. repeat split; auto. now exists [], b.
    + injection E as -> ->. inversion X; subst. repeat split; auto.
      * now exists x, y.
      * intros; congruence.
  - destruct x as [|x0 x]; cbn in E.
    + subst y. inversion Y; subst.
      destruct (IH [] (a ++ w :: b) eq_refl (Forall_nil _)) as ((p & q & E & P & Q) & G & B); [assumption|].
      repeat split; auto.
      * exists [], (z :: a ++ b). repeat split; [constructor|]. constructor; [assumption|].
        match goal with H : Forall _ (a ++ w :: b) |- _ => apply Forall_app in H; destruct H as (HA & HB) end.
        inversion HB; subst. apply Forall_app. auto.
      * match goal with H : Forall _ (a ++ w :: b) |- _ => apply Forall_app in H; destruct H as (HA & HB) end.
        inversion HB; subst. congruence.
    + injection E as -> E. inversion X; subst.
      destruct (IH x y E) as ((p & q & E' & P & Q) & G & B); auto.
      repeat split; auto. exists (x0 :: p), q. cbn. rewrite E'. auto.
Qed.

(** A permit given back: by the receiver taking a signal, or by a send that was dropped. *)
Lemma permit_back : forall v v' c b f cl ws,
  b = c -> 1 <= c -> cl = shut v -> line v = map entry ws -> NoDup (map w_id ws) ->
  f + length (granted ws) + length (unread v') + 1 = c ->
  (if shut v then owed v = map w_id (granted ws)
   else owed v = [] /\ in_line ws /\ (0 < f -> Forall (fun w => w_granted w = true) ws)) ->
  line v' = line v -> shut v' = shut v -> owed v' = owed v ->
  sem_ok (Bounded c) v' (add_permit (SBounded b f cl ws)).
Proof.
  intros v v' c b f cl ws -> C -> L N S O L' S' O'. cbn [add_permit].
  destruct (shut v) eqn:Q.
  - cbn. rewrite S', L', O'. repeat split; auto; lia.
  - destruct O as (O1 & O2 & O3). destruct (grant ws) as [ws'|] eqn:G.
    + destruct (grant_some _ _ G O2) as (E1 & E2 & E3 & E4). cbn. rewrite S', L', O', E2, E1, E3.
      repeat split; auto; try lia.
      intros F. specialize (O3 F). rewrite (grant_all _ O3) in G. discriminate.
    + cbn. rewrite S', L', O'. repeat split; auto; try lia. intros _. now apply grant_none.
Qed.

(** * The view of the calls *)
Lemma unread_enter : forall s v, entered v = left_ v ++ unread v -> unread (enter s v) = unread v ++ [s].
Proof.
  intros s v E. unfold unread at 1. cbn. rewrite E, <- app_assoc. apply skipn_exact.
Qed.

Lemma unread_give : forall l q v, entered v = left_ v ++ unread v -> unread v = l ++ q ->
  unread (give l v) = q.
Proof.
  intros l q v E U. unfold unread at 1. cbn. rewrite E, U, app_assoc. apply skipn_exact.
Qed.

Lemma unread_goes : forall v, entered v = left_ v ++ unread v -> unread (goes (unread v) v) = [].
Proof.
  intros v E. unfold unread at 1. cbn. rewrite E.
  rewrite <- (app_nil_r (left_ v ++ unread v)) at 2. apply skipn_exact.
Qed.

Lemma room_free : forall c v b f cl ws, sem_ok (Bounded c) v (SBounded b f cl ws) ->
  shut v = false -> room (Bounded c) v = negb (Nat.eqb f 0).
Proof.
  intros c v b f cl ws (-> & C & -> & L & N & F & O) S. rewrite S in O.
  destruct O as (_ & (x & y & -> & X & Y) & A). cbn [room].
  rewrite granted_app, (granted_all _ X), (granted_none _ Y), app_nil_r in F.
  rewrite L, map_length, app_length. destruct f as [|f]; cbn.
  - apply Nat.ltb_ge. lia.
  - assert (y = []) as ->.
    { specialize (A ltac:(lia)). apply Forall_app in A. destruct A as (_ & A).
      destruct y as [|w y]; [reflexivity|]. inversion A; inversion Y; congruence. }
    apply Nat.ltb_lt. cbn. lia.
Qed.

Lemma place_granted : forall c v b f cl ws a w z, sem_ok (Bounded c) v (SBounded b f cl ws) ->
  shut v = false -> ws = a ++ w :: z -> w_granted w = (length (unread v) + length a <? c).
Proof.
  intros c v b f cl ws a w z (-> & C & -> & L & N & F & O) S E. rewrite S in O.
  destruct O as (_ & I & A). rewrite E in I. destruct (in_line_split _ _ _ I) as (_ & G1 & G2).
  rewrite E in F. rewrite granted_app, app_length in F.
  change (granted (w :: z)) with (if w_granted w then w :: granted z else granted z) in F.
  destruct (w_granted w) eqn:W; symmetry.
  - specialize (G1 eq_refl). rewrite (granted_all _ G1) in F. cbn in F. apply Nat.ltb_lt. lia.
  - specialize (G2 eq_refl). rewrite (granted_none _ G2) in F. cbn in F.
    assert (f = 0) as ->.
    { destruct f; [reflexivity|]. specialize (A ltac:(lia)). rewrite E in A. apply Forall_app in A.
      destruct A as (_ & A). inversion A; congruence. }
    pose proof (granted_le a).
    apply Nat.ltb_ge. lia.
Qed.

Lemma line_place : forall v i s p ws a w z, line v = map entry ws -> NoDup (map w_id ws) ->
  ws = a ++ w :: z -> w_id w = i -> nth_error (line v) p = Some (i, s) ->
  p = length a /\ s = w_signal w.
Proof.
  intros v i s p ws a w z L N E W P. rewrite L in P.
  assert (P2 : nth_error (map entry ws) (length a) = Some (i, w_signal w)).
  { rewrite E, map_app, nth_error_app2; rewrite map_length; [|lia]. rewrite Nat.sub_diag. cbn.
    unfold entry. now rewrite W. }
  assert (length a = p) as Q.
  { apply (proj1 (NoDup_nth_error (map w_id ws)) N).
    - rewrite map_length, E, app_length. cbn. lia.
    - rewrite <- map_entry_fst. rewrite (map_nth_error fst _ _ P), (map_nth_error fst _ _ P2). reflexivity. }
  subst p. rewrite P2 in P. injection P as <-. auto.
Qed.

(** * One call *)
Lemma create_agrees : forall k m, create k = Some m ->
  agrees k (mkView [] [] [] 1 0 false false []) m.
Proof.
  intros k m C. destruct k as [[|c]|]; cbn in C; [discriminate| |]; injection C as <-; split; cbn;
    auto; try congruence; repeat split; auto; try lia; try constructor.
  all: unfold unread; cbn; try lia. exists [], []. auto.
Qed.

Lemma senders_enter : forall s v, entered v = left_ v ++ unread v -> holds s <= outside v ->
  senders (enter s (hold (outside v - holds s) (weaks v) v)) = senders v.
Proof.
  intros s v E H. unfold senders. rewrite unread_enter by exact E. cbn [outside enter hold line].
  change (unread (hold (outside v - holds s) (weaks v) v)) with (unread v).
  rewrite held_app. cbn. lia.
Qed.

(** A signal enters at once. *)
Lemma enter_agrees : forall k v m s x,
  agrees k v m -> holds s < outside v -> gone v = false ->
  sem_ok k (enter s (hold (outside v - holds s) (weaks v) v)) x ->
  agrees k (enter s (hold (outside v - holds s) (weaks v) v)) (tuck s (push s (with_sem x m))).
Proof.
  intros k v m s x A H G X. destruct A. split; cbn [sem queue strong loose weak receiver rx_closed
    tuck push with_sem line outside weaks gone shut enter hold]; auto.
  - rewrite unread_enter by exact g_split0. cbn. now rewrite g_queue0.
  - rewrite senders_enter by (assumption || lia). exact g_strong0.
  - rewrite unread_enter by exact g_split0. cbn. rewrite app_assoc. f_equal. exact g_split0.
  - intros; lia.
  - intros; congruence.
Qed.

Lemma sent_agrees : forall k v m s b f cl ws,
  agrees k v m -> sem m = SBounded b (S f) cl ws -> shut v = false -> holds s < outside v ->
  agrees k (enter s (hold (outside v - holds s) (weaks v) v))
    (tuck s (push s (with_sem (SBounded b f cl ws) m))).
Proof.
  intros k v m s b f cl ws A E S H. pose proof (g_sem _ _ _ A) as X. rewrite E in X.
  assert (G : gone v = false).
  { destruct (gone v) eqn:Q; [|reflexivity]. destruct (g_gone _ _ _ A Q). congruence. }
  apply enter_agrees; auto. destruct k as [c|]; [|contradiction X]. cbn in X |- *.
  rewrite S in *. rewrite unread_enter by apply (g_split _ _ _ A).
  change (unread (hold (outside v - holds s) (weaks v) v)) with (unread v). rewrite app_length. cbn.
  destruct X as (-> & X1 & -> & X2 & X3 & X4 & X5 & X6 & X7). repeat split; auto; try lia.
Qed.

Lemma sent_unbounded_agrees : forall k v m s n cl,
  agrees k v m -> sem m = SUnbounded n cl -> shut v = false -> holds s < outside v ->
  agrees k (enter s (hold (outside v - holds s) (weaks v) v))
    (tuck s (push s (with_sem (SUnbounded (S n) cl) m))).
Proof.
  intros k v m s n cl A E S H. pose proof (g_sem _ _ _ A) as X. rewrite E in X.
  assert (G : gone v = false).
  { destruct (gone v) eqn:Q; [|reflexivity]. destruct (g_gone _ _ _ A Q). congruence. }
  apply enter_agrees; auto. destruct k as [c|]; [contradiction X|]. cbn in X |- *.
  rewrite unread_enter by apply (g_split _ _ _ A).
  change (unread (hold (outside v - holds s) (weaks v) v)) with (unread v). rewrite app_length. cbn.
  destruct X as (-> & -> & X1 & X2). repeat split; auto. lia.
Qed.

Lemma in_line_snoc : forall ws w, in_line ws -> w_granted w = false -> in_line (ws ++ [w]).
Proof.
  intros ws w (a & b & -> & A & B) W. exists a, (b ++ [w]). rewrite app_assoc. repeat split; auto.
  apply Forall_app. auto.
Qed.

Lemma send_step : forall k v m i s r m',
  agrees k v m -> step (OSend i s) m = Some (r, m') ->
  allowed k v (OSend i s) r /\ agrees k (see k v (OSend i s, r)) m'.
Proof.
  intros k v m i s r m' A T. cbn [step] in T.
  destruct (holds s <? loose m) eqn:H; [|discriminate]. apply Nat.ltb_lt in H.
  rewrite (g_loose _ _ _ A) in H. cbn [andb] in T.
  destruct (find_wait i (waits_of (sem m))) eqn:F; [discriminate|].
  apply find_wait_none in F. injection T as T. cbn [allowed].
  pose proof (g_sem _ _ _ A) as X. unfold send in T.
  destruct (sem m) as [b f cl ws|n cl] eqn:E; (destruct k as [c|]; [|try contradiction X]); try contradiction X.
  - assert (NI : ~ In i (map fst (line v))).
    { destruct X as (_ & _ & _ & -> & _). rewrite map_entry_fst. exact F. }
    assert (cl = shut v) as -> by apply X.
    destruct (shut v) eqn:S.
    + injection T as <- <-. split; [auto|exact A].
    + rewrite (room_free _ _ _ _ _ _ X S). destruct f as [|f]; cbn [Nat.eqb negb].
      * injection T as <- <-. split; [auto|]. cbn [see].
        assert (G : gone v = false).
        { destruct (gone v) eqn:Q; [|reflexivity]. destruct (g_gone _ _ _ A Q). congruence. }
        destruct A. split; cbn [sem queue strong loose weak receiver rx_closed tuck push with_sem
          line outside weaks gone shut]; auto.
        -- destruct X as (-> & X1 & X0 & X2 & X3 & X4 & X5). cbn. rewrite S in *.
           unfold unread in *. cbn in *. rewrite X2.
           destruct X5 as (X5 & X6 & X7).
           repeat split; auto.
           ++ now rewrite map_app.
           ++ rewrite map_app. cbn. apply NoDup_app_snoc; auto.
           ++ rewrite granted_app, app_length. cbn. lia.
           ++ now apply in_line_snoc.
           ++ intros Z; lia.
        -- rewrite g_strong0. unfold senders, unread. cbn. rewrite map_app, held_app. cbn. lia.
        -- intros _. lia.
      * injection T as <- <-. split; [auto|]. cbn [see]. now apply sent_agrees.
  - cbn in X. destruct X as (-> & -> & X1 & X2). destruct (shut v) eqn:S.
    + injection T as <- <-. rewrite X1. cbn. split; [auto|exact A].
    + injection T as <- <-. rewrite X1. cbn [room]. split; [auto|]. cbn [see].
      now apply sent_unbounded_agrees.
Qed.

Lemma try_send_step : forall k v m s r m',
  agrees k v m -> step (OTrySend s) m = Some (r, m') ->
  allowed k v (OTrySend s) r /\ agrees k (see k v (OTrySend s, r)) m'.
Proof.
  intros k v m s r m' A T. cbn [step] in T.
  destruct (holds s <? loose m) eqn:H; [|discriminate]. apply Nat.ltb_lt in H.
  rewrite (g_loose _ _ _ A) in H. injection T as T. cbn [allowed].
  pose proof (g_sem _ _ _ A) as X. unfold try_send in T.
  destruct (sem m) as [b f cl ws|n cl] eqn:E; (destruct k as [c|]; [|try contradiction X]); try contradiction X.
  - assert (cl = shut v) as -> by apply X.
    destruct (shut v) eqn:S.
    + injection T as <- <-. split; [auto|exact A].
    + rewrite (room_free _ _ _ _ _ _ X S). destruct f as [|f]; cbn [Nat.eqb negb].
      * injection T as <- <-. split; [auto|]. cbn [see]. exact A.
      * injection T as <- <-. split; [auto|]. cbn [see]. now apply sent_agrees.
  - cbn in X. destruct X as (-> & -> & X1 & X2). destruct (shut v) eqn:S.
    + injection T as <- <-. split; [auto|exact A].
    + injection T as <- <-. cbn [room]. split; [auto|]. cbn [see].
      now apply sent_unbounded_agrees.
Qed.

Lemma signal_of_wait : forall i v ws, line v = map entry ws ->
  signal_of i v = option_map w_signal (find_wait i ws).
Proof.
  intros i v ws L. unfold signal_of. rewrite L, find_entry. destruct (find_wait i ws); reflexivity.
Qed.

Lemma held_middle : forall a w b,
  held (map snd (map entry (a ++ w :: b))) = held (map snd (map entry (a ++ b))) + holds (w_signal w).
Proof. intros. rewrite !map_app, !held_app. cbn. lia. Qed.

Lemma granted_middle : forall a w b,
  length (granted (a ++ w :: b)) = length (granted (a ++ b)) + (if w_granted w then 1 else 0).
Proof.
  intros. rewrite !granted_app, !app_length.
  change (granted (w :: b)) with (if w_granted w then w :: granted b else granted b).
  destruct (w_granted w); cbn [length]; lia.
Qed.

Lemma Forall_middle : forall (P : wait -> Prop) a w b, Forall P (a ++ w :: b) -> Forall P (a ++ b).
Proof.
  intros P a w b H. apply Forall_app in H. destruct H as (A & B). inversion B; subst.
  apply Forall_app. auto.
Qed.

Lemma poll_step : forall k v m i r m',
  agrees k v m -> step (OPoll i) m = Some (r, m') ->
  allowed k v (OPoll i) r /\ agrees k (see k v (OPoll i, r)) m'.
Proof.
  intros k v m i r m' A T. cbn [step] in T. unfold poll_send in T.
  destruct (sem m) as [b f cl ws|n cl] eqn:E; [|discriminate].
  pose proof (g_sem _ _ _ A) as X. rewrite E in X. destruct k as [c|]; [|contradiction X].
  pose proof X as (-> & X1 & -> & X2 & X3 & X4 & X5).
  destruct (find_wait i ws) as [w|] eqn:F; [|discriminate].
  destruct (find_wait_split _ _ _ X3 F) as (a & z & -> & W & D & NA & NZ).
  assert (P : nth_error (line v) (length a) = Some (i, w_signal w)).
  { rewrite X2, map_app, nth_error_app2; rewrite map_length; [|lia]. rewrite Nat.sub_diag. cbn.
    unfold entry. now rewrite W. }
  assert (B : 0 < outside v).
  { apply (g_borrow _ _ _ A). rewrite X2. destruct a; discriminate. }
  assert (ND : NoDup (map w_id (a ++ z))).
  { rewrite map_app in *. eapply NoDup_middle. exact X3. }
  rewrite granted_middle in X4.
  pose proof (g_strong _ _ _ A) as GS. unfold senders in GS. rewrite X2, held_middle in GS.
  destruct (shut v) eqn:S.
  - injection T as <- <-. split; [exists (length a), (w_signal w); rewrite S; auto|].
    cbn [see]. destruct A. split; cbn [sem queue strong loose weak receiver rx_closed untuck with_sem
      line outside weaks gone shut entered left_ hold leave owed]; auto.
    + cbn. rewrite S, D, X2, leave_line, D. repeat split; auto.
      * change (unread (hold (holds (w_signal w) + outside v) (weaks v) (leave i v))) with (unread v).
        destruct (w_granted w); lia.
      * rewrite X5, leave_owed, D. reflexivity.
    + unfold senders. cbn [outside hold leave line].
      change (unread (hold (holds (w_signal w) + outside v) (weaks v) (leave i v))) with (unread v).
      rewrite X2, leave_line, D. lia.
    + intros _. lia.
  - assert (G : gone v = false).
    { destruct (gone v) eqn:Q; [|reflexivity]. destruct (g_gone _ _ _ A Q). congruence. }
    pose proof (place_granted _ _ _ _ _ _ a w z X S eq_refl) as PG.
    destruct X5 as (X5 & X6 & X7).
    destruct (w_granted w) eqn:GW.
    + injection T as <- <-.
      split; [exists (length a), (w_signal w); rewrite S, <- PG; auto|].
      cbn [see]. rewrite (signal_of_wait _ _ _ X2), F. cbn [option_map].
      assert (U : unread (enter (w_signal w) (leave i v)) = unread v ++ [w_signal w]).
      { apply (unread_enter (w_signal w) (leave i v)). exact (g_split _ _ _ A). }
      destruct A. split; cbn [sem queue strong loose weak receiver rx_closed push with_sem
        line outside weaks gone shut entered left_ enter leave owed]; rewrite ?U; auto.
      * cbn. rewrite S, U, D, X2, leave_line, D, app_length. cbn. repeat split; auto; try lia.
        -- now rewrite X5.
        -- now destruct (in_line_split _ _ _ X6).
        -- intros Z. specialize (X7 Z). now apply Forall_middle in X7.
      * now rewrite g_queue0.
      * unfold senders. rewrite U. cbn [outside enter leave line]. rewrite X2, leave_line, D, held_app.
        cbn. lia.
      * rewrite app_assoc. f_equal. exact g_split0.
      * intros; congruence.
    + injection T as <- <-.
      split; [exists (length a), (w_signal w); rewrite S, <- PG; auto|]. exact A.
Qed.

Lemma cancel_step : forall k v m i r m',
  agrees k v m -> step (OCancel i) m = Some (r, m') ->
  allowed k v (OCancel i) r /\ agrees k (see k v (OCancel i, r)) m'.
Proof.
  intros k v m i r m' A T. cbn [step] in T. unfold cancel in T.
  destruct (sem m) as [b f cl ws|n cl] eqn:E; [|discriminate].
  pose proof (g_sem _ _ _ A) as X. rewrite E in X. destruct k as [c|]; [|contradiction X].
  pose proof X as (-> & X1 & -> & X2 & X3 & X4 & X5).
  destruct (find_wait i ws) as [w|] eqn:F; [|discriminate].
  destruct (find_wait_split _ _ _ X3 F) as (a & z & -> & W & D & NA & NZ).
  assert (ND : NoDup (map w_id (a ++ z))).
  { rewrite map_app in *. eapply NoDup_middle. exact X3. }
  assert (B : 0 < outside v).
  { apply (g_borrow _ _ _ A). rewrite X2. destruct a; discriminate. }
  rewrite granted_middle in X4.
  pose proof (g_strong _ _ _ A) as GS. unfold senders in GS. rewrite X2, held_middle in GS.
  injection T as <- <-. split.
  { split; [|reflexivity]. rewrite X2, map_entry_fst, map_app. apply in_or_app. right. now left. }
  cbn [see].
  assert (O : if shut v then owed (leave i v) = map w_id (granted (a ++ z))
              else owed (leave i v) = [] /\ in_line (a ++ z) /\
                   (0 < f -> Forall (fun w => w_granted w = true) (a ++ z))).
  { cbn. destruct (shut v).
    - rewrite X5, leave_owed, D. reflexivity.
    - destruct X5 as (X5 & X6 & X7). rewrite X5. repeat split.
      + now destruct (in_line_split _ _ _ X6).
      + intros Z. specialize (X7 Z). now apply Forall_middle in X7. }
  destruct A. split; cbn [sem queue strong loose weak receiver rx_closed with_counts with_sem
    line outside weaks gone shut entered left_ leave owed]; auto.
  - rewrite D. destruct (w_granted w).
    + apply (permit_back (leave i v)); cbn [shut leave line]; auto.
      * now rewrite X2, leave_line, D.
      * change (unread (leave i v)) with (unread v). lia.
    + cbn [sem_ok]. cbn [shut leave line]. repeat split; auto.
      * now rewrite X2, leave_line, D.
      * change (unread (leave i v)) with (unread v). lia.
  - unfold senders. cbn [outside leave line].
    change (unread (leave i v)) with (unread v). rewrite X2, leave_line, D. lia.
Qed.

(** * Receiving *)
Lemma shift_sem : forall k v x s q, sem_ok k v x -> entered v = left_ v ++ unread v ->
  unread v = s :: q -> sem_ok k (give [s] v) (add_permit x).
Proof.
  intros k v x s q X E U.
  assert (U' : unread (give [s] v) = q) by (apply unread_give; auto).
  destruct k as [c|], x as [b f cl ws|n cl]; cbn [sem_ok] in X; try contradiction X.
  - destruct X as (-> & X1 & -> & X2 & X3 & X4 & X5). rewrite U in X4. cbn in X4.
    apply (permit_back v); auto. rewrite U'. lia.
  - destruct X as (-> & -> & X2 & X3). cbn [add_permit sem_ok]. rewrite U', U. cbn. auto.
Qed.

Lemma give_nil : forall v, give [] v = v.
Proof. intros []. unfold give. cbn. now rewrite app_nil_r. Qed.

Lemma give_app : forall a b v, give (a ++ b) v = give b (give a v).
Proof.
  intros a b []. unfold give. cbn. rewrite app_assoc, held_app. f_equal. lia.
Qed.

Lemma give_agrees : forall k v m l q x, agrees k v m -> unread v = l ++ q ->
  gone v = false -> sem_ok k (give l v) x ->
  agrees k (give l v) (mkMailbox x q (strong m) (held l + loose m) (weak m) (receiver m) (rx_closed m)).
Proof.
  intros k v m l q x A U G X. assert (U' : unread (give l v) = q).
  { apply unread_give; [apply (g_split _ _ _ A)|assumption]. }
  destruct A. split; cbn [sem queue strong loose weak receiver rx_closed]; rewrite ?U'; auto.
  - rewrite g_strong0. unfold senders. rewrite U', U, held_app. cbn. lia.
  - cbn. now rewrite g_loose0.
  - cbn. now rewrite <- app_assoc, <- U.
  - cbn. intros L. specialize (g_borrow0 L). lia.
  - cbn. intros; congruence.
Qed.

Lemma shift_agrees : forall k v m s q, agrees k v m -> unread v = s :: q -> gone v = false ->
  agrees k (give [s] v) (shift s q m).
Proof.
  intros k v m s q A U G.
  replace (shift s q m) with (mkMailbox (add_permit (sem m)) q (strong m) (held [s] + loose m) (weak m)
    (receiver m) (rx_closed m)).
  - apply give_agrees; auto. eapply shift_sem; eauto; [apply (g_sem _ _ _ A)|apply (g_split _ _ _ A)].
  - unfold shift. cbn. f_equal. lia.
Qed.

(** The channel has all its permits. *)
Lemma idle : forall k v m, agrees k v m -> unread v = [] ->
  sem_idle (sem m) = match k with
                     | Bounded _ => if shut v then match owed v with [] => true | _ => false end
                                    else match line v with [] => true | _ => false end
                     | Unbounded => true
                     end.
Proof.
  intros k v m A U. pose proof (g_sem _ _ _ A) as X.
  destruct k as [c|], (sem m) as [b f cl ws|n cl]; cbn [sem_ok] in X; try contradiction X.
  - destruct X as (-> & X1 & -> & X2 & X3 & X4 & X5). rewrite U in X4. cbn in X4 |- *.
    destruct (shut v).
    + rewrite X5. destruct (granted ws) as [|w g]; cbn in X4 |- *.
      * apply Nat.eqb_eq. lia.
      * apply Nat.eqb_neq. lia.
    + destruct X5 as (_ & (a & z & -> & XA & XZ) & X7).
      rewrite granted_app, (granted_all _ XA), (granted_none _ XZ), app_nil_r in X4. rewrite X2.
      destruct a as [|w a]; cbn in X4 |- *.
      * destruct z as [|w z]; cbn; [apply Nat.eqb_eq; lia|].
        assert (f = 0) as ->; [|apply Nat.eqb_neq; lia].
        destruct f; [reflexivity|]. specialize (X7 ltac:(lia)). inversion X7; inversion XZ; congruence.
      * apply Nat.eqb_neq. lia.
  - destruct X as (-> & -> & X2 & X3). rewrite U. reflexivity.
Qed.

Lemma no_sender : forall k v m, agrees k v m -> senders v = 0 ->
  unread v = [] -> sem_idle (sem m) = true.
Proof.
  intros k v m A Z U. rewrite (idle _ _ _ A U).
  assert (L : line v = []).
  { destruct (line v) eqn:L; [reflexivity|]. pose proof (g_borrow _ _ _ A) as B. rewrite L in B.
    specialize (B ltac:(discriminate)). unfold senders in Z. lia. }
  destruct k as [c|]; [|reflexivity]. rewrite L.
  pose proof (g_sem _ _ _ A) as X.
  destruct (sem m) as [b f cl ws|n cl]; cbn [sem_ok] in X; try contradiction X.
  destruct X as (-> & X1 & -> & X2 & X3 & X4 & X5). rewrite L in X2. destruct ws; [|discriminate].
  destruct (shut v); [|reflexivity]. now rewrite X5.
Qed.

Lemma over_idle : forall k v m, agrees k v m -> unread v = [] -> shut v = true ->
  sem_idle (sem m) = match owed v with [] => true | _ => false end.
Proof.
  intros k v m A U S. rewrite (idle _ _ _ A U), S. destruct k as [c|]; [reflexivity|].
  pose proof (g_sem _ _ _ A) as X.
  destruct (sem m) as [b f cl ws|n cl]; cbn [sem_ok] in X; try contradiction X.
  destruct X as (_ & _ & _ & ->). reflexivity.
Qed.

Lemma recv_step : forall k v m r m',
  agrees k v m -> step ORecv m = Some (r, m') ->
  allowed k v ORecv r /\ agrees k (see k v (ORecv, r)) m'.
Proof.
  intros k v m r m' A T. cbn [step] in T. rewrite (g_receiver _ _ _ A) in T.
  destruct (gone v) eqn:G; [discriminate|]. cbn in T. injection T as T. unfold recv in T.
  cbn [allowed holding]. rewrite (g_queue _ _ _ A) in T. destruct (unread v) as [|s q] eqn:U.
  - unfold over. rewrite (g_strong _ _ _ A) in T. destruct (Nat.eqb (senders v) 0) eqn:Z.
    + apply Nat.eqb_eq in Z. rewrite (no_sender _ _ _ A Z U) in T. injection T as <- <-.
      split; auto.
    + cbn [orb]. rewrite (g_closed _ _ _ A) in T. destruct (shut v) eqn:S; cbn [andb] in *.
      * rewrite (over_idle _ _ _ A U S) in T. destruct (owed v); injection T as <- <-; split; auto.
      * injection T as <- <-. split; auto.
  - injection T as <- <-. split; [auto|]. cbn [see]. now apply shift_agrees.
Qed.

Lemma try_recv_step : forall k v m d r m',
  agrees k v m -> step (OTryRecv d) m = Some (r, m') ->
  allowed k v (OTryRecv d) r /\ agrees k (see k v (OTryRecv d, r)) m'.
Proof.
  intros k v m d r m' A T. cbn [step] in T. rewrite (g_receiver _ _ _ A) in T.
  destruct (gone v) eqn:G; [discriminate|]. cbn in T. injection T as T. unfold try_recv in T.
  cbn [allowed holding]. rewrite (g_queue _ _ _ A) in T. destruct (unread v) as [|s q] eqn:U.
  - rewrite (g_strong _ _ _ A), (g_closed _ _ _ A) in T. injection T as <- <-. split; [auto|].
    destruct (Nat.eqb (senders v) 0 || shut v && d); exact A.
  - injection T as <- <-. split; [auto|]. cbn [see]. now apply shift_agrees.
Qed.

Lemma permits_sem : forall k l q v x, sem_ok k v x -> entered v = left_ v ++ unread v ->
  unread v = l ++ q -> sem_ok k (give l v) (add_permits (length l) x).
Proof.
  induction l as [|s l IH]; intros q v x X E U.
  - now rewrite give_nil.
  - cbn [length add_permits]. change (s :: l) with ([s] ++ l). rewrite give_app.
    assert (U' : unread (give [s] v) = l ++ q) by (apply unread_give; auto).
    apply (IH q).
    + eapply shift_sem; eauto.
    + cbn. rewrite U', E, U, <- app_assoc. reflexivity.
    + exact U'.
Qed.

Lemma recv_many_step : forall k v m n r m',
  agrees k v m -> step (ORecvMany n) m = Some (r, m') ->
  allowed k v (ORecvMany n) r /\ agrees k (see k v (ORecvMany n, r)) m'.
Proof.
  intros k v m n r m' A T. cbn [step] in T. rewrite (g_receiver _ _ _ A) in T.
  destruct (gone v) eqn:G; [discriminate|]. cbn in T. injection T as T. unfold recv_many in T.
  cbn [allowed holding]. destruct n as [|n].
  { injection T as <- <-. split; [auto|]. cbn [see]. now rewrite give_nil. }
  rewrite (g_queue _ _ _ A), (g_strong _ _ _ A) in T.
  set (l := firstn (S n) (unread v)) in *. set (q := skipn (S n) (unread v)) in *.
  assert (U : unread v = l ++ q) by (symmetry; apply firstn_skipn).
  assert (X : sem_ok k (give l v) (add_permits (length l) (sem m))).
  { eapply permits_sem; eauto; [apply (g_sem _ _ _ A)|apply (g_split _ _ _ A)]. }
  pose proof (give_agrees _ _ _ _ _ _ A U G X) as AG. rewrite (g_strong _ _ _ A) in AG.
  destruct ((length l <? S n) && Nat.eqb (senders v) 0) eqn:Z.
  - apply andb_true_iff in Z. destruct Z as (Z1 & Z). apply Nat.eqb_eq in Z.
    assert (ZH : held (unread v) = 0) by (unfold senders in Z; lia).
    assert (Q : q = []).
    { apply Nat.ltb_lt in Z1. unfold l in Z1. rewrite firstn_length in Z1. unfold q.
      apply skipn_all2. lia. }
    assert (I : sem_idle (add_permits (length l) (sem m)) = true).
    { change (add_permits (length l) (sem m)) with
        (sem (mkMailbox (add_permits (length l) (sem m)) q (senders v) (held l + loose m) (weak m)
               (receiver m) (rx_closed m))).
      apply (no_sender _ _ _ AG).
      - rewrite <- (g_strong _ _ _ AG). cbn. exact Z.
      - rewrite <- (g_queue _ _ _ AG). cbn. exact Q. }
    cbn [sem] in T. rewrite I in T. injection T as <- <-. split; [|exact AG].
    split; [exact G|]. destruct (unread v) as [|s u] eqn:UV; [|reflexivity].
    unfold over. rewrite Z. reflexivity.
  - destruct l as [|s l'] eqn:L.
    + assert (UN : unread v = []) by (destruct (unread v); [reflexivity|discriminate L]).
      cbn [length] in Z. replace (0 <? S n) with true in Z by reflexivity. cbn [andb] in Z.
      rewrite UN. unfold over. rewrite Z. cbn [orb]. rewrite (g_closed _ _ _ A) in T.
      destruct (shut v) eqn:S; cbn [andb] in *.
      * rewrite (over_idle _ _ _ A UN S) in T. destruct (owed v); injection T as <- <-;
          (split; [auto|]); cbn [see]; rewrite ?give_nil; exact A.
      * injection T as <- <-. split; auto.
    + injection T as <- <-. split; [|exact AG]. split; [exact G|].
      destruct (unread v) as [|s0 u]; [discriminate L|]. cbn in L. now rewrite <- L.
Qed.

(** * The other calls *)
Lemma hold_agrees : forall k v m a b, agrees k v m ->
  (line v <> [] -> 0 < a) ->
  agrees k (hold a b v) (with_counts (strong m + a - outside v) a b m).
Proof.
  intros k v m a b A L. destruct A.
  split; cbn [sem queue strong loose weak receiver rx_closed with_counts]; auto.
  rewrite g_strong0. unfold senders. cbn [outside hold line].
  change (unread (hold a b v)) with (unread v). lia.
Qed.

Lemma close_agrees : forall k v m, agrees k v m -> agrees k (shuts k v) (close m).
Proof.
  intros k v m A. pose proof (g_sem _ _ _ A) as X.
  assert (Y : sem_ok k (shuts k v) (sem_close (sem m))).
  { destruct k as [c|], (sem m) as [b f cl ws|n cl]; cbn [sem_ok] in X; try contradiction X.
    - destruct X as (-> & X1 & -> & X2 & X3 & X4 & X5). cbn.
      change (unread (shuts (Bounded c) v)) with (unread v). repeat split; auto.
      destruct (shut v); [exact X5|]. destruct X5 as (_ & (a & z & -> & XA & XZ) & X7).
      rewrite granted_app, (granted_all _ XA), (granted_none _ XZ), app_nil_r in *.
      rewrite X2, firstn_map, map_entry_fst. f_equal.
      rewrite firstn_app. destruct z as [|w z].
      + rewrite firstn_nil, app_nil_r. apply firstn_all2. lia.
      + assert (f = 0) as ->.
        { destruct f; [reflexivity|]. specialize (X7 ltac:(lia)). apply Forall_app in X7.
          destruct X7 as (_ & X7). inversion X7; inversion XZ; congruence. }
        replace (c - length (unread v)) with (length a) by lia.
        rewrite firstn_all, Nat.sub_diag. apply app_nil_r.
    - destruct X as (-> & -> & X2 & X3). cbn. rewrite X3. destruct (shut v); auto. }
  destruct A. split; cbn [sem queue strong loose weak receiver rx_closed close]; auto.
  cbn. intros G. destruct (g_gone0 G). auto.
Qed.

Lemma add_permits_closed : forall n b f ws,
  add_permits n (SBounded b f true ws) = SBounded b (n + f) true ws.
Proof. induction n; intros; cbn; [reflexivity|]. rewrite IHn. f_equal. lia. Qed.

Lemma add_permits_unbounded : forall n x c, add_permits n (SUnbounded x c) = SUnbounded (x - n) c.
Proof. induction n; intros; cbn; [f_equal; lia|]. rewrite IHn. f_equal. lia. Qed.

Lemma drop_receiver_agrees : forall k v m, agrees k v m ->
  agrees k (goes (unread v) (shuts k v)) (drop_receiver m).
Proof.
  intros k v m A. apply close_agrees in A. set (w := shuts k v) in *.
  assert (S : shut w = true) by reflexivity.
  change (unread v) with (unread w). pose proof (g_split _ _ _ A) as E.
  pose proof (unread_goes _ E) as U. pose proof (g_sem _ _ _ A) as X. destruct A.
  unfold drop_receiver. split; cbn [sem queue strong loose weak receiver rx_closed]; rewrite ?U; auto.
  - rewrite g_queue0. clearbody w.
    destruct k as [c|], (sem (close m)) as [b f cl ws|n cl]; cbn [sem_ok] in X; try contradiction X.
    + destruct X as (-> & X1 & -> & X2 & X3 & X4 & X5). rewrite S in *. rewrite add_permits_closed.
      cbn. rewrite U, S. cbn. repeat split; auto; lia.
    + destruct X as (-> & -> & X2 & X3). rewrite add_permits_unbounded. cbn. rewrite U. cbn.
      repeat split; auto; lia.
  - rewrite g_strong0, g_queue0. unfold senders. rewrite U. cbn. lia.
  - cbn. rewrite app_nil_r. exact E.
Qed.

Lemma has_holding : forall k v m x, agrees k v m -> has x m = true <-> holding v x.
Proof.
  intros k v m x A. destruct x; cbn [has holding].
  - rewrite (g_loose _ _ _ A). apply Nat.ltb_lt.
  - rewrite (g_weak _ _ _ A). apply Nat.ltb_lt.
  - rewrite (g_receiver _ _ _ A). destruct (gone v); split; auto; discriminate.
Qed.

Lemma waits_line : forall k v m, agrees k v m -> line v = map entry (waits_of (sem m)).
Proof.
  intros k v m A. pose proof (g_sem _ _ _ A) as X.
  destruct k as [c|], (sem m) as [b f cl ws|n cl]; cbn [sem_ok] in X; try contradiction X.
  - cbn. apply X.
  - cbn. apply X.
Qed.

Lemma closed_shut : forall k v m, agrees k v m -> sem_closed (sem m) = shut v.
Proof.
  intros k v m A. pose proof (g_sem _ _ _ A) as X.
  destruct k as [c|], (sem m) as [b f cl ws|n cl]; cbn [sem_ok] in X; try contradiction X;
    cbn; apply X.
Qed.

Lemma step_agrees : forall k v m o r m', agrees k v m -> step o m = Some (r, m') ->
  allowed k v o r /\ agrees k (see k v (o, r)) m'.
Proof.
  intros k v m o r m' A T.
  assert (HH : forall x, has x m = true -> holding v x) by (intros; now apply (has_holding k v m)).
  destruct o.
  - now apply (send_step _ _ m).
  - now apply (poll_step _ _ m).
  - now apply (cancel_step _ _ m).
  - now apply (try_send_step _ _ m).
  - cbn [step] in T. destruct (has HSender m) eqn:H; [|discriminate]. injection T as <- <-.
    rewrite (closed_shut _ _ _ A). split; [split; auto|]. destruct (shut v); exact A.
  - cbn [step] in T. destruct (has HSender m) eqn:H; [|discriminate]. injection T as <- <-.
    rewrite (closed_shut _ _ _ A). split; [split; auto|exact A].
  - cbn [step] in T. destruct (has HSender m) eqn:H; [|discriminate]. injection T as <- <-.
    split; [split; auto|]. cbn [see]. rewrite (g_loose _ _ _ A), (g_weak _ _ _ A).
    replace (S (strong m)) with (strong m + S (outside v) - outside v) by lia.
    apply hold_agrees; [exact A|lia].
  - cbn [step] in T. destruct (loose m) as [|n] eqn:LM; [discriminate|].
    pose proof (g_loose _ _ _ A) as GL. rewrite LM in GL. pose proof (waits_line _ _ _ A) as W.
    pose proof (g_strong _ _ _ A) as GS.
    assert (T' : Some (RDone, with_counts (strong m - 1) n (weak m) m) = Some (r, m') /\
                 (line v = [] \/ 1 < outside v)).
    { destruct n; destruct (waits_of (sem m)); try discriminate T; split; auto; right; lia. }
    destruct T' as (T' & L). injection T' as <- <-.
    split; [cbn; split; [lia|split; auto]|]. cbn [see].
    replace n with (outside v - 1) by lia. rewrite (g_weak _ _ _ A).
    replace (strong m - 1) with (strong m + (outside v - 1) - outside v).
    + apply hold_agrees; [exact A|]. intros NL. destruct L; [contradiction|lia].
    + unfold senders in GS. lia.
  - cbn [step] in T. destruct (has HSender m) eqn:H; [|discriminate]. injection T as <- <-.
    split; [split; auto|]. cbn [see]. rewrite (g_loose _ _ _ A), (g_weak _ _ _ A).
    replace (strong m) with (strong m + outside v - outside v) by lia.
    apply hold_agrees; [exact A|apply (g_borrow _ _ _ A)].
  - cbn [step] in T. destruct (has HWeak m) eqn:H; [|discriminate]. injection T as <- <-.
    split; [split; auto|]. cbn [see]. rewrite (g_loose _ _ _ A), (g_weak _ _ _ A).
    replace (strong m) with (strong m + outside v - outside v) by lia.
    apply hold_agrees; [exact A|apply (g_borrow _ _ _ A)].
  - cbn [step] in T. destruct (has HWeak m) eqn:H; [|discriminate]. injection T as <- <-.
    split; [split; auto|]. cbn [see]. rewrite (g_loose _ _ _ A), (g_weak _ _ _ A).
    replace (strong m) with (strong m + outside v - outside v) by lia.
    apply hold_agrees; [exact A|apply (g_borrow _ _ _ A)].
  - cbn [step] in T. destruct (has HWeak m) eqn:H; [|discriminate].
    pose proof (g_strong _ _ _ A) as GS.
    destruct (Nat.eqb (strong m) 0) eqn:Z; injection T as <- <-; rewrite GS in Z;
      (split; [cbn [allowed]; rewrite Z; split; auto|]).
    + exact A.
    + cbn [see]. rewrite (g_loose _ _ _ A), (g_weak _ _ _ A).
      replace (S (strong m)) with (strong m + S (outside v) - outside v) by lia.
      apply hold_agrees; [exact A|lia].
  - cbn [step] in T. destruct (has h m) eqn:H; [|discriminate]. injection T as <- <-.
    rewrite (g_strong _ _ _ A). split; [split; auto|exact A].
  - cbn [step] in T. destruct (has h m) eqn:H; [|discriminate]. injection T as <- <-.
    rewrite (g_weak _ _ _ A). split; [split; auto|exact A].
  - now apply (recv_step _ _ m).
  - now apply (recv_many_step _ _ m).
  - now apply (try_recv_step _ _ m).
  - cbn [step] in T. destruct (receiver m) eqn:H; [|discriminate]. injection T as <- <-.
    split; [split; [apply HH; exact H|reflexivity]|]. cbn [see]. now apply close_agrees.
  - cbn [step] in T. destruct (receiver m) eqn:H; [|discriminate]. injection T as <- <-.
    rewrite (closed_shut _ _ _ A), (g_strong _ _ _ A).
    split; [split; [apply HH; exact H|reflexivity]|exact A].
  - cbn [step] in T. destruct (receiver m) eqn:H; [|discriminate]. injection T as <- <-.
    rewrite (g_queue _ _ _ A). split; [split; [apply HH; exact H|reflexivity]|exact A].
  - cbn [step] in T. destruct (receiver m) eqn:H; [|discriminate]. injection T as <- <-.
    rewrite (g_queue _ _ _ A). split; [split; [apply HH; exact H|reflexivity]|exact A].
  - cbn [step] in T. destruct (receiver m) eqn:H; [|discriminate]. injection T as <- <-.
    rewrite (g_queue _ _ _ A). split; [split; [apply HH; exact H|reflexivity]|].
    cbn [see]. now apply drop_receiver_agrees.
Qed.

(** A call that is allowed can be made. *)
Lemma step_some : forall k v m o r, agrees k v m -> allowed k v o r -> step o m <> None.
Proof.
  intros k v m o r A L.
  assert (HH : forall x, holding v x -> has x m = true) by (intros; now apply (has_holding k v m)).
  pose proof (waits_line _ _ _ A) as W.
  assert (FW : forall i, In i (map fst (line v)) -> exists w, find_wait i (waits_of (sem m)) = Some w).
  { intros i I. destruct (find_wait i (waits_of (sem m))) as [w|] eqn:F; [now exists w|].
    apply find_wait_none in F. rewrite W, map_entry_fst in I. contradiction. }
  destruct o; cbn [allowed] in L; cbn [step];
    try (destruct L as (L & _); apply HH in L; try rewrite L; try (cbn in L; rewrite L); discriminate).
  - destruct L as (L1 & L2 & _). rewrite (g_loose _ _ _ A).
    apply Nat.ltb_lt in L1. rewrite L1. rewrite W, map_entry_fst in L2. apply find_wait_none in L2.
    rewrite L2. discriminate.
  - destruct L as (p & s & L & _). destruct (FW i) as (w & F).
    { apply nth_error_In in L. apply (in_map fst) in L. exact L. }
    unfold poll_send. destruct (sem m) as [b f cl ws|n cl]; [|discriminate F]. cbn [waits_of] in F. rewrite F.
    destruct cl; [discriminate|]. destruct (w_granted w); discriminate.
  - destruct L as (L & _). destruct (FW i L) as (w & F).
    unfold cancel. destruct (sem m) as [b f cl ws|n cl]; [|discriminate F]. cbn [waits_of] in F. rewrite F.
    discriminate.
  - destruct L as (L & _). rewrite (g_loose _ _ _ A). apply Nat.ltb_lt in L. rewrite L. discriminate.
  - destruct L as (L1 & L2 & _). rewrite (g_loose _ _ _ A). cbn in L1.
    destruct (outside v) as [|n]; [lia|]. rewrite W in L2.
    destruct n as [|n]; [|discriminate]. destruct (waits_of (sem m)); [discriminate|].
    destruct L2; [discriminate|lia].
  - destruct L as (L & _). apply HH in L. rewrite L. destruct (Nat.eqb (strong m) 0); discriminate.
Qed.

Lemma line_nodup : forall k v m, agrees k v m -> NoDup (map fst (line v)).
Proof.
  intros k v m A. rewrite (waits_line _ _ _ A), map_entry_fst. pose proof (g_sem _ _ _ A) as X.
  destruct k as [c|], (sem m) as [b f cl ws|n cl]; cbn [sem_ok] in X; try contradiction X.
  - apply X.
  - constructor.
Qed.

Lemma allowed_det : forall k v m o r r', agrees k v m ->
  allowed k v o r -> allowed k v o r' -> r = r'.
Proof.
  intros k v m o r r' A L L'. destruct o; cbn [allowed] in L, L';
    try (decompose [and] L; decompose [and] L'; congruence).
  destruct L as (p & s & P & ->), L' as (p' & s' & P' & ->).
  assert (p = p') as <-.
  { apply (proj1 (NoDup_nth_error (map fst (line v))) (line_nodup _ _ _ A)).
    - rewrite map_length. apply nth_error_Some. congruence.
    - rewrite (map_nth_error fst _ _ P), (map_nth_error fst _ _ P'). reflexivity. }
  rewrite P in P'. injection P' as <-. reflexivity.
Qed.

Lemma seen_snoc : forall k h e, seen k (h ++ [e]) = see k (seen k h) e.
Proof. intros. unfold seen. now rewrite fold_left_app. Qed.

Lemma used_agrees : forall k h m, used k h m -> agrees k (seen k h) m.
Proof.
  intros k h m U. induction U as [m C|h m o r m' U IH T].
  - now apply create_agrees.
  - rewrite seen_snoc. now destruct (step_agrees _ _ _ _ _ _ IH T).
Qed.

(** * The statements *)
Lemma mailbox_exists : forall k, possible k [] <-> k <> Bounded 0.
Proof.
  intros k. split.
  - intros (m & U). inversion U as [m' C|h m0 o r m' U' T EQ]; [|destruct h; discriminate].
    intros ->. discriminate.
  - intros N. destruct k as [[|c]|]; [congruence| |];
      (eexists; apply used_new; reflexivity).
Qed.

Lemma mailbox_exact : forall k h o r,
  possible k (h ++ [(o, r)]) <-> possible k h /\ allowed k (seen k h) o r.
Proof.
  intros k h o r. split.
  - intros (m & U). remember (h ++ [(o, r)]) as h' eqn:E. destruct U as [m C|h0 m o0 r0 m' U T].
    + destruct h; discriminate.
    + apply app_inj_tail in E. destruct E as (-> & E). injection E as -> ->.
      split; [now exists m|]. now destruct (step_agrees _ _ _ _ _ _ (used_agrees _ _ _ U) T).
  - intros ((m & U) & L). pose proof (used_agrees _ _ _ U) as A.
    destruct (step o m) as [[r' m']|] eqn:T; [|exfalso; now apply (step_some _ _ _ _ _ A L)].
    destruct (step_agrees _ _ _ _ _ _ A T) as (L' & _).
    rewrite (allowed_det _ _ _ _ _ _ A L L'). exists m'. now apply (used_step _ _ m).
Qed.

(** * Consequences *)
Ltac cases := repeat match goal with
  | |- context [match ?x with _ => _ end] =>
      lazymatch x with context [match _ with _ => _ end] => fail | _ => destruct x eqn:? end
  end.
Lemma possible_prefix : forall k h' h, possible k (h ++ h') -> possible k h.
Proof.
  intros k h'. induction h' as [|[o r] h' IH]; intros h P; [now rewrite app_nil_r in P|].
  replace (h ++ (o, r) :: h') with ((h ++ [(o, r)]) ++ h') in P by now rewrite <- app_assoc.
  apply IH, mailbox_exact in P. now destruct P.
Qed.

Lemma possible_allowed : forall k h o r h', possible k (h ++ (o, r) :: h') ->
  allowed k (seen k h) o r.
Proof.
  intros k h o r h' P. replace (h ++ (o, r) :: h') with ((h ++ [(o, r)]) ++ h') in P by now rewrite <- app_assoc.
  apply possible_prefix, mailbox_exact in P. now destruct P.
Qed.

Lemma possible_ind : forall k (P : calls -> Prop),
  P [] ->
  (forall h o r m, used k h m -> agrees k (seen k h) m -> P h -> allowed k (seen k h) o r ->
     P (h ++ [(o, r)])) ->
  forall h, possible k h -> P h.
Proof.
  intros k P P0 PS h (m & U). induction U as [m C|h m o r m' U IH T]; [exact P0|].
  pose proof (used_agrees _ _ _ U) as A. destruct (step_agrees _ _ _ _ _ _ A T). eapply PS; eauto.
Qed.

Lemma taken_app : forall a b, taken (a ++ b) = taken a ++ taken b.
Proof. intros. apply flat_map_app. Qed.
Lemma dropped_app : forall a b, dropped (a ++ b) = dropped a ++ dropped b.
Proof. intros. apply flat_map_app. Qed.

(** What a call does to the signals that left. *)
Lemma see_left : forall k v o r, allowed k v o r ->
  left_ (see k v (o, r)) = left_ v ++ taken [(o, r)] ++ dropped [(o, r)].
Proof.
  intros k v o r L. cbn [taken dropped flat_map snd]. rewrite !app_nil_r.
  destruct o; cbn [allowed] in L; decompose [and ex] L; clear L; subst r; cbn [see];
    cases; cbn [left_ enter hold give goes leave shuts app]; rewrite ?app_nil_r; try reflexivity.
Qed.

Lemma see_gone : forall k v o r, allowed k v o r ->
  gone (see k v (o, r)) = gone v || match o with ODropReceiver => true | _ => false end.
Proof.
  intros k v o r L.
  destruct o; cbn [allowed] in L; decompose [and ex] L; clear L; subst r; cbn [see];
    cases; cbn [gone enter hold give goes leave shuts]; rewrite ?orb_false_r, ?orb_true_r; try reflexivity.
Qed.

Lemma see_shut : forall k v o r, allowed k v o r ->
  shut (see k v (o, r)) = shut v || closing o.
Proof.
  intros k v o r L.
  destruct o; cbn [allowed] in L; decompose [and ex] L; clear L; subst r; cbn [see closing];
    cases; cbn [shut enter hold give goes leave shuts]; rewrite ?orb_false_r, ?orb_true_r; try reflexivity; auto.
Qed.

Lemma left_taken : forall k h, possible k h ->
  left_ (seen k h) = taken h ++ dropped h /\ (gone (seen k h) = false -> dropped h = []).
Proof.
  intros k h P. pattern h. revert h P. apply possible_ind; [split; reflexivity|].
  intros h o r m U A (E & D) L. rewrite seen_snoc, (see_left _ _ _ _ L), (see_gone _ _ _ _ L).
  rewrite taken_app, dropped_app, E. destruct (gone (seen k h)) eqn:G.
  - assert (taken [(o, r)] = [] /\ dropped [(o, r)] = []) as (-> & ->).
    { destruct o; cbn [allowed holding] in L; decompose [and ex] L; try congruence; subst r; cbn;
        cases; auto. }
    rewrite !app_nil_r. split; [reflexivity|discriminate].
  - rewrite (D eq_refl), !app_nil_r. rewrite app_assoc. split; [reflexivity|].
    destruct o; cbn; try discriminate; intros _; cbn [allowed] in L; decompose [and ex] L; subst r;
      cases; reflexivity.
Qed.

Lemma unread_bound : forall k h, possible k h ->
  match k with Bounded c => length (unread (seen k h)) <= c | Unbounded => True end.
Proof.
  intros k h (m & U). pose proof (g_sem _ _ _ (used_agrees _ _ _ U)) as X.
  destruct k as [c|]; [|exact I]. destruct (sem m) as [b f cl ws|n cl]; cbn [sem_ok] in X; [|contradiction X].
  lia.
Qed.

Lemma gone_in : forall k h, possible k h ->
  gone (seen k h) = existsb (fun e => match fst e with ODropReceiver => true | _ => false end) h.
Proof.
  intros k h P. pattern h. revert h P. apply possible_ind; [reflexivity|].
  intros h o r m U A E L. rewrite seen_snoc, (see_gone _ _ _ _ L), existsb_app, E. cbn.
  now rewrite orb_false_r.
Qed.

Lemma shut_in : forall k h, possible k h ->
  shut (seen k h) = existsb (fun e => closing (fst e)) h.
Proof.
  intros k h P. pattern h. revert h P. apply possible_ind; [reflexivity|].
  intros h o r m U A E L. rewrite seen_snoc, (see_shut _ _ _ _ L), existsb_app, E. cbn.
  now rewrite orb_false_r.
Qed.

Lemma mailbox_in_order : forall k h, possible k h ->
  entered (seen k h) = taken h ++ dropped h ++ unread (seen k h) /\
  match k with Bounded c => length (unread (seen k h)) <= c | Unbounded => True end /\
  (existsb (fun e => match fst e with ODropReceiver => true | _ => false end) h = true ->
   unread (seen k h) = []).
Proof.
  intros k h P. destruct (left_taken k h P) as (E & _). pose proof (unread_bound k h P) as B.
  destruct P as (m & U). pose proof (used_agrees _ _ _ U) as A. repeat split; auto.
  - rewrite app_assoc, <- E. apply (g_split _ _ _ A).
  - rewrite <- (gone_in k h (ex_intro _ m U)). intros G. now destruct (g_gone _ _ _ A G).
Qed.

Lemma mailbox_no_panic : forall k h o, ~ possible k (h ++ [(o, RPanic)]).
Proof.
  intros k h o P. apply mailbox_exact in P. destruct P as (_ & L).
  destruct o; cbn [allowed] in L; decompose [and ex] L;
    repeat match goal with
    | H : RPanic = (if ?b then _ else _) |- _ => destruct b
    | H : RPanic = match ?x with _ => _ end |- _ => destruct x
    end; discriminate.
Qed.

Lemma mailbox_closed : forall k h1 o r h2 o' r', possible k (h1 ++ (o, r) :: h2) ->
  closing o = true -> In (o', r') h2 -> sends o' = true -> exists s, r' = RRefused s.
Proof.
  intros k h1 o r h2 o' r' P C I S. apply in_split in I. destruct I as (a & b & ->).
  replace (h1 ++ (o, r) :: a ++ (o', r') :: b) with ((h1 ++ (o, r) :: a) ++ (o', r') :: b) in P
    by (rewrite <- app_assoc; reflexivity).
  pose proof (possible_allowed _ _ _ _ _ P) as L. apply possible_prefix in P.
  pose proof (shut_in _ _ P) as Q. rewrite existsb_app in Q. cbn in Q. rewrite C in Q.
  rewrite orb_true_r in Q. destruct o'; try discriminate S; cbn [allowed] in L;
    decompose [and ex] L; rewrite Q in *; eauto.
Qed.

(** Nothing comes any more. *)
Definition ended (v : view) : Prop := unread v = [] /\ over v = true.

Lemma over_cases : forall k v m, agrees k v m -> over v = true ->
  (senders v = 0 /\ outside v = 0 /\ line v = []) \/ (shut v = true /\ owed v = []).
Proof.
  intros k v m A O. unfold over in O. apply orb_true_iff in O. destruct O as [O|O].
  - left. apply Nat.eqb_eq in O. assert (outside v = 0) by (unfold senders in O; lia).
    repeat split; auto. destruct (line v) eqn:L; [reflexivity|].
    pose proof (g_borrow _ _ _ A) as B. rewrite L in B. specialize (B ltac:(discriminate)). lia.
  - right. apply andb_true_iff in O. destruct O as (O1 & O2). split; auto. now destruct (owed v).
Qed.

Lemma ended_step : forall k v m o r, agrees k v m -> ended v -> allowed k v o r ->
  ended (see k v (o, r)) /\ taken [(o, r)] = [] /\ (o = ORecv -> r = ROver) /\
  (sends o = true -> r <> RDone).
Proof.
  intros k v m o r A (U & O) L. pose proof O as O'.
  destruct (over_cases _ _ _ A O') as [(Z & Z1 & Z2)|(Z1 & Z2)].
  - assert (EV : forall a b, a = 0 -> ended (hold a b v)).
    { intros a b ->. split; [exact U|]. unfold over, senders. cbn [outside hold line].
      change (unread (hold 0 b v)) with (unread v). rewrite U, Z2. reflexivity. }
    assert (V : ended v) by (split; assumption).
    destruct o; cbn [allowed holding] in L; rewrite ?Z2, ?Z1 in L; cbn [map In] in L;
      try (exfalso; decompose [and ex] L; lia || contradiction || (destruct x; discriminate));
      try (exfalso; decompose [and] L; lia).
    + destruct L as (L & ->). cbn. repeat split; try discriminate; [exact U|].
      unfold over, senders. cbn [outside hold line]. change (unread (hold (outside v) (S (weaks v)) v)) with (unread v).
      rewrite U, Z2, Z1. reflexivity.
    + destruct L as (L & ->). cbn. repeat split; try discriminate; [exact U|].
      unfold over, senders. cbn [outside hold line]. change (unread (hold (outside v) (weaks v - 1) v)) with (unread v).
      rewrite U, Z2, Z1. reflexivity.
    + destruct L as (L & ->). rewrite Z. cbn. repeat split; try discriminate; assumption.
    + destruct L as (L & ->). cbn. repeat split; try discriminate; assumption.
    + destruct L as (L & ->). cbn. repeat split; try discriminate; assumption.
    + destruct L as (L & ->). rewrite U, O. cbn. repeat split; try discriminate; assumption.
    + destruct L as (L & ->). rewrite U, O.
      assert (E : match limit with 0 | _ => RMany [] end = RMany []) by now destruct limit.
      rewrite E. cbn [see]. rewrite give_nil. cbn. repeat split; try discriminate; assumption.
    + destruct L as (L & ->). rewrite U, Z. cbn. repeat split; try discriminate; assumption.
    + destruct L as (L & ->). cbn. repeat split; try discriminate; [exact U|].
      unfold over, senders. cbn [outside shuts line].
      change (unread (shuts k v)) with (unread v). rewrite U, Z2, Z1. reflexivity.
    + destruct L as (L & ->). cbn. repeat split; try discriminate; assumption.
    + destruct L as (L & ->). cbn. repeat split; try discriminate; assumption.
    + destruct L as (L & ->). cbn. repeat split; try discriminate; assumption.
    + destruct L as (L & ->). rewrite U. cbn. repeat split; try discriminate.
      * unfold unread in *. cbn in *. now rewrite app_nil_r.
      * unfold over, senders. cbn [outside shuts goes line].
        assert (E : unread (goes [] (shuts k v)) = unread v)
          by (unfold unread; cbn; now rewrite app_nil_r).
        rewrite E, U, Z2, Z1. reflexivity.
  - assert (K : forall w, shut w = true -> owed w = [] -> over w = true).
    { intros w S1 S2. unfold over. rewrite S1, S2. apply orb_true_r. }
    assert (V : ended v) by (split; assumption).
    destruct o; cbn [allowed] in L; rewrite ?Z1 in L.
    + destruct L as (_ & _ & ->). cbn. repeat split; try discriminate; assumption.
    + destruct L as (p & s & _ & ->). cbn. repeat split; try discriminate; [exact U|].
      apply K; cbn; [assumption|now rewrite Z2].
    + destruct L as (_ & ->). cbn. repeat split; try discriminate; [exact U|].
      apply K; cbn; [assumption|now rewrite Z2].
    + destruct L as (_ & ->). cbn. repeat split; try discriminate; assumption.
    + destruct L as (_ & ->). cbn. repeat split; try discriminate; assumption.
    + destruct L as (_ & ->). cbn. repeat split; try discriminate; assumption.
    + destruct L as (_ & ->). cbn. repeat split; try discriminate; [exact U|now apply K].
    + destruct L as (_ & _ & ->). cbn. repeat split; try discriminate; [exact U|now apply K].
    + destruct L as (_ & ->). cbn. repeat split; try discriminate; [exact U|now apply K].
    + destruct L as (_ & ->). cbn. repeat split; try discriminate; [exact U|now apply K].
    + destruct L as (_ & ->). cbn. repeat split; try discriminate; [exact U|now apply K].
    + destruct L as (_ & ->). destruct (Nat.eqb (senders v) 0); cbn; repeat split; try discriminate;
        try assumption; now apply K.
    + destruct L as (_ & ->). cbn. repeat split; try discriminate; assumption.
    + destruct L as (_ & ->). cbn. repeat split; try discriminate; assumption.
    + destruct L as (_ & ->). rewrite U, O. cbn. repeat split; try discriminate; assumption.
    + destruct L as (_ & ->). rewrite U, O.
      assert (E : match limit with 0 | _ => RMany [] end = RMany []) by now destruct limit.
      rewrite E. cbn [see]. rewrite give_nil. cbn. repeat split; try discriminate; assumption.
    + destruct L as (_ & ->). rewrite U. destruct (Nat.eqb (senders v) 0 || true && late); cbn;
        repeat split; try discriminate; assumption.
    + destruct L as (_ & ->). cbn. repeat split; try discriminate; [exact U|].
      apply K; cbn; [reflexivity|now rewrite Z1].
    + destruct L as (_ & ->). cbn. repeat split; try discriminate; assumption.
    + destruct L as (_ & ->). cbn. repeat split; try discriminate; assumption.
    + destruct L as (_ & ->). cbn. repeat split; try discriminate; assumption.
    + destruct L as (_ & ->). rewrite U. cbn. repeat split; try discriminate.
      * unfold unread in *. cbn in *. now rewrite app_nil_r.
      * apply K; cbn; [reflexivity|now rewrite Z1].
Qed.

Lemma ended_goes_on : forall k h2 h1, possible k (h1 ++ h2) -> ended (seen k h1) ->
  taken h2 = [] /\ (forall r, In (ORecv, r) h2 -> r = ROver) /\
  (forall o r, In (o, r) h2 -> sends o = true -> r <> RDone).
Proof.
  induction h2 as [|[o r] h2 IH]; intros h1 P E; [repeat split; intros; contradiction|].
  pose proof (possible_allowed _ _ _ _ _ P) as L.
  replace (h1 ++ (o, r) :: h2) with ((h1 ++ [(o, r)]) ++ h2) in P by now rewrite <- app_assoc.
  pose proof (possible_prefix _ _ _ (possible_prefix _ _ _ P)) as (m & U).
  destruct (ended_step _ _ _ _ _ (used_agrees _ _ _ U) E L) as (E' & T & R & S).
  rewrite <- seen_snoc in E'. destruct (IH _ P E') as (T' & R' & S').
  repeat split.
  - change ((o, r) :: h2) with ([(o, r)] ++ h2). now rewrite taken_app, T, T'.
  - intros r' [Q|Q]; [injection Q as -> ->; auto|auto].
  - intros o' r' [Q|Q]; [injection Q as -> ->; auto|eauto].
Qed.

Lemma mailbox_over : forall k h1 h2, possible k (h1 ++ (ORecv, ROver) :: h2) ->
  unread (seen k h1) = [] /\ taken h2 = [] /\ (forall r, In (ORecv, r) h2 -> r = ROver) /\
  (forall o r, In (o, r) h2 -> sends o = true -> r <> RDone).
Proof.
  intros k h1 h2 P. pose proof (possible_allowed _ _ _ _ _ P) as (G & L).
  assert (E : ended (seen k h1)).
  { unfold ended. destruct (unread (seen k h1)); [|discriminate L].
    destruct (over (seen k h1)); [auto|discriminate L]. }
  split; [apply E|]. apply (ended_goes_on k h2 (h1 ++ [(ORecv, ROver)])).
  - now rewrite <- app_assoc.
  - rewrite seen_snoc. cbn. exact E.
Qed.

(** * The two kinds *)
Lemma see_alike : forall c v o r, line v = [] -> allowed (Bounded c) v o r -> held_up (o, r) = false ->
  see (Bounded c) v (o, r) = see Unbounded v (o, r) /\ line (see Unbounded v (o, r)) = [] /\
  allowed Unbounded v o r.
Proof.
  intros c v o r N L H.
  destruct o; cbn [allowed] in L |- *; try (decompose [and] L; clear L; subst r);
    rewrite ?N; try (exfalso; rewrite N in *; contradiction);
    try (repeat split; auto; fail).
  - cbn [room] in *. destruct (shut v); [cbn; repeat split; auto|].
    destruct (length (unread v) + length (line v) <? c); [cbn; repeat split; auto|discriminate H].
  - destruct L as (p & s & L & _). rewrite N in L. destruct p; discriminate L.
  - cbn [room] in *. destruct (shut v); [cbn; repeat split; auto|].
    destruct (length (unread v) + length (line v) <? c); [cbn; repeat split; auto|discriminate H].
  - destruct (Nat.eqb (senders v) 0); cbn; repeat split; auto.
  - destruct (unread v); [destruct (over v)|]; cbn; repeat split; auto.
  - destruct limit, (unread v); [| |destruct (over v)|]; cbn; repeat split; auto.
  - destruct (unread v); [destruct (Nat.eqb (senders v) 0 || shut v && late)|]; cbn; repeat split; auto.
  - cbn. unfold shuts. cbn. rewrite N, !firstn_nil. auto.
  - cbn. unfold goes, shuts. cbn. rewrite N, !firstn_nil. auto.
Qed.

Lemma mailbox_alike : forall c h, possible (Bounded c) h -> existsb held_up h = false ->
  possible Unbounded h /\ seen (Bounded c) h = seen Unbounded h.
Proof.
  intros c h P H.
  assert (Q : (possible Unbounded h /\ seen (Bounded c) h = seen Unbounded h) /\ line (seen (Bounded c) h) = []);
    [|now destruct Q].
  revert H. pattern h. revert h P. apply possible_ind.
  - intros _. repeat split. apply mailbox_exists. discriminate.
  - intros h o r m U A IH L H. rewrite existsb_app in H. apply orb_false_iff in H.
    destruct H as (H1 & H2). cbn in H2. rewrite orb_false_r in H2.
    destruct (IH H1) as ((P & E) & N). destruct (see_alike _ _ _ _ N L H2) as (E1 & E2 & E3).
    rewrite !seen_snoc. rewrite <- E, E1. repeat split; auto.
    apply mailbox_exact. split; [exact P|]. now rewrite <- E.
Qed.

(** An unbounded mailbox has no line. *)
Lemma unbounded_line : forall h, possible Unbounded h -> line (seen Unbounded h) = [].
Proof.
  intros h (m & U). pose proof (g_sem _ _ _ (used_agrees _ _ _ U)) as X.
  destruct (sem m); cbn [sem_ok] in X; [contradiction|]. apply X.
Qed.

Lemma see_alike_back : forall c v o r, line v = [] -> allowed Unbounded v o r ->
  (sends o = true -> r = RDone -> length (unread v) < c) ->
  see (Bounded c) v (o, r) = see Unbounded v (o, r) /\ allowed (Bounded c) v o r.
Proof.
  intros c v o r N L H.
  assert (RM : (r = RDone -> length (unread v) < c) -> r = RDone ->
               (length (unread v) + length (line v) <? c) = true).
  { intros H' E. apply Nat.ltb_lt. rewrite N. cbn. specialize (H' E). lia. }
  destruct o; cbn [allowed sends] in *;
    try (decompose [and] L; clear L; rewrite N in *; repeat split; auto; subst r; reflexivity).
  - destruct L as (L1 & L2 & L3). cbn [room] in *. destruct (shut v); [subst r; auto|].
    rewrite (RM (H eq_refl) L3). subst r. auto.
  - destruct L as (p & s & L & _). rewrite N in L. destruct p; discriminate L.
  - destruct L as (L1 & L3). cbn [room] in *. destruct (shut v); [subst r; auto|].
    rewrite (RM (H eq_refl) L3). subst r. auto.
  - destruct L as (L1 & ->). split; auto. cbn. unfold shuts. cbn. now rewrite N, !firstn_nil.
  - destruct L as (L1 & ->). split; auto. cbn. unfold goes, shuts. cbn. now rewrite N, !firstn_nil.
Qed.

Lemma mailbox_alike_back : forall c h, 0 < c -> possible Unbounded h ->
  (forall h1 o h2, h = h1 ++ (o, RDone) :: h2 -> sends o = true -> length (unread (seen Unbounded h1)) < c) ->
  possible (Bounded c) h /\ seen (Bounded c) h = seen Unbounded h.
Proof.
  intros c h C P. pattern h. revert h P. apply possible_ind.
  - intros _. split; [|reflexivity]. apply mailbox_exists. intros E. injection E as ->. lia.
  - intros h o r m U A IH L H.
    assert (IH' : possible (Bounded c) h /\ seen (Bounded c) h = seen Unbounded h).
    { apply IH. intros h1 o1 h2 -> S. apply (H h1 o1 (h2 ++ [(o, r)])); [|exact S].
      rewrite <- app_assoc. reflexivity. }
    destruct IH' as (P & E).
    pose proof (unbounded_line h (ex_intro _ m U)) as N.
    destruct (see_alike_back c _ _ _ N L) as (E1 & E2).
    { intros S ->. apply (H h o []); auto. }
    split.
    + apply mailbox_exact. split; [exact P|]. now rewrite E.
    + rewrite !seen_snoc, E. exact E1.
Qed.

(** * Receiving many *)
Lemma possible_same_view : forall k h2 h h', possible k h' -> seen k h = seen k h' ->
  possible k (h ++ h2) -> possible k (h' ++ h2).
Proof.
  intros k h2. induction h2 as [|[o r] h2 IH]; intros h h' P' E P; [now rewrite app_nil_r|].
  pose proof (possible_allowed _ _ _ _ _ P) as L.
  replace (h ++ (o, r) :: h2) with ((h ++ [(o, r)]) ++ h2) in P by now rewrite <- app_assoc.
  replace (h' ++ (o, r) :: h2) with ((h' ++ [(o, r)]) ++ h2) by now rewrite <- app_assoc.
  apply (IH (h ++ [(o, r)])); auto.
  - apply mailbox_exact. split; [exact P'|]. now rewrite <- E.
  - rewrite !seen_snoc. now rewrite E.
Qed.

Lemma receive_each : forall k l q h, possible k h -> gone (seen k h) = false ->
  unread (seen k h) = l ++ q ->
  possible k (h ++ map (fun s => (ORecv, RGot s)) l) /\
  seen k (h ++ map (fun s => (ORecv, RGot s)) l) = give l (seen k h).
Proof.
  intros k l q. induction l as [|s l IH]; intros h P G U.
  - cbn. rewrite app_nil_r, give_nil. auto.
  - cbn [map]. replace (h ++ (ORecv, RGot s) :: map (fun s => (ORecv, RGot s)) l)
      with ((h ++ [(ORecv, RGot s)]) ++ map (fun s => (ORecv, RGot s)) l) by now rewrite <- app_assoc.
    assert (P' : possible k (h ++ [(ORecv, RGot s)])).
    { apply mailbox_exact. split; [exact P|]. cbn [allowed holding]. rewrite U. auto. }
    destruct P as (m & Us). pose proof (g_split _ _ _ (used_agrees _ _ _ Us)) as SP.
    assert (U' : unread (seen k (h ++ [(ORecv, RGot s)])) = l ++ q).
    { rewrite seen_snoc. cbn [see]. apply unread_give; auto. }
    destruct (IH _ P') as (P'' & E); auto.
    + now rewrite seen_snoc.
    + split; [exact P''|]. rewrite E, seen_snoc. cbn [see]. now rewrite <- give_app.
Qed.

Lemma mailbox_recv_many : forall k h n l h2, possible k (h ++ (ORecvMany n, RMany l) :: h2) ->
  l = firstn n (unread (seen k h)) /\
  possible k (h ++ map (fun s => (ORecv, RGot s)) l ++ h2).
Proof.
  intros k h n l h2 P. pose proof (possible_allowed _ _ _ _ _ P) as (G & L). cbn in G.
  assert (E : l = firstn n (unread (seen k h))).
  { destruct n as [|n]; [now injection L|]. destruct (unread (seen k h)).
    - destruct (over (seen k h)); [now injection L|discriminate].
    - now injection L. }
  split; [exact E|]. pose proof (possible_prefix _ _ _ P) as P0.
  destruct (receive_each k l (skipn n (unread (seen k h))) h P0 G) as (P1 & S1).
  { rewrite E. symmetry. apply firstn_skipn. }
  rewrite app_assoc. apply (possible_same_view k h2 (h ++ [(ORecvMany n, RMany l)])); auto.
  - rewrite S1, seen_snoc. reflexivity.
  - now rewrite <- app_assoc.
Qed.

(** * Messages keep the mailbox open *)
Lemma held_in : forall n l, In (Message n) l -> 0 < held l.
Proof.
  induction l as [|s l IH]; intros []; cbn; [subst s; cbn; lia|]. specialize (IH H). lia.
Qed.

Lemma mailbox_message_counts : forall k h n,
  In (Message n) (unread (seen k h)) \/ In (Message n) (map snd (line (seen k h))) ->
  (forall x r, possible k (h ++ [(OStrongCount x, r)]) -> exists j, r = RCount (S j)) /\
  (forall r, possible k (h ++ [(OUpgrade, r)]) -> r = RDone) /\
  (shut (seen k h) = false -> ~ possible k (h ++ [(ORecv, ROver)])).
Proof.
  intros k h n I.
  assert (Z : exists j, senders (seen k h) = S j).
  { unfold senders. destruct I as [I|I]; apply held_in in I;
      exists (outside (seen k h) + held (unread (seen k h)) + held (map snd (line (seen k h))) - 1); lia. }
  destruct Z as (j & Z). repeat split.
  - intros x r P. apply mailbox_exact in P. destruct P as (_ & _ & ->). rewrite Z. now exists j.
  - intros r P. apply mailbox_exact in P. destruct P as (_ & _ & ->). now rewrite Z.
  - intros S P. apply mailbox_exact in P. destruct P as (_ & _ & E).
    destruct (unread (seen k h)); [|discriminate E]. unfold over in E. rewrite Z, S in E. discriminate E.
Qed.

Lemma mailbox_line : forall k h i, possible k (h ++ [(OPoll i, RPending)]) ->
  exists c before s after, k = Bounded c /\ line (seen k h) = before ++ (i, s) :: after /\
    c <= length (unread (seen k h)) + length before.
Proof.
  intros k h i P. apply mailbox_exact in P. destruct P as (P & p & s & L & E).
  destruct k as [c|].
  - apply nth_error_split in L. destruct L as (a & b & L1 & L2). exists c, a, s, b.
    split; [reflexivity|]. split; [exact L1|].
    destruct (shut (seen (Bounded c) h)); [discriminate|].
    destruct (Nat.ltb_spec (length (unread (seen (Bounded c) h)) + p) c); [discriminate|]. lia.
  - rewrite (unbounded_line _ P) in L. destruct p; discriminate.
Qed.

(** * Where every signal is *)
Definition signal_dec : forall a b : signal, {a = b} + {a <> b}.
Proof. decide equality; apply Nat.eq_dec. Defined.
Notation count := (count_occ signal_dec).

Lemma filter_none : forall i (l : list (nat * signal)), ~ In i (map fst l) ->
  filter (fun x => negb (Nat.eqb (fst x) i)) l = l.
Proof.
  induction l as [|x l IH]; intros N; [reflexivity|]. cbn in N |- *.
  destruct (Nat.eqb_spec (fst x) i); [exfalso; auto|]. cbn. f_equal. auto.
Qed.

Lemma line_leave : forall i s p (l : list (nat * signal)), NoDup (map fst l) ->
  nth_error l p = Some (i, s) ->
  option_map snd (find (fun x => Nat.eqb (fst x) i) l) = Some s /\
  forall x, count (map snd l) x =
    count (map snd (filter (fun x => negb (Nat.eqb (fst x) i)) l)) x + count [s] x.
Proof.
  intros i s p l. revert p. induction l as [|[j t] l IH]; intros p N P; [destruct p; discriminate|].
  cbn in N. inversion N as [|? ? N1 N2]; subst. cbn [find filter fst map snd].
  destruct p as [|p]; cbn in P.
  - injection P as -> ->. rewrite Nat.eqb_refl. cbn [negb]. rewrite (filter_none i l N1).
    split; [reflexivity|]. intros x. cbn. destruct (signal_dec s x); lia.
  - assert (J : Nat.eqb j i = false).
    { apply Nat.eqb_neq. intros ->. apply N1. apply nth_error_In in P.
      apply (in_map fst) in P. exact P. }
    rewrite J. cbn [negb]. destruct (IH p N2 P) as (F & C). split; [exact F|].
    intros x. specialize (C x). cbn in C |- *. destruct (signal_dec t x); lia.
Qed.

Lemma in_line_place : forall i (l : list (nat * signal)), In i (map fst l) ->
  exists p s, nth_error l p = Some (i, s).
Proof.
  intros i l I. apply in_map_iff in I. destruct I as ([j s] & E & I). cbn in E. subst j.
  apply In_nth_error in I. destruct I as (p & P). eauto.
Qed.

Lemma offered_app : forall a b, offered (a ++ b) = offered a ++ offered b.
Proof. intros. apply flat_map_app. Qed.
Lemma returned_app : forall a b, returned (a ++ b) = returned a ++ returned b.
Proof. intros. apply flat_map_app. Qed.
Lemma cancels_app : forall a b, cancels (a ++ b) = cancels a + cancels b.
Proof. intros. unfold cancels. now rewrite filter_app, app_length. Qed.

Lemma mailbox_accounted : forall k h, possible k h ->
  exists lost, length lost = cancels h /\
    Permutation (offered h)
      (entered (seen k h) ++ returned h ++ map snd (line (seen k h)) ++ lost).
Proof.
  intros k h P.
  enough (Q : exists lost, length lost = cancels h /\ forall x,
    count (offered h) x = count (entered (seen k h)) x + count (returned h) x +
      count (map snd (line (seen k h))) x + count lost x).
  { destruct Q as (lost & N & C). exists lost. split; [exact N|].
    apply (Permutation_count_occ signal_dec). intros x. rewrite !count_occ_app, C. lia. }
  pattern h. revert h P. apply possible_ind.
  - exists []. split; reflexivity.
  - intros h o r m U A (lost & N & C) L. pose proof (line_nodup _ _ _ A) as ND.
    rewrite seen_snoc, offered_app, returned_app, cancels_app, <- N.
    unfold offered at 2, returned at 2, cancels.
    set (v := seen k h) in *. clearbody v. cbn [flat_map fst snd filter].
    destruct o; cbn [allowed] in L.
    + destruct L as (_ & _ & ->). exists lost. cbn [length]. split; [lia|]. intros x.
      specialize (C x). destruct (shut v); [|destruct (room k v)]; cbn [see enter hold entered line app];
        rewrite ?map_app, ?count_occ_app, ?app_nil_r; cbn [map snd]; rewrite ?C; cbn; lia.
    + destruct L as (p & s & L & ->). destruct (line_leave _ _ _ _ ND L) as (F & D).
      exists lost. cbn [length]. split; [lia|]. intros x. specialize (C x). specialize (D x).
      destruct (shut v); [|destruct k as [c|]; [destruct (length (unread v) + p <? c)|]]; cbn [see];
        unfold signal_of; rewrite ?F; cbn [leave enter hold entered line app];
        rewrite ?count_occ_app, ?app_nil_r; rewrite ?C; cbn in *; lia.
    + destruct L as (L & ->). destruct (in_line_place _ _ L) as (p & s & L').
      destruct (line_leave _ _ _ _ ND L') as (F & D).
      exists (lost ++ [s]). cbn [length]. rewrite app_length. cbn [length]. split; [lia|]. intros x.
      specialize (C x). specialize (D x). cbn [see leave entered line].
      rewrite ?count_occ_app, ?app_nil_r, ?C. cbn in *. lia.
    + destruct L as (_ & ->). exists lost. cbn [length]. split; [lia|]. intros x.
      specialize (C x). destruct (shut v); [|destruct (room k v)]; cbn [see enter hold entered line app];
        rewrite ?map_app, ?count_occ_app, ?app_nil_r; cbn [map snd]; rewrite ?C; cbn; lia.
    + destruct L as (_ & ->). exists lost. split; [cbn; lia|]. intros x. specialize (C x). rewrite !app_nil_r.
      destruct (shut v); cbn; rewrite ?app_nil_r; exact C.
    + destruct L as (_ & ->). exists lost. split; [cbn; lia|]. intros x. specialize (C x). rewrite !app_nil_r.
      exact C.
    + destruct L as (_ & ->). exists lost. split; [cbn; lia|]. intros x. specialize (C x). rewrite !app_nil_r.
      exact C.
    + destruct L as (_ & _ & ->). exists lost. split; [cbn; lia|]. intros x. specialize (C x). rewrite !app_nil_r.
      exact C.
    + destruct L as (_ & ->). exists lost. split; [cbn; lia|]. intros x. specialize (C x). rewrite !app_nil_r.
      exact C.
    + destruct L as (_ & ->). exists lost. split; [cbn; lia|]. intros x. specialize (C x). rewrite !app_nil_r.
      exact C.
    + destruct L as (_ & ->). exists lost. split; [cbn; lia|]. intros x. specialize (C x). rewrite !app_nil_r.
      exact C.
    + destruct L as (_ & ->). exists lost. split; [cbn; lia|]. intros x. specialize (C x). rewrite !app_nil_r.
      destruct (Nat.eqb (senders v) 0); cbn; rewrite ?app_nil_r; exact C.
    + destruct L as (_ & ->). exists lost. split; [cbn; lia|]. intros x. specialize (C x). rewrite !app_nil_r.
      exact C.
    + destruct L as (_ & ->). exists lost. split; [cbn; lia|]. intros x. specialize (C x). rewrite !app_nil_r.
      exact C.
    + destruct L as (_ & ->). exists lost. split; [cbn; lia|]. intros x. specialize (C x). rewrite !app_nil_r.
      destruct (unread v); [destruct (over v)|]; cbn; rewrite ?app_nil_r; exact C.
    + destruct L as (_ & ->). exists lost. split; [cbn; lia|]. intros x. specialize (C x). rewrite !app_nil_r.
      destruct limit, (unread v); [| |destruct (over v)|]; cbn; rewrite ?app_nil_r; exact C.
    + destruct L as (_ & ->). exists lost. split; [cbn; lia|]. intros x. specialize (C x). rewrite !app_nil_r.
      destruct (unread v); [destruct (Nat.eqb (senders v) 0 || shut v && late)|]; cbn;
        rewrite ?app_nil_r; exact C.
    + destruct L as (_ & ->). exists lost. split; [cbn; lia|]. intros x. specialize (C x). rewrite !app_nil_r.
      exact C.
    + destruct L as (_ & ->). exists lost. split; [cbn; lia|]. intros x. specialize (C x). rewrite !app_nil_r.
      exact C.
    + destruct L as (_ & ->). exists lost. split; [cbn; lia|]. intros x. specialize (C x). rewrite !app_nil_r.
      exact C.
    + destruct L as (_ & ->). exists lost. split; [cbn; lia|]. intros x. specialize (C x). rewrite !app_nil_r.
      exact C.
    + destruct L as (_ & ->). exists lost. split; [cbn; lia|]. intros x. specialize (C x). rewrite !app_nil_r.
      exact C.
Qed.

