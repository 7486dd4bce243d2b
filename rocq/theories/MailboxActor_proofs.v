(** Proofs that the mailbox of Lifecycle.v is that of Mailbox.v. *)
From Coq Require Import List Bool PeanoNat Lia.
Import ListNotations.
From Verif Require Import Lifecycle Lifecycle_spec Lifecycle_proofs Lifecycle_order_proofs
  Lifecycle_fifo_proofs Lifecycle_wait_proofs MailboxActor_spec.
From Verif Require Mailbox Mailbox_spec Mailbox_proofs.

(** What the calls made so far leave behind. *)
Record shape (k : Mailbox.kind) (m : Mailbox.mailbox) : Prop := mk_shape {
  sh_sem : match k with
    | Mailbox.Bounded c => exists f ws, Mailbox.sem m = Mailbox.SBounded c f (Mailbox.rx_closed m) ws
        /\ f + length (Mailbox_proofs.granted ws) + length (Mailbox.queue m) = c
        /\ NoDup (map Mailbox.w_id ws)
        /\ (Mailbox.rx_closed m = false -> Mailbox_proofs.in_line ws
            /\ (0 < f -> Forall (fun w => Mailbox.w_granted w = true) ws))
    | Mailbox.Unbounded => Mailbox.sem m = Mailbox.SUnbounded (length (Mailbox.queue m)) (Mailbox.rx_closed m)
    end;
  sh_strong : Mailbox.strong m = Mailbox.loose m + Mailbox.held (Mailbox.queue m) + lent m;
  sh_borrow : waiting m <> [] -> 0 < Mailbox.loose m;
  sh_gone : Mailbox.receiver m = false -> Mailbox.queue m = []
}.

Lemma used_shape : forall k h m, Mailbox.used k h m -> shape k m.
Proof.
  intros k h m U. pose proof (Mailbox_proofs.used_agrees _ _ _ U) as A. revert A.
  generalize (Mailbox_spec.seen k h). intros v A.
  pose proof (Mailbox_proofs.waits_line _ _ _ A) as L. destruct A.
  assert (LE : map snd (Mailbox_spec.line v) = map Mailbox.w_signal (waiting m)).
  { rewrite L. apply Mailbox_proofs.map_entry_snd. }
  constructor.
  - destruct k as [c|], (Mailbox.sem m) as [b f cl ws|n cl] eqn:E; cbn [Mailbox_proofs.sem_ok] in g_sem; try contradiction.
    + destruct g_sem as (-> & C & -> & _ & N & S & O). rewrite <- g_closed, <- g_queue in *.
      exists f, ws. split; [reflexivity|]. split; [exact S|]. split; [exact N|].
      intros Q. rewrite Q in O. exact (proj2 O).
    + destruct g_sem as (-> & -> & _ & _). rewrite g_closed, g_queue. reflexivity.
  - unfold lent. rewrite <- LE, g_strong, g_loose, g_queue. reflexivity.
  - intros W. rewrite g_loose. apply g_borrow. rewrite L. unfold waiting in W.
    destruct (Mailbox.waits_of (Mailbox.sem m)); [congruence|discriminate].
  - intros R. rewrite g_queue. apply g_gone. destruct (Mailbox_spec.gone v); [reflexivity|].
    rewrite g_receiver in R. discriminate.
Qed.

Lemma used_calls : forall k m l m', calls m l m' -> forall h, Mailbox.used k h m -> Mailbox.used k (h ++ l) m'.
Proof.
  intros k m l m' C. induction C as [m|m o r m1 l m2 S C IH]; intros h U.
  - now rewrite app_nil_r.
  - change ((o, r) :: l) with ([(o, r)] ++ l). rewrite app_assoc. apply IH.
    eapply Mailbox.used_step; eauto.
Qed.

(** References inside the actor. *)
Definition inner (s : actor) : nat :=
  length (buf s) + phase_refs (ph s) + (if in_reg s then 1 else 0)
  + (if threaded s && negb (ended (ph s)) then 1 else 0).

Lemma strong_inner : forall s, strong s = ext s + length (msgs_of (queue s)) + inner s.
Proof. intros s. unfold strong, inner. lia. Qed.

Lemma same_held : forall q q', Forall2 same_signal q q' -> length (msgs_of q) = Mailbox.held q'.
Proof.
  intros q q' F. induction F as [|a b q q' S F IH]; [reflexivity|].
  destruct a, b; cbn in *; try contradiction; lia.
Qed.

Lemma same_length : forall q q', Forall2 same_signal q q' -> length q = length q'.
Proof. intros q q' F. induction F; cbn; congruence. Qed.

Lemma loose_eq : forall k s m, shape k m -> mirrors s m -> Mailbox.loose m + lent m = ext s + inner s.
Proof.
  intros k s m S R. destruct R. pose proof (sh_strong _ _ S) as E.
  rewrite <- mi_strong, strong_inner, (same_held _ _ mi_queue) in E. lia.
Qed.

Lemma room_free : forall s m, shape (kind_of (cap s)) m -> mirrors s m ->
  has_room s = match Mailbox.sem m with Mailbox.SBounded _ f _ _ => 0 <? f | _ => true end.
Proof.
  intros s m S R. destruct R. unfold has_room. destruct (cap s) as [c|]; cbn [kind_of] in S.
  - destruct (sh_sem _ _ S) as (f & ws & E & L & _). unfold placed, waiting in mi_reserved.
    rewrite E in *. cbn [Mailbox.waits_of] in *. rewrite (same_length _ _ mi_queue), mi_reserved.
    unfold Mailbox_proofs.granted in L.
    destruct (Nat.ltb_spec (length (Mailbox.queue m) + length (filter Mailbox.w_granted ws)) c), (Nat.ltb_spec 0 f); try reflexivity; lia.
  - rewrite (sh_sem _ _ S). reflexivity.
Qed.

(** One signal sent from outside. *)
Definition send_of (x : Mailbox.signal) : list event :=
  match x with
  | Mailbox.Message _ => [ESend false false; EDrop]
  | Mailbox.LinkDied n => [ELinkSignal n Normal]
  | Mailbox.Stop => [EStop]
  | Mailbox.StartupFinished => []
  end.

Lemma send_signal : forall s x, x <> Mailbox.StartupFinished -> rx_open s = true -> has_room s = true ->
  Mailbox.holds x < ext s ->
  exists s' sg, exec s (send_of x) = Some (s', [OAccept sg]) /\ same_signal sg x
    /\ queue s' = queue s ++ [sg] /\ reserved s' = reserved s /\ rx_open s' = rx_open s /\ cap s' = cap s
    /\ ext s' = ext s - Mailbox.holds x /\ inner s' = inner s /\ ph s' = ph s.
Proof.
  intros s x N O R E. destruct x as [|n|n|]; [congruence| | |]; cbn [Mailbox.holds] in E.
  - cbn [send_of exec step]. rewrite O, R.
    assert (P : 0 <? ext s = true) by (apply Nat.ltb_lt; lia). rewrite P.
    cbn [negb orb andb]. unfold push. simp_fields. rewrite P.
    do 2 eexists. split; [reflexivity|]. simp_fields. repeat split; try reflexivity; try assumption; cbn; lia.
  - cbn [send_of exec step]. rewrite O, R. destruct (Nat.ltb_spec 0 (strong s)); [|rewrite strong_inner in *; lia].
    do 2 eexists. split; [reflexivity|]. cbn. repeat split; try reflexivity; try assumption; cbn; lia.
  - cbn [send_of exec step]. rewrite O, R. destruct (Nat.ltb_spec 0 (ext s)); [|lia].
    do 2 eexists. split; [reflexivity|]. cbn. repeat split; try reflexivity; try assumption; cbn; lia.
Qed.

Lemma msgs_app : forall a b, msgs_of (a ++ b) = msgs_of a ++ msgs_of b.
Proof. induction a as [|[| | |] a IH]; intros; cbn; rewrite ?IH; reflexivity. Qed.

Lemma send_strong : forall s s' sg x, same_signal sg x -> queue s' = queue s ++ [sg] ->
  ext s' = ext s - Mailbox.holds x -> inner s' = inner s -> Mailbox.holds x < ext s -> strong s' = strong s.
Proof.
  intros s s' sg x S Q E I L. rewrite !strong_inner, Q, E, I, msgs_app, app_length.
  destruct sg, x; cbn in *; try contradiction; lia.
Qed.

Lemma send_outside : forall x, Forall (fun e => outside_event e = true) (send_of x).
Proof. intros []; repeat constructor. Qed.

Lemma accepted_one : forall sg x, same_signal sg x -> Forall2 same_signal (accepted_signals [OAccept sg]) [x].
Proof. intros. repeat constructor. assumption. Qed.

(** * Calls from outside *)

Lemma stays : forall (s : actor) m o r m', mirrors s m' -> put_in m o r = [] ->
  exists es s' tr, exec s es = Some (s', tr) /\ Forall (fun e => outside_event e = true) es
    /\ mirrors s' m' /\ Forall2 same_signal (accepted_signals tr) (put_in m o r) /\ ph s' = ph s /\ cap s' = cap s.
Proof.
  intros s m o r m' R P. exists [], s, []. rewrite P. split; [reflexivity|]. split; [constructor|]. split; [exact R|]. split; [constructor|auto].
Qed.

(** A signal that enters, after [n] permits were given back. *)
Lemma enters : forall s m m' x, mirrors s m ->
  x <> Mailbox.StartupFinished -> Mailbox.holds x < ext s -> Mailbox.receiver m = true ->
  has_room s = true ->
  Mailbox.queue m' = Mailbox.queue m ++ [x] -> Mailbox.strong m' = Mailbox.strong m ->
  Mailbox.receiver m' = Mailbox.receiver m -> Mailbox.rx_closed m' = Mailbox.rx_closed m ->
  placed m' = placed m -> (waiting m' <> [] -> lent m' < ext s - Mailbox.holds x) ->
  exists s' sg, exec s (send_of x) = Some (s', [OAccept sg]) /\ same_signal sg x /\ mirrors s' m'
    /\ ph s' = ph s /\ cap s' = cap s.
Proof.
  intros s m m' x R N E O RM Q ST RC CL PL LE. destruct R.
  destruct (send_signal s x N) as (s' & sg & X & SS & Q' & R' & O' & C' & E' & I' & P'); auto; [congruence|].
  exists s', sg. repeat (split; [assumption|]). split; [|auto].
  constructor.
  - rewrite Q, Q'. apply Forall2_app; auto.
  - rewrite ST, <- mi_strong. eapply send_strong; eauto.
  - congruence.
  - congruence.
  - congruence.
  - rewrite E'. exact LE.
Qed.

Lemma placed_app : forall (a b : list Mailbox.wait), length (filter Mailbox.w_granted (a ++ b))
  = length (filter Mailbox.w_granted a) + length (filter Mailbox.w_granted b).
Proof. intros. rewrite filter_app, app_length. reflexivity. Qed.

Lemma releases : forall s, 0 < reserved s -> exists s', exec s [ERelease] = Some (s', [])
  /\ queue s' = queue s /\ reserved s' = pred (reserved s) /\ rx_open s' = rx_open s /\ cap s' = cap s
  /\ ext s' = ext s /\ strong s' = strong s /\ ph s' = ph s.
Proof.
  intros s H. cbn [exec step]. destruct (Nat.ltb_spec 0 (reserved s)); [|lia].
  eexists. split; [reflexivity|]. repeat split.
Qed.

Lemma exec_two : forall s a s1 o1 b s2 o2, exec s a = Some (s1, o1) -> exec s1 b = Some (s2, o2) ->
  exec s (a ++ b) = Some (s2, o1 ++ o2).
Proof.
  intros s a. revert s. induction a as [|e a IH]; intros s s1 o1 b s2 o2 A B; cbn in *.
  - injection A as <- <-. exact B.
  - destruct (step s e) as [[x o]|]; [|discriminate]. destruct (exec x a) as [[y p]|] eqn:Y; [|discriminate].
    injection A as <- <-. rewrite (IH _ _ _ _ _ _ Y B), app_assoc. reflexivity.
Qed.

Lemma sent_now : forall s m o r m' x, mirrors s m -> shape (kind_of (cap s)) m ->
  x <> Mailbox.StartupFinished -> lent m + Mailbox.holds x < ext s ->
  r = Mailbox.RDone -> put_in m o r = [x] ->
  (exists b f c ws, Mailbox.sem m = Mailbox.SBounded b (S f) c ws /\ c = false
     /\ m' = Mailbox.tuck x (Mailbox.push x (Mailbox.with_sem (Mailbox.SBounded b f c ws) m)))
  \/ (exists n c, Mailbox.sem m = Mailbox.SUnbounded n c /\ c = false
     /\ m' = Mailbox.tuck x (Mailbox.push x (Mailbox.with_sem (Mailbox.SUnbounded (S n) c) m))) ->
  exists es s' tr, exec s es = Some (s', tr) /\ Forall (fun e => outside_event e = true) es
    /\ mirrors s' m' /\ Forall2 same_signal (accepted_signals tr) (put_in m o r) /\ ph s' = ph s /\ cap s' = cap s.
Proof.
  intros s m o r m' x R S N E -> P D.
  assert (CL : Mailbox.rx_closed m = false).
  { destruct (cap s) as [c|]; cbn [kind_of] in S; pose proof (sh_sem _ _ S) as X.
    - destruct X as (f & ws & X & _). rewrite X in D.
      destruct D as [(b & f' & c' & ws' & D & -> & _)|(n & c' & D & _)]; [congruence|discriminate].
    - rewrite X in D. destruct D as [(b & f' & c' & ws' & D & _)|(n & c' & D & -> & _)]; [discriminate|congruence]. }
  assert (RC : Mailbox.receiver m = true).
  { rewrite (mi_closed _ _ R) in CL. destruct (Mailbox.receiver m); [reflexivity|discriminate]. }
  assert (RM : has_room s = true).
  { rewrite (room_free _ _ S R). destruct D as [(b & f & c & ws & -> & _)|(n & c & -> & _)]; reflexivity. }
  destruct (enters s m m' x R N) as (s' & sg & X & SS & M & PH & CP); auto; try lia.
  all: try (destruct D as [(b & f & c & ws & D & _ & ->)|(n & c & D & _ & ->)]; reflexivity).
  { destruct D as [(b & f & c & ws & D & _ & ->)|(n & c & D & _ & ->)]; unfold placed, waiting; rewrite D; reflexivity. }
  { destruct D as [(b & f & c & ws & D & _ & ->)|(n & c & D & _ & ->)]; unfold lent, waiting in *; rewrite D in *; cbn in *; lia. }
  exists (send_of x), s', [OAccept sg]. rewrite P. split; [exact X|]. split; [apply send_outside|].
  split; [exact M|]. split; [apply accepted_one; exact SS|]. auto.
Qed.

Lemma drops_exec : forall n s, n <= ext s -> exists s', exec s (repeat EDrop n) = Some (s', [])
  /\ queue s' = queue s /\ reserved s' = reserved s /\ rx_open s' = rx_open s /\ cap s' = cap s
  /\ ext s' = ext s - n /\ inner s' = inner s /\ ph s' = ph s.
Proof.
  induction n as [|n IH]; intros s L.
  - exists s. repeat split. lia.
  - destruct (IH (set_ext (pred (ext s)) s)) as (s' & X & Q & R & O & C & E & I & P); [cbn; lia|].
    exists s'. cbn [repeat exec step]. destruct (Nat.ltb_spec 0 (ext s)); [|lia]. rewrite X.
    repeat split; try assumption. rewrite E. cbn. lia.
Qed.

Lemma releases_exec : forall n s, n <= reserved s -> exists s', exec s (repeat ERelease n) = Some (s', [])
  /\ queue s' = queue s /\ reserved s' = reserved s - n /\ rx_open s' = rx_open s /\ cap s' = cap s
  /\ ext s' = ext s /\ inner s' = inner s /\ ph s' = ph s.
Proof.
  induction n as [|n IH]; intros s L.
  - exists s. repeat split. lia.
  - destruct (IH (set_reserved (pred (reserved s)) s)) as (s' & X & Q & R & O & C & E & I & P); [cbn; lia|].
    exists s'. cbn [repeat exec step]. destruct (Nat.ltb_spec 0 (reserved s)); [|lia]. rewrite X.
    repeat split; try assumption. rewrite R. cbn. lia.
Qed.

Lemma fewer : forall s m m' d p, mirrors s m -> Mailbox.queue m' = Mailbox.queue m ->
  Mailbox.receiver m' = Mailbox.receiver m -> Mailbox.rx_closed m' = Mailbox.rx_closed m ->
  placed m' + p = placed m -> Mailbox.strong m' + d = Mailbox.strong m -> d <= ext s ->
  (waiting m' <> [] -> lent m' < ext s - d) ->
  exists es s', exec s es = Some (s', []) /\ Forall (fun e => outside_event e = true) es
    /\ mirrors s' m' /\ ph s' = ph s /\ cap s' = cap s.
Proof.
  intros s m m' d p R Q RC CL PL ST D LE. destruct R.
  destruct (drops_exec d s D) as (s1 & X1 & Q1 & R1 & O1 & C1 & E1 & I1 & P1).
  destruct (releases_exec p s1) as (s2 & X2 & Q2 & R2 & O2 & C2 & E2 & I2 & P2); [lia|].
  exists (repeat EDrop d ++ repeat ERelease p), s2.
  split; [apply (exec_two _ _ _ _ _ _ _ X1 X2)|].
  split. { apply Forall_app. split; apply Forall_forall; intros e F; apply repeat_spec in F; subst e; reflexivity. }
  split; [|split; congruence].
  constructor.
  - rewrite Q, Q2, Q1. assumption.
  - rewrite strong_inner in *. rewrite Q2, Q1, E2, E1, I2, I1. lia.
  - congruence.
  - congruence.
  - lia.
  - rewrite E2, E1. exact LE.
Qed.

Lemma fewer_calls : forall s m o r m' d p, mirrors s m -> put_in m o r = [] -> Mailbox.queue m' = Mailbox.queue m ->
  Mailbox.receiver m' = Mailbox.receiver m -> Mailbox.rx_closed m' = Mailbox.rx_closed m ->
  placed m' + p = placed m -> Mailbox.strong m' + d = Mailbox.strong m -> d <= ext s ->
  (waiting m' <> [] -> lent m' < ext s - d) ->
  exists es s' tr, exec s es = Some (s', tr) /\ Forall (fun e => outside_event e = true) es
    /\ mirrors s' m' /\ Forall2 same_signal (accepted_signals tr) (put_in m o r) /\ ph s' = ph s /\ cap s' = cap s.
Proof.
  intros s m o r m' d p R P Q RC CL PL ST D LE.
  destruct (fewer s m m' d p R Q RC CL PL ST D LE) as (es & s' & X & F & M & H).
  exists es, s', []. rewrite P. split; [exact X|]. split; [exact F|]. split; [exact M|]. split; [constructor|exact H].
Qed.

Lemma more_calls : forall s m m', mirrors s m -> 0 < Mailbox.strong m ->
  Mailbox.queue m' = Mailbox.queue m -> Mailbox.sem m' = Mailbox.sem m ->
  Mailbox.receiver m' = Mailbox.receiver m -> Mailbox.rx_closed m' = Mailbox.rx_closed m ->
  Mailbox.strong m' = S (Mailbox.strong m) -> 
  exists s', exec s [EAcquire] = Some (s', []) /\ mirrors s' m' /\ ph s' = ph s /\ cap s' = cap s.
Proof.
  intros s m m' R G Q SM RC CL ST. destruct R. rewrite <- mi_strong in G.
  exists (set_ext (S (ext s)) s). cbn [exec step]. destruct (Nat.ltb_spec 0 (strong s)); [|lia].
  split; [reflexivity|]. split; [|split; reflexivity].
  unfold placed, lent, waiting in *. constructor; unfold placed, lent, waiting; rewrite ?SM, ?Q, ?ST, ?RC, ?CL; try assumption.
  - rewrite <- mi_strong. rewrite !strong_inner. cbn. unfold inner. cbn. lia.
  - intros W. specialize (mi_lent W). cbn. lia.
Qed.

Lemma same_mirrors : forall s m m', mirrors s m -> Mailbox.queue m' = Mailbox.queue m ->
  Mailbox.sem m' = Mailbox.sem m -> Mailbox.receiver m' = Mailbox.receiver m ->
  Mailbox.rx_closed m' = Mailbox.rx_closed m -> Mailbox.strong m' = Mailbox.strong m -> mirrors s m'.
Proof.
  intros s m m' R Q SM RC CL ST. destruct R. constructor; unfold placed, lent, waiting in *; rewrite ?SM, ?Q, ?RC, ?CL, ?ST; assumption.
Qed.

Lemma wait_holds : forall i ws w, Mailbox.find_wait i ws = Some w ->
  Mailbox.holds (Mailbox.w_signal w) <= Mailbox.held (map Mailbox.w_signal ws).
Proof.
  induction ws as [|x ws IH]; intros w F; [discriminate|]. cbn in *.
  destruct (Mailbox.w_id x =? i); [injection F as <-; lia|]. specialize (IH _ F). lia.
Qed.

Lemma wait_gone : forall i ws w, NoDup (map Mailbox.w_id ws) -> Mailbox.find_wait i ws = Some w ->
  Mailbox.held (map Mailbox.w_signal ws)
    = Mailbox.held (map Mailbox.w_signal (Mailbox.drop_wait i ws)) + Mailbox.holds (Mailbox.w_signal w)
  /\ length (filter Mailbox.w_granted ws)
    = length (filter Mailbox.w_granted (Mailbox.drop_wait i ws)) + (if Mailbox.w_granted w then 1 else 0)
  /\ (Mailbox_proofs.in_line ws -> Mailbox_proofs.in_line (Mailbox.drop_wait i ws)).
Proof.
  intros i ws w N F. destruct (Mailbox_proofs.find_wait_split _ _ _ N F) as (a & b & E & _ & D & _ & _).
  rewrite D, E. split; [|split].
  - rewrite !map_app. cbn. rewrite !Mailbox_proofs.held_app. cbn. lia.
  - apply Mailbox_proofs.granted_middle.
  - intros L. exact (proj1 (Mailbox_proofs.in_line_split _ _ _ L)).
Qed.

Lemma wait_some : forall i ws w, Mailbox.find_wait i ws = Some w -> ws <> [].
Proof. intros i [|x ws] w F; [discriminate|congruence]. Qed.

Lemma grant_held : forall ws ws', Mailbox.grant ws = Some ws' -> map Mailbox.w_signal ws' = map Mailbox.w_signal ws.
Proof.
  induction ws as [|w ws IH]; intros ws' G; [discriminate|]. cbn in G.
  destruct (Mailbox.w_granted w).
  - destruct (Mailbox.grant ws) as [x|]; [|discriminate]. injection G as <-. cbn. now rewrite (IH x).
  - injection G as <-. reflexivity.
Qed.

Ltac tidy := unfold placed, lent, waiting in *;
  repeat match goal with E : Mailbox.sem ?m = _ |- context [Mailbox.sem ?m] => rewrite E end;
  cbn; repeat match goal with G : Mailbox.grant _ = Some _ |- _ => rewrite (grant_held _ _ G) end;
  try (destruct (Mailbox.w_granted _)); lia.

Lemma simulate_outside : forall s m h o r m',
  Mailbox.used (kind_of (cap s)) h m -> mirrors s m -> by_others s m o ->
  Mailbox.step o m = Some (r, m') ->
  exists es s' tr, exec s es = Some (s', tr) /\ Forall (fun e => outside_event e = true) es
    /\ mirrors s' m' /\ Forall2 same_signal (accepted_signals tr) (put_in m o r) /\ ph s' = ph s /\ cap s' = cap s.
Proof.
  intros s m h o r m' U R B T. pose proof (used_shape _ _ _ U) as S. clear U h.
  pose proof (loose_eq _ _ _ S R) as LO.
  destruct o; cbn [by_others] in B; try contradiction; cbn [Mailbox.step] in T.
  - (* send *)
    destruct B as (N & L).
    destruct ((Mailbox.holds s0 <? Mailbox.loose m) && _) eqn:G; [|discriminate]. injection T as M.
    rename s0 into x.
    unfold Mailbox.send in M. destruct (Mailbox.sem m) as [b f c ws|n c] eqn:E.
    + destruct c; [injection M as <- <-; apply stays; auto|].
      destruct f as [|f].
      * injection M as <- <-. apply stays; [|reflexivity].
        destruct R. unfold placed, lent, waiting in *. rewrite E in *. cbn in mi_reserved, mi_lent, L.
        constructor; unfold placed, lent, waiting; cbn; auto.
        -- rewrite filter_app, app_length. cbn. lia.
        -- intros _. rewrite map_app, Mailbox_proofs.held_app. cbn. lia.
      * injection M as <- <-. apply (sent_now _ _ _ _ _ x); auto. left. exists b, f, false, ws. auto.
    + destruct c; injection M as <- <-; [apply stays; auto|].
      apply (sent_now _ _ _ _ _ x); auto. right. exists n, false. auto.
  - (* poll *)
    unfold Mailbox.poll_send in T. destruct (Mailbox.sem m) as [b f c ws|n c] eqn:E; [|discriminate].
    destruct (Mailbox.find_wait i ws) as [w|] eqn:F; [|discriminate].
    destruct (cap s) as [cp|] eqn:CP; cbn [kind_of] in S; pose proof (sh_sem _ _ S) as X; [|congruence]; rewrite <- CP.
    destruct X as (f' & ws' & X & SUM & ND & LINE). rewrite E in X. injection X as -> <- -> <-.
    destruct (wait_gone _ _ _ ND F) as (HE & GR & _).
    pose proof (mi_lent _ _ R) as ML. unfold waiting in ML. rewrite E in ML. specialize (ML (wait_some _ _ _ F)).
    unfold lent, waiting in ML. rewrite E in ML. cbn [Mailbox.waits_of] in ML.
    destruct (Mailbox.rx_closed m) eqn:CL.
    + injection T as <- <-.
      apply (fewer_calls s m _ _ _ 0 (if Mailbox.w_granted w then 1 else 0)); try assumption; try reflexivity; tidy.
    + destruct (Mailbox.w_granted w) eqn:GW; injection T as <- <-; [|apply stays; auto].
      pose proof R as R'. destruct R'.
      assert (P : 0 < reserved s) by (unfold placed, waiting in mi_reserved; rewrite E in mi_reserved; cbn in mi_reserved; lia).
      destruct (releases s P) as (s1 & X1 & Q1 & R1 & O1 & C1 & E1 & S1 & P1).
      set (x := Mailbox.w_signal w) in *.
      destruct (enters s1 (Mailbox.untuck x (Mailbox.with_sem (Mailbox.SBounded cp f false (Mailbox.drop_wait i ws)) m))
        (Mailbox.push x (Mailbox.with_sem (Mailbox.SBounded cp f false (Mailbox.drop_wait i ws)) m)) x)
        as (s2 & sg & X2 & SS & M2 & P2 & C2); try reflexivity.
      * unfold placed, lent, waiting in *. rewrite E in *. cbn in *.
        constructor; unfold placed, lent, waiting; cbn; rewrite ?Q1, ?S1, ?O1, ?E1; auto; try congruence; lia.
      * apply (B w). unfold waiting. rewrite E. exact F.
      * rewrite E1. lia.
      * cbn. rewrite mi_closed in CL. destruct (Mailbox.receiver m); [reflexivity|discriminate].
      * unfold has_room. rewrite C1, CP, Q1, R1, (same_length _ _ mi_queue). apply Nat.ltb_lt.
        unfold placed, waiting in mi_reserved. rewrite E in mi_reserved. cbn in mi_reserved.
        unfold Mailbox_proofs.granted in SUM. lia.
      * unfold lent, waiting. cbn. rewrite E1. lia.
      * exists (ERelease :: send_of x), s2, [OAccept sg].
        split; [apply (exec_two _ [ERelease] _ _ _ _ _ X1 X2)|].
        split; [constructor; [reflexivity|apply send_outside]|]. split; [exact M2|].
        split; [|split; congruence]. cbn [put_in]. unfold waiting. rewrite E. cbn [Mailbox.waits_of]. rewrite F.
        apply accepted_one. exact SS.
  - (* cancel *)
    unfold Mailbox.cancel in T. destruct (Mailbox.sem m) as [b f c ws|n c] eqn:E; [|discriminate].
    destruct (Mailbox.find_wait i ws) as [w|] eqn:F; [|discriminate].
    destruct (cap s) as [cp|] eqn:CP; cbn [kind_of] in S; pose proof (sh_sem _ _ S) as X; [|congruence]; rewrite <- CP.
    destruct X as (f' & ws' & X & SUM & ND & LINE). rewrite E in X. injection X as -> <- -> <-.
    destruct (wait_gone _ _ _ ND F) as (HE & GR & IL).
    pose proof (mi_lent _ _ R) as ML. unfold waiting in ML. rewrite E in ML. specialize (ML (wait_some _ _ _ F)).
    unfold lent, waiting in ML. rewrite E in ML. cbn [Mailbox.waits_of] in ML.
    pose proof (sh_strong _ _ S) as SST. unfold lent, waiting in SST. rewrite E in SST. cbn [Mailbox.waits_of] in SST.
    injection T as <- <-.
    destruct (Mailbox.w_granted w) eqn:GW; cbn [Mailbox.add_permit].
    + destruct (Mailbox.rx_closed m) eqn:CL.
      * apply (fewer_calls s m _ _ _ (Mailbox.holds (Mailbox.w_signal w)) 1); try assumption; try reflexivity; tidy.
      * destruct (Mailbox.grant (Mailbox.drop_wait i ws)) as [ws'|] eqn:G.
        -- destruct (LINE eq_refl) as (IN & _).
           destruct (Mailbox_proofs.grant_some _ _ G (IL IN)) as (_ & _ & GG & _). unfold Mailbox_proofs.granted in GG.
           apply (fewer_calls s m _ _ _ (Mailbox.holds (Mailbox.w_signal w)) 0); try assumption; try reflexivity; tidy.
        -- apply (fewer_calls s m _ _ _ (Mailbox.holds (Mailbox.w_signal w)) 1); try assumption; try reflexivity; tidy.
    + apply (fewer_calls s m _ _ _ (Mailbox.holds (Mailbox.w_signal w)) 0); try assumption; try reflexivity; tidy.
  - (* try_send *)
    destruct B as (N & L).
    destruct (Mailbox.holds s0 <? Mailbox.loose m) eqn:G; [|discriminate]. injection T as M.
    rename s0 into x.
    unfold Mailbox.try_send in M. destruct (Mailbox.sem m) as [b f c ws|n c] eqn:E.
    + destruct c; [injection M as <- <-; apply stays; auto|].
      destruct f as [|f].
      * injection M as <- <-. apply stays; auto.
      * injection M as <- <-. apply (sent_now _ _ _ _ _ x); auto. left. exists b, f, false, ws. auto.
    + destruct c; injection M as <- <-; [apply stays; auto|].
      apply (sent_now _ _ _ _ _ x); auto. right. exists n, false. auto.
  - (* closed *)
    destruct (Mailbox.has _ m); [|discriminate]. injection T as <- <-. apply stays; auto.
  - destruct (Mailbox.has _ m); [|discriminate]. injection T as <- <-. apply stays; auto.
  - (* clone *)
    destruct (Mailbox.has _ m) eqn:HS; [|discriminate]. injection T as <- <-. unfold Mailbox.has in HS. apply Nat.ltb_lt in HS.
    destruct (more_calls s m (Mailbox.with_counts (Datatypes.S (Mailbox.strong m)) (Datatypes.S (Mailbox.loose m)) (Mailbox.weak m) m))
      as (s' & X & M & H); try reflexivity; auto.
    { rewrite (sh_strong _ _ S). lia. }
    exists [EAcquire], s', []. split; [exact X|]. split; [repeat constructor|]. split; [exact M|]. split; [constructor|exact H].
  - (* drop *)
    destruct (Mailbox.loose m) as [|n] eqn:LS; [discriminate|].
    assert (T' : Some (Mailbox.RDone, Mailbox.with_counts (Mailbox.strong m - 1) n (Mailbox.weak m) m) = Some (r, m')).
    { destruct n, (Mailbox.waits_of (Mailbox.sem m)); congruence. }
    injection T' as <- <-. pose proof (sh_strong _ _ S) as SST.
    apply (fewer_calls s m _ _ _ 1 0); try assumption; try reflexivity.
    + unfold placed, waiting. cbn. lia.
    + cbn. lia.
    + destruct (waiting m); lia.
    + intros W. unfold lent, waiting in *. cbn in *. destruct (Mailbox.waits_of (Mailbox.sem m)); [congruence|]. cbn in *. lia.
  - destruct (Mailbox.has _ m); [|discriminate]. injection T as <- <-. apply stays; [|reflexivity]. eapply same_mirrors; eauto.
  - destruct (Mailbox.has _ m); [|discriminate]. injection T as <- <-. apply stays; [|reflexivity]. eapply same_mirrors; eauto.
  - destruct (Mailbox.has _ m); [|discriminate]. injection T as <- <-. apply stays; [|reflexivity]. eapply same_mirrors; eauto.
  - (* upgrade *)
    destruct (Mailbox.has _ m) eqn:HS; [|discriminate].
    destruct (Nat.eqb_spec (Mailbox.strong m) 0) as [Z|Z]; injection T as <- <-; [apply stays; auto|].
    destruct (more_calls s m (Mailbox.with_counts (Datatypes.S (Mailbox.strong m)) (Datatypes.S (Mailbox.loose m)) (Mailbox.weak m) m))
      as (s' & X & M & H); try reflexivity; auto; try lia.
    exists [EAcquire], s', []. split; [exact X|]. split; [repeat constructor|]. split; [exact M|]. split; [constructor|exact H].
  - destruct (Mailbox.has _ m); [|discriminate]. injection T as <- <-. apply stays; auto.
  - destruct (Mailbox.has _ m); [|discriminate]. injection T as <- <-. apply stays; auto.
Qed.
