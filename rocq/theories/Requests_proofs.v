(** Lemmas about requests. *)
From Coq Require Import List Bool PeanoNat Lia.
Import ListNotations.
From Verif Require Import Errors Dyn Errors_proofs Reply Reply_spec Reply_proofs Requests Requests_spec.

Section Requests.
Variable user : nat -> Type.
Local Notation den := (den user).
Local Notation any := (any user).
Local Notation mailbox := (mailbox user).

Lemma room_full : forall b : mailbox, room b = false <-> full user b.
Proof.
  intros b. unfold room, full. destruct (mcap b) as [c|].
  - rewrite Nat.ltb_ge. split; [intros; eauto|]. intros (c' & [= <-] & H). exact H.
  - split; [discriminate|]. intros (c & [=] & _).
Qed.

Lemma room_not_full : forall b : mailbox, room b = true <-> ~ full user b.
Proof.
  intros b. rewrite <- room_full. destruct (room b); split; congruence.
Qed.

Lemma expects_unique : forall k (b : mailbox) f v1 v2, expects user k b f v1 -> expects user k b f v2 -> v1 = v2.
Proof.
  intros k b f v1 v2 H1 H2.
  assert (T : is_try k = true -> has_mailbox_timeout k = true -> False) by (destruct k; discriminate).
  destruct H1, H2; try congruence; try tauto; try (exfalso; eauto; fail);
    exfalso; match goal with H : _ -> _ = false |- _ => rewrite H in *; auto; discriminate end.
Qed.

(** What the conversion of a channel error gives. *)
Definition converted (M E : ty) (x : chan_error user) : sent user M E :=
  match from_chan_error M E x with Some e => NotSent e | None => SendPanic end.

Lemma push_verdict : forall M E k fired (b : mailbox) sg, exists vd, expects user k b fired vd /\
  push_of (M := M) (E := E) k fired b sg =
  match vd with
  | VSent => Ready (enq sg b, Sent)
  | VWait => Pending
  | VClosed => Ready (b, converted M E (CClosed sg))
  | VFull => Ready (b, converted M E (CFull sg))
  | VTimeout => Ready (b, converted M E (CTimeout sg))
  end.
Proof.
  intros M E k fired b sg.
  destruct (mopen b) eqn:O.
  2: { exists VClosed. split; [now constructor|].
       destruct k; cbn; unfold push_waiting, push_try, push_blocking, bounded_send_timeout, bounded_send,
         bounded_try_send, unbounded_send; rewrite O; destruct (mcap b); try destruct tm; reflexivity. }
  destruct (room b) eqn:R.
  { exists VSent. split; [constructor; auto; now apply room_not_full|].
    destruct k; cbn; unfold push_waiting, push_try, push_blocking, bounded_send_timeout, bounded_send,
         bounded_try_send, unbounded_send; rewrite O, ?R; destruct (mcap b); try destruct tm; reflexivity. }
  assert (F := proj1 (room_full b) R).
  assert (C : exists c, mcap b = Some c) by (destruct F as (c & ? & _); eauto).
  destruct C as (c & C).
  destruct (is_try k) eqn:T.
  { exists VFull. split; [now constructor|].
    destruct k; try discriminate; cbn; unfold push_try, bounded_try_send; rewrite C, O, R; reflexivity. }
  destruct (has_mailbox_timeout k && fired) eqn:G.
  - apply andb_true_iff in G. destruct G as [G ->].
    exists VTimeout. split; [now constructor|].
    destruct k; try discriminate; cbn in *; subst;
      unfold push_waiting, bounded_send_timeout, bounded_send; rewrite C, O, R; reflexivity.
  - exists VWait. split.
    { constructor; auto. intros H. rewrite H in G. exact G. }
    destruct k; try discriminate; cbn in *; try destruct tm; cbn in *; subst;
      unfold push_waiting, push_blocking, bounded_send_timeout, bounded_send; rewrite C, O, R; reflexivity.
Qed.

Lemma same_refl : forall t (v : den t), same user v v.
Proof. reflexivity. Qed.

(** ** The conversion *)

Lemma converted_own : forall m E vd (msg : den m) rp w x,
  (vd = VClosed /\ x = CClosed (GMsg (box user msg) rp w)
   \/ vd = VFull /\ x = CFull (GMsg (box user msg) rp w)
   \/ vd = VTimeout /\ x = CTimeout (GMsg (box user msg) rp w)) ->
  exists e, converted m E x = NotSent e /\ error_is user vd e msg.
Proof.
  intros m E vd msg rp w x [[-> ->]|[[-> ->]|[-> ->]]]; unfold converted; cbn; rewrite unbox_box; cbn;
    eexists; (split; [reflexivity|]); cbn; apply same_refl.
Qed.

Lemma converted_other : forall M m E (msg : den m) rp w x, m <> M ->
  (x = CClosed (GMsg (box user msg) rp w)
   \/ x = CFull (GMsg (box user msg) rp w)
   \/ x = CTimeout (GMsg (box user msg) rp w)) ->
  converted M E x = SendPanic.
Proof.
  intros M m E msg rp w x N [->|[->| ->]]; unfold converted; cbn; rewrite unbox_other by exact N; reflexivity.
Qed.

(** ** stop_gracefully *)

Lemma stop_ok : forall (b b' : mailbox),
  stop_gracefully b = Ready (b', Sent) <-> mopen b = true /\ ~ full user b /\ b' = enq GStop b.
Proof.
  intros b b'. rewrite <- room_not_full. unfold stop_gracefully, unbounded_send, bounded_send.
  assert (C : mcap b = None -> room b = true) by (intros C; unfold room; now rewrite C).
  destruct (mcap b) eqn:EC; destruct (mopen b); try destruct (room b); cbn; split;
    try discriminate; try (intros (? & ? & ?); try discriminate; subst; reflexivity);
    try (intros [= <-]; auto).
Qed.

Lemma stop_closed : forall b : mailbox, mopen b = false -> stop_gracefully b = Ready (b, SendPanic).
Proof.
  intros b O. unfold stop_gracefully, unbounded_send, bounded_send. rewrite O.
  destruct (mcap b); reflexivity.
Qed.

Lemma stop_waits : forall b : mailbox, stop_gracefully b = Pending <-> mopen b = true /\ full user b.
Proof.
  intros b. rewrite <- room_full. unfold stop_gracefully, unbounded_send, bounded_send.
  assert (C : mcap b = None -> room b = true) by (intros C; unfold room; now rewrite C).
  destruct (mcap b) eqn:EC; destruct (mopen b); try destruct (room b); cbn; split;
    try discriminate; try (intros (? & ?); try discriminate); auto.
  discriminate (C eq_refl).
Qed.

Lemma stop_never_reports : forall (b b' : mailbox) e, stop_gracefully b <> Ready (b', NotSent e).
Proof.
  intros b b' e. unfold stop_gracefully, unbounded_send, bounded_send.
  destruct (mcap b); destruct (mopen b); try destruct (room b); cbn; discriminate.
Qed.

Lemma signal_stop_reports : forall b : mailbox, mopen b = false ->
  signal_stop b = Ready (b, NotSent (ActorNotRunning (tt : den TUnit))).
Proof.
  intros b O. unfold signal_stop, unbounded_send, bounded_send. rewrite O.
  destruct (mcap b); reflexivity.
Qed.

(** ** Context::forward *)

Lemma fwd_try : forall d, is_try (fwd_ask d) = is_try (sends_like d).
Proof. now intros []. Qed.

Lemma ctx_forward_asked : forall m r d (msg : den m) ch w (b : mailbox),
  exists vd, expects user (sends_like d) b false vd /\
  ctx_forward m r d msg (Some ch) w b =
  match vd with
  | VSent => Ready (Forwarded (enq (GMsg (box user msg) (Some ch) w) b) None (Ok tt : rval user (RFwd m r)))
  | VWait => Pending
  | _ => Ready (ForwardPanic b)
  end.
Proof.
  intros m r d msg ch w b.
  destruct (push_verdict (TPair m (TReplySender (r_ok (r_value r)))) (r_err r) (fwd_ask d) false b
              (signal_of (fwd_ask d) (box user msg) ch w)) as (vd & X & Q).
  exists vd. split.
  { destruct X; try (now constructor).
    all: try (destruct d; discriminate).
    - constructor 3; auto. now rewrite <- fwd_try.
    - constructor 5; auto. now rewrite <- fwd_try. }
  unfold ctx_forward. rewrite Q.
  assert (S : signal_of (fwd_ask d) (box user msg) ch w = GMsg (box user msg) (Some ch) w) by (destruct d; reflexivity).
  rewrite S.
  assert (N : m <> TPair m (TReplySender (r_ok (r_value r)))).
  { intros Z. apply (f_equal tsize) in Z. cbn in Z. lia. }
  destruct vd; cbn; try reflexivity; erewrite converted_other; eauto.
Qed.

Lemma ctx_forward_told : forall m r d (msg : den m) w (b : mailbox),
  exists vd, expects user (sends_like d) b false vd /\
  match vd with
  | VSent => ctx_forward m r d msg None w b
      = Ready (Forwarded (enq (GMsg (box user msg) None w) b) None (Ok tt : rval user (RFwd m r)))
  | VWait => ctx_forward m r d msg None w b = Pending
  | _ => exists e, ctx_forward m r d msg None w b
      = Ready (Forwarded b None (Err e : rval user (RFwd m r))) /\ error_is (M := m) (E := r_err r) user vd e msg
  end.
Proof.
  intros m r d msg w b.
  destruct (push_verdict m TInfallible (fwd_tell d) false b
              (signal_of (fwd_tell d) (box user msg) 0 w)) as (vd & X & Q).
  exists vd. split; [destruct d; exact X|].
  unfold ctx_forward. rewrite Q.
  assert (S : signal_of (fwd_tell d) (box user msg) 0 w = GMsg (box user msg) None w) by (destruct d; reflexivity).
  rewrite S.
  destruct vd; cbn; try reflexivity; unfold converted; cbn; rewrite unbox_box; cbn;
    eexists; (split; [reflexivity|]); apply same_refl.
Qed.

Variables (m : ty) (r : rty) (k : method) (msg : den m) (chn : nat) (within : bool).
Local Notation step := (rq_step (r := r) (k := k) msg chn within).
Local Notation exec := (rq_exec (r := r) (k := k) msg chn within).

Lemma signal_of_spec : signal_of k (box user msg) chn within = message_signal user k m msg chn within.
Proof. destruct k; reflexivity. Qed.

Lemma error_msg_own : is_tell k || is_ask k = true -> forall v, error_msg k m v = m.
Proof. destruct k; cbn; try discriminate; reflexivity. Qed.

Lemma converted_to_own : forall M E vd x, M = m ->
  (vd = VClosed /\ x = CClosed (signal_of k (box user msg) chn within)
   \/ vd = VFull /\ x = CFull (signal_of k (box user msg) chn within)
   \/ vd = VTimeout /\ x = CTimeout (signal_of k (box user msg) chn within)) ->
  exists e, converted M E x = NotSent e /\ error_is user vd e msg.
Proof.
  intros M E vd x -> H. rewrite signal_of_spec in H. unfold message_signal in H.
  eapply converted_own. unfold box. intuition eauto.
Qed.

(** What one poll of a request that has not been sent yet does. *)
Lemma poll_sending : forall (s : rq_state user m r k) mt rt, rq_pos s = RqSend ->
  exists vd, expects user k (rq_box s) mt vd /\
  match vd with
  | VSent => exists b', appended user (rq_box s) b' [message_signal user k m msg chn within] /\
      step s (RPoll mt rt)
      = Some (mk_rq b' (rq_ch s) (match reply_wait k with Some _ => RqWait | None => RqDone OutSent end),
              [message_signal user k m msg chn within])
  | VWait => step s (RPoll mt rt) = Some (s, [])
  | _ => exists x, step s (RPoll mt rt) = Some (mk_rq (rq_box s) (rq_ch s) (RqFailed x), []) /\
      ((is_tell k || is_ask k = true) \/ (is_enqueue k = true /\ m = TUnit) ->
         exists e, x = NotSent e /\ error_is user vd e msg) /\
      (is_forward k = true \/ (is_enqueue k = true /\ m <> TUnit) -> x = SendPanic)
  end.
Proof.
  intros s mt rt P.
  destruct (push_verdict (error_msg k m (r_ok (r_value r))) (r_err r) k mt (rq_box s)
              (signal_of k (box user msg) chn within)) as (vd & X & Q).
  exists vd. split; [exact X|].
  assert (OWN : forall vd x,
    (vd = VClosed /\ x = CClosed (signal_of k (box user msg) chn within)
     \/ vd = VFull /\ x = CFull (signal_of k (box user msg) chn within)
     \/ vd = VTimeout /\ x = CTimeout (signal_of k (box user msg) chn within)) ->
      ((is_tell k || is_ask k = true) \/ (is_enqueue k = true /\ m = TUnit) ->
         exists e, converted (error_msg k m (r_ok (r_value r))) (r_err r) x = NotSent e /\ error_is user vd e msg) /\
      (is_forward k = true \/ (is_enqueue k = true /\ m <> TUnit) ->
         converted (error_msg k m (r_ok (r_value r))) (r_err r) x = SendPanic)).
  { intros vd' x HX. split.
    - intros HK. apply converted_to_own; [|exact HX].
      destruct HK as [HK|[HK ->]]; [now apply error_msg_own|]. destruct k; try discriminate; reflexivity.
    - intros HK. rewrite signal_of_spec in HX. unfold message_signal in HX.
      eapply converted_other with (m := m) (msg := msg).
      2: { unfold box. intuition eauto. }
      destruct HK as [HK|[HK NE]].
      + intros Z. apply (f_equal tsize) in Z. destruct k; try discriminate; cbn in Z; lia.
      + destruct k; try discriminate; exact NE. }
  cbn [rq_step]. rewrite P, Q.
  destruct vd.
  - exists (enq (signal_of k (box user msg) chn within) (rq_box s)).
    rewrite signal_of_spec. split; [repeat split|]. reflexivity.
  - exists (converted (error_msg k m (r_ok (r_value r))) (r_err r) (CClosed (signal_of k (box user msg) chn within))).
    split; [|apply OWN; auto].
    destruct (converted _ _ _) eqn:Z; try reflexivity.
    unfold converted in Z. destruct (from_chan_error _ _ _); discriminate.
  - eexists. split; [|apply (OWN VFull); auto].
    destruct (converted _ _ _) eqn:Z; try reflexivity.
    unfold converted in Z. destruct (from_chan_error _ _ _); discriminate.
  - eexists. split; [|apply (OWN VTimeout); auto].
    destruct (converted _ _ _) eqn:Z; try reflexivity.
    unfold converted in Z. destruct (from_chan_error _ _ _); discriminate.
  - reflexivity.
Qed.

(** ** Runs *)

Lemma exec_app : forall es1 es2 (s : rq_state user m r k),
  exec s (es1 ++ es2) =
  match exec s es1 with
  | None => None
  | Some (s1, o1) => match exec s1 es2 with None => None | Some (s2, o2) => Some (s2, o1 ++ o2) end
  end.
Proof.
  induction es1 as [|e es1 IH]; intros es2 s; cbn.
  - destruct (exec s es2) as [[]|]; reflexivity.
  - destruct (rq_step msg chn within s e) as [[s1 o1]|]; [|reflexivity].
    rewrite IH. destruct (exec s1 es1) as [[s2 o2]|]; [|reflexivity].
    destruct (exec s2 es2) as [[s3 o3]|]; [|reflexivity]. now rewrite app_assoc.
Qed.

Lemma exec_snoc : forall es e (s s' : rq_state user m r k) os, exec s (es ++ [e]) = Some (s', os) ->
  exists s1 o1 o2, exec s es = Some (s1, o1) /\ step s1 e = Some (s', o2) /\ os = o1 ++ o2.
Proof.
  intros es e s s' os H. rewrite exec_app in H.
  destruct (exec s es) as [[s1 o1]|]; [|discriminate]. cbn in H.
  destruct (rq_step msg chn within s1 e) as [[s2 o2]|] eqn:E; [|discriminate].
  injection H as <- <-. exists s1, o1, o2. rewrite app_nil_r. auto.
Qed.

(** Each poll appends what it reports and touches nothing else. *)
Lemma poll_appends : forall (s s' : rq_state user m r k) mt rt os,
  step s (RPoll mt rt) = Some (s', os) -> appended user (rq_box s) (rq_box s') os /\ rq_ch s' = rq_ch s.
Proof.
  intros s s' mt rt os H.
  assert (NIL : appended user (rq_box s) (rq_box s) []).
  { unfold appended. rewrite app_nil_r. auto. }
  destruct (rq_pos s) eqn:P.
  - destruct (poll_sending s mt rt P) as (vd & _ & Q). destruct vd.
    + destruct Q as (b' & A & Q). rewrite Q in H. injection H as <- <-. auto.
    + destruct Q as (x & Q & _). rewrite Q in H. injection H as <- <-. auto.
    + destruct Q as (x & Q & _). rewrite Q in H. injection H as <- <-. auto.
    + destruct Q as (x & Q & _). rewrite Q in H. injection H as <- <-. auto.
    + rewrite Q in H. injection H as <- <-. auto.
  - cbn in H. rewrite P in H. destruct (reply_wait k); [|discriminate].
    destruct (await_reply _ _ _); injection H as <- <-; auto.
  - cbn in H. rewrite P in H. discriminate.
  - cbn in H. rewrite P in H. discriminate.
Qed.

Lemma others_append_nothing : forall (s s' : rq_state user m r k) e os,
  step s e = Some (s', os) -> (forall mt rt, e <> RPoll mt rt) -> os = [] /\ rq_pos s' = rq_pos s.
Proof.
  intros s s' e os H N. destruct e.
  - edestruct N; reflexivity.
  - cbn in H. destruct (env_ok _ _); [|discriminate]. injection H as <- <-. auto.
  - cbn in H. destruct (rq_ch s); try discriminate. injection H as <- <-. auto.
  - cbn in H. destruct (rq_ch s); try discriminate. injection H as <- <-. auto.
Qed.

Definition accounted (s : rq_state user m r k) (os : list (gsignal user)) : Prop :=
  match rq_pos s with
  | RqSend | RqFailed _ => os = []
  | RqWait | RqDone _ => os = [message_signal user k m msg chn within]
  end.

Lemma accounted_run : forall es b s os, exec (rq_start m r k b) es = Some (s, os) -> accounted s os.
Proof.
  induction es as [|e es IH] using rev_ind; intros b s os H.
  - injection H as <- <-. reflexivity.
  - apply exec_snoc in H. destruct H as (s1 & o1 & o2 & H1 & H2 & ->). specialize (IH _ _ _ H1).
    unfold accounted in *. destruct e as [mt rt|b'|v|].
    2-4: apply others_append_nothing in H2; [|discriminate]; destruct H2 as [-> ->];
         rewrite app_nil_r; exact IH.
    destruct (rq_pos s1) eqn:P.
    + subst o1. destruct (poll_sending s1 mt rt P) as (vd & _ & Q). destruct vd.
      * destruct Q as (b' & A & Q). rewrite Q in H2. injection H2 as <- <-. cbn.
        destruct (reply_wait k); reflexivity.
      * destruct Q as (x & Q & _). rewrite Q in H2. injection H2 as <- <-. reflexivity.
      * destruct Q as (x & Q & _). rewrite Q in H2. injection H2 as <- <-. reflexivity.
      * destruct Q as (x & Q & _). rewrite Q in H2. injection H2 as <- <-. reflexivity.
      * rewrite Q in H2. injection H2 as <- <-. rewrite P. reflexivity.
    + cbn in H2. rewrite P in H2. destruct (reply_wait k); [|discriminate].
      destruct (await_reply _ _ _); injection H2 as <- <-; cbn; rewrite ?P, app_nil_r; exact IH.
    + cbn in H2. rewrite P in H2. discriminate.
    + cbn in H2. rewrite P in H2. discriminate.
Qed.

(** A failed request failed in a poll that met a closed or full mailbox. *)
Lemma failed_run : forall es b s os x, exec (rq_start m r k b) es = Some (s, os) -> rq_pos s = RqFailed x ->
  os = [] /\
  exists es1 mt rt es2 s1 vd, es = es1 ++ RPoll mt rt :: es2 /\
    exec (rq_start m r k b) es1 = Some (s1, []) /\ rq_pos s1 = RqSend /\
    expects user k (rq_box s1) mt vd /\ (vd = VClosed \/ vd = VFull \/ vd = VTimeout) /\
    ((is_tell k || is_ask k = true) \/ (is_enqueue k = true /\ m = TUnit) ->
         exists e, x = NotSent e /\ error_is user vd e msg) /\
    (is_forward k = true \/ (is_enqueue k = true /\ m <> TUnit) -> x = SendPanic).
Proof.
  intros es b s os x H PF. split.
  { apply accounted_run in H. unfold accounted in H. rewrite PF in H. exact H. }
  revert s os H PF. induction es as [|e es IH] using rev_ind; intros s os H PF.
  - injection H as <- <-. discriminate.
  - apply exec_snoc in H. destruct H as (s1 & o1 & o2 & H1 & H2 & ->).
    assert (OLD : rq_pos s1 = RqFailed x ->
      exists es1 mt rt es2 s1 vd, es ++ [e] = es1 ++ RPoll mt rt :: es2 /\
      exec (rq_start m r k b) es1 = Some (s1, []) /\ rq_pos s1 = RqSend /\
      expects user k (rq_box s1) mt vd /\ (vd = VClosed \/ vd = VFull \/ vd = VTimeout) /\
      ((is_tell k || is_ask k = true) \/ (is_enqueue k = true /\ m = TUnit) ->
         exists e, x = NotSent e /\ error_is user vd e msg) /\
      (is_forward k = true \/ (is_enqueue k = true /\ m <> TUnit) -> x = SendPanic)).
    { intros P1. destruct (IH _ _ H1 P1) as (es1 & mt & rt & es2 & s2 & vd & -> & R).
      exists es1, mt, rt, (es2 ++ [e]), s2, vd. rewrite <- app_assoc. split; [reflexivity|exact R]. }
    destruct e as [mt rt|b'|v|].
    2-4: apply others_append_nothing in H2; [|discriminate]; destruct H2 as [_ E2];
         apply OLD; congruence.
    destruct (rq_pos s1) eqn:P.
    + assert (A := accounted_run _ _ _ _ H1). unfold accounted in A. rewrite P in A. subst o1.
      destruct (poll_sending s1 mt rt P) as (vd & X & Q).
      exists es, mt, rt, [], s1, vd.
      destruct vd.
      * destruct Q as (b' & A & Q). rewrite Q in H2. injection H2 as <- <-. cbn in PF.
        destruct (reply_wait k); discriminate.
      * destruct Q as (x' & Q & R). rewrite Q in H2. injection H2 as <- <-. cbn in PF.
        injection PF as <-. do 5 (split; [now auto|]). exact R.
      * destruct Q as (x' & Q & R). rewrite Q in H2. injection H2 as <- <-. cbn in PF.
        injection PF as <-. do 5 (split; [now auto|]). exact R.
      * destruct Q as (x' & Q & R). rewrite Q in H2. injection H2 as <- <-. cbn in PF.
        injection PF as <-. do 5 (split; [now auto|]). exact R.
      * rewrite Q in H2. injection H2 as <- <-. congruence.
    + cbn in H2. rewrite P in H2. destruct (reply_wait k); [|discriminate].
      destruct (await_reply _ _ _); injection H2 as <- <-; cbn in PF; congruence.
    + cbn in H2. rewrite P in H2. discriminate.
    + cbn in H2. rewrite P in H2. discriminate.
Qed.

(** ** Timers *)

Lemma expects_no_timer : forall (b : mailbox) mt, mcap b = None \/ has_mailbox_timeout k = false ->
  forall sg M E, push_of (M := M) (E := E) k mt b sg = push_of k false b sg.
Proof.
  intros b mt H sg M E.
  destruct k; try reflexivity; cbn; unfold push_waiting; destruct (mcap b); try reflexivity;
    (destruct H as [H|H]; [discriminate|]; cbn in H; subst; reflexivity).
Qed.

Lemma step_no_mailbox_timer : forall (s : rq_state user m r k) e,
  mcap (rq_box s) = None \/ has_mailbox_timeout k = false ->
  step s e = step s (no_mailbox_timer user e).
Proof.
  intros s [mt rt| | |] H; try reflexivity. cbn.
  destruct (rq_pos s); try reflexivity. now rewrite (expects_no_timer (rq_box s) mt H).
Qed.

Lemma cap_kept : forall (s s' : rq_state user m r k) e os, step s e = Some (s', os) ->
  mcap (rq_box s') = mcap (rq_box s).
Proof.
  intros s s' e os H. destruct e as [mt rt|b'|v|].
  - apply poll_appends in H. destruct H as [(_ & H & _) _]. exact H.
  - cbn in H. destruct (env_ok _ _) eqn:E; [|discriminate]. injection H as <- <-. cbn.
    unfold env_ok in E. apply andb_true_iff in E. destruct E as [E _].
    destruct (mcap (rq_box s)), (mcap b'); try discriminate; auto.
    apply Nat.eqb_eq in E. congruence.
  - cbn in H. destruct (rq_ch s); try discriminate. injection H as <- <-. reflexivity.
  - cbn in H. destruct (rq_ch s); try discriminate. injection H as <- <-. reflexivity.
Qed.

Lemma exec_no_mailbox_timer : forall es (s : rq_state user m r k),
  mcap (rq_box s) = None \/ has_mailbox_timeout k = false ->
  exec s es = exec s (map (no_mailbox_timer user) es).
Proof.
  induction es as [|e es IH]; intros s H; [reflexivity|]. cbn [rq_exec map].
  rewrite <- step_no_mailbox_timer by exact H.
  destruct (rq_step msg chn within s e) as [[s1 o1]|] eqn:E; [|reflexivity].
  rewrite <- IH; [reflexivity|]. rewrite (cap_kept _ _ _ _ E). exact H.
Qed.

Lemma unbounded_no_timer : forall b es, mcap b = None ->
  exec (rq_start m r k b) es = exec (rq_start m r k b) (map (no_mailbox_timer user) es).
Proof. intros. apply exec_no_mailbox_timer. auto. Qed.

Lemma unset_no_timer : forall b es, has_mailbox_timeout k = false ->
  exec (rq_start m r k b) es = exec (rq_start m r k b) (map (no_mailbox_timer user) es).
Proof. intros. apply exec_no_mailbox_timer. auto. Qed.

Lemma unset_no_reply_timer : forall b es, has_reply_timeout k = false ->
  exec (rq_start m r k b) es = exec (rq_start m r k b) (map (no_reply_timer user) es).
Proof.
  intros b es H. generalize (rq_start m r k b). induction es as [|e es IH]; intros s; [reflexivity|].
  cbn [rq_exec map].
  assert (E : step s e = step s (no_reply_timer user e)).
  { destruct e as [mt rt| | |]; try reflexivity. cbn. destruct (rq_pos s); try reflexivity.
    destruct k; cbn in *; try reflexivity; subst; cbn; reflexivity. }
  rewrite <- E. destruct (rq_step msg chn within s e) as [[s1 o1]|]; [|reflexivity].
  now rewrite IH.
Qed.

(** Waiting for the reply. *)
Lemma wait_poll : forall (s : rq_state user m r k) mt rt, rq_pos s = RqWait -> reply_wait k <> None ->
  step s (RPoll mt rt) =
  match rq_ch s with
  | OValue v =>
      Some (mk_rq (rq_box s) (rq_ch s)
              (RqDone (match receive m r v with
                       | AnsOk x => OutOk x | AnsErr e => OutErr e | AnsPanic => OutPanic end)), [])
  | ODropped => Some (mk_rq (rq_box s) (rq_ch s) (RqDone (OutErr ActorStopped)), [])
  | OEmpty =>
      if has_reply_timeout k && rt
      then Some (mk_rq (rq_box s) (rq_ch s) (RqDone (OutErr (Timeout None))), [])
      else Some (s, [])
  end.
Proof.
  intros s mt rt P W. cbn. rewrite P. unfold await_reply.
  destruct k; cbn in *; try congruence; destruct (rq_ch s); try reflexivity; try destruct tr;
    try destruct rt; reflexivity.
Qed.

Lemma waits : forall es b s os, exec (rq_start m r k b) es = Some (s, os) -> rq_pos s = RqWait ->
  reply_wait k <> None.
Proof.
  induction es as [|e es IH] using rev_ind; intros b s os H P.
  - injection H as <- <-. discriminate.
  - apply exec_snoc in H. destruct H as (s1 & o1 & o2 & H1 & H2 & ->).
    destruct e as [mt rt|b'|v|].
    2-4: apply others_append_nothing in H2; [|discriminate]; destruct H2 as [_ E2];
         eapply IH; [exact H1|congruence].
    destruct (rq_pos s1) eqn:P1.
    + destruct (poll_sending s1 mt rt P1) as (vd & X & Q). destruct vd.
      * destruct Q as (b' & A & Q). rewrite Q in H2. injection H2 as <- <-. cbn in P.
        destruct (reply_wait k); [discriminate|discriminate].
      * destruct Q as (x & Q & _). rewrite Q in H2. injection H2 as <- <-. discriminate.
      * destruct Q as (x & Q & _). rewrite Q in H2. injection H2 as <- <-. discriminate.
      * destruct Q as (x & Q & _). rewrite Q in H2. injection H2 as <- <-. discriminate.
      * rewrite Q in H2. injection H2 as <- <-. congruence.
    + eapply IH; eauto.
    + cbn in H2. rewrite P1 in H2. discriminate.
    + cbn in H2. rewrite P1 in H2. discriminate.
Qed.

(** ** Summaries used by the property theorems *)

Lemma waits_spec : forall es b s os, exec (rq_start m r k b) es = Some (s, os) -> rq_pos s = RqWait ->
  forall mt rt,
  step s (RPoll mt rt) =
  match rq_ch s with
  | OValue v =>
      Some (mk_rq (rq_box s) (rq_ch s)
              (RqDone (match receive m r v with
                       | AnsOk x => OutOk x | AnsErr e => OutErr e | AnsPanic => OutPanic end)), [])
  | ODropped => Some (mk_rq (rq_box s) (rq_ch s) (RqDone (OutErr ActorStopped)), [])
  | OEmpty =>
      if has_reply_timeout k && rt
      then Some (mk_rq (rq_box s) (rq_ch s) (RqDone (OutErr (Timeout None))), [])
      else Some (s, [])
  end.
Proof. intros. apply wait_poll; auto. eapply waits; eauto. Qed.

Lemma poll_any_verdict : forall (s : rq_state user m r k) mt rt vd, rq_pos s = RqSend ->
  expects user k (rq_box s) mt vd ->
  match vd with
  | VSent => exists b', appended user (rq_box s) b' [message_signal user k m msg chn within] /\
      step s (RPoll mt rt)
      = Some (mk_rq b' (rq_ch s) (match reply_wait k with Some _ => RqWait | None => RqDone OutSent end),
              [message_signal user k m msg chn within])
  | VWait => step s (RPoll mt rt) = Some (s, [])
  | _ => exists x, step s (RPoll mt rt) = Some (mk_rq (rq_box s) (rq_ch s) (RqFailed x), []) /\
      ((is_tell k || is_ask k = true) \/ (is_enqueue k = true /\ m = TUnit) ->
         exists e, x = NotSent e /\ error_is user vd e msg) /\
      (is_forward k = true \/ (is_enqueue k = true /\ m <> TUnit) -> x = SendPanic)
  end.
Proof.
  intros s mt rt vd P X. destruct (poll_sending s mt rt P) as (vd' & X' & Q).
  rewrite (expects_unique _ _ _ _ _ X X'). exact Q.
Qed.

Lemma poll_tell_ask : forall (s : rq_state user m r k) mt rt vd, rq_pos s = RqSend ->
  is_tell k || is_ask k = true -> expects user k (rq_box s) mt vd ->
  match vd with
  | VSent => exists b', appended user (rq_box s) b' [message_signal user k m msg chn within] /\
      step s (RPoll mt rt)
      = Some (mk_rq b' (rq_ch s) (if is_tell k then RqDone OutSent else RqWait),
              [message_signal user k m msg chn within])
  | VWait => step s (RPoll mt rt) = Some (s, [])
  | _ => exists e, step s (RPoll mt rt) = Some (mk_rq (rq_box s) (rq_ch s) (RqFailed (NotSent e)), []) /\
      error_is user vd e msg
  end.
Proof.
  intros s mt rt vd P K X. assert (Q := poll_any_verdict s mt rt vd P X).
  destruct vd; try exact Q.
  2-4: destruct Q as (x & Q & A & _); destruct (A (or_introl K)) as (e & -> & R); exists e; auto.
  destruct Q as (b' & A & Q). exists b'. split; [exact A|]. rewrite Q.
  destruct k; try discriminate; reflexivity.
Qed.

Lemma poll_verdict_exists : forall (b : mailbox) mt, exists vd, expects user k b mt vd.
Proof.
  intros b mt. destruct (push_verdict m (r_err r) k mt b GStop) as (vd & X & _). eauto.
Qed.

Lemma failed_tell_ask : forall es b s os x, exec (rq_start m r k b) es = Some (s, os) ->
  rq_pos s = RqFailed x -> is_tell k || is_ask k = true ->
  os = [] /\
  exists es1 mt rt es2 s1 vd e, es = es1 ++ RPoll mt rt :: es2 /\
    exec (rq_start m r k b) es1 = Some (s1, []) /\
    expects user k (rq_box s1) mt vd /\ x = NotSent e /\ error_is user vd e msg.
Proof.
  intros es b s os x H P K. destruct (failed_run _ _ _ _ _ H P) as (-> & es1 & mt & rt & es2 & s1 & vd & A).
  split; [reflexivity|]. destruct A as (E & X1 & _ & X & _ & F & _).
  destruct (F (or_introl K)) as (e & -> & R).
  exists es1, mt, rt, es2, s1, vd, e. auto.
Qed.

Lemma enqueue_forward_panics : forall es b s os x, exec (rq_start m r k b) es = Some (s, os) ->
  rq_pos s = RqFailed x -> is_forward k = true \/ is_enqueue k = true /\ m <> TUnit ->
  x = SendPanic /\ os = [].
Proof.
  intros es b s os x H P K. destruct (failed_run _ _ _ _ _ H P) as (-> & es1 & mt & rt & es2 & s1 & vd & A).
  destruct A as (_ & _ & _ & _ & _ & _ & F). auto.
Qed.

Lemma enqueue_forward_closed : forall (s : rq_state user m r k) mt rt, rq_pos s = RqSend ->
  mopen (rq_box s) = false -> is_forward k = true \/ is_enqueue k = true /\ m <> TUnit ->
  step s (RPoll mt rt) = Some (mk_rq (rq_box s) (rq_ch s) (RqFailed SendPanic), []).
Proof.
  intros s mt rt P O K.
  destruct (poll_any_verdict s mt rt VClosed P (ex_closed _ _ _ _ O)) as (x & Q & _ & F).
  rewrite Q, (F K). reflexivity.
Qed.

Lemma enqueue_unit_reports : forall es b s os x, exec (rq_start m r k b) es = Some (s, os) ->
  rq_pos s = RqFailed x -> is_enqueue k = true -> m = TUnit ->
  os = [] /\ exists e, x = NotSent e.
Proof.
  intros es b s os x H P K U. destruct (failed_run _ _ _ _ _ H P) as (-> & es1 & mt & rt & es2 & s1 & vd & A).
  destruct A as (_ & _ & _ & _ & _ & F & _). destruct (F (or_intror (conj K U))) as (e & -> & _). eauto.
Qed.

End Requests.
