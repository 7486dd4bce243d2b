(** Proofs about what a sender sees of a mailbox (C66). *)
From Coq Require Import List Bool PeanoNat Lia.
From Verif Require Import Mailbox Mailbox_spec Mailbox_proofs MailboxView_spec.
From Verif Require Errors Requests.
Import ListNotations.

#[local] Arguments unread : simpl never.

Definition others (i : nat) (ws : list wait) : list wait :=
  filter (fun w => w_granted w && negb (Nat.eqb (w_id w) i)) ws.

Lemma others_app : forall i a b, others i (a ++ b) = others i a ++ others i b.
Proof. intros. apply filter_app. Qed.

Lemma others_absent : forall i ws, ~ In i (map w_id ws) -> others i ws = granted ws.
Proof.
  induction ws as [|w ws IH]; intros N; [reflexivity|]. unfold others, granted in *. cbn in *.
  destruct (Nat.eqb_spec (w_id w) i) as [E|E]; [exfalso; tauto|].
  rewrite andb_true_r. destruct (w_granted w); rewrite IH by tauto; reflexivity.
Qed.

Lemma others_drop : forall i ws, others i (drop_wait i ws) = others i ws.
Proof.
  unfold others, drop_wait. induction ws as [|w ws IH]; [reflexivity|]. cbn.
  destruct (Nat.eqb (w_id w) i) eqn:E; cbn; [rewrite IH, andb_false_r; reflexivity|].
  rewrite E. cbn. destruct (w_granted w); cbn; now rewrite IH.
Qed.

Lemma others_present : forall i ws w, NoDup (map w_id ws) -> find_wait i ws = Some w ->
  length (granted ws) = length (others i ws) + (if w_granted w then 1 else 0) /\ w_id w = i /\ In w ws.
Proof.
  intros i ws w N F. destruct (find_wait_split _ _ _ N F) as (a & b & -> & I & _ & NA & NB).
  rewrite others_app, granted_app, !app_length.
  change (others i (w :: b)) with
    (if w_granted w && negb (Nat.eqb (w_id w) i) then w :: others i b else others i b).
  change (granted (w :: b)) with (if w_granted w then w :: granted b else granted b).
  rewrite (others_absent _ _ NA), (others_absent _ _ NB). subst i. rewrite Nat.eqb_refl, andb_false_r.
  split; [destruct (w_granted w); cbn; lia|]. split; [reflexivity|apply in_or_app; right; now left].
Qed.

#[local] Arguments others : simpl never.

Section Shown.
Variable user : nat -> Type.
Variable conv : signal -> Requests.gsignal user.
Local Notation shown := (shown user conv).
Local Notation matches := (matches user conv).

Lemma shown_eq : forall k i m, shown k i m =
  Requests.mk_mailbox (match k with Bounded c => Some c | Unbounded => None end)
    (map conv (queue m)) (length (others i (waits_of (sem m)))) (negb (sem_closed (sem m))).
Proof. reflexivity. Qed.

Lemma room_absent : forall c v m i b f cl ws, agrees (Bounded c) v m -> sem m = SBounded b f cl ws ->
  cl = false -> ~ In i (map w_id ws) ->
  Requests.room (shown (Bounded c) i m) = negb (Nat.eqb f 0).
Proof.
  intros c v m i b f cl ws A E -> N. pose proof (g_sem _ _ _ A) as S. rewrite E in S.
  destruct S as (-> & C & CL & L & ND & F & O). rewrite shown_eq, E. unfold Requests.room. cbn.
  rewrite (others_absent _ _ N), map_length, (g_queue _ _ _ A).
  destruct f as [|f]; cbn; [apply Nat.ltb_ge; lia|apply Nat.ltb_lt; lia].
Qed.

Lemma room_present : forall c v m i b f cl ws w, agrees (Bounded c) v m -> sem m = SBounded b f cl ws ->
  cl = false -> find_wait i ws = Some w ->
  Requests.room (shown (Bounded c) i m) = w_granted w.
Proof.
  intros c v m i b f cl ws w A E -> W. pose proof (g_sem _ _ _ A) as S. rewrite E in S.
  destruct S as (-> & C & CL & L & ND & F & O). rewrite <- CL in O. destruct O as (_ & _ & O).
  destruct (others_present _ _ _ ND W) as (G & _ & I).
  rewrite shown_eq, E. unfold Requests.room. cbn.
  rewrite map_length, (g_queue _ _ _ A). destruct (w_granted w) eqn:GW.
  - apply Nat.ltb_lt. lia.
  - apply Nat.ltb_ge. assert (f = 0); [|lia]. destruct f; [reflexivity|].
    specialize (O ltac:(lia)). rewrite Forall_forall in O. specialize (O _ I). congruence.
Qed.

(** tokio's [try_send] *)
Lemma shown_try_send : forall k h m i s r m', used k h m -> step (OTrySend s) m = Some (r, m') ->
  ~ In i (map w_id (waits_of (sem m))) ->
  matches k i s m m' r
    (Requests.Ready match k with
                    | Bounded _ => Requests.bounded_try_send (shown k i m) (conv s)
                    | Unbounded => Requests.unbounded_send (shown k i m) (conv s)
                    end).
Proof.
  intros k h m i s r m' U. pose proof (used_agrees _ _ _ U) as A. cbn [step].
  destruct (holds s <? loose m); [|discriminate]. intros E N. injection E as E.
  pose proof (g_sem _ _ _ A) as S. unfold try_send in E.
  destruct (sem m) as [b f cl ws|n cl] eqn:X; destruct k as [c|]; try contradiction.
  - destruct S as (-> & C & CL & _).
    unfold Requests.bounded_try_send. destruct cl eqn:K.
    + rewrite shown_eq at 1. rewrite X. cbn. injection E as <- <-. auto.
    + rewrite (room_absent _ _ _ i _ _ _ _ A X eq_refl N).
      rewrite shown_eq at 1. rewrite X. cbn [Requests.mopen sem_closed negb].
      destruct f; cbn [Nat.eqb negb]; injection E as <- <-; cbn; [auto|].
      split; [reflexivity|]. rewrite !shown_eq, X. unfold Requests.enq. cbn. rewrite map_app.
      reflexivity.
  - unfold Requests.unbounded_send. rewrite shown_eq at 1. rewrite X. cbn [Requests.mopen sem_closed].
    destruct cl; injection E as <- <-; cbn; [auto|]. split; [reflexivity|].
    rewrite !shown_eq, X. unfold Requests.enq. cbn. rewrite map_app. reflexivity.
Qed.

(** the first poll of [send] *)
Lemma shown_send : forall k h m i s r m', used k h m -> step (OSend i s) m = Some (r, m') ->
  matches k i s m m' r
    match k with
    | Bounded _ => Requests.bounded_send (shown k i m) (conv s)
    | Unbounded => Requests.Ready (Requests.unbounded_send (shown k i m) (conv s))
    end.
Proof.
  intros k h m i s r m' U. pose proof (used_agrees _ _ _ U) as A. cbn [step].
  destruct (holds s <? loose m); [|discriminate].
  destruct (find_wait i (waits_of (sem m))) eqn:FW; [discriminate|]. apply find_wait_none in FW.
  cbn. intros E. injection E as E.
  pose proof (g_sem _ _ _ A) as S. unfold send in E.
  destruct (sem m) as [b f cl ws|n cl] eqn:X; destruct k as [c|]; try contradiction.
  - destruct S as (-> & C & CL & _).
    unfold Requests.bounded_send. destruct cl eqn:K.
    + rewrite shown_eq at 1. rewrite X. cbn. injection E as <- <-. auto.
    + rewrite (room_absent _ _ _ i _ _ _ _ A X eq_refl FW).
      rewrite shown_eq at 1. rewrite X. cbn [Requests.mopen sem_closed negb].
      destruct f; cbn [Nat.eqb negb]; injection E as <- <-; cbn.
      * split; [reflexivity|]. rewrite !shown_eq, X. cbn. rewrite others_app. change (others i [mkWait i s false]) with (@nil wait).
        now rewrite app_nil_r.
      * split; [reflexivity|]. rewrite !shown_eq, X. unfold Requests.enq. cbn. rewrite map_app.
        reflexivity.
  - unfold Requests.unbounded_send. rewrite shown_eq at 1. rewrite X. cbn [Requests.mopen sem_closed].
    destruct cl; injection E as <- <-; cbn; [auto|]. split; [reflexivity|].
    rewrite !shown_eq, X. unfold Requests.enq. cbn. rewrite map_app. reflexivity.
Qed.

(** every later one *)
Lemma shown_poll : forall k h m i r m', used k h m -> step (OPoll i) m = Some (r, m') ->
  exists c s, k = Bounded c /\ carried i m s /\
  matches k i s m m' r (Requests.bounded_send (shown k i m) (conv s)).
Proof.
  intros k h m i r m' U. pose proof (used_agrees _ _ _ U) as A. cbn [step]. unfold poll_send.
  intros E. pose proof (g_sem _ _ _ A) as S.
  destruct (sem m) as [b f cl ws|n cl] eqn:X; [|discriminate]. destruct k as [c|]; [|contradiction].
  destruct (find_wait i ws) as [w|] eqn:W; [|discriminate].
  destruct S as (-> & C & CL & L & ND & _).
  destruct (others_present _ _ _ ND W) as (_ & WI & IN).
  exists c, (w_signal w). split; [reflexivity|]. split.
  { exists w. rewrite X. auto. }
  unfold Requests.bounded_send. destruct cl eqn:K.
  - rewrite shown_eq at 1. rewrite X. cbn. injection E as <- <-.
    split; [reflexivity|]. split; [reflexivity|]. rewrite !shown_eq, X. cbn. now rewrite others_drop.
  - rewrite (room_present _ _ _ i _ _ _ _ _ A X eq_refl W).
    rewrite shown_eq at 1. rewrite X. cbn [Requests.mopen sem_closed negb].
    destruct (w_granted w); injection E as <- <-; cbn; [|auto].
    split; [reflexivity|]. rewrite !shown_eq, X. unfold Requests.enq. cbn.
    rewrite map_app, others_drop. reflexivity.
Qed.

End Shown.
