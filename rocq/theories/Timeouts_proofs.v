(** Proofs about Timeouts. *)
From Coq Require Import List Bool NArith Lia.
Import ListNotations.
From Verif Require Import Errors Dyn Reply Requests Timeouts Timeouts_spec Timeouts_examples.

(** ** From the caller's code to the mailbox *)

(** The settings a chain of calls leaves. *)
Definition settled (l : list setter) (c : conf) : Prop :=
  (cf_mailbox c = Without /\ set_last SetMailbox l None \/
   exists d, cf_mailbox c = With (Some d) /\ set_last SetMailbox l (Some d)) /\
  (cf_reply c = Without /\ set_last SetReply l None \/
   exists d, cf_reply c = With (Some d) /\ set_last SetReply l (Some d)).

Lemma last_more : forall f l x o, set_last f l o -> (forall d, x <> f d) -> set_last f (l ++ [x]) o.
Proof.
  intros f l x [d|]; cbn.
  - intros (l1 & l2 & -> & N) X. exists l1, (l2 ++ [x]). split; [now rewrite <- app_assoc|].
    intros d' I. apply in_app_or in I. destruct I as [I|[I|[]]]; [exact (N _ I)|exact (X _ I)].
  - intros N X d I. apply in_app_or in I. destruct I as [I|[I|[]]]; [exact (N _ I)|exact (X _ I)].
Qed.

Lemma last_now : forall f l d, set_last f (l ++ [f d]) (Some d).
Proof. intros f l d. exists l, []. split; [reflexivity|]. intros d' []. Qed.

Lemma set_all_app : forall t l1 l2 c, set_all t c (l1 ++ l2) =
  match set_all t c l1 with Some c' => set_all t c' l2 | None => None end.
Proof.
  induction l1 as [|x l1 IH]; intros l2 c; cbn; [reflexivity|]. destruct (set_timeout t c x); auto.
Qed.

Lemma set_all_settled : forall t l c, set_all t new_conf l = Some c ->
  settled l c /\ (t <> LocalAsk -> t <> RemoteAsk -> cf_reply c = Without).
Proof.
  intros t. induction l as [|x l IH] using rev_ind; intros c H.
  - injection H as <-. split; [|auto]. split; left; (split; [reflexivity|]); intros d [].
  - rewrite set_all_app in H. destruct (set_all t new_conf l) as [c0|] eqn:E; [|discriminate].
    destruct (IH _ eq_refl) as ((A & B) & R). clear IH. cbn in H.
    assert (A1 : forall d, cf_mailbox c0 = Without /\ set_last SetMailbox (l ++ [SetReply d]) None \/
      exists e, cf_mailbox c0 = With (Some e) /\ set_last SetMailbox (l ++ [SetReply d]) (Some e)).
    { intros d. destruct A as [[Q P]|(e & Q & P)]; [left|right; exists e];
      (split; [exact Q|]); (apply last_more; [exact P|discriminate]). }
    assert (B1 : forall d, cf_reply c0 = Without /\ set_last SetReply (l ++ [SetMailbox d]) None \/
      exists e, cf_reply c0 = With (Some e) /\ set_last SetReply (l ++ [SetMailbox d]) (Some e)).
    { intros d. destruct B as [[Q P]|(e & Q & P)]; [left|right; exists e];
      (split; [exact Q|]); (apply last_more; [exact P|discriminate]). }
    assert (N1 : forall f d, set_last f (l ++ [f d]) (Some d)) by (intros; apply last_now).
    destruct x as [d|d]; destruct t; cbn [set_timeout] in H; try discriminate; injection H as <-;
    (split; [split|]); cbn [cf_mailbox cf_reply mailbox_timeout_opt reply_timeout_opt]; auto; try congruence;
    right; exists d; split; auto.
Qed.

Lemma last_unique : forall f l a b, (forall d d', f d = f d' -> d = d') -> set_last f l a -> set_last f l b -> a = b.
Proof.
  intros f l a b J.
  assert (K : forall d1 l1 l2 d2 l3 l4, l1 ++ f d1 :: l2 = l3 ++ f d2 :: l4 ->
    (forall d', ~ In (f d') l2) -> (forall d', ~ In (f d') l4) -> d1 = d2).
  { intros d1 l1. induction l1 as [|y l1 IH]; intros l2 d2 l3 l4 E N1 N2; destruct l3 as [|z l3]; cbn in E;
    injection E as E1 E2.
    - auto.
    - subst l2. destruct (N1 d2). apply in_or_app. right. now left.
    - subst l4. destruct (N2 d1). apply in_or_app. right. now left.
    - eauto. }
  destruct a as [d1|], b as [d2|]; cbn.
  - intros (l1 & l2 & -> & N1) (l3 & l4 & E & N2). f_equal. eauto.
  - intros (l1 & l2 & -> & N1) N. destruct (N d1). apply in_or_app. right. now left.
  - intros N (l1 & l2 & -> & N1). destruct (N d2). apply in_or_app. right. now left.
  - reflexivity.
Qed.

Lemma set_all_total : forall t l, (t = LocalAsk \/ t = RemoteAsk \/ set_last SetReply l None) ->
  exists c, set_all t new_conf l = Some c.
Proof.
  intros t l. generalize new_conf. induction l as [|x l IH]; intros c H; cbn; [eauto|].
  assert (K : exists c', set_timeout t c x = Some c').
  { destruct x as [d|d]; destruct t; cbn; eauto; destruct H as [H|[H|H]]; try discriminate; destruct (H d); now left. }
  destruct K as (c' & ->). apply IH. destruct H as [H|[H|H]]; auto. right. right. intros d I. apply (H d). now right.
Qed.

Theorem plan_meaning : forall t l h p, plan_of t l h = Some p <->
  set_last SetMailbox l (p_mailbox p) /\ set_last SetReply l (p_reply p)
  /\ sends t h (is_set (p_mailbox p)) (is_set (p_reply p)) (p_method p).
Proof.
  intros t l h p. unfold plan_of. split.
  - destruct (set_all t new_conf l) as [c|] eqn:E; [|discriminate].
    destruct (set_all_settled _ _ _ E) as ((A & B) & R). destruct c as [cm cr]. cbn in *.
    destruct A as [[-> A]|(d & -> & A)], B as [[-> B]|(e & -> & B)];
    destruct t, h; try (specialize (R ltac:(discriminate) ltac:(discriminate)); discriminate R);
    cbn; intros H; try discriminate; injection H as <-; cbn; (split; [assumption|]; split; [assumption|]);
    first [apply sends_remote_tell | apply sends_remote_tell_try | constructor; auto].
  - intros (A & B & S). destruct p as [k tm tr]. cbn in *.
    destruct (set_all_total t l) as (c & E).
    { destruct tr; [|auto]. destruct t; auto; inversion S; subst; try (match goal with H : _ \/ _ |- _ => destruct H; discriminate end). }
    rewrite E. destruct (set_all_settled _ _ _ E) as ((A' & B') & R). destruct c as [cm cr]. cbn in *.
    assert (Cm : cm = match tm with Some d => With (Some d) | None => Without end).
    { destruct A' as [[-> A']|(d & -> & A')].
      - rewrite (last_unique SetMailbox l tm None); auto. intros; congruence.
      - rewrite (last_unique SetMailbox l tm (Some d)); auto. intros; congruence. }
    assert (Cr : cr = match tr with Some d => With (Some d) | None => Without end).
    { destruct B' as [[-> B']|(d & -> & B')].
      - rewrite (last_unique SetReply l tr None); auto. intros; congruence.
      - rewrite (last_unique SetReply l tr (Some d)); auto. intros; congruence. }
    clear A A' B B' R E. subst cm cr.
    inversion S; subst; destruct tm, tr; cbn in *; try discriminate; try reflexivity;
    match goal with H : _ \/ _ |- _ => destruct H; subst; reflexivity end.
Qed.

(** ** The clock *)

(** Does the method wait for a place with a timeout, as far as it waits at all. *)
Definition mailbox_flag (k : method) : bool :=
  match k with MTell a | MAsk a _ | MEnqueue a _ | MForward a => a | _ => false end.

Lemma plan_flags : forall t l h p, plan_of t l h = Some p ->
  mailbox_flag (p_method p) = is_set (p_mailbox p)
  /\ (forall b, reply_wait (p_method p) = Some b -> b = is_set (p_reply p)).
Proof.
  intros t l h p H. apply plan_meaning in H. destruct H as (_ & _ & S).
  inversion S; cbn; split; try congruence; intros b0 E; congruence.
Qed.

Section Timed.
Variable user : nat -> Type.
Variable gran : N.
Variables (m : ty) (r : rty) (p : plan) (msg : den user m) (chn : nat) (within : bool).
Hypothesis Fm : mailbox_flag (p_method p) = is_set (p_mailbox p).
Hypothesis Fr : forall b, reply_wait (p_method p) = Some b -> b = is_set (p_reply p).

Local Notation timed := (timed user m r p).
Local Notation tstep := (@tstep user gran m r p msg chn within).
Local Notation texec := (@texec user gran m r p msg chn within).
Local Notation rq_step := (@rq_step user m r (p_method p) msg chn within).

Lemma ready_eq : forall (A : Type) (x y : A), Ready x = Ready y -> x = y.
Proof. intros A x y H. injection H as H. exact H. Qed.

Lemma question_timeout : forall (M E : ty) (b b' : mailbox user) x o,
  question (M := M) (E := E) b x = (b', NotSent (Timeout o)) -> exists sg, x = Err (CTimeout sg).
Proof.
  intros M E b b' [y|[sg|sg|sg]] o H; unfold question in H; [discriminate| | |eauto];
  unfold from_chan_error in H; destruct (downcast_message M sg); discriminate.
Qed.

Lemma push_waiting_ways : forall (M E : ty) (tm mt : bool) (b : mailbox user) sg,
  push_waiting (M := M) (E := E) tm mt b sg = Pending /\ (tm = true -> mt = false)
  \/ exists b' x, push_waiting (M := M) (E := E) tm mt b sg = Ready (b', x)
     /\ forall o, x = NotSent (Timeout o) -> tm = true /\ mt = true.
Proof.
  intros M E tm mt b sg. destruct (push_waiting tm mt b sg) as [|[b' x]] eqn:H; [left|right].
  - split; [reflexivity|]. intros ->. unfold push_waiting in H. destruct (mcap b); [|discriminate].
    unfold bounded_send_timeout in H. destruct (bounded_send b sg); [|discriminate]. destruct mt; [discriminate|reflexivity].
  - exists b', x. split; [reflexivity|]. intros o ->. unfold push_waiting in H. destruct (mcap b).
    + destruct tm; unfold bounded_send_timeout, bounded_send in H.
      * destruct (mopen b), (room b), mt; cbn [map_poll] in H; try discriminate; auto;
        apply ready_eq in H; destruct (question_timeout _ _ _ _ _ _ H) as (sg' & K); discriminate K.
      * destruct (mopen b), (room b); cbn [map_poll] in H; try discriminate;
        apply ready_eq in H; destruct (question_timeout _ _ _ _ _ _ H) as (sg' & K); discriminate K.
    + apply ready_eq in H. destruct (question_timeout _ _ _ _ _ _ H) as (sg' & K).
      unfold unbounded_send in K. destruct (mopen b); discriminate K.
Qed.

Lemma push_ways : forall (M E : ty) (mt : bool) (b : mailbox user) sg,
  push_of (M := M) (E := E) (p_method p) mt b sg = Pending /\ (is_set (p_mailbox p) = true -> mt = false)
  \/ exists b' x, push_of (M := M) (E := E) (p_method p) mt b sg = Ready (b', x)
     /\ forall o, x = NotSent (Timeout o) -> is_set (p_mailbox p) = true /\ mt = true.
Proof.
  intros M E mt b sg. rewrite <- Fm. unfold push_of. destruct (p_method p); cbn;
  try apply push_waiting_ways;
  try (right; destruct (push_try b sg) as [b' x] eqn:H; exists b', x; split; [reflexivity|]; intros o ->;
    unfold push_try in H; destruct (mcap b); destruct (question_timeout _ _ _ _ _ _ H) as (sg' & K);
    unfold bounded_try_send, unbounded_send in K; destruct (mopen b); try discriminate K;
    destruct (room b); discriminate K);
  (destruct (push_blocking b sg) as [|[b' x]] eqn:H; [left; split; [reflexivity|discriminate]|right];
   exists b', x; split; [reflexivity|]; intros o ->; unfold push_blocking in H; destruct (mcap b);
   [unfold bounded_send in H; destruct (mopen b); [destruct (room b); [|discriminate]|]; cbn [map_poll] in H|];
   apply ready_eq in H; destruct (question_timeout _ _ _ _ _ _ H) as (sg' & K); try discriminate K;
   unfold unbounded_send in K; destruct (mopen b); discriminate K).
Qed.

(** A poll that sends. *)
Lemma step_send : forall s mt q sent, rq_pos s = RqSend -> rq_step s (RPoll mt false) = Some (q, sent) ->
  rq_ch q = rq_ch s /\
  (q = s /\ sent = [] /\ (is_set (p_mailbox p) = true -> mt = false)
   \/ sent <> [] /\ rq_pos q = match reply_wait (p_method p) with Some _ => RqWait | None => RqDone OutSent end
   \/ sent = [] /\ exists x, rq_pos q = RqFailed x
      /\ forall o, x = NotSent (Timeout o) -> is_set (p_mailbox p) = true /\ mt = true).
Proof.
  intros s mt q sent P H. unfold Requests.rq_step in H. rewrite P in H.
  destruct (push_ways (error_msg (p_method p) m (r_ok (r_value r))) (r_err r) mt (rq_box s)
    (signal_of (p_method p) (box user msg) chn within)) as [(E & T)|(b' & x & E & T)]; rewrite E in H.
  - injection H as <- <-. auto.
  - destruct x as [|e|]; injection H as <- <-; (split; [reflexivity|]); right.
    + left. split; [discriminate|reflexivity].
    + right. split; [reflexivity|]. eexists. split; [reflexivity|]. exact T.
    + right. split; [reflexivity|]. eexists. split; [reflexivity|]. exact T.
Qed.

(** A poll that waits for the reply. *)
Lemma step_wait : forall s rt q sent, rq_pos s = RqWait -> rq_step s (RPoll false rt) = Some (q, sent) ->
  sent = [] /\ rq_ch q = rq_ch s /\ (exists b, reply_wait (p_method p) = Some b) /\
  (q = s /\ (is_set (p_reply p) = true -> rt = false)
   \/ exists o, rq_pos q = RqDone o
      /\ (o = OutErr (Timeout None) -> (forall v, rq_ch s <> OValue v) -> is_set (p_reply p) = true /\ rt = true)).
Proof.
  intros s rt q sent P H. unfold Requests.rq_step in H. rewrite P in H.
  destruct (reply_wait (p_method p)) as [tr|] eqn:W; [|discriminate]. rewrite (Fr _ eq_refl) in H.
  destruct (await_reply (is_set (p_reply p)) rt (rq_ch s)) as [|o] eqn:A; injection H as <- <-;
  (split; [reflexivity|]; split; [reflexivity|]; split; [eauto|]).
  - left. split; [reflexivity|]. intros F. unfold await_reply in A. rewrite F in A.
    destruct (rq_ch s); try discriminate. destruct rt; [discriminate|reflexivity].
  - right. exists o. split; [reflexivity|]. intros -> E. unfold await_reply in A.
    destruct (rq_ch s) as [|v|] eqn:C; [| |discriminate].
    + destruct (is_set (p_reply p)), rt; try discriminate. auto.
    + destruct (E v eq_refl).
Qed.

(** ** Runs *)

(** [t] is not too long after [t0]. *)
Definition early (d : option duration) (t0 t : N) : Prop :=
  match d with Some d => (t < t0 + d + gran)%N | None => True end.

Lemma fired_false : forall d t0 now prompt, fired gran (option_map (N.add t0) d) prompt now = false -> early d t0 now.
Proof.
  intros [d|] t0 now prompt H; [|exact I]. cbn in *.
  destruct prompt; apply N.leb_gt in H; lia.
Qed.

Lemma fired_true : forall d t0 now prompt, fired gran (option_map (N.add t0) d) prompt now = true ->
  exists x, d = Some x /\ (t0 + x <= now)%N.
Proof.
  intros [d|] t0 now prompt H; [|discriminate]. cbn in *. exists d. split; [reflexivity|].
  destruct prompt; apply N.leb_le in H; lia.
Qed.

Lemma is_set_early : forall d t0 now prompt,
  (is_set d = true -> fired gran (option_map (N.add t0) d) prompt now = false) -> early d t0 now.
Proof.
  intros [d|] t0 now prompt H; [|exact I]. apply (fired_false (Some d) _ _ prompt). apply H. reflexivity.
Qed.

(** The polls before the message was handed over. *)
Definition trying (ts : list N) (now : N) : Prop :=
  match ts with
  | [] => True
  | t0 :: _ => Forall (fun t => (t0 <= t <= now)%N /\ early (p_mailbox p) t0 t) ts
  end.

(** When the timer of the reply was made. *)
Definition from (t1 : N) (us : list N) : option N :=
  if at_once (p_method p) then Some t1 else hd_error us.

Definition timer (d : option duration) (t : option N) : option N :=
  match t with Some t => option_map (N.add t) d | None => None end.

Definition asking (t1 : N) (us : list N) (now : N) : Prop :=
  Forall (fun u => (t1 <= u <= now)%N) us
  /\ forall f, from t1 us = Some f -> Forall (fun u => (f <= u)%N /\ early (p_reply p) f u) us.

Definition inv (s : timed) (tr : list tobs) : Prop :=
  match rq_pos (t_rq s) with
  | RqSend => exists ts, tr = map Polled ts /\ trying ts (t_now s)
      /\ t_mailbox s = timer (p_mailbox p) (hd_error ts) /\ t_reply s = None
  | RqWait => exists ts t1 us, tr = map Polled (ts ++ [t1]) ++ Enqueued t1 :: map Polled us
      /\ trying ts t1 /\ (t1 <= t_now s)%N /\ asking t1 us (t_now s)
      /\ t_reply s = timer (p_reply p) (from t1 us)
  | RqFailed x => exists ts t1, tr = map Polled (ts ++ [t1]) ++ [Finished t1]
      /\ trying ts t1 /\ (t1 <= t_now s)%N
      /\ forall o, x = NotSent (Timeout o) ->
         exists d t0, hd_error (ts ++ [t1]) = Some t0 /\ p_mailbox p = Some d /\ (t0 + d <= t1)%N
  | RqDone o => exists ts t1, trying ts t1 /\ (t1 <= t_now s)%N /\
      (o = OutSent /\ tr = map Polled (ts ++ [t1]) ++ [Enqueued t1; Finished t1]
       \/ exists us t2, tr = map Polled (ts ++ [t1]) ++ Enqueued t1 :: map Polled (us ++ [t2]) ++ [Finished t2]
          /\ asking t1 us t2 /\ (t1 <= t2 <= t_now s)%N
          /\ (o = OutErr (Timeout None) -> (forall v, rq_ch (t_rq s) <> OValue v) ->
              exists d f, from t1 (us ++ [t2]) = Some f /\ p_reply p = Some d /\ (f + d <= t2)%N))
  end.

Lemma trying_now : forall ts a b, trying ts a -> (a <= b)%N -> trying ts b.
Proof.
  intros [|t ts] a b H L; [exact I|]. unfold trying in *. eapply Forall_impl; [|exact H].
  cbn. intros x (? & ?). split; [lia|assumption].
Qed.

Lemma asking_now : forall t1 us a b, asking t1 us a -> (a <= b)%N -> asking t1 us b.
Proof.
  intros t1 us a b (H & K) L. split; [|exact K]. eapply Forall_impl; [|exact H]. cbn. intros. lia.
Qed.

Lemma hd_first : forall (A : Type) (l : list A) x, hd_error (l ++ [x]) = Some (hd x l).
Proof. intros A [|y l] x; reflexivity. Qed.

Lemma trying_more : forall ts now, trying ts now -> early (p_mailbox p) (hd now ts) now -> trying (ts ++ [now]) now.
Proof.
  intros [|t ts] now H E; cbn in *.
  - repeat constructor; try lia. exact E.
  - apply Forall_cons_iff in H. destruct H as (H1 & H2). constructor; [exact H1|].
    apply Forall_app. split; [exact H2|]. repeat constructor; [lia|lia|exact E].
Qed.

Lemma made : forall d (ts : list N) now, deadline (timer d (hd_error ts)) d now = option_map (N.add (hd now ts)) d.
Proof. intros [d|] [|t ts] now; reflexivity. Qed.

Lemma from_more : forall t1 us u, from t1 (us ++ [u]) = Some (if at_once (p_method p) then t1 else hd u us).
Proof. intros t1 us u. unfold from. rewrite hd_first. destruct (at_once (p_method p)); reflexivity. Qed.

Lemma made_reply : forall d t1 us now, deadline (timer d (from t1 us)) d now = timer d (from t1 (us ++ [now])).
Proof.
  intros [d|] t1 us now; rewrite from_more; unfold from; destruct (at_once (p_method p)); try reflexivity;
  destruct us; reflexivity.
Qed.

Lemma asking_more : forall t1 us now, asking t1 us now -> (t1 <= now)%N ->
  early (p_reply p) (if at_once (p_method p) then t1 else hd now us) now -> asking t1 (us ++ [now]) now.
Proof.
  intros t1 us now (H & K) L E. split.
  - apply Forall_app. split; [exact H|]. repeat constructor; lia.
  - intros f F. rewrite from_more in F. injection F as F. apply Forall_app.
    assert (N : (f <= now)%N).
    { subst f. destruct (at_once (p_method p)); [exact L|]. destruct us as [|u us]; cbn; [lia|].
      apply Forall_cons_iff in H. lia. }
    split; [|subst f; repeat constructor; assumption].
    destruct us as [|u us]; [constructor|]. apply K. subst f. unfold from.
    destruct (at_once (p_method p)); reflexivity.
Qed.

Lemma polls_snoc : forall l x, map Polled (l ++ [x]) = map Polled l ++ [Polled x].
Proof. intros. apply map_app. Qed.

Lemma inv_step : forall s tr e s' o, inv s tr -> tstep s e = Some (s', o) -> inv s' (tr ++ o).
Proof.
  intros s tr e s' o I H. destruct e as [d|prompt|b|v|].
  - (* time *)
    injection H as <- <-. rewrite app_nil_r. unfold inv in *. cbn [t_now t_mailbox t_reply t_rq].
    destruct (rq_pos (t_rq s)) as [| |x|x].
    + destruct I as (ts & A & B & C & D). exists ts. repeat split; auto. eapply trying_now; [exact B|lia].
    + destruct I as (ts & t1 & us & A & B & C & D & E). exists ts, t1, us. repeat split; auto; try lia;
      apply (asking_now _ _ _ (t_now s + d)%N D); lia.
    + destruct I as (ts & t1 & A & B & [C|(us & t2 & C & D & E & F)]); exists ts, t1;
      (split; [exact A|]; split; [lia|]); [left; exact C|right].
      exists us, t2. repeat split; auto; try apply D; lia.
    + destruct I as (ts & t1 & A & B & C & D). exists ts, t1. repeat split; auto. lia.
  - (* a poll *)
    cbn [tstep] in H. unfold Timeouts.tstep, tpoll in H. unfold inv in I.
    destruct (rq_pos (t_rq s)) as [| |x|x] eqn:P.
    + destruct I as (ts & A & B & C & D). rewrite C, made in H.
      set (f := fired gran _ prompt _) in H.
      destruct (rq_step (t_rq s) (RPoll f false)) as [[q sent]|] eqn:R; [|discriminate].
      apply step_send in R; [|exact P]. destruct R as (_ & [(-> & -> & T)|[(T & Q)|(-> & x & Q & T)]]).
      * injection H as <- <-. unfold inv. cbn [t_now t_mailbox t_reply t_rq]. rewrite P. cbn [over app].
        exists (ts ++ [t_now s]). rewrite polls_snoc, A. split; [reflexivity|]. split; [|split].
        { apply trying_more; [exact B|]. exact (is_set_early _ _ _ _ T). }
        { rewrite hd_first. reflexivity. }
        { reflexivity. }
      * injection H as <- <-. unfold inv. cbn [t_now t_mailbox t_reply t_rq]. rewrite Q.
        destruct (reply_wait (p_method p)) eqn:W.
        { exists ts, (t_now s), []. cbn [over app map].
          assert (K : match sent with [] => [] | _ => [Enqueued (t_now s)] end = [Enqueued (t_now s)])
            by (destruct sent; [destruct (T eq_refl)|reflexivity]).
          rewrite K, polls_snoc, A. split; [rewrite <- app_assoc; reflexivity|]. split; [exact B|]. split; [lia|].
          split; [split; [constructor|intros; constructor]|].
          unfold from. destruct (at_once (p_method p)); reflexivity. }
        { exists ts, (t_now s). split; [exact B|]. split; [lia|]. left. split; [reflexivity|]. cbn [over].
          assert (K : match sent with [] => [] | _ => [Enqueued (t_now s)] end = [Enqueued (t_now s)])
            by (destruct sent; [destruct (T eq_refl)|reflexivity]).
          rewrite K, polls_snoc, A. rewrite <- app_assoc. reflexivity. }
      * injection H as <- <-. unfold inv. cbn [t_now t_mailbox t_reply t_rq]. rewrite Q.
        exists ts, (t_now s). cbn [over app]. rewrite polls_snoc, A. split; [rewrite <- app_assoc; reflexivity|].
        split; [exact B|]. split; [lia|]. intros o E. destruct (T _ E) as (_ & T').
        apply fired_true in T'. destruct T' as (d & -> & L). exists d, (hd (t_now s) ts).
        rewrite hd_first. auto.
    + destruct I as (ts & t1 & us & A & B & C & D & E). rewrite E, made_reply in H.
      set (f := fired gran _ prompt _) in H.
      destruct (rq_step (t_rq s) (RPoll false f)) as [[q sent]|] eqn:R; [|discriminate].
      apply step_wait in R; [|exact P]. destruct R as (-> & X & _ & [(-> & T)|(x & Q & T)]);
      injection H as <- <-; unfold inv; cbn [t_now t_mailbox t_reply t_rq].
      * rewrite P. cbn [over]. exists ts, t1, (us ++ [t_now s]). split; [|split; [exact B|split; [exact C|split]]].
        { rewrite (polls_snoc us), A, <- app_assoc. reflexivity. }
        { apply asking_more; [exact D|exact C|]. apply (is_set_early _ _ _ prompt). intros F. specialize (T F).
          subst f. rewrite from_more in T. exact T. }
        { reflexivity. }
      * rewrite Q. cbn [over]. exists ts, t1. split; [exact B|]. split; [exact C|]. right.
        exists us, (t_now s). split; [|split; [exact D|split; [lia|]]].
        { rewrite (polls_snoc us), A. repeat (rewrite <- app_assoc; cbn [app]). reflexivity. }
        { intros -> N. rewrite X in N. destruct (T eq_refl N) as (_ & T'). subst f. rewrite from_more in *.
          apply fired_true in T'. destruct T' as (d & -> & L). eauto. }
    + cbn in H. rewrite P in H. discriminate.
    + cbn in H. rewrite P in H. discriminate.
  - cbn in H. destruct (env_ok (rq_box (t_rq s)) b); [|discriminate]. injection H as <- <-. rewrite app_nil_r. exact I.
  - cbn in H. destruct (rq_ch (t_rq s)) eqn:C; try discriminate. injection H as <- <-. rewrite app_nil_r.
    unfold inv in *. cbn [t_now t_mailbox t_reply t_rq rq_pos rq_ch]. destruct (rq_pos (t_rq s)); auto.
    destruct I as (ts & t1 & A & B & [D|(us & t2 & D & E & F & G)]); exists ts, t1;
    (split; [exact A|]; split; [exact B|]); [left; exact D|right]. exists us, t2. repeat split; try assumption; try apply E; try apply F.
    intros _ K. destruct (K v eq_refl).
  - cbn in H. destruct (rq_ch (t_rq s)) eqn:C; try discriminate. injection H as <- <-. rewrite app_nil_r.
    unfold inv in *. cbn [t_now t_mailbox t_reply t_rq rq_pos rq_ch]. destruct (rq_pos (t_rq s)); auto.
    destruct I as (ts & t1 & A & B & [D|(us & t2 & D & E & F & G)]); exists ts, t1;
    (split; [exact A|]; split; [exact B|]); [left; exact D|right]. exists us, t2. repeat split; try assumption; try apply E; try apply F.
    intros K _. apply G; [exact K|]. intros v. rewrite C. discriminate.
Qed.

Lemma inv_exec : forall es s tr s' o, inv s tr -> texec s es = Some (s', o) -> inv s' (tr ++ o).
Proof.
  induction es as [|e es IH]; cbn [Timeouts.texec]; intros s tr s' o I H.
  - injection H as <- <-. rewrite app_nil_r. exact I.
  - destruct (tstep s e) as [[s1 o1]|] eqn:E; [|discriminate].
    destruct (texec s1 es) as [[s2 o2]|] eqn:E2; [|discriminate].
    injection H as <- <-. rewrite app_assoc. eapply IH; [|exact E2]. eapply inv_step; eassumption.
Qed.

Lemma inv_start : forall now b, inv (tstart m r p now b) [].
Proof. intros. exists []. cbn. auto. Qed.

End Timed.

(** ** The theorems *)

Arguments inv {user} gran {m r p} s tr.
Arguments inv_exec {user gran m r p msg chn within} Fm Fr es {s tr s' o} _ _.
Arguments inv_start {user} gran m r p now b.
Set Implicit Arguments.

Section Theorems.
Variable user : nat -> Type.
Variable gran : N.
Variables (m : ty) (r : rty) (p : plan) (msg : den user m) (chn : nat) (within : bool).
Variables (t : target) (l : list setter) (h : how).
Hypothesis P : plan_of t l h = Some p.
Variables (now : N) (b : mailbox user) (es : list (tevent user)) (s : timed user m r p) (tr : list tobs).
Hypothesis R : texec gran msg chn within (tstart m r p now b) es = Some (s, tr).

Lemma run_inv : inv gran s tr.
Proof.
  destruct (plan_flags t l h p P) as (A & B).
  exact (inv_exec A B es (inv_start gran m r p now b) R).
Qed.

Lemma plan_mailbox : set_last SetMailbox l (p_mailbox p).
Proof. apply plan_meaning in P. apply P. Qed.

Lemma plan_reply : set_last SetReply l (p_reply p).
Proof. apply plan_meaning in P. apply P. Qed.

Lemma plan_sends : sends t h (is_set (p_mailbox p)) (is_set (p_reply p)) (p_method p).
Proof. apply plan_meaning in P. apply P. Qed.

Lemma mailbox_set : forall d, set_last SetMailbox l (Some d) -> p_mailbox p = Some d.
Proof. intros d H. eapply last_unique; [|exact plan_mailbox|exact H]. intros ? ? E. congruence. Qed.

Lemma reply_set : forall d, set_last SetReply l (Some d) -> p_reply p = Some d.
Proof. intros d H. eapply last_unique; [|exact plan_reply|exact H]. intros ? ? E. congruence. Qed.

Lemma polled_in : forall (x : N) ts, In (Polled x) (map Polled ts) <-> In x ts.
Proof.
  intros x ts. rewrite in_map_iff. split; [intros (y & E & H); congruence|eauto].
Qed.

Lemma mailbox_not_early : forall o, rq_pos (t_rq s) = RqFailed (NotSent (Timeout o)) ->
  exists d t0 rest t1, set_last SetMailbox l (Some d) /\ tr = Polled t0 :: rest /\ In (Finished t1) tr
    /\ (t0 + d <= t1)%N /\ forall x, ~ In (Enqueued x) tr.
Proof.
  intros o H. pose proof run_inv as I. unfold inv in I. rewrite H in I.
  destruct I as (ts & t1 & A & _ & _ & B). destruct (B o eq_refl) as (d & t0 & C & D & E).
  destruct (ts ++ [t1]) as [|y q] eqn:Q; [discriminate|]. injection C as ->.
  exists d, t0, (map Polled q ++ [Finished t1]), t1. pose proof plan_mailbox as M. rewrite D in M.
  split; [exact M|]. split; [exact A|]. split; [rewrite A; apply in_or_app; right; left; reflexivity|].
  split; [exact E|]. intros x X. rewrite A in X. apply in_app_or in X. destruct X as [X|[X|[]]]; [|discriminate].
  apply in_map_iff in X. destruct X as (? & ? & _). discriminate.
Qed.

Lemma never_early_last : forall ts t1 t0 x d, p_mailbox p = Some d -> trying gran p ts t1 -> hd_error (ts ++ [t1]) = Some t0 ->
  In x (ts ++ [t1]) -> (t0 + d + gran <= x)%N -> x = t1.
Proof.
  intros ts t1 t0 x d D T H X L. apply in_app_or in X. destruct X as [X|[X|[]]]; [|auto].
  destruct ts as [|y ts]; [destruct X|]. injection H as ->. cbn [trying] in T. rewrite Forall_forall in T.
  destruct (T x X) as (_ & E). unfold early in E. rewrite D in E. lia.
Qed.

Lemma first_poll : forall ts (t0 : N) rest tail, map Polled ts ++ tail = Polled t0 :: rest -> ts <> [] -> hd_error ts = Some t0.
Proof. intros [|y ts] t0 rest tail H N; [congruence|]. injection H as -> _. reflexivity. Qed.

Lemma snoc_some : forall (A : Type) (l0 : list A) x, l0 ++ [x] <> [].
Proof. intros A [|y l0] x; discriminate. Qed.

Lemma mailbox_punctual : forall d t0 rest x, set_last SetMailbox l (Some d) -> tr = Polled t0 :: rest ->
  In (Polled x) tr -> (t0 + d + gran <= x)%N ->
  exists u, (u <= x)%N /\ (In (Enqueued u) tr \/ In (Finished u) tr).
Proof.
  intros d t0 rest x D F X L. apply mailbox_set in D. pose proof run_inv as I. unfold inv in I.
  assert (W : forall ts t1 tail, tr = map Polled (ts ++ [t1]) ++ tail -> trying gran p ts t1 ->
    (forall y, In (Polled y) tail -> t1 <= y)%N -> (t1 <= x)%N).
  { intros ts t1 tail E T Y. rewrite E in X. apply in_app_or in X. destruct X as [X|X]; [|auto].
    apply polled_in in X. rewrite F in E. symmetry in E.
    rewrite (@never_early_last ts t1 t0 x d D T (@first_poll (ts ++ [t1]) t0 rest tail E (@snoc_some _ ts t1)) X L). lia. }
  destruct (rq_pos (t_rq s)) as [| |x0|x0].
  - destruct I as (ts & A & B & _). exfalso. rewrite A in X, F. apply polled_in in X.
    destruct ts as [|y ts]; [destruct X|]. injection F as -> _. cbn [trying] in B. rewrite Forall_forall in B.
    destruct (B x X) as (_ & E). unfold early in E. rewrite D in E. lia.
  - destruct I as (ts & t1 & us & A & B & _ & (C & _) & _). exists t1. split.
    + eapply W; [exact A|exact B|]. intros y [Y|Y]; [discriminate|]. apply polled_in in Y.
      rewrite Forall_forall in C. apply C in Y. lia.
    + left. rewrite A. apply in_or_app. right. left. reflexivity.
  - destruct I as (ts & t1 & B & _ & [(_ & A)|(us & t2 & A & (C & _) & E & _)]); exists t1; split.
    + eapply W; [exact A|exact B|]. intros y [Y|[Y|[]]]; discriminate.
    + left. rewrite A. apply in_or_app. right. left. reflexivity.
    + eapply W; [exact A|exact B|]. intros y [Y|Y]; [discriminate|]. apply in_app_or in Y.
      destruct Y as [Y|[Y|[]]]; [|discriminate]. apply polled_in in Y. apply in_app_or in Y.
      destruct Y as [Y|[Y|[]]]; [rewrite Forall_forall in C; apply C in Y; lia|lia].
    + left. rewrite A. apply in_or_app. right. left. reflexivity.
  - destruct I as (ts & t1 & A & B & _). exists t1. split.
    + eapply W; [exact A|exact B|]. intros y [Y|[]]; discriminate.
    + right. rewrite A. apply in_or_app. right. left. reflexivity.
Qed.

Lemma unanswered_ch : forall es0 (s0 s1 : timed user m r p) tr0, unanswered es0 ->
  texec gran msg chn within s0 es0 = Some (s1, tr0) -> (forall v, rq_ch (t_rq s0) <> OValue v) ->
  forall v, rq_ch (t_rq s1) <> OValue v.
Proof.
  induction es0 as [|e es0 IH]; cbn [texec]; intros s0 s1 tr0 U H C.
  - injection H as <- _. exact C.
  - destruct (tstep gran msg chn within s0 e) as [[s2 o2]|] eqn:E; [|discriminate].
    destruct (texec gran msg chn within s2 es0) as [[s3 o3]|] eqn:E3; [|discriminate].
    injection H as <- _. eapply IH; [|exact E3|].
    + intros v V. apply (U v). right. exact V.
    + destruct e as [d|prompt|b'|v|]; cbn in E.
      * injection E as <- _. exact C.
      * destruct (plan_flags t l h p P) as (Fm & Fr). unfold tpoll in E.
        destruct (rq_pos (t_rq s0)) as [| |y|y] eqn:Q.
        { set (f := fired _ _ _ _) in E.
          destruct (rq_step msg chn within (t_rq s0) (RPoll f false)) as [[q sent]|] eqn:K; [|discriminate].
          assert (K' : rq_ch q = rq_ch (t_rq s0)) by (eapply proj1, step_send; eassumption). injection E as <- _. cbn [t_rq]. rewrite K'. exact C. }
        { set (f := fired _ _ _ _) in E.
          destruct (rq_step msg chn within (t_rq s0) (RPoll false f)) as [[q sent]|] eqn:K; [|discriminate].
          assert (K' : rq_ch q = rq_ch (t_rq s0)) by (eapply proj1, proj2, step_wait; eassumption). injection E as <- _. cbn [t_rq]. rewrite K'. exact C. }
        { cbn in E. rewrite Q in E. discriminate. }
        { cbn in E. rewrite Q in E. discriminate. }
      * destruct (env_ok (rq_box (t_rq s0)) b'); [|discriminate]. injection E as <- _. exact C.
      * destruct (U v). left. reflexivity.
      * destruct (rq_ch (t_rq s0)); try discriminate. injection E as <- _. cbn. discriminate.
Qed.

Lemma waits_at_once : p_reply p <> None ->
  (h = Enqueue \/ h = TryEnqueue) /\ at_once (p_method p) = false
  \/ (h <> Enqueue /\ h <> TryEnqueue) /\ at_once (p_method p) = true.
Proof.
  intros D. pose proof plan_sends as K. destruct (p_reply p) as [d|]; [|congruence]. cbn [is_set] in K.
  inversion K; cbn; auto; right; (split; [split; discriminate|reflexivity]).
Qed.

Lemma from_counts : forall t1 us rest f, p_reply p <> None -> from p t1 us = Some f ->
  counts_from h t1 (map Polled us ++ rest) f.
Proof.
  intros t1 us rest f D F. unfold from in F. unfold counts_from.
  destruct (waits_at_once D) as [(A & B)|((A & A') & B)]; rewrite B in F.
  - destruct us as [|u us]; [discriminate|]. injection F as ->. destruct A as [-> | ->]; cbn; eauto.
  - destruct h; congruence.
Qed.

Lemma counts_back : forall t1 us rest f, p_reply p <> None -> (forall x, ~ In (Polled x) rest) ->
  counts_from h t1 (map Polled us ++ rest) f -> from p t1 us = Some f.
Proof.
  intros t1 us rest f D N F. unfold from. unfold counts_from in F.
  destruct (waits_at_once D) as [(A & B)|((A & A') & B)]; rewrite B.
  - assert (exists b', map Polled us ++ rest = Polled f :: b') as (b' & E) by (destruct A; subst h; exact F).
    destruct us as [|u us]; [|injection E as -> _; reflexivity]. cbn in E. destruct (N f). rewrite E. left. reflexivity.
  - destruct h; congruence.
Qed.

Lemma reply_not_early : rq_pos (t_rq s) = RqDone (OutErr (Timeout None)) -> unanswered es ->
  exists d a t1 c f t2, set_last SetReply l (Some d) /\ tr = a ++ Enqueued t1 :: c /\ counts_from h t1 c f
    /\ In (Finished t2) c /\ (f + d <= t2)%N.
Proof.
  intros H U. pose proof run_inv as I. unfold inv in I. rewrite H in I.
  destruct I as (ts & t1 & _ & _ & [(A & _)|(us & t2 & A & _ & _ & B)]); [discriminate|].
  destruct (B eq_refl) as (d & f & F & D & L).
  { eapply unanswered_ch; [exact U|exact R|]. cbn. discriminate. }
  exists d, (map Polled (ts ++ [t1])), t1, (map Polled (us ++ [t2]) ++ [Finished t2]), f, t2.
  pose proof plan_reply as M. rewrite D in M. split; [exact M|]. split; [exact A|].
  split; [apply from_counts; [congruence|exact F]|]. split; [|exact L]. apply in_or_app. right. left. reflexivity.
Qed.

Lemma one_enqueued : forall ps t1 c a t1' c', (forall x, ~ In (Enqueued x) c) ->
  map Polled ps ++ Enqueued t1 :: c = a ++ Enqueued t1' :: c' -> a = map Polled ps /\ t1' = t1 /\ c' = c.
Proof.
  induction ps as [|y ps IH]; cbn; intros t1 c a t1' c' N E.
  - destruct a as [|z a]; cbn in E; injection E; intros; subst; [auto|]. exfalso. apply (N t1').
    apply in_or_app. right. left. reflexivity.
  - destruct a as [|z a]; cbn in E; injection E; intros E' ->; [discriminate|].
    destruct (IH _ _ _ _ _ N E') as (-> & -> & ->). auto.
Qed.

Lemma no_enqueued : forall us rest, (forall x, ~ In (Enqueued x) rest) -> forall x, ~ In (Enqueued x) (map Polled us ++ rest).
Proof.
  intros us rest N x X. apply in_app_or in X. destruct X as [X|X]; [|exact (N x X)].
  apply in_map_iff in X. destruct X as (? & ? & _). discriminate.
Qed.

Lemma no_enqueued_at_all : forall ps a (t1 : N) c rest, (forall x, ~ In (Enqueued x) rest) ->
  map Polled ps ++ rest <> a ++ Enqueued t1 :: c.
Proof.
  intros ps a t1 c rest N E. apply (no_enqueued ps rest N t1). rewrite E. apply in_or_app. right. left. reflexivity.
Qed.

Lemma reply_punctual : forall d a t1 c f x, set_last SetReply l (Some d) -> tr = a ++ Enqueued t1 :: c ->
  counts_from h t1 c f -> In (Polled x) c -> (f + d + gran <= x)%N ->
  exists u, (u <= x)%N /\ In (Finished u) tr.
Proof.
  intros d a t1 c f x D T F X L. apply reply_set in D. pose proof run_inv as I. unfold inv in I.
  assert (ND : p_reply p <> None) by congruence.
  destruct (rq_pos (t_rq s)) as [| |x0|x0].
  - destruct I as (ts & A & _). exfalso. rewrite A in T. rewrite <- (app_nil_r (map Polled ts)) in T.
    revert T. apply no_enqueued_at_all. intros ? [].
  - exfalso. destruct I as (ts & t1' & us & A & _ & _ & (_ & B) & _). rewrite A in T.
    rewrite <- (app_nil_r (map Polled us)) in T.
    apply one_enqueued in T; [|apply no_enqueued; intros ? []]. destruct T as (_ & -> & ->).
    apply counts_back in F; [|exact ND|intros ? []]. specialize (B f F). rewrite app_nil_r in X.
    apply polled_in in X. rewrite Forall_forall in B. destruct (B x X) as (_ & E). unfold early in E. rewrite D in E. lia.
  - destruct I as (ts & t1' & _ & _ & [(_ & A)|(us & t2 & A & (_ & B) & E & _)]); rewrite A in T.
    + apply one_enqueued in T; [|intros y [Y|[]]; discriminate]. destruct T as (_ & -> & ->).
      destruct X as [X|[]]; discriminate.
    + assert (N : forall y, ~ In (Polled y) [Finished t2]) by (intros y [Y|[]]; discriminate).
      assert (N' : forall y, ~ In (Enqueued y) [Finished t2]) by (intros y [Y|[]]; discriminate).
      apply one_enqueued in T; [|apply no_enqueued; exact N']. destruct T as (_ & -> & ->).
      apply counts_back in F; [|exact ND|exact N]. exists t2. split.
      * apply in_app_or in X. destruct X as [X|X]; [|destruct (N _ X)]. apply polled_in in X.
        apply in_app_or in X. destruct X as [X|[X|[]]]; [|lia]. destruct us as [|u us]; [destruct X|].
        assert (F' : from p t1' (u :: us) = Some f) by (rewrite <- F; unfold from; destruct (at_once (p_method p)); reflexivity).
        specialize (B f F'). rewrite Forall_forall in B. destruct (B x X) as (_ & K). unfold early in K. rewrite D in K. lia.
      * rewrite A. apply in_or_app. right. right. apply in_or_app. right. left. reflexivity.
  - destruct I as (ts & t1' & A & _). exfalso. rewrite A in T. revert T. apply no_enqueued_at_all.
    intros y [Y|[]]. discriminate.
Qed.

Lemma both_punctual : forall dm dr t0 rest x y, set_last SetMailbox l (Some dm) -> set_last SetReply l (Some dr) -> h = Send ->
  tr = Polled t0 :: rest -> In (Polled x) tr -> (t0 + dm + gran <= x)%N ->
  In (Polled y) tr -> (x < y)%N -> (x + dr + gran <= y)%N ->
  exists u, (u <= y)%N /\ In (Finished u) tr.
Proof.
  intros dm dr t0 rest x y M D S T X L Y XY L'.
  destruct (mailbox_punctual M T X L) as (u & U & [E|E]); [|exists u; split; [lia|exact E]].
  apply in_split in E. destruct E as (a & c & E).
  assert (Z : In (Polled y) c \/ exists v, (v <= y)%N /\ In (Finished v) tr).
  { pose proof run_inv as I. unfold inv in I.
    assert (W : forall ts t1 k, tr = map Polled (ts ++ [t1]) ++ Enqueued t1 :: k ->
        (forall w, ~ In (Enqueued w) k) -> trying gran p ts t1 -> In (Polled y) c).
    { intros ts t1 k A N B. rewrite A in E. apply one_enqueued in E; [|exact N]. destruct E as (_ & -> & ->).
      rewrite A in Y. apply in_app_or in Y. destruct Y as [Y|[Y|Y]]; [|discriminate|exact Y].
      exfalso. apply polled_in in Y. apply in_app_or in Y. destruct Y as [Y|[Y|[]]]; [|lia].
      destruct ts as [|z ts]; [destruct Y|]. cbn [trying] in B. rewrite Forall_forall in B. apply B in Y. lia. }
    destruct (rq_pos (t_rq s)) as [| |x0|x0].
    - destruct I as (ts & A & _). exfalso. rewrite A in E. rewrite <- (app_nil_r (map Polled ts)) in E.
      revert E. apply no_enqueued_at_all. intros ? [].
    - destruct I as (ts & t1 & us & A & B & _). left. eapply W; [exact A| |exact B].
      rewrite <- (app_nil_r (map Polled us)). apply no_enqueued. intros ? [].
    - destruct I as (ts & t1 & B & _ & [(_ & A)|(us & t2 & A & _)]); left; (eapply W; [exact A| |exact B]).
      + intros w [K|[]]; discriminate.
      + apply no_enqueued. intros w [K|[]]; discriminate.
    - destruct I as (ts & t1 & A & _). exfalso. rewrite A in E. revert E. apply no_enqueued_at_all.
      intros w [K|[]]; discriminate. }
  destruct Z as [Z|Z]; [|exact Z].
  apply (@reply_punctual dr a u c u y D E); [|exact Z|lia]. rewrite S. reflexivity.
Qed.

End Theorems.

(** ** The requests without the clock *)

Lemma rq_exec_app : forall (user : nat -> Type) (m : ty) (r : rty) (k : method) (msg : den user m) chn within
  es1 es2 s s1 s2 o1 o2,
  rq_exec (m := m) (r := r) (k := k) msg chn within s es1 = Some (s1, o1) ->
  rq_exec msg chn within s1 es2 = Some (s2, o2) -> rq_exec msg chn within s (es1 ++ es2) = Some (s2, o1 ++ o2).
Proof.
  intros user m r k msg chn within. induction es1 as [|e es1 IH]; cbn [rq_exec app]; intros es2 s s1 s2 o1 o2 H K.
  - injection H as <- <-. exact K.
  - destruct (rq_step msg chn within s e) as [[s3 o3]|]; [|discriminate].
    destruct (rq_exec msg chn within s3 es1) as [[s4 o4]|] eqn:E; [|discriminate]. injection H as <- <-.
    rewrite (IH _ _ _ _ _ _ E K), app_assoc. reflexivity.
Qed.

Lemma step_refines : forall user gran (m : ty) (r : rty) (p : plan) (msg : den user m) chn within
  (s : timed user m r p) e s' o, mailbox_flag (p_method p) = is_set (p_mailbox p) ->
  (forall b, reply_wait (p_method p) = Some b -> b = is_set (p_reply p)) ->
  tstep gran msg chn within s e = Some (s', o) ->
  exists es sg, rq_exec msg chn within (t_rq s) es = Some (t_rq s', sg)
    /\ length sg = length (filter is_enqueued o).
Proof.
  intros user gran m r p msg chn within s e s' o Fm Fr H.
  assert (K : forall ev, (exists q sg, rq_step msg chn within (t_rq s) ev = Some (q, sg) /\ t_rq s' = q
      /\ length sg = length (filter is_enqueued o)) ->
      exists es sg, rq_exec msg chn within (t_rq s) es = Some (t_rq s', sg) /\ length sg = length (filter is_enqueued o)).
  { intros ev (q & sg & A & B & C). exists [ev], (sg ++ []). cbn [rq_exec]. rewrite A, B, app_nil_r. auto. }
  destruct e as [d|prompt|b|v|]; cbn [tstep] in H.
  - injection H as <- <-. exists [], []. auto.
  - unfold tpoll in H. destruct (rq_pos (t_rq s)) as [| |x|x] eqn:P.
    + set (f := fired _ _ _ _) in H.
      destruct (rq_step msg chn within (t_rq s) (RPoll f false)) as [[q sent]|] eqn:R; [|discriminate].
      injection H as <- <-. apply (K (RPoll f false)). exists q, sent. split; [exact R|]. split; [reflexivity|].
      cbn [filter is_enqueued]. rewrite filter_app, app_length.
      assert (N : length (filter is_enqueued (if over (rq_pos q) then [Finished (t_now s)] else [])) = 0)
        by (destruct (over (rq_pos q)); reflexivity). rewrite N.
      unfold rq_step in R. rewrite P in R.
      destruct (push_of _ _ _ _) as [|[b' [|y|]]]; injection R as <- <-; reflexivity.
    + set (f := fired _ _ _ _) in H.
      destruct (rq_step msg chn within (t_rq s) (RPoll false f)) as [[q sent]|] eqn:R; [|discriminate].
      injection H as <- <-. apply (K (RPoll false f)). exists q, sent. split; [exact R|]. split; [reflexivity|].
      assert (sent = []) as -> by (eapply proj1, step_wait; eassumption).
      destruct (over (rq_pos q)); reflexivity.
    + cbn in H. rewrite P in H. discriminate.
    + cbn in H. rewrite P in H. discriminate.
  - destruct (rq_step msg chn within (t_rq s) (REnv b)) as [[q sent]|] eqn:R; [|discriminate]. injection H as <- <-.
    apply (K (REnv b)). exists q, sent. split; [exact R|]. split; [reflexivity|].
    cbn in R. destruct (env_ok (rq_box (t_rq s)) b); [|discriminate]. injection R as <- <-. reflexivity.
  - destruct (rq_step msg chn within (t_rq s) (RReply v)) as [[q sent]|] eqn:R; [|discriminate]. injection H as <- <-.
    apply (K (RReply v)). exists q, sent. split; [exact R|]. split; [reflexivity|].
    cbn in R. destruct (rq_ch (t_rq s)); try discriminate. injection R as <- <-. reflexivity.
  - destruct (rq_step msg chn within (t_rq s) (RReplyDrop)) as [[q sent]|] eqn:R; [|discriminate]. injection H as <- <-.
    apply (K (RReplyDrop)). exists q, sent. split; [exact R|]. split; [reflexivity|].
    cbn in R. destruct (rq_ch (t_rq s)); try discriminate. injection R as <- <-. reflexivity.
Qed.

Lemma exec_refines : forall user gran (m : ty) (r : rty) (p : plan) (msg : den user m) chn within t l h,
  plan_of t l h = Some p -> forall es (s : timed user m r p) s' tr,
  texec gran msg chn within s es = Some (s', tr) ->
  exists es' sg, rq_exec msg chn within (t_rq s) es' = Some (t_rq s', sg)
    /\ length sg = length (filter is_enqueued tr).
Proof.
  intros user gran m r p msg chn within t l h P. destruct (plan_flags t l h p P) as (Fm & Fr).
  induction es as [|e es IH]; cbn [texec]; intros s s' tr H.
  - injection H as <- <-. exists [], []. auto.
  - destruct (tstep gran msg chn within s e) as [[s1 o1]|] eqn:E; [|discriminate].
    destruct (texec gran msg chn within s1 es) as [[s2 o2]|] eqn:E2; [|discriminate]. injection H as <- <-.
    destruct (@step_refines _ _ _ _ _ _ _ _ _ _ _ _ Fm Fr E) as (a & ga & A & A'). destruct (IH _ _ _ E2) as (c & gc & C & C').
    exists (a ++ c), (ga ++ gc). split; [eapply rq_exec_app; eassumption|].
    rewrite filter_app, !app_length. congruence.
Qed.

Lemma conversions : forall s o,
  option_of_setting (Maybe (maybe_of_setting s)) = option_of_setting s
  /\ option_of_setting (Maybe (maybe_of_option o)) = o.
Proof. intros [|[d|]|[|d]] [o|]; split; reflexivity. Qed.

Lemma enqueue_refuted : ~ (forall user gran m r p (msg : den user m) chn within t l h,
  plan_of t l h = Some p -> forall now b es (s : timed user m r p) tr,
  texec gran msg chn within (tstart m r p now b) es = Some (s, tr) ->
  forall d a t1 c x, set_last SetReply l (Some d) -> tr = a ++ Enqueued t1 :: c ->
  In (Polled x) c -> (t1 + d + gran <= x)%N -> exists u, In (Finished u) tr).
Proof.
  intros H.
  destruct (tx_run tx_enqueue tx_late) as [[s tr]|] eqn:E; [|vm_compute in E; discriminate].
  assert (T : tr = [Polled 100; Polled 105; Enqueued 105; Polled 107; Polled 111]%N).
  { vm_compute in E. injection E as _ <-. reflexivity. }
  destruct (H _ _ _ _ _ _ _ _ LocalAsk tx_sets Enqueue eq_refl _ _ _ _ _ E 5%N [Polled 100; Polled 105]%N 105%N
    [Polled 107; Polled 111]%N 111%N) as (u & U).
  - exists [SetMailbox 9%N], [SetMailbox 10%N]. split; [reflexivity|]. intros d [D|[]]; discriminate.
  - exact T.
  - right. left. reflexivity.
  - vm_compute. discriminate.
  - rewrite T in U. cbn in U. repeat destruct U as [U|U]; try discriminate U. exact U.
Qed.

Lemma exact_refuted : ~ (forall user gran m r p (msg : den user m) chn within t l h,
  plan_of t l h = Some p -> forall now b es (s : timed user m r p) tr,
  texec gran msg chn within (tstart m r p now b) es = Some (s, tr) ->
  forall d t0 rest x, set_last SetMailbox l (Some d) -> tr = Polled t0 :: rest ->
  In (Polled x) tr -> (t0 + d <= x)%N ->
  exists u, (u <= x)%N /\ (In (Enqueued u) tr \/ In (Finished u) tr)).
Proof.
  intros H.
  destruct (tx_run tx_plan tx_due) as [[s tr]|] eqn:E; [|vm_compute in E; discriminate].
  assert (T : tr = [Polled 100; Polled 110]%N).
  { vm_compute in E. injection E as _ <-. reflexivity. }
  destruct (H _ _ _ _ _ _ _ _ LocalAsk tx_sets Send eq_refl _ _ _ _ _ E 10%N 100%N [Polled 110]%N 110%N) as (u & _ & U).
  - exists [SetMailbox 9%N; SetReply 5%N], []. split; [reflexivity|]. intros d [].
  - exact T.
  - rewrite T. right. left. reflexivity.
  - vm_compute. discriminate.
  - rewrite T in U. cbn in U. destruct U as [U|U]; repeat destruct U as [U|U]; try discriminate U; exact U.
Qed.

(** ** Timers that are never late *)
Lemma prompt_exec : forall user gran (m : ty) (r : rty) (p : plan) (msg : den user m) chn within es
  (s : timed user m r p), ~ In (PollAt false) es ->
  texec gran msg chn within s es = texec 0 msg chn within s es.
Proof.
  intros user gran m r p msg chn within. induction es as [|e es IH]; intros s N; [reflexivity|].
  cbn [texec]. assert (E : tstep gran msg chn within s e = tstep 0 msg chn within s e).
  { destruct e as [d|[|]|b|v|]; try reflexivity. destruct N. left. reflexivity. }
  rewrite E. destruct (tstep 0 msg chn within s e) as [[s1 o1]|]; [|reflexivity].
  rewrite IH; [reflexivity|]. intros I. apply N. right. exact I.
Qed.

Lemma prompt_mailbox : forall user gran m r p (msg : den user m) chn within t l h,
  plan_of t l h = Some p -> forall now b es (s : timed user m r p) tr,
  texec gran msg chn within (tstart m r p now b) es = Some (s, tr) -> ~ In (PollAt false) es ->
  forall d t0 rest x, set_last SetMailbox l (Some d) -> tr = Polled t0 :: rest ->
  In (Polled x) tr -> (t0 + d <= x)%N ->
  exists u, (u <= x)%N /\ (In (Enqueued u) tr \/ In (Finished u) tr).
Proof.
  intros user gran m r p msg chn within t l h Pl now b es s tr E N d t0 rest x D F X L.
  rewrite prompt_exec in E by exact N. eapply mailbox_punctual; eauto. rewrite N.add_0_r. exact L.
Qed.

Lemma prompt_reply : forall user gran m r p (msg : den user m) chn within t l h,
  plan_of t l h = Some p -> forall now b es (s : timed user m r p) tr,
  texec gran msg chn within (tstart m r p now b) es = Some (s, tr) -> ~ In (PollAt false) es ->
  forall d a t1 c f x, set_last SetReply l (Some d) -> tr = a ++ Enqueued t1 :: c ->
  counts_from h t1 c f -> In (Polled x) c -> (f + d <= x)%N ->
  exists u, (u <= x)%N /\ In (Finished u) tr.
Proof.
  intros user gran m r p msg chn within t l h Pl now b es s tr E N d a t1 c f x D F C X L.
  rewrite prompt_exec in E by exact N. eapply reply_punctual; eauto. rewrite N.add_0_r. exact L.
Qed.
