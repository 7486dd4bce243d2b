(** What the lifecycle protocol means for hooks, replies and failures. *)
From Coq Require Import List Bool PeanoNat Permutation Lia.
Import ListNotations.
From Verif Require Import Lifecycle Lifecycle_spec Lifecycle_proofs Lifecycle_order_proofs
  Lifecycle_proto_proofs.

Lemma proto_split : forall t1 o t2 q q',
  proto_run q (t1 ++ o :: t2) = Some q' ->
  exists q1 q2, proto_run q t1 = Some q1 /\ proto_step q1 o = Some q2 /\ proto_run q2 t2 = Some q'.
Proof.
  intros t1 o t2 q q' H. rewrite proto_run_app in H.
  destruct (proto_run q t1) as [q1|]; [|discriminate]. cbn in H.
  destruct (proto_step q1 o) as [q2|] eqn:E; [|discriminate]. eauto.
Qed.

(** From a set of states closed under steps, bad observations never occur. *)
Lemma proto_forward : forall (S : proto -> Prop) (Bad : obs -> Prop),
  (forall q o q', S q -> proto_step q o = Some q' -> S q' /\ ~ Bad o) ->
  forall t q q', S q -> proto_run q t = Some q' -> S q' /\ forall o, In o t -> ~ Bad o.
Proof.
  intros S Bad Hs. induction t as [|o t IH]; intros q q' Hq H; cbn in H.
  - injection H as <-. split; [exact Hq|intros o []].
  - destruct (proto_step q o) as [q1|] eqn:E; [|discriminate].
    destruct (Hs _ _ _ Hq E) as [H1 H2]. destruct (IH _ _ H1 H) as [H3 H4].
    split; [exact H3|]. intros x [<-|Hx]; auto.
Qed.

(** As long as no triggering observation occurs, bad ones do not either. *)
Lemma proto_unless : forall (S : proto -> Prop) (trig : obs -> bool) (Bad : obs -> Prop),
  (forall q o q', S q -> trig o = false -> proto_step q o = Some q' -> S q' /\ ~ Bad o) ->
  forall t q q', S q -> proto_run q t = Some q' -> (forall o, In o t -> trig o = false) ->
  S q' /\ forall o, In o t -> ~ Bad o.
Proof.
  intros S trig Bad Hs. induction t as [|o t IH]; intros q q' Hq H Ht; cbn in H.
  - injection H as <-. split; [exact Hq|intros o []].
  - destruct (proto_step q o) as [q1|] eqn:E; [|discriminate].
    destruct (Hs _ _ _ Hq (Ht _ (or_introl eq_refl)) E) as [H1 H2].
    destruct (IH _ _ H1 H (fun x Hx => Ht x (or_intror Hx))) as [H3 H4].
    split; [exact H3|]. intros x [<-|Hx]; auto.
Qed.

(** Hence in any run a bad observation is preceded by a triggering one. *)
Lemma proto_precedes : forall (S : proto -> Prop) (trig : obs -> bool) (Bad : obs -> Prop),
  S QFresh ->
  (forall q o q', S q -> trig o = false -> proto_step q o = Some q' -> S q' /\ ~ Bad o) ->
  forall t1 o t2 q, proto_run QFresh (t1 ++ o :: t2) = Some q -> Bad o -> trig o = false ->
  exists a, In a t1 /\ trig a = true.
Proof.
  intros S trig Bad H0 Hs t1 o t2 q H HB Ho.
  destruct (existsb trig t1) eqn:E.
  - apply existsb_exists in E. exact E.
  - exfalso. change (t1 ++ o :: t2) with (t1 ++ ([o] ++ t2)) in H. rewrite app_assoc in H.
    rewrite proto_run_app in H. destruct (proto_run QFresh (t1 ++ [o])) as [q1|] eqn:E1; [|discriminate].
    destruct (proto_unless S trig Bad Hs _ _ _ H0 E1) as [_ K].
    + intros x Hx. apply in_app_or in Hx. destruct Hx as [Hx|[<-|[]]]; [|exact Ho].
      destruct (trig x) eqn:Ex; [|reflexivity].
      assert (existsb trig t1 = true) by (apply existsb_exists; eauto). congruence.
    + apply (K o); [apply in_or_app; right; left; reflexivity|exact HB].
Qed.

(** Facts about the past that the current state remembers. *)
Lemma proto_backward : forall (P : proto -> list obs -> Prop),
  P QFresh [] ->
  (forall q t o q', P q t -> proto_step q o = Some q' -> P q' (t ++ [o])) ->
  forall t q, proto_run QFresh t = Some q -> P q t.
Proof.
  intros P H0 Hs. induction t as [|o t IH] using rev_ind; intros q H.
  - injection H as <-. exact H0.
  - apply proto_split in H. destruct H as (q1 & q2 & H1 & H2 & H3).
    injection H3 as <-. eapply Hs; eauto.
Qed.

Ltac proto_cases H :=
  unfold proto_step, after_handler, after_panic, after_fail_panic, after_stop in H;
  repeat match type of H with
    | None = Some _ => discriminate H
    | context [match ?x with _ => _ end] =>
        lazymatch x with
        | context [match _ with _ => _ end] => fail
        | _ => destruct x eqn:?
        end; cbn beta iota in H
    end;
  try discriminate H;
  match type of H with
  | Some ?x = Some ?q => injection H as <-
  end;
  repeat match goal with
    | E : failure_beq _ _ = true |- _ => apply failure_beq_eq in E
    | E : reason_beq _ _ = true |- _ => apply reason_beq_eq in E
    | E : _ && _ = true |- _ => apply andb_true_iff in E; destruct E
    | E : reply_beq _ _ = true |- _ => apply reply_beq_eq in E
    | E : Nat.eqb _ _ = true |- _ => apply Nat.eqb_eq in E
    end; subst.

(** *** on_start *)

Definition Started (q : proto) : Prop := q <> QFresh.

Lemma fresh_once : forall t q q',
  q <> QFresh -> proto_run q t = Some q' -> q' <> QFresh /\ ~ In OStartBegin t.
Proof.
  intros t q q' Hq H.
  destruct (proto_forward (fun q => q <> QFresh) (fun o => o = OStartBegin)) with (3 := H)
    as [H1 H2]; auto.
  - intros q0 o q1 H0 Hs. proto_cases Hs; split; congruence.
  - split; [exact H1|]. intro Hin. exact (H2 _ Hin eq_refl).
Qed.

(** The part of the protocol that a failed start leads to. *)
Definition start_failed (q : proto) : bool :=
  match q with
  | QStartFailed _ | QInFailPanic _ | QFailVerdict _ | QInStop _ false | QStopped _ false
  | QMustCrash | QClosed _ | QCrashing | QEnd => true
  | _ => false
  end.

Lemma start_failed_forward : forall t q q',
  start_failed q = true -> proto_run q t = Some q' ->
  start_failed q' = true
  /\ forall o, In o t -> is_loop_obs o = false /\ (forall res, o <> OStartEnd res).
Proof.
  intros t q q' Hq H.
  destruct (proto_forward (fun q => start_failed q = true)
              (fun o => is_loop_obs o = true \/ exists res, o = OStartEnd res)) with (3 := H)
    as [H1 H2]; auto.
  - intros q0 o q1 H0 Hs. proto_cases Hs; cbn in H0; try discriminate H0;
      (split; [reflexivity || assumption|]); intros [K|[? K]]; discriminate K.
  - split; [exact H1|]. intros o Ho. specialize (H2 _ Ho). split.
    + destruct (is_loop_obs o); [exfalso; apply H2; auto|reflexivity].
    + intros res ->. apply H2. right. eauto.
Qed.


Lemma calls_after_start : forall t1 o t2 q,
  proto_run QFresh (t1 ++ o :: t2) = Some q -> is_call o = true -> o <> OStartBegin ->
  In OStartBegin t1.
Proof.
  intros t1 o t2 q H Hc Hn.
  destruct (proto_precedes (fun q => q = QFresh)
    (fun o => match o with OStartBegin => true | _ => false end)
    (fun o => is_call o = true)) with (t1 := t1) (o := o) (t2 := t2) (q := q) as (a & Ha & Hb); auto.
  - intros q0 o0 q1 -> Ht Hs. proto_cases Hs; try discriminate Ht;
      (split; [auto|intro K; discriminate K]).
  - destruct o; congruence.
  - destruct a; try discriminate Hb. exact Ha.
Qed.

Lemma loop_after_start_ok : forall t1 o t2 q,
  proto_run QFresh (t1 ++ o :: t2) = Some q -> is_loop_obs o = true ->
  In (OStartEnd HookOk) t1.
Proof.
  intros t1 o t2 q H Hc.
  destruct (proto_precedes (fun q => q = QFresh \/ q = QInStart \/ start_failed q = true)
    (fun o => match o with OStartEnd HookOk => true | _ => false end)
    (fun o => is_loop_obs o = true)) with (t1 := t1) (o := o) (t2 := t2) (q := q) as (a & Ha & Hb); auto.
  - intros q0 o0 q1 H0 Ht Hs.
    proto_cases Hs; try discriminate Ht; cbn in H0 |- *;
      try (exfalso; intuition discriminate);
      (split; [intuition discriminate|intro K; discriminate K]).
  - destruct o; try reflexivity; discriminate Hc.
  - destruct a; try discriminate Hb. destruct res; try discriminate Hb. exact Ha.
Qed.

(** *** on_stop *)

Definition stopping (r : reason) (q : proto) : Prop :=
  match q with
  | QInStop r' _ | QStopped r' _ | QClosed r' => r' = r
  | QMustCrash | QCrashing | QEnd => True
  | _ => False
  end.

(** What may still be seen once on_stop(r) has begun. *)
Definition after_stop_ok (r : reason) (o : obs) : Prop :=
  begins_code o = false /\ is_loop_obs o = false
  /\ (forall id r' d, o = ONotify id r' d -> r' = r)
  /\ (forall r', o = OReturn r' -> r' = r).

Lemma stop_forward : forall r t q q',
  stopping r q -> proto_run q t = Some q' ->
  stopping r q' /\ forall o, In o t -> after_stop_ok r o.
Proof.
  intros r. unfold after_stop_ok. induction t as [|o t IH]; intros q q' Hq H; cbn in H.
  - injection H as <-. split; [exact Hq|intros o []].
  - destruct (proto_step q o) as [q1|] eqn:E; [|discriminate].
    assert (K : stopping r q1 /\ begins_code o = false /\ is_loop_obs o = false
                /\ (forall id r' d, o = ONotify id r' d -> r' = r)
                /\ (forall r', o = OReturn r' -> r' = r)).
    { proto_cases E; cbn in Hq; try contradiction; subst; repeat split; intros; try discriminate; congruence. }
    destruct K as [K1 K2]. destruct (IH _ _ K1 H) as [H1 H2].
    split; [exact H1|]. intros x [<-|Hx]; auto.
Qed.

Lemma stop_hook_last : forall t1 r t2 q,
  proto_run QFresh (t1 ++ OStopHook r :: t2) = Some q ->
  forall o, In o t2 -> after_stop_ok r o.
Proof.
  intros t1 r t2 q H. apply proto_split in H. destruct H as (q1 & q2 & _ & H2 & H3).
  eapply stop_forward; [|exact H3]. proto_cases H2; reflexivity.
Qed.

(** Reports carry the reason that on_stop was given. *)
Definition reports (r : reason) (o : obs) : bool :=
  match o with ONotify _ r' _ | OReturn r' => reason_beq r' r | _ => false end.

Lemma reports_after_stop : forall t1 o t2 q r,
  proto_run QFresh (t1 ++ o :: t2) = Some q -> reports r o = true -> In (OStopHook r) t1.
Proof.
  intros t1 o t2 q r H Hc.
  destruct (proto_precedes (fun q => match q with
        QInStop r' _ | QStopped r' _ | QClosed r' => r' <> r | _ => True end)
    (fun o => match o with OStopHook r' => reason_beq r' r | _ => false end)
    (fun o => reports r o = true)) with (t1 := t1) (o := o) (t2 := t2) (q := q) as (a & Ha & Hb); auto.
  - intros q0 o0 q1 H0 Ht Hs.
    proto_cases Hs; cbn in Ht |- *; try (split; [exact I||exact H0|intro K; try discriminate K]; fail).
    all: try (split; [intros ->; rewrite reason_beq_refl in Ht; discriminate Ht|intro K; discriminate K]).
    all: split; [exact H0 || exact I|]. all: intro K; apply reason_beq_eq in K; congruence.
  - destruct o; try reflexivity; discriminate Hc.
  - destruct a; try discriminate Hb. apply reason_beq_eq in Hb. subst. exact Ha.
Qed.

(** The mailbox closes only after on_stop returned, or the task crashed. *)
Definition stop_returned (o : obs) : bool :=
  match o with
  | OStopHookEnd (HookFail (FPanic _)) => false
  | OStopHookEnd _ | OCrash => true
  | _ => false
  end.
Definition is_closed_obs (o : obs) : bool :=
  match o with OClosed | OReturn _ | OSawShutdown _ => true | _ => false end.

Lemma closed_after_stop : forall t1 o t2 q,
  proto_run QFresh (t1 ++ o :: t2) = Some q -> is_closed_obs o = true ->
  exists a, In a t1 /\ stop_returned a = true.
Proof.
  intros t1 o t2 q H Hc.
  apply (proto_precedes (fun q => match q with
        QStopped _ _ | QClosed _ | QCrashing | QEnd => False | _ => True end)
    stop_returned (fun o => is_closed_obs o = true)) with (o := o) (t2 := t2) (q := q); auto.
  - intros q0 o0 q1 H0 Ht Hs.
    proto_cases Hs; cbn in Ht, H0 |- *; try contradiction; try discriminate Ht;
      (split; [exact I|intro K; discriminate K]).
  - destruct o; try reflexivity; discriminate Hc.
Qed.

(** *** What must come next *)

Definition demand (q : proto) : option obs :=
  match q with
  | QFailed f | QStartFailed f => Some (OPanicHook f)
  | QMustExit r => Some (OExit r)
  | QMustCrash => Some OCrash
  | QFailVerdict r | QExited r => Some (OStopHook r)
  | _ => None
  end.

Lemma demand_next : forall t q q' o,
  demand q = Some o -> proto_run q t = Some q' ->
  (q' = q /\ next_call t = None) \/ next_call t = Some o.
Proof.
  induction t as [|x t IH]; intros q q' o D H; cbn in H.
  - injection H as <-. left. auto.
  - destruct (proto_step q x) as [q1|] eqn:E; [|discriminate].
    unfold next_call in *. cbn [find].
    destruct (is_call x) eqn:Ex.
    + right. f_equal. proto_cases E; cbn in D, Ex; try discriminate; congruence.
    + assert (q1 = q) as ->. { proto_cases E; cbn in D, Ex; try discriminate; reflexivity. }
      eapply IH; eauto.
Qed.

(** *** What came last *)

Lemma last_call_snoc : forall t o,
  last_call (t ++ [o]) = if is_call o then Some o else last_call t.
Proof. intros. unfold last_call. rewrite rev_app_distr. reflexivity. Qed.

Definition remembers (q : proto) (c : option obs) : Prop :=
  match q with
  | QStartFailed f => c = Some (OStartEnd (HookFail f))
  | QFailed f | QDropThenFail _ f =>
      exists m, (exists e, f = FErr e /\ c = Some (OHandleEnd m (OutErr e)))
             \/ (exists p, f = FPanic p /\ c = Some (OHandleEnd m (OutPanic p)))
  | QAfterLink res => c = Some (OLinkHookEnd res)
  | _ => True
  end.

Lemma remembers_run : forall t q, proto_run QFresh t = Some q -> remembers q (last_call t).
Proof.
  apply (proto_backward (fun q t => remembers q (last_call t))); [exact I|].
  intros q t o q' IH H. rewrite last_call_snoc.
  proto_cases H; cbn in IH |- *; auto; try (eexists; eauto; fail).
Qed.

(** on_panic is only ever called for a failure that just happened. *)
Definition explains (f : failure) (o : obs) : Prop :=
  match o with
  | OStartEnd (HookFail f') => f' = f
  | OHandleEnd _ (OutErr e) => f = FErr e
  | OHandleEnd _ (OutPanic p) => f = FPanic p
  | OLinkHookEnd (FlowFail f') | OLinkHookEnd (FlowOk (Break (Panicked f'))) => f' = f
  | _ => False
  end.

Lemma panic_hook_explained : forall t1 f t2 q,
  proto_run QFresh (t1 ++ OPanicHook f :: t2) = Some q ->
  exists o, last_call t1 = Some o /\ explains f o.
Proof.
  intros t1 f t2 q H. apply proto_split in H. destruct H as (q1 & q2 & H1 & H2 & _).
  apply remembers_run in H1.
  unfold proto_step in H2. destruct q1; cbn in H1; try discriminate H2.
  - destruct (failure_beq f0 f) eqn:E; [|discriminate]. apply failure_beq_eq in E. subst.
    eexists. split; [exact H1|]. reflexivity.
  - destruct (flow_res_allows_panic res f) eqn:E; [|discriminate].
    eexists. split; [exact H1|]. unfold flow_res_allows_panic in E. cbn.
    destruct res as [[|[]]|]; try discriminate E; apply failure_beq_eq in E; exact E.
  - destruct (failure_beq f0 f) eqn:E; [|discriminate]. apply failure_beq_eq in E. subst.
    destruct H1 as (m & [(e & -> & H1)|(p & -> & H1)]); eexists; (split; [exact H1|reflexivity]).
Qed.

(** *** One piece of user code at a time *)

Definition running (q : proto) : bool :=
  match q with
  | QInStart | QInFailPanic _ | QInHandler _ _ | QInLink | QInPanic _ | QInStop _ _ => true
  | _ => false
  end.

Lemma run_one_at_a_time : forall t q q',
  proto_run q t = Some q' -> one_at_a_time (running q) t.
Proof.
  induction t as [|o t IH]; intros q q' H; cbn in H; [exact I|].
  destruct (proto_step q o) as [q1|] eqn:E; [|discriminate].
  specialize (IH _ _ H). cbn [one_at_a_time].
  proto_cases E; cbn in IH |- *; auto.
Qed.

(** *** Handlers *)

Lemma handler_forward : forall t m b q,
  proto_run (QInHandler m b) t = Some q -> (forall o, In o t -> is_call o = false) ->
  q = QInHandler m (b && negb (existsb (gives_away (mid m)) t)).
Proof.
  induction t as [|o t IH]; intros m b q H Hn; cbn [proto_run] in H.
  - injection H as <-. cbn. rewrite andb_true_r. reflexivity.
  - destruct (proto_step (QInHandler m b) o) as [q1|] eqn:E; [|discriminate].
    pose proof (Hn o (or_introl eq_refl)) as Ho.
    assert (K : q1 = QInHandler m (b && negb (gives_away (mid m) o))).
    { proto_cases E; cbn in Ho |- *; try discriminate Ho; rewrite ?andb_true_r; try reflexivity. }
    subst q1. apply IH in H; [|intros x Hx; apply Hn; right; exact Hx].
    rewrite H. cbn [existsb]. rewrite negb_orb, andb_assoc. reflexivity.
Qed.

Lemma handler_bracket : forall ta m tb o t2 q,
  proto_run QFresh (ta ++ OHandle m :: tb ++ o :: t2) = Some q ->
  (forall x, In x tb -> is_call x = false) ->
  exists q2, proto_step (QInHandler m (ask m && negb (existsb (gives_away (mid m)) tb))) o = Some q2
          /\ proto_run q2 t2 = Some q.
Proof.
  intros ta m tb o t2 q H Hn.
  apply proto_split in H. destruct H as (q1 & q2 & H1 & H2 & H3).
  apply proto_split in H3. destruct H3 as (q3 & q4 & H4 & H5 & H6).
  assert (q2 = QInHandler m (ask m)) as -> by (proto_cases H2; reflexivity).
  apply handler_forward in H4; [|exact Hn]. subst q3. eauto.
Qed.
