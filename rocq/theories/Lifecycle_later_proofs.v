(** Messages in the mailbox are handled later, if the actor goes on. *)
From Coq Require Import List Bool PeanoNat Lia.
Import ListNotations.
From Verif Require Import Lifecycle Lifecycle_spec Lifecycle_proofs.

(** The task being polled, waiting for a signal after startup. *)
Definition receiving (s : actor) : Prop :=
  ph s = PLoop LRecv /\ polling s = true /\ finished s = true /\ buf s = [].

(** One signal that is no stop signal is dealt with, and the next can be received. *)
Lemma deal : forall sg q s, receiving s -> queue s = sg :: q -> sg <> SStop ->
  exists es s' o, forallb is_task es = true /\ exec s es = Some (s', o) /\ receiving s' /\ queue s' = q
    /\ (forall m, sg = SMsg m -> In (OHandle m) o).
Proof.
  intros sg q s (P & Po & F & B) Q N. destruct sg as [|m|id r|].
  - exists [ARecv]. cbn [exec step]. rewrite P, Po, Q. cbn [on_signal]. unfold startup_finished. simp_fields. rewrite B.
    cbn [drain]. eexists _, _. split; [reflexivity|]. split; [reflexivity|].
    split; [repeat split; assumption|]. split; [reflexivity|]. intros m E. discriminate E.
  - exists [ARecv; AHandleDone (OutOk 0)]. cbn [exec step]. rewrite P, Po, Q. cbn [on_signal]. simp_fields. rewrite F.
    cbn [negb]. rewrite andb_false_r. unfold begin_handle. simp_fields. rewrite Po. cbn [handler_done drain].
    eexists _, _. split; [reflexivity|]. split; [reflexivity|].
    split; [repeat split; assumption|]. split; [reflexivity|]. intros m' E. injection E as <-. left. reflexivity.
  - exists [ARecv; ALinkDone (FlowOk Continue); ALinkRm]. cbn [exec step]. rewrite P, Po, Q. cbn [on_signal]. simp_fields. rewrite Po.
    simp_fields. rewrite Po. cbn [link_done].
    eexists _, _. split; [reflexivity|]. split; [reflexivity|].
    split; [repeat split; assumption|]. split; [reflexivity|]. intros m' E. discriminate E.
  - congruence.
Qed.

Lemma deal_all : forall q s rest, receiving s -> queue s = q ++ rest -> ~ In SStop q ->
  exists es s' o, forallb is_task es = true /\ exec s es = Some (s', o) /\ receiving s' /\ queue s' = rest
    /\ forall m, In (SMsg m) q -> In (OHandle m) o.
Proof.
  induction q as [|sg q IH]; intros s rest R Q N.
  - exists [], s, []. repeat (split; [assumption || reflexivity|]). intros m [].
  - destruct (deal sg (q ++ rest) s R Q) as (es1 & s1 & o1 & T1 & X1 & R1 & Q1 & H1).
    { intros ->. apply N. left. reflexivity. }
    destruct (IH s1 rest R1 Q1) as (es2 & s2 & o2 & T2 & X2 & R2 & Q2 & H2).
    { intro I. apply N. right. exact I. }
    exists (es1 ++ es2), s2, (o1 ++ o2). rewrite forallb_app, T1, T2, exec_app, X1, X2.
    repeat (split; [assumption || reflexivity|]). intros m [->|I]; apply in_or_app; [left; apply H1; reflexivity|right; apply H2; exact I].
Qed.

Lemma no_kill : forall c es s tr, exec (init c) es = Some (s, tr) -> ~ In OKill tr -> aborted s = false.
Proof.
  intros c es s tr H. revert H. apply (exec_invariant (fun s tr => ~ In OKill tr -> aborted s = false)); [reflexivity|].
  intros s0 t e s' o IH Hs N. specialize (IH (fun I => N (in_or_app _ _ _ (or_introl I)))).
  assert (K : ~ In OKill o) by (intro I; apply N; apply in_or_app; right; exact I). clear N.
  destruct e; step_cases Hs; try assumption; try discriminate IH; exfalso; apply K; left; reflexivity.
Qed.

Lemma run_later : forall c es s tr f q rest, exec (init c) es = Some (s, tr) ->
  ph s = PLoop (LPanic f) -> finished s = true -> ~ In OKill tr ->
  queue s = q ++ rest -> ~ In SStop q ->
  exists es' s' o, forallb is_task es' = true /\ exec s es' = Some (s', o)
    /\ In (OPanicHookEnd (FlowOk Continue)) o /\ ph s' = PLoop LRecv /\ queue s' = rest
    /\ forall m, In (SMsg m) q -> In (OHandle m) o.
Proof.
  intros c es s tr f q rest H P F K Q N. pose proof (no_kill _ _ _ _ H K) as A.
  pose proof (wf_exec _ _ _ _ (wf_init c) H) as [[_ _ W _] _ _]. specialize (W F).
  assert (X : exists es1 s1 o1, forallb is_task es1 = true /\ exec s es1 = Some (s1, o1) /\ receiving s1 /\ queue s1 = q ++ rest
    /\ In (OPanicHookEnd (FlowOk Continue)) o1).
  { destruct (polling s) eqn:Po.
    - exists [APanicDone (FlowOk Continue)]. cbn [exec step]. rewrite P, Po. cbn [panic_done].
      eexists _, _. split; [reflexivity|]. split; [reflexivity|]. split; [repeat split; assumption|]. split; [exact Q|]. left. reflexivity.
    - exists [APoll; APanicDone (FlowOk Continue)]. cbn [exec step]. rewrite P, Po, A. simp_fields. rewrite P. cbn [panic_done].
      eexists _, _. split; [reflexivity|]. split; [reflexivity|]. split; [repeat split; assumption|]. split; [exact Q|]. left. reflexivity. }
  destruct X as (es1 & s1 & o1 & T1 & X1 & R1 & Q1 & I1).
  destruct (deal_all q s1 rest R1 Q1 N) as (es2 & s2 & o2 & T2 & X2 & R2 & Q2 & H2).
  exists (es1 ++ es2), s2, (o1 ++ o2). rewrite forallb_app, T1, T2, exec_app, X1, X2.
  split; [reflexivity|]. split; [reflexivity|]. split; [apply in_or_app; left; exact I1|]. split; [apply R2|]. split; [exact Q2|].
  intros m I. apply in_or_app. right. apply H2. exact I.
Qed.
