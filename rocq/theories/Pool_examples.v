(** Runs used in the examples of P_Pool.v, and the witnesses of what does not hold. *)
From Coq Require Import List Bool PeanoNat Lia.
From Verif Require Import Pool Pool_spec Pool_proofs Pool_more_proofs Pool_send_proofs.
Import ListNotations.

Definition run_from (caps : list (option nat)) (c : option nat) (es : list event) : option (pool * list obs) :=
  match new_pool caps c with Some s => run s es | None => None end.
Definition trace_of (caps : list (option nat)) (c : option nat) (es : list event) : list obs :=
  match run_from caps c es with Some (_, t) => t | None => [] end.
Lemma run_ok : forall caps c es t (P : pool -> Prop),
  match run_from caps c es with Some (s, t') => t' = t /\ P s | None => False end ->
  exists s, reaches caps c es s t /\ P s.
Proof.
  intros caps c es t P H. unfold run_from in H. destruct (new_pool caps c) as [s0|] eqn:N; [|destruct H].
  destruct (run s0 es) as [[s t']|] eqn:R; [|destruct H]. destruct H as [-> H].
  exists s. split; [exists s0; auto|assumption].
Qed.

Definition told (n : nat) : list event := [ESubmit (PDispatchMsg (n, None)); EHandle true None].
Definition asked (n ch : nat) : list event := [ESubmit (PDispatchMsg (n, Some ch)); EHandle true None].

Definition caps3 : list (option nat) := [Some 2; Some 2; None].
(** Three workers; 10, 12, 13, 14 are told, 11 is asked. *)
Definition ex_load : list event :=
  [ELink; ELink; ELink] ++ told 10 ++ [ESent] ++ asked 11 7 ++ [ESent] ++ told 12 ++ [ESent] ++ told 13 ++ [ESent;
   ETake 1; EFinish 1 true] ++ told 14.
(** The worker of 10 fails, ends with 13 in its mailbox, and is replaced. *)
Definition ex_dead : list event :=
  ex_load ++ [ESent; ETake 0; EFinish 0 false; ETell 0; EGone 0].
Definition ex_replace : list event := ex_dead ++ [EHandle true (Some 2); ELink].
(** Then a broadcast of 20, while worker 2 ends. *)
Definition ex_cast_done : list event :=
  ex_replace ++ [ELeave 2; ESubmit (PBroadcastMsg 20); EHandle true None; ECastSent 1; ETell 2; EGone 2; ECastRefused 2;
                 ETake 1; ECastSent 0].
Definition ex_casting : list event :=
  ex_replace ++ [ELeave 2; ESubmit (PBroadcastMsg 20); EHandle true None; ECastSent 1; ETell 2; EGone 2; ECastRefused 2;
                 ETake 1].
Definition tr_load := Eval vm_compute in trace_of caps3 (Some 4) ex_load.
Definition tr_dead := Eval vm_compute in trace_of caps3 (Some 4) ex_dead.
Definition tr_replace := Eval vm_compute in trace_of caps3 (Some 4) ex_replace.
Definition tr_casting := Eval vm_compute in trace_of caps3 (Some 4) ex_casting.
Definition tr_cast_done := Eval vm_compute in trace_of caps3 (Some 4) ex_cast_done.

(** Worker 1 ends before the pool has linked it; 10 goes to worker 0, and 11 waits. *)
Definition caps2 : list (option nat) := [Some 2; Some 2].
Definition ex_missed : list event := [ELeave 1; EGone 1; ELink; ELink].
Definition ex_missed_11 (ch : option nat) : list event :=
  ex_missed ++ told 10 ++ [ESent; ETake 0; ESubmit (PDispatchMsg (11, ch))].
Definition tr_missed := Eval vm_compute in trace_of caps2 (Some 4) ex_missed.
Definition tr_missed_11 (ch : option nat) := Eval vm_compute in trace_of caps2 (Some 4) (ex_missed_11 ch).

(** Workers with room for one message; 12 waits for worker 0, which is killed when the
    mailbox of the pool is full. Worker 1 is done with 11. *)
Definition caps1 : list (option nat) := [Some 1; Some 1].
Definition ex_stuck : list event :=
  [ELink; ELink] ++ told 10 ++ [ESent] ++ told 11 ++ [ESent] ++ told 12 ++
  [ESubmit (PDispatchMsg (13, None)); ELeave 0; ETake 1; EFinish 1 true].
Definition tr_stuck := Eval vm_compute in trace_of caps1 (Some 1) ex_stuck.

Ltac at_end := apply run_ok; vm_compute.

Lemma dispatch_refuted : exists caps c es s tr m q w,
  reaches caps c es s tr /\ ph s = PIdle /\ inbox s = PDispatchMsg m :: q /\ snd m = None
  /\ In w (slots s) /\ st (wk s w) = WUp /\ takes_more (wk s w)
  /\ exists es' s' tr', run s es' = Some (s', tr') /\ In (OFailed m) tr' /\ ph s' = PStopped /\ st (wk s' w) = WUp.
Proof.
  assert (X : exists s, reaches caps2 (Some 4) (ex_missed_11 None) s (tr_missed_11 None)
    /\ (ph s = PIdle /\ inbox s = [PDispatchMsg (11, None)] /\ slots s = [0; 1] /\ takes_more (wk s 0) /\ st (wk s 0) = WUp
        /\ match run s [EHandle true None; ERefused; ERefused] with
           | Some (s', tr') => In (OFailed (11, None)) tr' /\ ph s' = PStopped /\ st (wk s' 0) = WUp
           | None => False end)).
  { at_end. repeat split; try discriminate; auto 10; lia. }
  destruct X as (s & R & P & Q & S & T & U & X).
  exists caps2, (Some 4), (ex_missed_11 None), s, (tr_missed_11 None), (11, None), [], 0.
  rewrite S. do 6 (split; [try assumption; try reflexivity; left; reflexivity|]). split; [assumption|].
  exists [EHandle true None; ERefused; ERefused]. destruct (run s _) as [[s' tr']|]; [|destruct X].
  exists s', tr'. auto.
Qed.

Lemma missed_refuted : exists caps c es s tr w, reaches caps c es s tr /\ ph s = PIdle /\ inbox s = []
  /\ In w (slots s) /\ st (wk s w) = WGone
  /\ forall es' s' tr', run s es' = Some (s', tr') -> In w (slots s') /\ st (wk s' w) <> WUp.
Proof.
  assert (X : exists s, reaches caps2 (Some 4) ex_missed s tr_missed
    /\ (ph s = PIdle /\ inbox s = [] /\ slots s = [0; 1] /\ st (wk s 1) = WGone /\ to_tell (wk s 1) = false)).
  { at_end. auto 10. }
  destruct X as (s & R & P & Q & S & T & U).
  exists caps2, (Some 4), ex_missed, s, tr_missed, 1. do 3 (split; [assumption|]).
  assert (W : In 1 (slots s)) by (rewrite S; cbn; auto). do 2 (split; [assumption|]).
  intros es' s' tr' R'. destruct (missed_for_good _ _ _ _ _ 1 R W) with (es' := es') (s' := s') (tr' := tr') as (A & B & _); auto.
  - congruence.
  - intros [D|D]; [congruence|]. rewrite Q in D. destruct D.
Qed.

Lemma waits_forever : exists caps c es s tr m k w v, reaches caps c es s tr /\ ph s = PSending m k w
  /\ inbox s <> [] /\ In v (slots s) /\ free (wk s v)
  /\ forall es' s' tr', run s es' = Some (s', tr') -> ph s' = PSending m k w /\ inbox s' = inbox s /\ choices tr' = [] /\ sends tr' = [].
Proof.
  assert (X : exists s, reaches caps1 (Some 1) ex_stuck s tr_stuck
    /\ (both_wait s (12, None) 1 0 /\ inbox s = [PDispatchMsg (13, None)] /\ slots s = [0; 1] /\ free (wk s 1))).
  { at_end. unfold both_wait, free. cbn. auto 20. }
  destruct X as (s & R & B & Q & S & F).
  exists caps1, (Some 1), ex_stuck, s, tr_stuck, (12, None), 1, 0, 1. split; [assumption|]. split; [apply B|].
  split; [rewrite Q; discriminate|]. split; [rewrite S; cbn; auto|]. split; [assumption|].
  intros es' s' tr' R'. destruct (stuck_for_good _ _ _ _ _ B _ _ R') as (A & A1 & A2 & A3). split; [apply A|auto].
Qed.
