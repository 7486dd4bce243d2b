(** Property theorems about the broker (C44): any patterns and matching relation, every
    strategy, every history. *)
From Coq Require Import List Bool PeanoNat.
From Verif Require Import Errors Delivery Broker Delivery_spec Delivery_proofs Delivery_line_proofs Broker_proofs Broker_examples.
Import ListNotations.

Section Broker.
  Context {pattern topic msg : Type}.
  Variable pattern_eqb : pattern -> pattern -> bool.
  Hypothesis pattern_ok : forall x y, reflect (x = y) (pattern_eqb x y).
  Variable matches : pattern -> topic -> bool.
  Variable st : strategy.
  Local Notation broker_run := (@broker_run pattern topic msg pattern_eqb matches st).
  Local Notation subscriptions := (@subscriptions pattern topic nat msg pattern_eqb (fun r => r)).
  Local Notation is_attempt := (@is_attempt pattern topic nat msg pattern_eqb (fun r => r)).

  (** A publication, numbered by those before it, is sent once for each subscription whose
      pattern matches the topic, and not otherwise. *)
  Theorem C44_copies : forall cap caps es s tr T1 n t m T2,
    broker_run cap caps es = Some (s, tr) -> tr = T1 ++ OPublished n t m :: T2 ->
    n = count is_publication T1 /\ forall k id,
      count (is_attempt n k id) tr <= (if matches k t then subscriptions T1 k id else 0) /\
      (In (OFinished n) tr -> count (is_attempt n k id) tr = if matches k t then subscriptions T1 k id else 0).
  Proof. exact (broker_copies _ pattern_ok matches st). Qed.

  (** Nothing is sent but for a publication and a subscription that match. *)
  Theorem C44_attempt : forall cap caps es s tr n k r,
    broker_run cap caps es = Some (s, tr) -> In (OAttempt n k r) tr ->
    exists T1 t m T2, tr = T1 ++ OPublished n t m :: T2 /\ matches k t = true /\ 0 < subscriptions T1 k r.
  Proof. exact (broker_attempt _ pattern_ok matches st). Qed.

  (** The table holds the subscriptions of the history, and no empty entries. *)
  Theorem C44_table : forall cap caps es s tr k id,
    broker_run cap caps es = Some (s, tr) ->
    match get pattern_eqb k (subs s) with
    | Some rs => rs <> [] /\ count (fun r => r =? id) rs = subscriptions tr k id
    | None => subscriptions tr k id = 0
    end.
  Proof. exact (broker_table _ pattern_ok matches st). Qed.

  (** Only subscriptions found dead during a publication are removed at its end. *)
  Theorem C44_only_dead : forall cap caps es s tr T1 k id T2,
    broker_run cap caps es = Some (s, tr) -> tr = T1 ++ OExpired k id :: T2 ->
    exists n t m H1 H2 o, T1 = H1 ++ OPublished n t m :: H2 /\ Forall within H2 /\ In o H2 /\
      found_dead (fun r => r) n k id o.
  Proof. exact (@expired_found _ _ _ _ _ pattern_ok _ _ _ _ _ _ st). Qed.

  (** Until it stops and while its mailbox has room every request is accepted: any subscription, any
      unsubscription, any publication. *)
  Theorem C44_accepts : forall cap caps es s tr b, broker_run cap caps es = Some (s, tr) ->
    (exists s', broker_run cap caps (es ++ [ESend b]) = Some (s', tr)) <->
    ph s <> Stopped
    /\ match cap with Some c => length (sent es) + length (reported tr) < c + length (handled tr) | None => True end.
  Proof. exact (broker_accepts _ matches st). Qed.

  (** The broker does not panic. *)
  Theorem C44_no_panic : forall cap caps es s tr n, broker_run cap caps es = Some (s, tr) -> ~ In (OPanicked n) tr.
  Proof. exact (broker_no_panic _ pattern_ok matches st). Qed.
End Broker.
Print Assumptions C44_copies.
Print Assumptions C44_attempt.
Print Assumptions C44_table.
Print Assumptions C44_only_dead.
Print Assumptions C44_accepts.
Print Assumptions C44_no_panic.

(** Actor 1 is subscribed twice and gets two sends, 2 is found dead and removed, 3 is not
    concerned. *)
Example C44_case : exists s, brk BestEffort ex_best = Some (s, tr_best)
  /\ tr_best = tr_subs ++ OPublished 0 5 50 :: skipn 7 tr_best
  /\ In (OFinished 0) tr_best
  /\ count (is_attempt Nat.eqb (fun r => r) 0 0 1) tr_best = 2 /\ count (is_attempt Nat.eqb (fun r => r) 0 5 2) tr_best = 1
  /\ count (is_attempt Nat.eqb (fun r => r) 0 7 3) tr_best = 0
  /\ get Nat.eqb 0 (subs s) = Some [1; 1] /\ get Nat.eqb 5 (subs s) = None /\ get Nat.eqb 7 (subs s) = Some [2; 3]
  /\ In (OExpired 5 2) tr_best.
Proof. at_end. repeat (split; [solve [reflexivity | tauto]|]). tauto. Qed.

(** Unsubscribing removes all of an actor's subscriptions of a pattern, or of all. *)
Example C44_unsubscribe_case : exists s,
  brk BestEffort (ex_subs ++ told_broker (Unsubscribe (Some 0) 1) ++ told_broker (Unsubscribe None 2)) =
    Some (s, tr_subs ++ [OUnsubscribed (Some 0) 1; OUnsubscribed None 2])
  /\ get Nat.eqb 0 (subs s) = None /\ get Nat.eqb 5 (subs s) = None /\ get Nat.eqb 7 (subs s) = Some [3].
Proof. at_end. auto. Qed.

(** An actor found not running is removed under the patterns that matched, not under the
    others: the claim for every pattern is false. *)
Theorem C44_every_pattern_refuted : ~ (forall st cap caps es s tr H n T k k' id o,
  @broker_run nat nat nat Nat.eqb glob st cap caps es = Some (s, tr) -> tr = H ++ OFinished n :: T ->
  (forall d, st <> Spawned /\ st <> SpawnedWithTimeout d) ->
  In o H -> found_dead (fun r => r) n k id o -> subscriptions Nat.eqb (fun r => r) H k' id = 0).
Proof.
  intro A. destruct (run_ok _ _ (brk BestEffort ex_best) tr_best (fun _ => True)) as (s & R & _); [vm_compute; auto|].
  specialize (A _ _ _ _ _ _ (removelast tr_best) 0 [] 5 7 2 (OSettled 0 5 2 (Err (ActorNotRunning 50))) R eq_refl).
  assert (B : subscriptions Nat.eqb (fun r => r) (removelast tr_best) 7 2 = 0).
  { apply A; [split; discriminate|cbv; tauto|]. exists 2, 50. auto. }
  vm_compute in B. discriminate.
Qed.
Print Assumptions C44_every_pattern_refuted.
