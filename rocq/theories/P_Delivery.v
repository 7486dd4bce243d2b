(** Property theorems about the delivery of published messages, for the broker and the
    message bus alike (C46, C53): any keys, any table of targets, every strategy, all
    mailbox capacities, every order of steps. *)
From Coq Require Import List Bool PeanoNat.
From Verif Require Import Errors Delivery Broker MessageBus Delivery_spec Delivery_proofs Delivery_line_proofs Delivery_room_spec Delivery_room_proofs Broker_proofs Broker_examples.
Import ListNotations.

Section Delivery.
  Context {key topic reg msg : Type}.
  Variable key_eqb : key -> key -> bool.
  Hypothesis key_ok : forall x y, reflect (x = y) (key_eqb x y).
  Variable recipient : reg -> nat.
  Variable rid : reg -> nat.
  Variable targets : list (key * list reg) -> topic -> list (key * reg).
  Variable usable : topic -> reg -> bool.
  Variable fits : key -> reg -> bool.
  Variable has_all : bool.
  Variable strat : strategy.
  Local Notation step := (@step key topic reg msg key_eqb recipient rid targets usable fits has_all strat).
  Local Notation run := (@run key topic reg msg key_eqb recipient rid targets usable fits has_all strat).
  Local Notation obs := (@obs key topic reg msg).
  Local Notation subscriptions := (@subscriptions key topic reg msg key_eqb rid).
  Local Notation attempted n k id := (@is_attempt key topic reg msg key_eqb rid n k id).
  Local Notation settled n k id := (@is_settled key topic reg msg key_eqb rid n k id).

  (** ** C46 *)

  (** A send has at most one result, and one when the publication is finished, unless
      sends are spawned. *)
  Theorem C46_settled : forall cap caps es s tr n k id, run (init cap caps) es = Some (s, tr) ->
    count (settled n k id) tr <= count (attempted n k id) tr /\
    ((forall d, strat <> Spawned /\ strat <> SpawnedWithTimeout d) -> In (OFinished n) tr ->
       count (settled n k id) tr = count (attempted n k id) tr).
  Proof. exact (@settled_counts _ _ _ _ key_eqb key_ok recipient rid targets usable fits has_all strat). Qed.

  (** The result of a send and the state of the mailbox at that time: a copy is dropped
      for a full mailbox only with [BestEffort], after a timeout only with a timed
      strategy, and the error carries the message published. *)
  Theorem C46_result : forall cap caps es s tr T1 n k r x T2,
    run (init cap caps) es = Some (s, tr) -> tr = T1 ++ OSettled n k r x :: T2 ->
    exists es1 e es2 s1 tr1, es = es1 ++ e :: es2 /\ run (init cap caps) es1 = Some (s1, tr1) /\
      let b := boxes s1 (recipient r) in
      match x with
      | Ok _ => bopen b = true /\ has_room b
      | Err (ActorNotRunning m) => bopen b = false /\ exists t, In (OPublished n t m) T1
      | Err (MailboxFull m) => bopen b = true /\ ~ has_room b /\ strat = BestEffort /\ exists t, In (OPublished n t m) T1
      | Err (Timeout (Some m)) => bopen b = true /\ ~ has_room b /\
          (exists d, strat = TimedDelivery d \/ strat = SpawnedWithTimeout d) /\ exists t, In (OPublished n t m) T1
      | _ => False
      end.
  Proof. exact (@settled_why _ _ _ _ key_eqb key_ok recipient rid targets usable fits has_all strat). Qed.

  (** A timed strategy does not give up before its timeout. *)
  Theorem C46_timeout : forall cap caps es s tr e s' o d n k r x,
    strat = TimedDelivery d \/ strat = SpawnedWithTimeout d ->
    run (init cap caps) es = Some (s, tr) -> step s e = Some (s', o) -> In (OSettled n k r (Err (Timeout x))) o ->
    exists es1 e1 es2 s1 tr1 s2 o1, es ++ [e] = es1 ++ e1 :: es2 /\ run (init cap caps) es1 = Some (s1, tr1) /\
      step s1 e1 = Some (s2, o1) /\ In (OAttempt n k r) o1 /\ d <= ticks es2.
  Proof. exact (@timeout_after _ _ _ _ key_eqb key_ok recipient rid targets usable fits has_all strat). Qed.

  (** The publisher waits for a recipient only if its mailbox is full, with [Guaranteed],
      or with [TimedDelivery] before the timeout. *)
  Theorem C46_waits : forall s s' o n t m k r todo t0 dead,
    step s EDeliver = Some (s', o) -> ph s' = Delivering n t m ((k, r) :: todo) (Some t0) dead ->
    bopen (boxes s (recipient r)) = true /\ ~ has_room (boxes s (recipient r)) /\
    (strat = Guaranteed \/ exists d, strat = TimedDelivery d /\ now s < t0 + d).
  Proof. exact (@waits_only_if_full _ _ _ _ key_eqb recipient rid targets usable fits has_all strat). Qed.

  (** Otherwise polling it once takes it to the next recipient. *)
  Theorem C46_goes_on : forall s n t m k r todo since dead,
    ph s = Delivering n t m ((k, r) :: todo) since dead -> usable t r = true ->
    (bopen (boxes s (recipient r)) = true -> ~ has_room (boxes s (recipient r)) ->
       strat = BestEffort \/ (exists d, mode_of strat = MSpawn d) \/
       exists d t0, strat = TimedDelivery d /\ since = Some t0 /\ t0 + d <= now s) ->
    exists s' o dead', step s EDeliver = Some (s', o) /\ ph s' = Delivering n t m todo None dead' /\
      ((exists d, mode_of strat = MSpawn d) \/ exists x, In (OSettled n k r x) o).
  Proof. exact (@deliver_settles _ _ _ _ key_eqb recipient rid targets usable fits has_all strat). Qed.

  (** [BestEffort] and the spawned strategies never block: whatever the recipients do, a
      publication is finished after one poll per recipient. *)
  Theorem C46_never_blocks : forall todo s n t m since dead,
    strat = BestEffort \/ (exists d, mode_of strat = MSpawn d) ->
    ph s = Delivering n t m todo since dead -> (forall k r, In (k, r) todo -> usable t r = true) ->
    exists s' o, run s (repeat EDeliver (length todo) ++ [EFinish]) = Some (s', o) /\ ph s' = Idle /\ In (OFinished n) o.
  Proof. exact (@prompt_finishes _ _ _ _ key_eqb recipient rid targets usable fits has_all strat). Qed.

  (** [Guaranteed] waits as long as the mailbox is full: whatever else happens, one
      recipient that neither reads nor ends holds up the publisher. *)
  Theorem C46_guaranteed_blocks : forall es s s' tr n t m k r todo since dead, strat = Guaranteed -> usable t r = true ->
    ph s = Delivering n t m ((k, r) :: todo) since dead ->
    bopen (boxes s (recipient r)) = true -> ~ has_room (boxes s (recipient r)) ->
    Forall (leaves_alone (recipient r)) es -> run s es = Some (s', tr) ->
    (exists since', ph s' = Delivering n t m ((k, r) :: todo) since' dead) /\
    bopen (boxes s' (recipient r)) = true /\ ~ has_room (boxes s' (recipient r)).
  Proof. exact (@guaranteed_blocks _ _ _ _ key_eqb recipient rid targets usable fits has_all strat). Qed.

  (** What a publication does to the subscriptions: those of actors found not running are
      removed by the strategies that do not spawn, those of all others (full, timed out)
      are kept, and the spawned strategies remove none. *)
  Theorem C46_effect : forall cap caps es s tr H n T,
    run (init cap caps) es = Some (s, tr) -> tr = H ++ OFinished n :: T ->
    exists T1 t m T2, H = T1 ++ OPublished n t m :: T2 /\ Forall within T2 /\ forall k id,
      ((forall o, In o T2 -> ~ found_dead rid n k id o) -> subscriptions H k id = subscriptions T1 k id) /\
      ((exists d, mode_of strat = MSpawn d) -> subscriptions H k id = subscriptions T1 k id) /\
      ((forall d, mode_of strat <> MSpawn d) -> (exists o, In o T2 /\ found_dead rid n k id o) ->
         subscriptions H k id = 0).
  Proof. exact (@publish_effect _ _ _ _ key_eqb key_ok recipient rid targets usable fits has_all strat). Qed.

  (** Unsubscriptions other than these were sent by a user of the broker, or by a spawned
      task that found the actor not running. *)
  Theorem C46_unsubscribed : forall cap caps es s tr T1 k id T2,
    run (init cap caps) es = Some (s, tr) -> tr = T1 ++ OUnsubscribed k id :: T2 ->
    In (ESend (Unsubscribe k id)) es \/
    exists k' n o, k = Some k' /\ In o T1 /\ found_dead rid n k' id o.
  Proof. exact (@unsubscribed_why _ _ _ _ key_eqb recipient rid targets usable fits has_all strat). Qed.

  (** The requests made of it by users and by spawned sends are handled in the order in which
      they were accepted, each at most once; until it is stopped the others are in its mailbox. *)
  Theorem C46_in_turn : forall cap caps es s tr, run (init cap caps) es = Some (s, tr) ->
    exists line, merged (sent es) (reported tr) line /\
      exists rest, line = handled tr ++ rest /\ (ph s <> Stopped -> items (inbox s) = rest).
  Proof. exact (@in_turn _ _ _ _ key_eqb recipient rid targets usable fits has_all strat). Qed.

  (** An idle one can handle the next. *)
  Theorem C46_taken : forall cap caps es s tr b q, run (init cap caps) es = Some (s, tr) ->
    ph s = Idle -> items (inbox s) = b :: q ->
    exists s' o, run (init cap caps) (es ++ [ETake]) = Some (s', tr ++ o) /\ handled o = [b] /\ items (inbox s') = q.
  Proof. exact (@taken _ _ _ _ key_eqb recipient rid targets usable fits has_all strat). Qed.

  (** It stops when it is stopped or killed, or when it panics (which neither the broker nor the
      bus does: C44_no_panic, C45_no_panic). *)
  Theorem C46_stops : forall cap caps es s tr, run (init cap caps) es = Some (s, tr) ->
    ph s = Stopped <-> In EStop es \/ exists n, In (OPanicked n) tr.
  Proof. exact (@stops_when _ _ _ _ key_eqb recipient rid targets usable fits has_all strat). Qed.

  (** ** C53 *)

  (** When the mailbox of a subscriber is open and has room, told by what was sent to it, read
      from it, and reserved in it. *)
  Theorem C46_room : forall cap caps es s tr a, run (init cap caps) es = Some (s, tr) ->
    (bopen (boxes s a) = true <-> ~ In (OEnded a) tr)
    /\ (~ In (OEnded a) tr -> (has_room (boxes s a) <-> not_full recipient (caps a) a es tr)).
  Proof. exact (@box_room _ _ _ _ key_eqb recipient rid targets usable fits has_all strat). Qed.

  (** What was sent to an actor is what it has read, followed by what is in its mailbox,
      each copy being of a message published; nothing is lost before it ends. *)
  Theorem C53_received : forall cap caps es s tr a, run (init cap caps) es = Some (s, tr) ->
    (exists lost, sends recipient a tr = copies (reads a tr ++ items (boxes s a)) ++ lost /\
       (~ In (OEnded a) tr -> lost = [])) /\
    (forall n m, In (ORead a (Copy n m)) tr -> exists t, In (OPublished n t m) tr).
  Proof. exact (@received _ _ _ _ key_eqb key_ok recipient rid targets usable fits has_all strat). Qed.

  (** Except with the spawned strategies, each actor is sent the publications in the order
      in which they were made. *)
  Theorem C53_order : forall cap caps es s tr a, (forall d, strat <> Spawned /\ strat <> SpawnedWithTimeout d) ->
    run (init cap caps) es = Some (s, tr) ->
    ascending (sends recipient a tr) /\ ascending (copies (reads a tr)).
  Proof. exact (@read_ordered _ _ _ _ key_eqb key_ok recipient rid targets usable fits has_all strat). Qed.
End Delivery.
Print Assumptions C46_settled.
Print Assumptions C46_result.
Print Assumptions C46_timeout.
Print Assumptions C46_waits.
Print Assumptions C46_goes_on.
Print Assumptions C46_never_blocks.
Print Assumptions C46_guaranteed_blocks.
Print Assumptions C46_effect.
Print Assumptions C46_unsubscribed.
Print Assumptions C46_in_turn.
Print Assumptions C46_taken.
Print Assumptions C46_stops.
Print Assumptions C46_room.
Print Assumptions C53_received.
Print Assumptions C53_order.

(** ** C46, continued: the strategy does not matter for who is attempted *)

Theorem C46_same_broker : forall (pattern topic msg : Type) (pattern_eqb : pattern -> pattern -> bool)
    (pattern_ok : forall x y, reflect (x = y) (pattern_eqb x y)) (matches : pattern -> topic -> bool)
    st st' cap cap' caps caps' es es' s s' tr tr' T1 T1' n n' t (m m' : msg) T2 T2',
  broker_run pattern_eqb matches st cap caps es = Some (s, tr) -> tr = T1 ++ OPublished n t m :: T2 ->
  broker_run pattern_eqb matches st' cap' caps' es' = Some (s', tr') -> tr' = T1' ++ OPublished n' t m' :: T2' ->
  (forall k id, subscriptions pattern_eqb (fun r => r) T1 k id = subscriptions pattern_eqb (fun r => r) T1' k id) ->
  In (OFinished n) tr -> In (OFinished n') tr' ->
  forall k id, count (is_attempt pattern_eqb (fun r => r) n k id) tr = count (is_attempt pattern_eqb (fun r => r) n' k id) tr'.
Proof. exact broker_same. Qed.
Print Assumptions C46_same_broker.

Theorem C46_same_bus : forall (msg : Type) st st' cap cap' caps caps' es es' s s' tr tr' T1 T1' n n' ty (m m' : msg) T2 T2',
  bus_run st cap caps es = Some (s, tr) -> tr = T1 ++ OPublished n ty m :: T2 ->
  bus_run st' cap' caps' es' = Some (s', tr') -> tr' = T1' ++ OPublished n' ty m' :: T2' ->
  (forall k id, subscriptions Nat.eqb actor_id T1 k id = subscriptions Nat.eqb actor_id T1' k id) ->
  In (OFinished n) tr -> In (OFinished n') tr' ->
  forall k id, count (is_attempt Nat.eqb actor_id n k id) tr = count (is_attempt Nat.eqb actor_id n' k id) tr'.
Proof. exact bus_same. Qed.
Print Assumptions C46_same_bus.

(** Three strategies, the same attempts; one copy dropped, delivered late, given up. *)
Example C46_case :
  (exists s, brk BestEffort ex_best = Some (s, tr_best) /\ map (fun a => length (items (boxes s a))) [1; 2; 3] = [1; 0; 0]) /\
  (exists s, brk Guaranteed ex_waited = Some (s, tr_waited) /\ map (fun a => length (items (boxes s a))) [1; 2; 3] = [1; 0; 0]) /\
  (exists s, brk (TimedDelivery 2) ex_timed = Some (s, tr_timed) /\ now s = 2) /\
  In (OSettled 0 0 1 (Err (MailboxFull 50))) tr_best /\ In (OSettled 0 0 1 (Err (Timeout (Some 50)))) tr_timed /\
  reads 1 tr_waited = [Copy 0 50] /\
  (forall tr, In tr [tr_best; tr_waited; tr_timed] -> In (OFinished 0) tr /\
     count (is_attempt Nat.eqb (fun r => r) 0 0 1) tr = 2 /\ count (is_settled Nat.eqb (fun r => r) 0 0 1) tr = 2 /\
     subscriptions Nat.eqb (fun r => r) tr 0 1 = 2 /\ subscriptions Nat.eqb (fun r => r) tr 5 2 = 0).
Proof.
  split; [at_end; auto|]. split; [at_end; auto|]. split; [at_end; auto|]. split; [cbv; tauto|]. split; [cbv; tauto|].
  split; [reflexivity|]. intros tr [<-|[<-|[<-|[]]]]; (split; [cbv; tauto|vm_compute; auto]).
Qed.

(** Waiting, the timeout, and a task's timeout. *)
Example C46_waiting_case :
  (exists s, brk Guaranteed ex_wait = Some (s, tr_wait) /\ ph s = Delivering 0 5 50 [(0, 1); (5, 2)] (Some 0) []
     /\ bopen (boxes s 1) = true /\ room (boxes s 1) = false) /\
  (exists s, brk (TimedDelivery 2) ex_late = Some (s, tr_late) /\ ph s = Delivering 0 5 50 [(0, 1); (5, 2)] (Some 0) []
     /\ now s = 2) /\
  trace_of (brk (TimedDelivery 2) (ex_late ++ [EDeliver])) = tr_late ++ [OSettled 0 0 1 (Err (Timeout (Some 50)))] /\
  trace_of (brk (SpawnedWithTimeout 2) (ex_spawn_late ++ [ETask 1])) = tr_spawn_late ++ [OSettled 0 0 1 (Err (Timeout (Some 50)))].
Proof. split; [at_end; auto|]. split; [at_end; auto|]. split; vm_compute; reflexivity. Qed.

(** Another sender's place, and its copy, keep copies from actor 1, until they are gone. *)
Example C46_room_case :
  trace_of (brk BestEffort (ex_subs ++ [EHold 1] ++ told_broker (Publish 5 50) ++ [EDeliver; EFree 1; EDeliver]))
    = tr_subs ++ [OPublished 0 5 50; OAttempt 0 0 1; OSettled 0 0 1 (Err (MailboxFull 50));
                  OAttempt 0 0 1; OSettled 0 0 1 (Ok tt)] /\
  ~ In (OEnded 1) tr_subs /\
  ~ not_full (fun r => r) (Some 1) 1 (ex_subs ++ [EHold 1]) tr_subs /\
  not_full (fun r => r) (Some 1) 1 (ex_subs ++ [EHold 1] ++ [EFree 1]) tr_subs /\
  ~ not_full (fun r => r) (Some 1) 1 (ex_subs ++ [EOther 1 9]) tr_subs.
Proof.
  split; [vm_compute; reflexivity|]. split; [vm_compute; intuition discriminate|].
  split; [|split]; vm_compute; intuition (eauto using le_n).
  all: repeat match goal with H : _ <= _ |- _ => inversion H; clear H end.
Qed.

(** The blocked publisher stays so while others read, send and end. *)
Example C46_blocks_case :
  (exists s, brk Guaranteed (ex_wait ++ [ETick; EDeliver; EOther 3 9; ERead 3; ESend (Publish 7 70); EEnd 3; EDeliver])
     = Some (s, tr_wait ++ [ORead 3 (Foreign 9); OEnded 3])
     /\ ph s = Delivering 0 5 50 [(0, 1); (5, 2)] (Some 0) []) /\
  Forall (leaves_alone 1) [ETick; EDeliver; EOther 3 9; ERead 3; ESend (@Publish nat nat nat nat 7 70); EEnd 3; EDeliver].
Proof. split; [at_end; auto|]. repeat constructor; discriminate. Qed.

(** A spawned send reports the ended actor; the table changes when the report is handled. *)
Example C46_report_case : exists s, brk Spawned ex_report = Some (s, tr_report) /\
  get Nat.eqb 5 (subs s) = None /\ In (OReported 5 2) tr_report /\
  subscriptions Nat.eqb (fun r => r) tr_report 5 2 = 0 /\ subscriptions Nat.eqb (fun r => r) tr_report 0 1 = 2 /\
  exists H, tr_report = H ++ [OUnsubscribed (Some 5) 2] /\ subscriptions Nat.eqb (fun r => r) H 5 2 = 1.
Proof.
  at_end. repeat (split; [solve [auto 20 | tauto]|]). 
  exists (removelast tr_report). split; reflexivity.
Qed.

(** Two publications and an unsubscription while a copy of the first waits; then the report of
    a spawned send joins the line behind what was accepted before it. *)
Example C46_in_turn_case :
  (exists s, brk Guaranteed (ex_wait ++ [ESend (Publish 7 70); ESend (Unsubscribe None 3)]) = Some (s, tr_wait)
     /\ items (inbox s) = [Publish 7 70; Unsubscribe None 3] /\ handled tr_wait = handled tr_subs ++ [Publish 5 50]) /\
  (exists s, brk Spawned (removelast ex_report ++ [ESend (Publish 7 70)]) = Some (s, removelast tr_report)
     /\ ph s = Idle /\ items (inbox s) = [Unsubscribe (Some 5) 2; Publish 7 70]
     /\ reported (removelast tr_report) = [Unsubscribe (Some 5) 2]).
Proof. split; at_end; auto. Qed.

Example C46_stops_case : exists s, brk Guaranteed (ex_wait ++ [ESend (Publish 7 70); EStop]) = Some (s, tr_wait)
  /\ ph s = Stopped /\ items (inbox s) = [].
Proof. at_end. auto. Qed.

Example C46_same_case : exists s s', brk Guaranteed ex_waited = Some (s, tr_waited) /\ brk Spawned ex_report = Some (s', tr_report)
  /\ tr_waited = tr_subs ++ OPublished 0 5 50 :: skipn 7 tr_waited
  /\ tr_report = tr_subs ++ OPublished 0 5 50 :: skipn 7 tr_report
  /\ In (OFinished 0) tr_waited /\ In (OFinished 0) tr_report.
Proof.
  destruct (run_ok _ _ (brk Guaranteed ex_waited) tr_waited (fun _ => True)) as (s & A & _); [vm_compute; auto|].
  destruct (run_ok _ _ (brk Spawned ex_report) tr_report (fun _ => True)) as (s' & B & _); [vm_compute; auto|].
  exists s, s'. repeat (split; [solve [assumption | reflexivity | cbv; tauto]|]). cbv; tauto.
Qed.

(** ** C53: with spawned sends a later publication may overtake an earlier one *)
Theorem C53_spawned_order_refuted : ~ (forall st cap caps es s tr a,
  @broker_run nat nat nat Nat.eqb glob st cap caps es = Some (s, tr) -> ascending (copies (reads a tr))).
Proof.
  intro H. destruct (run_ok _ _ (brk Spawned ex_spawn) tr_spawn (fun _ => True)) as (s & A & _); [vm_compute; auto|].
  specialize (H _ _ _ _ _ _ 4 A 0 1 1 0 (le_n 1)). vm_compute in H.
  specialize (H eq_refl eq_refl). inversion H.
Qed.
Print Assumptions C53_spawned_order_refuted.

Example C53_case : exists s, brk Guaranteed
    (told_broker (Subscribe 0 1) ++ told_broker (Subscribe 5 1) ++ told_broker (Publish 5 50) ++ [EDeliver; ERead 1; EDeliver; EFinish]
     ++ told_broker (Publish 6 60) ++ [EDeliver; ERead 1; EDeliver; EFinish; ERead 1])
  = Some (s, [OSubscribed 0 1; OSubscribed 5 1; OPublished 0 5 50; OAttempt 0 0 1; OSettled 0 0 1 (Ok tt); ORead 1 (Copy 0 50);
              OAttempt 0 5 1; OSettled 0 5 1 (Ok tt); OFinished 0; OPublished 1 6 60; OAttempt 1 0 1;
              ORead 1 (Copy 0 50); OSettled 1 0 1 (Ok tt); OFinished 1; ORead 1 (Copy 1 60)]) /\ True.
Proof. at_end. auto. Qed.
