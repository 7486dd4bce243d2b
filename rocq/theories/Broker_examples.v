(** Runs used in the examples of P_Broker.v, P_MessageBus.v and P_Delivery.v, and the
    witnesses of what does not hold. *)
From Coq Require Import List Bool PeanoNat.
From Verif Require Import Errors Delivery Broker MessageBus Delivery_spec.
Import ListNotations.

(** Patterns and topics are numbers; the pattern 0 matches everything, any other itself. *)
Definition glob (p t : nat) : bool := (p =? 0) || (p =? t).
Definition caps (a : nat) : option nat := match a with 1 => Some 1 | _ => None end.
Notation brk st es := (@broker_run nat nat nat Nat.eqb glob st (Some 8) caps es).
Notation bus st es := (@bus_run nat st (Some 8) caps es).

Definition told_broker (b : @bmsg nat nat nat nat) : list event := [ESend b; ETake].
Definition told_bus (b : @bmsg nat nat registration nat) : list event := [ESend b; ETake].

Definition trace_of {S O : Type} (r : option (S * list O)) : list O := match r with Some (_, t) => t | None => [] end.

(** A run with a given trace and a property of the state reached. *)
Lemma run_ok : forall (S O : Type) (r : option (S * list O)) t (P : S -> Prop),
  match r with Some (s, t') => t' = t /\ P s | None => False end -> exists s, r = Some (s, t) /\ P s.
Proof. intros S O [[s t']|] t P H; [|destruct H]. destruct H as [-> H]. eauto. Qed.
Ltac at_end := apply run_ok; vm_compute.

(** Actor 1 (room for one message) is subscribed twice to everything, 2 to topics 5 and 7,
    3 to topic 7 only; 2 has ended. *)
Definition ex_subs : list event :=
  told_broker (Subscribe 0 1) ++ told_broker (Subscribe 0 1) ++ told_broker (Subscribe 5 2) ++
  told_broker (Subscribe 7 2) ++ told_broker (Subscribe 7 3) ++ [EEnd 2].
Definition tr_subs := Eval vm_compute in trace_of (brk BestEffort ex_subs).
Definition ex_best : list event := ex_subs ++ told_broker (Publish 5 50) ++ [EDeliver; EDeliver; EDeliver; EFinish].
Definition tr_best := Eval vm_compute in trace_of (brk BestEffort ex_best).

(** Waiting for room: the second copy to 1 waits. *)
Definition ex_wait : list event := ex_subs ++ told_broker (Publish 5 50) ++ [EDeliver; EDeliver].
Definition ex_waited : list event := ex_wait ++ [ETick; ERead 1; EDeliver; EDeliver; EFinish].
Definition tr_wait := Eval vm_compute in trace_of (brk Guaranteed ex_wait).
Definition tr_waited := Eval vm_compute in trace_of (brk Guaranteed ex_waited).
Definition ex_late : list event := ex_wait ++ [ETick; ETick].
Definition ex_timed : list event := ex_late ++ [EDeliver; EDeliver; EFinish].
Definition tr_late := Eval vm_compute in trace_of (brk (TimedDelivery 2) ex_late).
Definition tr_timed := Eval vm_compute in trace_of (brk (TimedDelivery 2) ex_timed).

(** Spawned tasks: the second publication overtakes the first; the ended actor 2 is
    reported and unsubscribed by a message. *)
Definition ex_spawn : list event :=
  told_broker (Subscribe 0 4) ++ told_broker (Publish 5 50) ++ [EDeliver; EFinish] ++
  told_broker (Publish 5 51) ++ [EDeliver; EFinish; ETask 1; ETask 0; ERead 4; ERead 4].
Definition tr_spawn := Eval vm_compute in trace_of (brk Spawned ex_spawn).
Definition ex_report : list event :=
  ex_subs ++ told_broker (Publish 5 50) ++ [EDeliver; EDeliver; EDeliver; EFinish; ETask 0; ETask 1; ETask 2; ETask 2; ETake].
Definition tr_report := Eval vm_compute in trace_of (brk Spawned ex_report).
Definition ex_spawn_late : list event :=
  ex_subs ++ told_broker (Publish 5 50) ++ [EDeliver; EDeliver; EDeliver; EFinish; ETask 0; ETask 1; ETick; ETick].
Definition tr_spawn_late := Eval vm_compute in trace_of (brk (SpawnedWithTimeout 2) ex_spawn_late).

(** The bus: actor 1 is registered for types 3 and 4, actor 2 for 3 (and has ended). *)
Definition ex_bus : list event :=
  told_bus (Subscribe 3 (registration_new 3 1)) ++ told_bus (Subscribe 4 (registration_new 4 1)) ++
  told_bus (Subscribe 3 (registration_new 3 2)) ++ told_bus (Subscribe 4 (registration_new 4 2)) ++ [EEnd 2] ++
  told_bus (Publish 3 30) ++ [EDeliver; EDeliver; EFinish].
Definition tr_bus := Eval vm_compute in trace_of (bus Guaranteed ex_bus).
