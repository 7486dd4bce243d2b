(** What is claimed of published messages, in terms of what is observed only. *)
From Coq Require Import List Bool PeanoNat.
Import ListNotations.
From Verif Require Import Errors Delivery.

Set Implicit Arguments.

Section Spec.
  Context {key topic reg msg : Type}.
  Variable key_eqb : key -> key -> bool.
  Variable rid : reg -> nat.
  Local Notation obs := (@obs key topic reg msg).

  (** How many subscriptions actor [id] has under key [k] after history [h]: those made
      since it was last unsubscribed from [k], from everything, or removed as dead. *)
  Definition subscriptions (h : list obs) (k : key) (id : nat) : nat :=
    fold_left (fun c o =>
      match o with
      | OSubscribed k' r => if key_eqb k' k && (rid r =? id) then S c else c
      | OUnsubscribed (Some k') id' => if key_eqb k' k && (id' =? id) then 0 else c
      | OUnsubscribed None id' => if id' =? id then 0 else c
      | OExpired k' id' => if key_eqb k' k && (id' =? id) then 0 else c
      | _ => c
      end) h 0.

  (** The number of observations with a property. *)
  Definition count {A : Type} (f : A -> bool) (l : list A) : nat := length (filter f l).

  (** A send of publication [n] for a subscription of [id] under [k] is begun. *)
  Definition is_attempt (n : nat) (k : key) (id : nat) (o : obs) : bool :=
    match o with
    | OAttempt n' k' r => (n' =? n) && (key_eqb k' k && (rid r =? id))
    | _ => false
    end.

  (** Such a send has a result. *)
  Definition is_settled (n : nat) (k : key) (id : nat) (o : obs) : bool :=
    match o with
    | OSettled n' k' r _ => (n' =? n) && (key_eqb k' k && (rid r =? id))
    | _ => false
    end.

  (** ... with the result that the actor is not running. *)
  Definition found_dead (n : nat) (k : key) (id : nat) (o : obs) : Prop :=
    exists r m, o = OSettled n k r (Err (ActorNotRunning m)) /\ rid r = id.

  (** What actor [a] has read, and the publications of which it has been sent a copy, in
      order. *)
  Variable recipient : reg -> nat.
  Definition reads (a : nat) (tr : list obs) : list (@ditem msg) :=
    flat_map (fun o => match o with ORead a' i => if a' =? a then [i] else [] | _ => [] end) tr.
  Definition sends (a : nat) (tr : list obs) : list nat :=
    flat_map (fun o => match o with OSettled n _ r (Ok _) => if recipient r =? a then [n] else [] | _ => [] end) tr.

  (** The publications of the copies among what was read. *)
  Definition copies (l : list (@ditem msg)) : list nat :=
    flat_map (fun i => match i with Copy n _ => [n] | Foreign _ => [] end) l.

  (** Numbers never going down. *)
  Definition ascending (l : list nat) : Prop :=
    forall i j x y, i < j -> nth_error l i = Some x -> nth_error l j = Some y -> x <= y.

  (** A free place in a mailbox. *)
  Definition has_room {I : Type} (b : box I) : Prop :=
    match bcap b with Some c => length (items b) + held b < c | None => True end.

  (** How often the clock ticks. *)
  Definition ticks (es : list (@event key topic reg msg)) : nat :=
    count (fun e => match e with ETick => true | _ => false end) es.

  (** Neither does actor [a] take a message or end, nor is a place in its mailbox given
      back, nor is the broker stopped. *)
  Definition leaves_alone (a : nat) (e : @event key topic reg msg) : Prop :=
    match e with ERead a' | EEnd a' | EFree a' => a' <> a | EStop => False | _ => True end.

  (** A publication begins. *)
  Definition is_publication (o : obs) : bool := match o with OPublished _ _ _ => true | _ => false end.

  (** No publication begins or ends. *)
  Definition within (o : obs) : Prop :=
    match o with OPublished _ _ _ | OFinished _ => False | _ => True end.

  (** The requests that users' tells and asks put into the mailbox, ... *)
  Definition sent (es : list (@event key topic reg msg)) : list (@bmsg key topic reg msg) :=
    flat_map (fun e => match e with ESend b => [b] | _ => [] end) es.

  (** ... those of spawned sends, ... *)
  Definition reported (tr : list obs) : list (@bmsg key topic reg msg) :=
    flat_map (fun o => match o with OReported k id => [Unsubscribe (Some k) id] | _ => [] end) tr.

  (** ... and those begun to be handled, in order. *)
  Definition handled (tr : list obs) : list (@bmsg key topic reg msg) :=
    flat_map (fun o =>
      match o with
      | OSubscribed k r => [Subscribe k r]
      | OUnsubscribed k id => [Unsubscribe k id]
      | OPublished _ t m => [Publish t m]
      | _ => []
      end) tr.

  (** The third list interleaves the first two. *)
  Inductive merged {A : Type} : list A -> list A -> list A -> Prop :=
  | merged_nil : merged [] [] []
  | merged_left : forall x a b c, merged a b c -> merged (x :: a) b (x :: c)
  | merged_right : forall x a b c, merged a b c -> merged a (x :: b) (x :: c).
End Spec.
