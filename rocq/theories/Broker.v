(** Model of [Broker] (actors/src/broker.rs 76-266): Delivery.v with topic patterns.
    [glob::Pattern] and [matches_with] (outside the repository) are an arbitrary type with
    decidable equality and an arbitrary relation. *)
From Coq Require Import List Bool PeanoNat.
Import ListNotations.
From Verif Require Import Delivery.

Set Implicit Arguments.

Section Broker.
  Context {pattern topic msg : Type}.
  Variable pattern_eqb : pattern -> pattern -> bool.
  (** broker.rs 187-195: [pattern.matches_with(&topic, options)]. *)
  Variable matches : pattern -> topic -> bool.

  (** broker.rs 194-196: for each entry whose pattern matches, each recipient. *)
  Definition broker_targets (t : table) (tp : topic) : list (pattern * nat) :=
    flat_map (fun e => if matches (fst e) tp then map (fun r => (fst e, r)) (snd e) else []) t.

  (** Runs of the broker from its start (broker.rs 91-96): what is stored is the recipient
      itself, always usable; any pattern and recipient may be subscribed; [Unsubscribe] may
      name no topic (broker.rs 136-142). *)
  Definition broker_run (st : strategy) (cap : option nat) (caps : nat -> option nat)
      (es : list event) :=
    @run pattern topic nat msg pattern_eqb (fun r => r) (fun r => r) broker_targets
      (fun _ _ => true) (fun _ _ => true) true st (init cap caps) es.
End Broker.
