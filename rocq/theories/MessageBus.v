(** Model of [MessageBus] (actors/src/message_bus.rs 69-262): Delivery.v with message
    types. A Rust type is named by its [TypeId], a number. *)
From Coq Require Import List Bool PeanoNat.
Import ListNotations.
From Verif Require Import Delivery.

Set Implicit Arguments.

Section MessageBus.
  Context {msg : Type}.

  (** message_bus.rs 249-253: [Registration]: the id and the boxed [Recipient<M>], that
      is the type [M] it was made for and the actor it sends to. *)
  Record registration : Type := mk_registration {
    actor_id : nat;
    boxed_type : nat;
    boxed_actor : nat
  }.

  (** message_bus.rs 255-262: [Registration::new]. *)
  Definition registration_new (ty a : nat) : registration := mk_registration a ty a.

  (** message_bus.rs 182-187: the registrations of the message's type. *)
  Definition bus_targets (t : table) (ty : nat) : list (nat * registration) :=
    match get Nat.eqb ty t with
    | Some rs => map (fun r => (ty, r)) rs
    | None => []
    end.

  (** message_bus.rs 188: whether [downcast_ref::<Recipient<M>>()] succeeds. *)
  Definition bus_usable (ty : nat) (r : registration) : bool := boxed_type r =? ty.

  (** message_bus.rs 110-123: [Register<M>] pushes [Registration::new] of a [Recipient<M>]
      under [TypeId::of::<M>()]. *)
  Definition bus_fits (ty : nat) (r : registration) : bool :=
    (boxed_type r =? ty) && (actor_id r =? boxed_actor r).

  (** Runs of the message bus from its start (message_bus.rs 85-90); there is no message
      to unregister from all types. *)
  Definition bus_run (st : strategy) (cap : option nat) (caps : nat -> option nat)
      (es : list event) :=
    @run nat nat registration msg Nat.eqb boxed_actor actor_id bus_targets
      bus_usable bus_fits false st (init cap caps) es.
End MessageBus.
