(** What is claimed of [PubSub], in terms of what is observed only. *)
From Coq Require Import List Bool PeanoNat.
Import ListNotations.
From Verif Require Import Errors Delivery PubSub.

Set Implicit Arguments.

Section Spec.
  Context {fil msg : Type}.
  Variable call : fil -> msg -> option (bool * fil).
  Local Notation pobs := (@pobs fil msg).

  (** The state of a filter after it has seen a message. *)
  Definition advance (m : msg) (f : @filter_fn fil) : @filter_fn fil :=
    match f with
    | Always => Always
    | Given f => match call f m with Some (_, f') => Given f' | None => Given f end
    end.

  (** The filter of actor [a] after history [h], if it is subscribed: the latest it was
      subscribed with, having seen all messages published since. *)
  Definition filter_after (h : list pobs) (a : nat) : option (@filter_fn fil) :=
    fold_left (fun c o =>
      match o with
      | POSubscribed a' f => if a' =? a then Some f else c
      | POPublished _ m => option_map (advance m) c
      | POExpired a' => if a' =? a then None else c
      | _ => c
      end) h None.

  (** Whether a filter accepts a message. *)
  Definition accepts (m : msg) (f : @filter_fn fil) : Prop :=
    match f with Always => True | Given f => exists f', call f m = Some (true, f') end.

  (** Whether the subscription of [a] after history [h] accepts a message. *)
  Definition wants (h : list pobs) (m : msg) (a : nat) : Prop :=
    exists f, filter_after h a = Some f /\ accepts m f.

  (** The number of sends to [a] for publication [n] that have their result. *)
  Definition sent (n a : nat) (tr : list pobs) : nat :=
    length (filter (fun o => match o with POSettled n' a' _ => (n' =? n) && (a' =? a) | _ => false end) tr).

  (** The number of publications. *)
  Definition publications (tr : list pobs) : nat :=
    length (filter (fun o => match o with POPublished _ _ => true | _ => false end) tr).

  (** A send of publication [n] found [a] not running. *)
  Definition gone_at (n a : nat) (tr : list pobs) : Prop :=
    exists m, In (POSettled n a (Err (ActorNotRunning m))) tr.

  (** What actor [a] has read, and the publications of which it has been sent a copy. *)
  Definition preads (a : nat) (tr : list pobs) : list (@ditem msg) :=
    flat_map (fun o => match o with PORead a' i => if a' =? a then [i] else [] | _ => [] end) tr.
  Definition psends (a : nat) (tr : list pobs) : list nat :=
    flat_map (fun o => match o with POSettled n a' (Ok _) => if a' =? a then [n] else [] | _ => [] end) tr.

  (** No publication begins or ends, nobody subscribes. *)
  Definition calm (o : pobs) : Prop :=
    match o with POPublished _ _ | POFinished _ | POSubscribed _ _ => False | _ => True end.

  (** Neither does [a] take a message or end, nor is a place in its mailbox given back,
      nor is the [PubSub] stopped. *)
  Definition lets_be (a : nat) (e : @pevent fil msg) : Prop :=
    match e with PERead a' | PEEnd a' | PEFree a' => a' <> a | PEStop => False | _ => True end.

  (** The messages the actor accepted, and those it has begun to handle, in order. *)
  Definition paccepted (es : list (@pevent fil msg)) : list (@pmsg fil msg) :=
    flat_map (fun e => match e with PESend b => [b] | _ => [] end) es.
  Definition phandled (tr : list pobs) : list (@pmsg fil msg) :=
    flat_map (fun o =>
      match o with POSubscribed a f => [PSubscribe a f] | POPublished _ m => [PPublish m] | _ => [] end) tr.
End Spec.
