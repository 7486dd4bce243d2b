(** When the mailbox of a subscriber has room, told by what was done to it (C46, C43). *)
From Coq Require Import List Bool PeanoNat.
Import ListNotations.
From Verif Require Import Errors Delivery PubSub Delivery_spec PubSub_spec.

Set Implicit Arguments.

Section Spec.
  Context {key topic reg msg fil : Type}.
  Variable recipient : reg -> nat.

  (** Messages of others that actor [a] accepted, places other senders reserved in its
      mailbox, and places they gave back. *)
  Definition others (a : nat) (es : list (@event key topic reg msg)) : nat :=
    count (fun e => match e with EOther a' _ => a' =? a | _ => false end) es.
  Definition holds (a : nat) (es : list (@event key topic reg msg)) : nat :=
    count (fun e => match e with EHold a' => a' =? a | _ => false end) es.
  Definition frees (a : nat) (es : list (@event key topic reg msg)) : nat :=
    count (fun e => match e with EFree a' => a' =? a | _ => false end) es.

  (** A mailbox of capacity [c] is not full: what was sent to it and not yet read and
      the places reserved do not fill it. *)
  Definition not_full (c : option nat) (a : nat) (es : list event) (tr : list obs) : Prop :=
    match c with
    | None => True
    | Some c => length (sends recipient a tr) + others a es + holds a es
                < c + length (@reads key topic reg msg a tr) + frees a es
    end.

  (** The same of the subscribers of a [PubSub]. *)
  Definition pothers (a : nat) (es : list (@pevent fil msg)) : nat :=
    count (fun e => match e with PEOther a' _ => a' =? a | _ => false end) es.
  Definition pholds (a : nat) (es : list (@pevent fil msg)) : nat :=
    count (fun e => match e with PEHold a' => a' =? a | _ => false end) es.
  Definition pfrees (a : nat) (es : list (@pevent fil msg)) : nat :=
    count (fun e => match e with PEFree a' => a' =? a | _ => false end) es.
  Definition pnot_full (c : option nat) (a : nat) (es : list pevent) (tr : list (@pobs fil msg)) : Prop :=
    match c with
    | None => True
    | Some c => length (psends a tr) + pothers a es + pholds a es
                < c + length (preads a tr) + pfrees a es
    end.
End Spec.
