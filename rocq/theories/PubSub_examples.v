(** Runs used in the examples of P_PubSub.v. *)
From Coq Require Import List Bool PeanoNat.
From Verif Require Import Errors Delivery PubSub PubSub_spec Broker_examples.
Import ListNotations.

(** A filter with a threshold that rises by one at each call; it panics at 99. *)
Definition rising (f m : nat) : option (bool * nat) :=
  if m =? 99 then None else Some (f <=? m, S f).
Notation pub es := (@prun nat nat rising (pinit (Some 8) caps) es).

Definition told_pubsub (b : @pmsg nat nat) : list pevent := [PESend b; PETake].

(** Actor 1 (room for one message) and the ended actor 2 get everything, actor 3 first a
    filter from 9, replaced by one from 5. *)
Definition ex_psubs : list pevent :=
  told_pubsub (PSubscribe 1 Always) ++ told_pubsub (PSubscribe 3 (Given 9)) ++ told_pubsub (PSubscribe 2 Always) ++
  told_pubsub (PSubscribe 3 (Given 5)) ++ [PEEnd 2; PERehash 0].
Definition tr_psubs := Eval vm_compute in trace_of (pub ex_psubs).
(** The message 5 goes to all three, then again to 1 only (the threshold is 6 now). *)
Definition ex_pub1 : list pevent := ex_psubs ++ told_pubsub (PPublish 5) ++ [PEPoll 2; PEPoll 0; PEPoll 1; PEFinish].
Definition tr_pub1 := Eval vm_compute in trace_of (pub ex_pub1).
Definition ex_wait2 : list pevent := ex_pub1 ++ told_pubsub (PPublish 5) ++ [PEPoll 0].
Definition tr_wait2 := Eval vm_compute in trace_of (pub ex_wait2).
Definition ex_pub2 : list pevent := ex_wait2 ++ [PERead 1; PEPoll 0; PEFinish; PERead 1; PERead 3].
Definition tr_pub2 := Eval vm_compute in trace_of (pub ex_pub2).
(** The filter of 3 panics. *)
Definition ex_ppanic : list pevent := ex_psubs ++ told_pubsub (PPublish 99).
Definition tr_ppanic := Eval vm_compute in trace_of (pub ex_ppanic).
