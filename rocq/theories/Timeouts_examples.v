(** Data for the examples beside the timeout theorems. *)
From Coq Require Import List NArith.
Import ListNotations.
From Verif Require Import Errors Dyn Reply Requests Requests_examples Timeouts.

(** A message of type [TUser 1] with the value 7, on channel 3. *)
Definition tx_msg : den ex_user (TUser 1) := (7 : nat).

(** A bounded mailbox of one place, taken; the same with the place free; an unbounded one. *)
Definition tx_full : mailbox ex_user := ex_box (Some 1) true.
Definition tx_free : mailbox ex_user := mk_mailbox (Some 1) [] 0 true.

(** Requests as a caller writes them: [ask(..).mailbox_timeout(9).reply_timeout(5)
    .mailbox_timeout(10).send()], the same with [enqueue], and [RemoteActorRef::ask]. *)
Definition tx_sets : list setter := [SetMailbox 9; SetReply 5; SetMailbox 10]%N.
Definition tx_plan : plan := mk_plan (MAsk true true) (Some 10%N) (Some 5%N).
Definition tx_enqueue : plan := mk_plan (MEnqueue true true) (Some 10%N) (Some 5%N).

(** The mailbox stays full: polled at 100, 104 and 111. *)
Definition tx_stuck : list (tevent ex_user) :=
  [PollAt true; Pass 4; PollAt false; Pass 7; PollAt false]%N.

(** The mailbox stays full: polled at 100 and at 110, when the timeout is due; the timer is
    late. *)
Definition tx_due : list (tevent ex_user) := [PollAt true; Pass 10; PollAt false]%N.

(** A place becomes free at 104; nobody answers: polled at 100, 105, 107, 111. *)
Definition tx_slow : list (tevent ex_user) :=
  [PollAt true; Pass 4; Box tx_free; Pass 1; PollAt true; Pass 2; PollAt true; Pass 4; PollAt false]%N.

(** The same up to 107, and then polled at 107 for the first time after the message was
    enqueued at 105 (by [enqueue]), at 111 and at 113. *)
Definition tx_late : list (tevent ex_user) :=
  [PollAt true; Pass 4; Box tx_free; Pass 1; PollAt true; Pass 2; PollAt true; Pass 4; PollAt true]%N.
Definition tx_later : list (tevent ex_user) := tx_late ++ [Pass 2; PollAt false]%N.

(** Runs from 100 on, with a timer that may be 1 late. *)
Definition tx_run (p : plan) (es : list (tevent ex_user)) :=
  texec (p := p) (r := ex_rep) 1%N tx_msg 3 false (tstart (TUser 1) ex_rep p 100%N tx_full) es.
