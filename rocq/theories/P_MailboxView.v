(** Property theorems about what one sender sees of a mailbox (C66). *)
From Coq Require Import List Bool PeanoNat.
From Verif Require Import Mailbox Mailbox_spec MailboxView_spec MailboxView_proofs MailboxView_examples.
From Verif Require Errors Requests.
Import ListNotations.

(** ** C66: how many signals are in the mailbox, how many places were handed to sends of others
    and whether it is closed tell a sender the answer to each of its calls. *)

(** Not waiting: [try_send]. *)
Theorem C66_seen_try_send : forall user (conv : signal -> Requests.gsignal user) k h m i s r m',
  used k h m -> step (OTrySend s) m = Some (r, m') -> ~ In i (map w_id (waits_of (sem m))) ->
  matches user conv k i s m m' r
    (Requests.Ready match k with
                    | Bounded _ => Requests.bounded_try_send (shown user conv k i m) (conv s)
                    | Unbounded => Requests.unbounded_send (shown user conv k i m) (conv s)
                    end).
Proof. exact shown_try_send. Qed.
Print Assumptions C66_seen_try_send.

(** [send], when it is first polled. *)
Theorem C66_seen_send : forall user (conv : signal -> Requests.gsignal user) k h m i s r m',
  used k h m -> step (OSend i s) m = Some (r, m') ->
  matches user conv k i s m m' r
    match k with
    | Bounded _ => Requests.bounded_send (shown user conv k i m) (conv s)
    | Unbounded => Requests.Ready (Requests.unbounded_send (shown user conv k i m) (conv s))
    end.
Proof. exact shown_send. Qed.
Print Assumptions C66_seen_send.

(** [send], when it waited. *)
Theorem C66_seen_poll : forall user (conv : signal -> Requests.gsignal user) k h m i r m',
  used k h m -> step (OPoll i) m = Some (r, m') ->
  exists c s, k = Bounded c /\ carried i m s /\
  matches user conv k i s m m' r (Requests.bounded_send (shown user conv k i m) (conv s)).
Proof. exact shown_poll. Qed.
Print Assumptions C66_seen_poll.

(** The place that was freed belongs to the send that waits: that one sees room, another does not,
    and this is what the calls give. *)
Example C66_seen_case : used (Bounded 1) handed_over handed_box /\
  Requests.room (shown _ written (Bounded 1) 2 handed_box) = true /\
  Requests.room (shown _ written (Bounded 1) 3 handed_box) = false /\
  option_map fst (step (OPoll 2) handed_box) = Some RDone /\
  option_map fst (step (OSend 3 (Message 11)) handed_box) = Some RPending /\
  option_map fst (step (OTrySend Stop) handed_box) = Some (RFull Stop).
Proof. exact (conj handed_used (conj eq_refl (conj eq_refl (conj eq_refl (conj eq_refl eq_refl))))). Qed.
Print Assumptions C66_seen_case.
