(** Specification vocabulary for requests. *)
From Coq Require Import List Bool PeanoNat.
From Verif Require Import Errors Dyn Reply Reply_spec Requests.

(** Method families, as documented. *)
Definition is_tell (k : method) : bool :=
  match k with MTell _ | MTellTry | MTellBlocking => true | _ => false end.
Definition is_ask (k : method) : bool :=
  match k with MAsk _ _ | MAskTry _ | MAskBlocking => true | _ => false end.
Definition is_enqueue (k : method) : bool :=
  match k with MEnqueue _ _ | MEnqueueTry _ | MEnqueueBlocking => true | _ => false end.
Definition is_forward (k : method) : bool :=
  match k with MForward _ | MForwardTry | MForwardBlocking => true | _ => false end.
(** Methods that do not wait for a free slot. *)
Definition is_try (k : method) : bool :=
  match k with MTellTry | MAskTry _ | MEnqueueTry _ | MForwardTry => true | _ => false end.
(** Methods called with a mailbox timeout (a reply timeout). *)
Definition has_mailbox_timeout (k : method) : bool :=
  match k with MTell t | MAsk t _ | MEnqueue t _ | MForward t => t | _ => false end.
Definition has_reply_timeout (k : method) : bool :=
  match k with MAsk _ t | MAskTry t | MEnqueue _ t | MEnqueueTry t => t | _ => false end.

(** The tell method a [Context] forward is to behave like. *)
Definition sends_like (d : fwd_mode) : method :=
  match d with FwdWait => MTell false | FwdTry => MTellTry | FwdBlocking => MTellBlocking end.

(** What a send attempt should end in. *)
Inductive verdict : Type := VSent | VClosed | VFull | VTimeout | VWait.

Import ListNotations.

Section Spec.
Variable user : nat -> Type.

(** A bounded mailbox without a free slot. *)
Definition full (b : mailbox user) : Prop :=
  exists c, mcap b = Some c /\ c <= length (mqueue b) + mheld b.

(** The documented verdict for mailbox [b]; [fired]: the mailbox timer has elapsed. *)
Inductive expects (k : method) (b : mailbox user) (fired : bool) : verdict -> Prop :=
| ex_closed : mopen b = false -> expects k b fired VClosed
| ex_sent : mopen b = true -> ~ full b -> expects k b fired VSent
| ex_full : mopen b = true -> full b -> is_try k = true -> expects k b fired VFull
| ex_timeout : mopen b = true -> full b -> has_mailbox_timeout k = true -> fired = true ->
    expects k b fired VTimeout
| ex_wait : mopen b = true -> full b -> is_try k = false ->
    (has_mailbox_timeout k = true -> fired = false) -> expects k b fired VWait.

(** Error [e] is the one that belongs to the verdict and carries the message [msg]. *)
Definition error_is {M E m : ty} (vd : verdict) (e : send_error (den user M) (den user E))
  (msg : den user m) : Prop :=
  match vd, e with
  | VClosed, ActorNotRunning v => same user v msg
  | VFull, MailboxFull v => same user v msg
  | VTimeout, Timeout (Some v) => same user v msg
  | _, _ => False
  end.

(** Mailbox [b'] is [b] with [l] appended at the back. *)
Definition appended (b b' : mailbox user) (l : list (gsignal user)) : Prop :=
  mqueue b' = mqueue b ++ l /\ mcap b' = mcap b /\ mheld b' = mheld b /\ mopen b' = mopen b.

(** The signal a request is to put in the mailbox. *)
Definition message_signal (k : method) (m : ty) (msg : den user m) (chn : nat) (within : bool)
  : gsignal user :=
  GMsg (existT _ m msg) (if is_tell k then None else Some chn) within.

(** Event lists that differ only in when the mailbox timer fires. *)
Definition no_mailbox_timer (e : rq_event user) : rq_event user :=
  match e with RPoll _ rt => RPoll false rt | x => x end.
Definition no_reply_timer (e : rq_event user) : rq_event user :=
  match e with RPoll mt _ => RPoll mt false | x => x end.

End Spec.
