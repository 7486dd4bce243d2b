(** Property theorems about mailboxes (C66). *)
From Coq Require Import List Bool PeanoNat Permutation.
From Verif Require Import Mailbox Mailbox_spec Mailbox_proofs Mailbox_examples.
Import ListNotations.

(** ** C66 *)

(** There is a mailbox of any kind but a bounded one of capacity 0. *)
Theorem C66_exists : forall k, possible k [] <-> k <> Bounded 0.
Proof. exact mailbox_exists. Qed.
Print Assumptions C66_exists.

(** Which calls can follow, and what each returns, is what the calls before it say. *)
Theorem C66_exact : forall k h o r,
  possible k (h ++ [(o, r)]) <-> possible k h /\ allowed k (seen k h) o r.
Proof. exact mailbox_exact. Qed.
Print Assumptions C66_exact.

(** First in, first out, nothing twice, nothing lost; never more than the capacity. *)
Theorem C66_in_order : forall k h, possible k h ->
  entered (seen k h) = taken h ++ dropped h ++ unread (seen k h) /\
  match k with Bounded c => length (unread (seen k h)) <= c | Unbounded => True end /\
  (existsb (fun e => match fst e with ODropReceiver => true | _ => false end) h = true ->
   unread (seen k h) = []).
Proof. exact mailbox_in_order. Qed.
Print Assumptions C66_in_order.

(** Every signal offered entered, was given back, waits, or was dropped with its send. *)
Theorem C66_accounted : forall k h, possible k h ->
  exists lost, length lost = cancels h /\
    Permutation (offered h)
      (entered (seen k h) ++ returned h ++ map snd (line (seen k h)) ++ lost).
Proof. exact mailbox_accounted. Qed.
Print Assumptions C66_accounted.

(** Once it is closed, or its receiver dropped, no send succeeds. *)
Theorem C66_closed : forall k h1 o r h2 o' r', possible k (h1 ++ (o, r) :: h2) ->
  closing o = true -> In (o', r') h2 -> sends o' = true -> exists s, r' = RRefused s.
Proof. exact mailbox_closed. Qed.
Print Assumptions C66_closed.

(** Once [recv] said that it is over, it is: nothing was left, and nothing ever comes. *)
Theorem C66_over : forall k h1 h2, possible k (h1 ++ (ORecv, ROver) :: h2) ->
  unread (seen k h1) = [] /\ taken h2 = [] /\ (forall r, In (ORecv, r) h2 -> r = ROver) /\
  (forall o r, In (o, r) h2 -> sends o = true -> r <> RDone).
Proof. exact mailbox_over. Qed.
Print Assumptions C66_over.

(** Bounded and unbounded mailboxes cannot be told apart until a send is held up. *)
Theorem C66_alike : forall c h, possible (Bounded c) h -> existsb held_up h = false ->
  possible Unbounded h /\ seen (Bounded c) h = seen Unbounded h.
Proof. exact mailbox_alike. Qed.
Print Assumptions C66_alike.

Theorem C66_alike_back : forall c h, 0 < c -> possible Unbounded h ->
  (forall h1 o h2, h = h1 ++ (o, RDone) :: h2 -> sends o = true -> length (unread (seen Unbounded h1)) < c) ->
  possible (Bounded c) h /\ seen (Bounded c) h = seen Unbounded h.
Proof. exact mailbox_alike_back. Qed.
Print Assumptions C66_alike_back.

(** Receiving many is receiving as many one by one. *)
Theorem C66_recv_many : forall k h n l h2, possible k (h ++ (ORecvMany n, RMany l) :: h2) ->
  l = firstn n (unread (seen k h)) /\
  possible k (h ++ map (fun s => (ORecv, RGot s)) l ++ h2).
Proof. exact mailbox_recv_many. Qed.
Print Assumptions C66_recv_many.

(** A message that is in the mailbox or waits to enter it is a sender: it counts, weak senders
    can be upgraded, and an open mailbox is not over. *)
Theorem C66_message_counts : forall k h n,
  In (Message n) (unread (seen k h)) \/ In (Message n) (map snd (line (seen k h))) ->
  (forall x r, possible k (h ++ [(OStrongCount x, r)]) -> exists j, r = RCount (S j)) /\
  (forall r, possible k (h ++ [(OUpgrade, r)]) -> r = RDone) /\
  (shut (seen k h) = false -> ~ possible k (h ++ [(ORecv, ROver)])).
Proof. exact mailbox_message_counts. Qed.
Print Assumptions C66_message_counts.

(** A send waits only while the mailbox, with the sends that began to wait before, is full. *)
Theorem C66_line : forall k h i, possible k (h ++ [(OPoll i, RPending)]) ->
  exists c before s after, k = Bounded c /\ line (seen k h) = before ++ (i, s) :: after /\
    c <= length (unread (seen k h)) + length before.
Proof. exact mailbox_line. Qed.
Print Assumptions C66_line.

(** No assertion of the channel fails. *)
Theorem C66_no_panic : forall k h o, ~ possible k (h ++ [(o, RPanic)]).
Proof. exact mailbox_no_panic. Qed.
Print Assumptions C66_no_panic.

(** It is not true that [recv] on a closed and empty mailbox is over: a send that had a place
    when it was closed has yet to be polled or dropped. *)
Theorem C66_closed_empty_refuted : ~ forall k h r, possible k (h ++ [(ORecv, r)]) ->
  shut (seen k h) = true -> unread (seen k h) = [] -> r = ROver.
Proof. exact closed_empty_refuted. Qed.
Print Assumptions C66_closed_empty_refuted.

(** Nor that a send that has to wait enters before every send that begins later. *)
Theorem C66_in_turn_refuted : ~ forall k h1 i s h2 j t h3,
  possible k (h1 ++ (OSend i s, RPending) :: h2 ++ (OSend j t, RDone) :: h3) ->
  ~ In (OCancel i, RDone) h2 -> In (OPoll i, RDone) h2.
Proof. exact in_turn_refuted. Qed.
Print Assumptions C66_in_turn_refuted.

(** Runs that meet the hypotheses: one with a send that waits, and signals taken one by one and
    several at once; one that is closed; one whose senders go; one whose receiver goes. *)
Example C66_busy_case : possible (Bounded 2) busy /\ taken busy = [Message 10; Stop; Message 12] /\
  existsb held_up busy = true /\ unread (seen (Bounded 2) busy) = [].
Proof. exact (conj busy_possible (conj eq_refl (conj eq_refl eq_refl))). Qed.
Print Assumptions C66_busy_case.

Example C66_shutting_case : possible (Bounded 1) shutting /\ shut (seen (Bounded 1) shutting) = true /\
  returned shutting = [Stop; Stop; Message 11; Stop].
Proof. exact (conj shutting_possible (conj eq_refl eq_refl)). Qed.
Print Assumptions C66_shutting_case.

Example C66_leaving_case : possible (Bounded 2) leaving /\ possible Unbounded leaving /\
  existsb held_up leaving = false.
Proof. exact (conj leaving_possible (conj leaving_unbounded eq_refl)). Qed.
Print Assumptions C66_leaving_case.

Example C66_abandoned_case : possible (Bounded 2) abandoned /\ dropped abandoned = [Message 10; Stop] /\
  cancels abandoned = 1.
Proof. exact (conj abandoned_possible (conj eq_refl eq_refl)). Qed.
Print Assumptions C66_abandoned_case.
