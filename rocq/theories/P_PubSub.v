(** Property theorems about [PubSub] (C43, C53): any filters, every history. *)
From Coq Require Import List Bool PeanoNat.
From Verif Require Import Errors Delivery Delivery_spec Delivery_proofs PubSub PubSub_spec PubSub_proofs PubSub_line_proofs Delivery_room_spec Delivery_room_proofs Broker_examples PubSub_examples.
Import ListNotations.

Section PubSub.
  Context {fil msg : Type}.
  Variable call : fil -> msg -> option (bool * fil).
  Local Notation pubsub_run cap caps es := (@prun fil msg call (pinit cap caps) es).
  Local Notation filter_after := (@filter_after fil msg call).

  (** A publication, numbered by those before it, is sent at most once to any actor, only
      to one whose latest filter accepts the message, and by its end to each such. *)
  Theorem C43_copies : forall cap caps es s tr T1 n m T2,
    pubsub_run cap caps es = Some (s, tr) -> tr = T1 ++ POPublished n m :: T2 ->
    n = publications T1 /\ forall a,
      sent n a tr <= 1 /\ (sent n a tr = 1 -> wants call T1 m a) /\
      (In (POFinished n) tr -> wants call T1 m a -> sent n a tr = 1).
  Proof. exact (fun cap caps es s tr T1 n m T2 R E => p_hist (reach_pinv _ _ _ _ R) T1 n m T2 E). Qed.

  (** The map holds the subscriptions of the history, each once. *)
  Theorem C43_table : forall cap caps es s tr,
    pubsub_run cap caps es = Some (s, tr) ->
    NoDup (map fst (psubs s)) /\ (pph s <> PStopped -> forall a, lookup a (psubs s) = filter_after tr a).
  Proof. exact (fun cap caps es s tr R => conj (p_nodup (reach_pinv _ _ _ _ R)) (p_table (reach_pinv _ _ _ _ R))). Qed.

  (** A publication that ends removes those it found not running; everyone else who was
      subscribed when it began still is, the filter having seen this message. *)
  Theorem C43_effect : forall cap caps es s tr H n T,
    pubsub_run cap caps es = Some (s, tr) -> tr = H ++ POFinished n :: T ->
    exists T1 m T2, H = T1 ++ POPublished n m :: T2 /\ Forall calm T2 /\
      forall a, (gone_at n a H -> filter_after H a = None) /\
                (~ gone_at n a H -> filter_after H a = option_map (advance call m) (filter_after T1 a)).
  Proof. exact (fun cap caps es s tr H n T R => @peffect _ _ call cap caps es s tr R H n T). Qed.

  (** Nobody else is ever removed. *)
  Theorem C43_only_gone : forall cap caps es s tr H a T,
    pubsub_run cap caps es = Some (s, tr) -> tr = H ++ POExpired a :: T ->
    exists T1 n m T2, H = T1 ++ POPublished n m :: T2 /\ Forall calm T2 /\ gone_at n a H.
  Proof. exact (fun cap caps es s tr H a T R => @pexpired _ _ call cap caps es s tr R H a T). Qed.

  (** A send succeeds into an open mailbox with room, fails with the message if the
      mailbox is closed, and has no other outcome. *)
  Theorem C43_result : forall cap caps es s tr T1 n a x T2,
    pubsub_run cap caps es = Some (s, tr) -> tr = T1 ++ POSettled n a x :: T2 ->
    exists es1 e es2 s1 m, es = es1 ++ e :: es2 /\ pubsub_run cap caps es1 = Some (s1, T1) /\
      In (POPublished n m) T1 /\
      ((x = Ok tt /\ bopen (pboxes s1 a) = true /\ has_room (pboxes s1 a)) \/
       (x = Err (ActorNotRunning m) /\ bopen (pboxes s1 a) = false)).
  Proof. exact (@psettled_why _ _ call). Qed.

  (** If a filter panics on a message, that message is sent to nobody, whatever the order
      of the map, and nothing is published thereafter; no other filter is blamed. *)
  Theorem C43_panic : forall cap caps es s tr T1 n m T2,
    pubsub_run cap caps es = Some (s, tr) -> tr = T1 ++ POPublished n m :: T2 ->
    (forall a, In (POPanicked n a) tr -> exists f, filter_after T1 a = Some (Given f) /\ call f m = None) /\
    (forall a f, filter_after T1 a = Some (Given f) -> call f m = None ->
       (exists b, In (POPanicked n b) tr) /\ (forall b, sent n b tr = 0) /\ publications T2 = 0 /\ pph s = PStopped).
  Proof. exact (fun cap caps es s tr T1 n m T2 R => @ppanic _ _ call cap caps es s tr R T1 n m T2). Qed.

  (** A send to a closed mailbox or one with room is settled when polled, however the
      other subscribers are. *)
  Theorem C43_not_delayed : forall s n m sends i a,
    pph s = Publishing n m sends -> nth_error sends i = Some (a, None) ->
    (bopen (pboxes s a) = false \/ has_room (pboxes s a)) ->
    exists s' x, pstep call s (PEPoll i) = Some (s', [POSettled n a x]) /\
      pph s' = Publishing n m (set_nth i (a, Some x) sends) /\ (forall b, b <> a -> pboxes s' b = pboxes s b).
  Proof. exact (@ppoll _ _ call). Qed.

  (** If that is so of all that are left, the publication can end without anyone's help. *)
  Theorem C43_finishes : forall cap caps es s tr n m sends,
    pubsub_run cap caps es = Some (s, tr) -> pph s = Publishing n m sends ->
    (forall a, In (a, None) sends -> bopen (pboxes s a) = false \/ has_room (pboxes s a)) ->
    exists es' s' tr', Forall (fun e => match e with PEPoll _ | PEFinish => True | _ => False end) es' /\
      prun call s es' = Some (s', tr') /\ pph s' = PIdle /\ In (POFinished n) tr'.
  Proof. exact (@pfinishes _ _ call). Qed.

  (** But one subscriber with a full mailbox that neither takes a message nor ends keeps
      the publication, and so the actor, from ending. *)
  Theorem C43_blocked : forall es s s' tr n m sends a,
    pph s = Publishing n m sends -> In (a, None) sends ->
    bopen (pboxes s a) = true -> ~ has_room (pboxes s a) -> Forall (lets_be a) es -> prun call s es = Some (s', tr) ->
    (exists sends', pph s' = Publishing n m sends' /\ In (a, None) sends') /\ ~ In (POFinished n) tr /\
    bopen (pboxes s' a) = true /\ ~ has_room (pboxes s' a).
  Proof. exact (@pblocked _ _ call). Qed.

  (** What is sent to an actor is what it reads, as long as it has not ended; it reads only
      what was published. *)
  Theorem C53_pubsub_received : forall cap caps es s tr a,
    pubsub_run cap caps es = Some (s, tr) ->
    (exists lost, psends a tr = copies (preads a tr ++ items (pboxes s a)) ++ lost /\ (~ In (POEnded a) tr -> lost = [])) /\
    (forall n m, In (PORead a (Copy n m)) tr -> In (POPublished n m) tr).
  Proof. exact (@preceived _ _ call). Qed.

  (** Both in the order of publication. *)
  Theorem C53_pubsub_order : forall cap caps es s tr a,
    pubsub_run cap caps es = Some (s, tr) -> ascending (psends a tr) /\ ascending (copies (preads a tr)).
  Proof. exact (@pread_ordered _ _ call). Qed.

  (** Until it stops and while its mailbox has room it accepts a message; the messages it accepted are
      handled in order, each at most once, and until it stops the others are in its mailbox. *)
  Theorem C43_accepts : forall cap caps es s tr b, pubsub_run cap caps es = Some (s, tr) ->
    (exists s', pubsub_run cap caps (es ++ [PESend b]) = Some (s', tr)) <->
    pph s <> PStopped
    /\ match cap with Some c => length (paccepted es) < c + length (phandled tr) | None => True end.
  Proof. exact (@paccepts _ _ call). Qed.

  Theorem C43_in_turn : forall cap caps es s tr, pubsub_run cap caps es = Some (s, tr) ->
    exists rest, paccepted es = phandled tr ++ rest /\ (pph s <> PStopped -> items (pinbox s) = rest).
  Proof. exact (@pin_turn _ _ call). Qed.

  Theorem C43_taken : forall cap caps es s tr b q, pubsub_run cap caps es = Some (s, tr) ->
    pph s = PIdle -> items (pinbox s) = b :: q ->
    exists s' o, pubsub_run cap caps (es ++ [PETake]) = Some (s', tr ++ o) /\ phandled o = [b].
  Proof. exact (@ptaken _ _ call). Qed.

  (** It stops when it is stopped or killed and when a filter panics, and not otherwise. *)
  Theorem C43_stops : forall cap caps es s tr, pubsub_run cap caps es = Some (s, tr) ->
    pph s = PStopped <-> In PEStop es \/ exists n a, In (POPanicked n a) tr.
  Proof. exact (@pstops_when _ _ call). Qed.

  (** When the mailbox of a subscriber is open and has room, told by what was sent to it, read
      from it, and reserved in it. *)
  Theorem C43_room : forall cap caps es s tr a, pubsub_run cap caps es = Some (s, tr) ->
    (bopen (pboxes s a) = true <-> ~ In (POEnded a) tr)
    /\ (~ In (POEnded a) tr -> (has_room (pboxes s a) <-> pnot_full (caps a) a es tr)).
  Proof. exact (@pbox_room _ _ call). Qed.
End PubSub.
Print Assumptions C43_room.
Print Assumptions C43_accepts.
Print Assumptions C43_in_turn.
Print Assumptions C43_taken.
Print Assumptions C43_stops.
Print Assumptions C43_copies.
Print Assumptions C43_table.
Print Assumptions C43_effect.
Print Assumptions C43_only_gone.
Print Assumptions C43_result.
Print Assumptions C43_panic.
Print Assumptions C43_not_delayed.
Print Assumptions C43_finishes.
Print Assumptions C43_blocked.
Print Assumptions C53_pubsub_received.
Print Assumptions C53_pubsub_order.

(** The first publication goes to all, and the dead actor 2 is removed; the filter of 3 has
    been replaced, has seen the message, and rejects it the second time. *)
Example C43_case : exists s, pub ex_pub1 = Some (s, tr_pub1)
  /\ tr_pub1 = tr_psubs ++ POPublished 0 5 :: skipn 6 tr_pub1
  /\ sent 0 1 tr_pub1 = 1 /\ sent 0 2 tr_pub1 = 1 /\ sent 0 3 tr_pub1 = 1
  /\ filter_after rising tr_psubs 3 = Some (Given 5)
  /\ lookup 1 (psubs s) = Some Always /\ lookup 2 (psubs s) = None /\ lookup 3 (psubs s) = Some (Given 6)
  /\ In (POExpired 2) tr_pub1 /\ In (POFinished 0) tr_pub1.
Proof. at_end. repeat (split; [solve [reflexivity | tauto]|]). tauto. Qed.

(** A place reserved in the mailbox of 1 (capacity 1) fills it until it is given back. *)
Example C43_room_case :
  (exists s, pub (ex_psubs ++ [PEHold 1]) = Some (s, tr_psubs) /\ ~ has_room (pboxes s 1)) /\
  (exists s, pub (ex_psubs ++ [PEHold 1; PEFree 1]) = Some (s, tr_psubs) /\ has_room (pboxes s 1)) /\
  ~ In (POEnded 1) tr_psubs /\
  ~ pnot_full (Some 1) 1 (ex_psubs ++ [PEHold 1]) tr_psubs /\
  pnot_full (Some 1) 1 (ex_psubs ++ [PEHold 1; PEFree 1]) tr_psubs.
Proof.
  split; [at_end; split; [reflexivity|exact (Nat.lt_irrefl 1)]|].
  split; [at_end; split; [reflexivity|exact (le_n 1)]|].
  split; [vm_compute; intuition discriminate|].
  split; [exact (Nat.lt_irrefl 1)|exact (le_n 2)].
Qed.

(** It waits for the full mailbox of 1, and ends when there is room. *)
Example C43_wait_case : exists s, pub ex_wait2 = Some (s, tr_wait2)
  /\ pph s = Publishing 1 5 [(1, None)] /\ bopen (pboxes s 1) = true /\ ~ has_room (pboxes s 1).
Proof. at_end. repeat (split; [reflexivity|]). unfold has_room. cbn. apply Nat.lt_irrefl. Qed.
Example C43_end_case : exists s, pub ex_pub2 = Some (s, tr_pub2)
  /\ pph s = PIdle /\ sent 1 1 tr_pub2 = 1 /\ sent 1 3 tr_pub2 = 0
  /\ preads 1 tr_pub2 = [Copy 0 5; Copy 1 5] /\ psends 1 tr_pub2 = [0; 1] /\ preads 3 tr_pub2 = [Copy 0 5].
Proof. at_end. repeat (split; [reflexivity|]). reflexivity. Qed.

(** A panicking filter: nobody is sent anything. *)
Example C43_panic_case : exists s, pub ex_ppanic = Some (s, tr_ppanic)
  /\ tr_ppanic = tr_psubs ++ [POPublished 0 99; POPanicked 0 3] /\ pph s = PStopped.
Proof. at_end. auto. Qed.

(** While it waits for actor 1 two more messages are accepted, and are next when it is done. *)
Example C43_in_turn_case :
  (exists s, pub (ex_wait2 ++ [PESend (PPublish 7); PESend (PSubscribe 4 Always)]) = Some (s, tr_wait2)
     /\ pph s <> PStopped /\ items (pinbox s) = [PPublish 7; PSubscribe 4 Always]
     /\ phandled tr_wait2 = phandled tr_psubs ++ [PPublish 5; PPublish 5])
  /\ (exists s, pub (ex_pub2 ++ [PESend (PPublish 7)]) = Some (s, tr_pub2) /\ pph s = PIdle /\ items (pinbox s) = [PPublish 7]).
Proof. split; at_end; repeat (split; [solve [reflexivity | discriminate]|]); reflexivity. Qed.
