(** Property theorems about listening, dialling and the addresses a node knows (C72): any
    number of calls, any answers of libp2p, futures awaited, dropped or left alone. *)
From Coq Require Import List Bool PeanoNat.
From Verif Require Import Network Network_spec Network_proofs Network_examples.
Import ListNotations.

(** ** C72 *)

(** Commands are carried out in the order of the calls, each at most once, none that was
    not asked for; until the handler is dropped none is left out. *)
Theorem C72_in_order : forall es s t, exec fresh es = Some (s, t) ->
  map fst (called t) = seq 0 (length (called t))
  /\ exists rest, called t = carried t ++ rest /\ (~ In OLost t -> rest = n_line s).
Proof. exact in_order. Qed.
Print Assumptions C72_in_order.

(** Whatever else happened, the oldest command not carried out can be carried out next. *)
Theorem C72_next : forall es s t r, exec fresh es = Some (s, t) -> ~ In OLost t -> carried t <> called t ->
  exists i c s' o, nth_error (called t) (length (carried t)) = Some (i, c)
    /\ step s (Take r) = Some (s', ODid i c r :: o).
Proof. exact next_taken. Qed.
Print Assumptions C72_next.

(** What a poll of a future shows: the result of its own command once that is carried out;
    a panic if the handler was dropped before; else it is pending. *)
Theorem C72_poll : forall es s t i c, exec fresh es = Some (s, t) -> In (OCalled i c) t -> awaits c ->
  ~ let_go i es t ->
  exists s' o, step s (Poll i) = Some (s', [o]) /\
    ((exists r, In (ODid i c r) t /\ o = OReady i r)
     \/ ((forall c' r, ~ In (ODid i c' r) t) /\ In OLost t /\ o = OFuturePanicked i)
     \/ ((forall c' r, ~ In (ODid i c' r) t) /\ ~ In OLost t /\ o = OPending i /\ s' = s)).
Proof. exact polled. Qed.
Print Assumptions C72_poll.

(** A future returns only what libp2p answered to its own command, and after it. *)
Theorem C72_result : forall es s t, exec fresh es = Some (s, t) -> forall i r t1 t2, t = t1 ++ OReady i r :: t2 ->
  exists c, In (OCalled i c) t1 /\ awaits c /\ In (ODid i c r) t1.
Proof. exact result_true. Qed.
Print Assumptions C72_result.

(** A future panics only after the handler was dropped, with the command never carried out. *)
Theorem C72_panic : forall es s t, exec fresh es = Some (s, t) -> forall i t1 t2, t = t1 ++ OFuturePanicked i :: t2 ->
  exists c, In (OCalled i c) t1 /\ awaits c /\ In OLost t1 /\ (forall c' r, ~ In (ODid i c' r) t1).
Proof. exact panic_true. Qed.
Print Assumptions C72_panic.

(** A future has at most one result. *)
Theorem C72_once : forall es s t i, exec fresh es = Some (s, t) -> results i t <= 1.
Proof. exact result_once. Qed.
Print Assumptions C72_once.

(** What callers do with their futures, even dropping them unpolled, changes nothing of what
    is carried out, of the mode and of the addresses. *)
Theorem C72_unnoticed : forall es s t, exec fresh es = Some (s, t) ->
  exists s', exec fresh (filter (fun e => negb (of_futures e)) es) = Some (s', filter (fun o => negb (seen_by_owner o)) t)
    /\ n_line s' = n_line s /\ n_server s' = n_server s /\ n_known s' = n_known s.
Proof. exact unnoticed. Qed.
Print Assumptions C72_unnoticed.

(** A node serves Kademlia's queries once a [listen_on] was carried out, whatever came of
    it, and from then on. *)
Theorem C72_server : forall es s t, exec fresh es = Some (s, t) ->
  n_server s = true <-> exists i a r, In (ODid i (Listen a) r) t.
Proof. exact server_when. Qed.
Print Assumptions C72_server.

(** So a node that listens nowhere can be in server mode. *)
Theorem C72_failed_listen_refuted : ~ (forall es s t, exec fresh es = Some (s, t) -> n_server s = true ->
  exists i a n, In (ODid i (Listen a) (Good n)) t).
Proof. exact failed_listen. Qed.
Print Assumptions C72_failed_listen_refuted.

(** Kademlia is given exactly the addresses mDNS finds, in that order; none is taken back. *)
Theorem C72_known : forall es s t, exec fresh es = Some (s, t) -> n_known s = found es /\ learned t = found es.
Proof. exact known_all. Qed.
Print Assumptions C72_known.

(** So an address that expired stays. *)
Theorem C72_expired_refuted : ~ (forall es l s t x, exec fresh (es ++ [Expired l]) = Some (s, t) -> In x l ->
  ~ In x (n_known s)).
Proof. exact expired_kept. Qed.
Print Assumptions C72_expired_refuted.

(** Once the handler is dropped no call returns, nothing is carried out and no address is
    learned: every further call panics. *)
Theorem C72_gone : forall es s t, exec fresh es = Some (s, t) -> forall t1 t2, t = t1 ++ OLost :: t2 ->
  called t2 = [] /\ carried t2 = [] /\ learned t2 = [] /\ forall c, step s (Call c) = Some (s, [OCallPanicked c]).
Proof. exact after_loss. Qed.
Print Assumptions C72_gone.

(** A day with all of it: a failed [listen_on] that leaves the node a server, a [dial]
    carried out though its future was dropped, a [dial] that panics with the handler gone, an
    address that expired and stays. *)
Example C72_case : exec fresh day = Some (day_node, day_trace)
  /\ called day_trace = [(0, Listen 7); (1, Dial 8); (2, AddAddress 3 9); (3, Disconnect 3); (4, Dial 10)]
  /\ carried day_trace = [(0, Listen 7); (1, Dial 8); (2, AddAddress 3 9); (3, Disconnect 3)]
  /\ In (OReady 0 (Bad 2)) day_trace /\ In (OFuturePanicked 4) day_trace /\ In (OCallPanicked (Listen 11)) day_trace
  /\ let_go 1 day day_trace /\ n_server day_node = true /\ n_known day_node = [(3, 4); (5, 6)].
Proof.
  split; [exact day_runs|].
  repeat split; try reflexivity; try (simpl; tauto).
  left. simpl. tauto.
Qed.

(** Before the handler is gone, with two commands in the channel: the future of the first is
    pending and not let go, and its command is the next. *)
Example C72_pending_case : exists s t, exec fresh [Call (Dial 8); Poll 0; Call (Listen 7)] = Some (s, t)
  /\ In (OCalled 0 (Dial 8)) t /\ awaits (Dial 8) /\ ~ let_go 0 [Call (Dial 8); Poll 0; Call (Listen 7)] t
  /\ ~ In OLost t /\ carried t <> called t.
Proof.
  eexists _, _. split; [reflexivity|]. simpl. unfold let_go. simpl. repeat split; auto; try discriminate;
    try (intuition discriminate).
  intros [H|[[r H]|H]]; intuition discriminate.
Qed.
