(** Specification vocabulary for remote requests. *)
From Coq Require Import List Bool String.
Import ListNotations.
From Verif Require Import Errors Dyn Reply Requests Requests_spec RemoteDispatch.

Section Spec.
Variable user : nat -> Type.
Variable id bytes : Type.
Variable w : world user id bytes.

(** The message ids are all different, as the start-up check demands. *)
Definition ids_unique : Prop := NoDup (map fst (w_messages w)).

(** The table has entry [x] for id [i]; or none. *)
Definition registered (reg : registry id) (i : id) (x : reg_entry) : Prop :=
  exists k, In (k, x) reg /\ w_eqb w k i = true.
Definition absent (reg : registry id) (i : id) : Prop :=
  forall k x, In (k, x) reg -> w_eqb w k i = false.
(** A hash map has one entry per key. *)
Definition one_entry (reg : registry id) : Prop :=
  forall i x y, registered reg i x -> registered reg i y -> x = y.

(** The program handles messages of this id, for an actor and message type. *)
Definition handles (q : request id bytes) (f : msg_fns) : Prop :=
  In ((q_actor q, q_msg q), f) (w_messages w).

(** The four documented refusals and when each applies: the first check that fails. *)
Inductive refusal : Type :=
| UnknownMessage
| NotRunning
| WrongType
| Undecodable (s : string).

Inductive refused (q : request id bytes) (reg : registry id) : refusal -> Prop :=
| ref_message :
    (forall f, ~ handles q f) -> refused q reg UnknownMessage
| ref_actor : forall f,
    handles q f -> absent reg (q_id q) -> refused q reg NotRunning
| ref_type : forall f x,
    handles q f -> registered reg (q_id q) x -> en_type x <> fn_actor f -> refused q reg WrongType
| ref_payload : forall f x s,
    handles q f -> registered reg (q_id q) x -> en_type x = fn_actor f ->
    w_decode w (fn_msg f) (q_payload q) = Err s -> refused q reg (Undecodable s).

(** All checks pass: the request is for actor [a] and carries message [msg]. *)
Definition accepted (q : request id bytes) (reg : registry id) (f : msg_fns) (a : nat)
  (msg : den user (fn_msg f)) : Prop :=
  exists x, handles q f /\ registered reg (q_id q) x /\ en_type x = fn_actor f /\ en_actor x = a /\
    w_decode w (fn_msg f) (q_payload q) = Ok msg.

(** The error that belongs to a refusal. *)
Definition refusal_error (E : Type) (q : request id bytes) (z : refusal) : remote_send_error E :=
  match z with
  | UnknownMessage => RUnknownMessage (q_actor q) (q_msg q)
  | NotRunning => RActorNotRunning
  | WrongType => RBadActorType
  | Undecodable s => RDeserializeMessage s
  end.
Definition refusal_response (q : request id bytes) (z : refusal) : response user bytes :=
  if q_ask q then RespAsk (Err (refusal_error bytes q z))
  else RespTell (Err (refusal_error Empty_set q z)).

(** How a local send error is reported remotely. *)
Inductive reported {M E : Type} : send_error M E -> remote_send_error E -> Prop :=
| rep_not_running : forall m, reported (ActorNotRunning m) RActorNotRunning
| rep_stopped : reported ActorStopped RActorStopped
| rep_full : forall m, reported (MailboxFull m) RMailboxFull
| rep_handler : forall e, reported (HandlerError e) (RHandlerError e)
| rep_timeout : forall m, reported (Timeout m) RReplyTimeout.

(** The result of a finished local request. *)
Inductive local_result {m : ty} {r : rty} {k : method} : rq_pc user m r k -> outcome user m r -> Prop :=
| lr_done : forall o, local_result (RqDone o) o
| lr_failed : forall e (e' : send_error (den user m) (den user (r_err r))),
    existT (fun t => send_error (den user t) (den user (r_err r))) _ e = existT _ m e' ->
    local_result (RqFailed (NotSent e)) (OutErr e').

(** The serialised answer to an ask whose local result is given. *)
Inductive ask_answer {m : ty} {r : rty} :
  outcome user m r -> result bytes (remote_send_error bytes) -> Prop :=
| aa_value : forall v p, w_encode w _ v = Ok p -> ask_answer (OutOk v) (Ok p)
| aa_value_bad : forall v s, w_encode w _ v = Err s -> ask_answer (OutOk v) (Err (RSerializeReply s))
| aa_handler : forall e p, w_encode w _ e = Ok p ->
    ask_answer (OutErr (HandlerError e)) (Err (RHandlerError p))
| aa_handler_bad : forall e s, w_encode w _ e = Err s ->
    ask_answer (OutErr (HandlerError e)) (Err (RSerializeHandlerError s))
| aa_not_running : forall v, ask_answer (OutErr (ActorNotRunning v)) (Err RActorNotRunning)
| aa_stopped : ask_answer (OutErr ActorStopped) (Err RActorStopped)
| aa_full : forall v, ask_answer (OutErr (MailboxFull v)) (Err RMailboxFull)
| aa_timeout : forall v, ask_answer (OutErr (Timeout v)) (Err RReplyTimeout).

(** The answer to a tell; a tell knows no other results. *)
Inductive tell_answer {m : ty} {r : rty} :
  outcome user m r -> result unit (remote_send_error Empty_set) -> Prop :=
| ta_ok : tell_answer OutSent (Ok tt)
| ta_not_running : forall v, tell_answer (OutErr (ActorNotRunning v)) (Err RActorNotRunning)
| ta_full : forall v, tell_answer (OutErr (MailboxFull v)) (Err RMailboxFull)
| ta_timeout : forall v, tell_answer (OutErr (Timeout (Some v))) (Err RReplyTimeout).

(** The response to request [q] whose local result is [o]. *)
Definition answers {m : ty} {r : rty} (q : request id bytes) (o : outcome user m r)
  (x : response user bytes) : Prop :=
  if q_ask q then exists a, x = RespAsk a /\ ask_answer o a
  else exists a, x = RespTell a /\ tell_answer o a.

(** The codec of type [t] gives back what was put in. *)
Definition round_trip (t : ty) : Prop :=
  forall (v : den user t) p, w_encode w t v = Ok p -> w_decode w t p = Ok v.

(** What the caller of a remote ask should get, in terms of the local result at the
    actor's node. *)
Inductive ask_result {m : ty} {r : rty} :
  outcome user m r -> remote_outcome (den user (r_ok r)) (den user (r_err r)) -> Prop :=
| ar_value : forall v p, w_encode w _ v = Ok p -> ask_result (OutOk v) (RemoteOk v)
| ar_value_bad : forall v s, w_encode w _ v = Err s ->
    ask_result (OutOk v) (RemoteErr (RSerializeReply s))
| ar_handler_bad : forall e s, w_encode w _ e = Err s ->
    ask_result (OutErr (HandlerError e)) (RemoteErr (RSerializeHandlerError s))
| ar_error : forall e x, reported e x ->
    (forall y, e = HandlerError y -> exists p, w_encode w _ y = Ok p) ->
    ask_result (OutErr e) (RemoteErr x).

(** What the caller of a remote tell should get. *)
Inductive tell_result {m : ty} {r : rty} : outcome user m r -> remote_outcome unit Empty_set -> Prop :=
| tr_ok : tell_result OutSent (RemoteOk tt)
| tr_not_running : forall v, tell_result (OutErr (ActorNotRunning v)) (RemoteErr RActorNotRunning)
| tr_full : forall v, tell_result (OutErr (MailboxFull v)) (RemoteErr RMailboxFull)
| tr_timeout : forall v, tell_result (OutErr (Timeout (Some v))) (RemoteErr RReplyTimeout).

(** The signals among [os] put into mailbox [a]. *)
Fixpoint into {T : Type} (a : nat) (os : list (nat * T)) : list T :=
  match os with
  | [] => []
  | (x, s) :: os' => if Nat.eqb x a then s :: into a os' else into a os'
  end.

(** Errors that tell of the network or of the caller's own node; serde does not write the
    last of them (src/error.rs 449-469). *)
Definition of_network {E : Type} (e : remote_send_error E) : bool :=
  match e with
  | RSerializeMessage _ | RDeserializeHandlerError _ | RSwarmNotBootstrapped | RDialFailure
  | RNetworkTimeout | RConnectionClosed | RUnsupportedProtocols | RIo _ => true
  | _ => false
  end.

(** A response of the kind of the request, whose error is not one of those. *)
Definition fits_wire (q : request id bytes) (x : response user bytes) : Prop :=
  match x with
  | RespAsk (Err e) => q_ask q = true /\ of_network e = false
  | RespAsk (Ok _) => q_ask q = true
  | RespTell (Err e) => q_ask q = false /\ of_network e = false
  | RespTell (Ok _) => q_ask q = false
  | RespOther _ | RespFailure _ => False
  end.

End Spec.
Arguments of_network {E} e.
Arguments fits_wire {user id bytes} q x.
Arguments registered {user id bytes} w reg i x.
Arguments absent {user id bytes} w reg i.
Arguments one_entry {user id bytes} w reg.
Arguments handles {user id bytes} w q f.
Arguments refused {user id bytes} w q reg z.
Arguments accepted {user id bytes} w q reg f a msg.
Arguments ids_unique {user id bytes} w.
Arguments refusal_response {user id bytes} q z.
Arguments local_result {user m r k} p o.
Arguments ask_answer {user id bytes} w {m r} o a.
Arguments tell_answer {user m r} o a.
Arguments answers {user id bytes} w {m r} q o x.
Arguments round_trip {user id bytes} w t.
Arguments ask_result {user id bytes} w {m r} o a.
Arguments tell_result {user m r} o a.
