(** Property theorems about remote asks and tells (C47). [w] fixes the comparison of
    actor ids, the serialisers of all types and the messages the program handles; all
    are arbitrary. Between two polls of the serving task the table, the mailboxes and
    the reply channel change in any way. *)
From Coq Require Import List Bool String.
Import ListNotations.
From Verif Require Import Errors Dyn Reply Requests Requests_spec RemoteDispatch RemoteDispatch_spec
  RemoteDispatch_proofs RemoteDispatch_examples.

(** ** C47: the request is refused by the first failing check, without touching any
    mailbox, or it is a local request with the decoded message, answered by what that
    gives. [n1] is the node when the task held the lock of the table. *)
Theorem C47_served : forall user id bytes (w : world user id bytes) chn q es reg0 box0 (n : node user q) os,
  ids_unique w -> d_exec w chn q (mk_node reg0 box0 DStart) es = Some (n, os) ->
  (os = [] /\ (n_pc n = DStart \/ exists f, n_pc n = DLock f /\ handles w q f))
  \/ exists es1 mt rt es2 n1,
       es = es1 ++ DPoll mt rt :: es2 /\
       d_exec w chn q (mk_node reg0 box0 DStart) es1 = Some (n1, []) /\
       ((exists z, refused w q (n_reg n1) z /\ n_pc n = DDone (refusal_response q z) /\ os = [])
        \/ (exists f a msg es' s os', accepted w q (n_reg n1) f a msg /\
              rq_exec msg chn false (rq_start (fn_msg f) (reply_of q f) (method_of q) (n_box n1 a)) es'
                = Some (s, os') /\ os = map (pair a) os' /\
              ((n_pc n = DRun f a msg (rq_ch s) (rq_pos s) /\ n_box n a = rq_box s /\
                (rq_pos s = RqSend \/ rq_pos s = RqWait))
               \/ (exists o r, local_result (rq_pos s) o /\ answers w q o r /\ n_pc n = DDone r)
               \/ (rq_pos s = RqDone OutPanic /\ n_pc n = DPanic)))).
Proof. exact served. Qed.
Print Assumptions C47_served.

(** The four refusals. *)
Example C47_unknown_message_case :
  exists n, d_exec rd_world 5 (rd_ask 7 "A" "n" 42) (mk_node rd_table (fun _ => rd_empty) DStart) [DPoll false false]
    = Some (n, []) /\ n_pc n = DDone (RespAsk (Err (RUnknownMessage "A" "n"))).
Proof. eexists. split; vm_compute; reflexivity. Qed.
Example C47_not_running_case :
  exists n, d_exec rd_world 5 (rd_tell 7 "A" "m" 42) (mk_node rd_table (fun _ => rd_empty) DStart)
    [DPoll false false; DEnvReg []; DPoll false false] = Some (n, [])
    /\ n_pc n = DDone (RespTell (Err RActorNotRunning)).
Proof. eexists. split; vm_compute; reflexivity. Qed.
Example C47_bad_type_case :
  exists n, d_exec rd_world 5 (rd_ask 8 "A" "m" 42) (mk_node rd_table (fun _ => rd_empty) DStart)
    [DPoll false false; DPoll false false] = Some (n, []) /\ n_pc n = DDone (RespAsk (Err RBadActorType)).
Proof. eexists. split; vm_compute; reflexivity. Qed.
Example C47_undecodable_case :
  exists n, d_exec rd_world 5 (rd_ask 7 "A" "m" 142) (mk_node rd_table (fun _ => rd_empty) DStart)
    [DPoll false false; DPoll false false] = Some (n, [])
    /\ n_pc n = DDone (RespAsk (Err (RDeserializeMessage "bad data"))).
Proof. eexists. split; vm_compute; reflexivity. Qed.
(** An ask that waits for a slot, is delivered though the actor has left the table
    meanwhile, and is answered with a handler error. *)
Example C47_served_case :
  exists n, d_exec rd_world 5 (rd_ask 7 "A" "m" 42) (mk_node rd_table (fun _ => rd_full) DStart)
    [DPoll false false; DPoll false false; DPoll false false; DEnvReg []; DEnvBox 30 rd_empty; DPoll false false;
     DReply (Err (HandlerError (existT _ (TUser 2) 9))); DPoll false true]
    = Some (n, [(30, GMsg (existT _ (TUser 1) 42) (Some 5) false)])
    /\ n_pc n = DDone (RespAsk (Err (RHandlerError 9))) /\ List.length (mqueue (n_box n 30)) = 1.
Proof. eexists. split; [|split]; vm_compute; reflexivity. Qed.

(** What is sent back is of the kind of the request, and its error one that serde can write:
    the errors of the network are made at the caller only. *)
Theorem C47_fits_wire : forall user id bytes (w : world user id bytes) chn q es reg0 box0 (n : node user q) os r,
  ids_unique w -> d_exec w chn q (mk_node reg0 box0 DStart) es = Some (n, os) -> n_pc n = DDone r ->
  fits_wire q r.
Proof. exact response_fits. Qed.
Print Assumptions C47_fits_wire.

Example C47_fits_wire_case : ids_unique rd_world /\
  exists n, d_exec rd_world 5 (rd_ask 8 "A" "m" 42) (mk_node rd_table (fun _ => rd_empty) DStart)
    [DPoll false false; DPoll false false] = Some (n, []) /\ n_pc n = DDone (RespAsk (Err RBadActorType)).
Proof. split; [exact rd_unique|]. eexists. split; vm_compute; reflexivity. Qed.

(** Exactly one verdict applies. *)
Theorem C47_verdict_exists : forall user id bytes (w : world user id bytes) q reg, ids_unique w ->
  (exists z, refused w q reg z) \/ (exists f a msg, accepted w q reg f a msg).
Proof. exact verdict_exists. Qed.
Print Assumptions C47_verdict_exists.

Theorem C47_verdict_unique : forall user id bytes (w : world user id bytes) q reg, ids_unique w -> one_entry w reg ->
  (forall z z', refused w q reg z -> refused w q reg z' -> z = z') /\
  (forall z f a msg, refused w q reg z -> ~ accepted w q reg f a msg) /\
  (forall f a msg f' a' msg', accepted w q reg f a msg -> accepted w q reg f' a' msg' ->
     a = a' /\ existT (fun g => den user (fn_msg g)) f msg = existT _ f' msg').
Proof. exact verdicts_exclusive. Qed.
Print Assumptions C47_verdict_unique.

Example C47_verdict_case : ids_unique rd_world /\ one_entry rd_world rd_table /\
  accepted rd_world (rd_ask 7 "A" "m" 42) rd_table rd_fns 30 42.
Proof. exact (conj rd_unique (conj rd_one_entry rd_accepted)). Qed.

(** Nothing but the decoded message is ever enqueued, once, for the actor found. *)
Theorem C47_enqueued : forall user id bytes (w : world user id bytes) chn q es reg0 box0 (n : node user q) os,
  ids_unique w -> d_exec w chn q (mk_node reg0 box0 DStart) es = Some (n, os) ->
  os = [] \/
  exists es1 n1 f a msg, (exists mt rt es2, es = es1 ++ DPoll mt rt :: es2) /\
    d_exec w chn q (mk_node reg0 box0 DStart) es1 = Some (n1, []) /\
    accepted w q (n_reg n1) f a msg /\
    os = [(a, GMsg (existT _ (fn_msg f) msg) (if q_ask q then Some chn else None) false)].
Proof. exact enqueued. Qed.
Print Assumptions C47_enqueued.

Theorem C47_poll_effect : forall user id bytes (w : world user id bytes) chn q (n n' : node user q) mt rt os,
  d_step w chn q n (DPoll mt rt) = Some (n', os) ->
  n_reg n' = n_reg n /\ forall x, appended user (n_box n x) (n_box n' x) (into x os).
Proof. exact poll_effect. Qed.
Print Assumptions C47_poll_effect.

Theorem C47_accepted_enqueued : forall user id bytes (w : world user id bytes) chn q reg box0 f a msg m1 r1 m2 r2 m3 r3,
  ids_unique w -> one_entry w reg -> accepted w q reg f a msg ->
  mopen (box0 a) = true -> ~ full user (box0 a) ->
  exists n, d_exec w chn q (mk_node reg box0 DStart) [DPoll m1 r1; DPoll m2 r2; DPoll m3 r3]
    = Some (n, [(a, GMsg (existT _ (fn_msg f) msg) (if q_ask q then Some chn else None) false)]).
Proof. exact accepted_enqueued. Qed.
Print Assumptions C47_accepted_enqueued.

Example C47_enqueued_case :
  exists n, d_exec rd_world 5 (rd_tell 8 "B" "n" 42) (mk_node rd_table (fun _ => rd_empty) DStart)
    [DPoll false false; DPoll false false; DPoll false false]
    = Some (n, [(31, GMsg (existT _ (TUser 5) 42) None false)])
    /\ n_pc n = DDone (RespTell (Ok tt)).
Proof. eexists. split; vm_compute; reflexivity. Qed.

(** With two handlers under the same ids every request panics. *)
Theorem C47_duplicate_ids_panic : forall user id bytes (w : world user id bytes) chn q es reg0 box0 (n : node user q) os mt rt,
  ~ ids_unique w -> d_exec w chn q (mk_node reg0 box0 DStart) (DPoll mt rt :: es) = Some (n, os) ->
  n_pc n = DPanic /\ os = [].
Proof. exact duplicates_panic. Qed.
Print Assumptions C47_duplicate_ids_panic.

Example C47_duplicate_case :
  exists n, d_exec rd_dup_world 5 (rd_ask 7 "B" "m" 42) (mk_node rd_table (fun _ => rd_empty) DStart) [DPoll false false; DEnvReg []]
    = Some (n, []) /\ n_pc n = DPanic.
Proof. eexists. split; vm_compute; reflexivity. Qed.

(** From the caller's serialiser to the caller's result: if the codecs give back what
    was put in, a remote ask (tell) is a local ask (tell) with its error reported. *)
Theorem C47_ask_round_trip : forall user id bytes (w : world user id bytes) chn q i actor mid f
    (v : den user (fn_msg f)) mt rt imm es reg0 box0 (n : node user q) os resp,
  ids_unique w -> In ((actor, mid), f) (w_messages w) ->
  round_trip w (fn_msg f) -> round_trip w (r_ok (fn_reply f)) -> round_trip w (r_err (fn_reply f)) ->
  build w true true i actor mid (fn_msg f) v mt rt imm = Command q ->
  d_exec w chn q (mk_node reg0 box0 DStart) es = Some (n, os) -> n_pc n = DDone resp ->
  exists es1 n1, d_exec w chn q (mk_node reg0 box0 DStart) es1 = Some (n1, []) /\
    (exists mt rt es2, es = es1 ++ DPoll mt rt :: es2) /\
    ((absent w (n_reg n1) i /\ os = [] /\ receive_ask w (fn_reply f) (Some resp) = RemoteErr RActorNotRunning)
     \/ (exists x, registered w (n_reg n1) i x /\ en_type x <> fn_actor f /\ os = [] /\
           receive_ask w (fn_reply f) (Some resp) = RemoteErr RBadActorType)
     \/ (exists x es' s os' o, registered w (n_reg n1) i x /\ en_type x = fn_actor f /\
           rq_exec v chn false (rq_start (fn_msg f) (fn_reply f) (if imm then MAskTry rt else MAsk mt rt)
                                  (n_box n1 (en_actor x))) es' = Some (s, os') /\
           os = map (pair (en_actor x)) os' /\ local_result (rq_pos s) o /\
           ask_result w o (receive_ask w (fn_reply f) (Some resp)))).
Proof. exact ask_round_trip. Qed.
Print Assumptions C47_ask_round_trip.

Theorem C47_tell_round_trip : forall user id bytes (w : world user id bytes) chn q i actor mid f
    (v : den user (fn_msg f)) mt rt imm es reg0 box0 (n : node user q) os resp,
  ids_unique w -> In ((actor, mid), f) (w_messages w) -> round_trip w (fn_msg f) ->
  build w false true i actor mid (fn_msg f) v mt rt imm = Command q ->
  d_exec w chn q (mk_node reg0 box0 DStart) es = Some (n, os) -> n_pc n = DDone resp ->
  exists es1 n1, d_exec w chn q (mk_node reg0 box0 DStart) es1 = Some (n1, []) /\
    (exists mt rt es2, es = es1 ++ DPoll mt rt :: es2) /\
    ((absent w (n_reg n1) i /\ os = [] /\ receive_tell (Some resp) = RemoteErr RActorNotRunning)
     \/ (exists x, registered w (n_reg n1) i x /\ en_type x <> fn_actor f /\ os = [] /\
           receive_tell (Some resp) = RemoteErr RBadActorType)
     \/ (exists x es' s os' o, registered w (n_reg n1) i x /\ en_type x = fn_actor f /\
           rq_exec v chn false (rq_start (fn_msg f) (RPlain TUnit) (if imm then MTellTry else MTell mt)
                                  (n_box n1 (en_actor x))) es' = Some (s, os') /\
           os = map (pair (en_actor x)) os' /\ local_result (rq_pos s) o /\
           tell_result o (receive_tell (Some resp)))).
Proof. exact tell_round_trip. Qed.
Print Assumptions C47_tell_round_trip.

(** The handler's error 9 arrives at the caller; an error that cannot be serialised
    arrives as such. *)
Example C47_round_trip_case :
  build rd_world true true 7 "A" "m" (fn_msg rd_fns) 42 true true false = Command (rd_ask 7 "A" "m" 42) /\
  round_trip rd_world (fn_msg rd_fns) /\ round_trip rd_world (r_ok (fn_reply rd_fns)) /\
  round_trip rd_world (r_err (fn_reply rd_fns)) /\
  receive_ask rd_world (fn_reply rd_fns) (Some (RespAsk (Err (RHandlerError 9)))) = RemoteErr (RHandlerError 9).
Proof.
  split; [vm_compute; reflexivity|]. do 3 (split; [apply rd_round_trip|]). vm_compute; reflexivity.
Qed.
Example C47_bad_error_case :
  exists n, d_exec rd_world 5 (rd_ask 7 "A" "m" 42) (mk_node rd_table (fun _ => rd_empty) DStart)
    [DPoll false false; DPoll false false; DPoll false false;
     DReply (Err (HandlerError (existT _ (TUser 2) 109))); DPoll false true]
    = Some (n, [(30, GMsg (existT _ (TUser 1) 42) (Some 5) false)])
    /\ n_pc n = DDone (RespAsk (Err (RSerializeHandlerError "too big"))).
Proof. eexists. split; vm_compute; reflexivity. Qed.

(** [ReplyTimeout] does not tell whether the message was enqueued: the same ask gives
    it when the mailbox stayed full and when the reply did not come. *)
Theorem C47_reply_timeout_refuted :
  exists (q : request nat nat) es1 es2 n1 n2 o2,
    d_exec rd_world 5 q (mk_node rd_table (fun _ => rd_full) DStart) es1 = Some (n1, []) /\
    d_exec rd_world 5 q (mk_node rd_table (fun _ => rd_empty) DStart) es2 = Some (n2, [o2]) /\
    n_pc n1 = DDone (RespAsk (Err RReplyTimeout)) /\ n_pc n2 = DDone (RespAsk (Err RReplyTimeout)).
Proof.
  exists (rd_ask 7 "A" "m" 42), [DPoll false false; DPoll false false; DPoll true false],
    [DPoll false false; DPoll false false; DPoll false false; DPoll false true].
  do 3 eexists. split; [|split; [|split]]; vm_compute; reflexivity.
Qed.
Print Assumptions C47_reply_timeout_refuted.

(** The caller panics when its reply sender is dropped (as when the task serving it in
    the same node panics) or the response is of another kind, and only then. *)
Theorem C47_ask_panics : forall user id bytes (w : world user id bytes) r x,
  receive_ask w r x = RemotePanic <->
  match x with None => True | Some (RespAsk _) | Some (RespFailure _) => False | _ => True end.
Proof. exact ask_panics. Qed.
Print Assumptions C47_ask_panics.
Theorem C47_tell_panics : forall user bytes (x : option (response user bytes)), receive_tell x = RemotePanic <->
  match x with None => True | Some (RespTell _) | Some (RespFailure _) => False | _ => True end.
Proof. exact tell_panics. Qed.
Print Assumptions C47_tell_panics.

(** A reply the caller cannot decode is reported as a message that could not be
    deserialised, which the actor's node also reports, for a message that never reached
    the actor. *)
Theorem C47_bad_reply_refuted : forall user id bytes (w : world user id bytes) r p s,
  w_decode w (r_ok r) p = Err s ->
  receive_ask w r (Some (RespAsk (Ok p))) = RemoteErr (RDeserializeMessage s) /\
  receive_ask w r (Some (RespAsk (Err (RDeserializeMessage s)))) = RemoteErr (RDeserializeMessage s).
Proof. exact bad_reply. Qed.
Print Assumptions C47_bad_reply_refuted.

Example C47_bad_reply_case : rd_decode (r_ok (fn_reply rd_fns)) 100 = Err "bad data"%string.
Proof. reflexivity. Qed.

(** An ask returns Ok exactly when an encoded reply came that decodes to the value, and the
    handler's error exactly when an encoded error came that decodes to it; one that does not
    decode is reported as such. *)
Theorem C47_ask_ok : forall user id bytes (w : world user id bytes) r x v,
  receive_ask w r x = RemoteOk v <-> exists p, x = Some (RespAsk (Ok p)) /\ w_decode w (r_ok r) p = Ok v.
Proof. exact ask_ok. Qed.
Print Assumptions C47_ask_ok.
Theorem C47_ask_handler_error : forall user id bytes (w : world user id bytes) r x e,
  receive_ask w r x = RemoteErr (RHandlerError e) <->
  exists p, x = Some (RespAsk (Err (RHandlerError p))) /\ w_decode w (r_err r) p = Ok e.
Proof. exact ask_handler_error. Qed.
Print Assumptions C47_ask_handler_error.
Theorem C47_ask_bad_error : forall user id bytes (w : world user id bytes) r p s,
  w_decode w (r_err r) p = Err s ->
  receive_ask w r (Some (RespAsk (Err (RHandlerError p)))) = RemoteErr (RDeserializeHandlerError s).
Proof. exact ask_bad_error. Qed.
Print Assumptions C47_ask_bad_error.
Theorem C47_tell_ok : forall user bytes (x : option (response user bytes)) u,
  receive_tell x = RemoteOk u <-> x = Some (RespTell (Ok u)).
Proof. exact tell_ok. Qed.
Print Assumptions C47_tell_ok.

Example C47_ask_case :
  receive_ask rd_world (fn_reply rd_fns) (Some (RespAsk (Ok 42))) = RemoteOk 42 /\
  rd_decode (r_err (fn_reply rd_fns)) 100 = Err "bad data"%string /\
  receive_ask rd_world (fn_reply rd_fns) (Some (RespAsk (Err (RHandlerError 100)))) =
    RemoteErr (RDeserializeHandlerError "bad data").
Proof. split; [|split]; reflexivity. Qed.
