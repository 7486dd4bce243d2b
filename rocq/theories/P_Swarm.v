(** Property theorems about the swarm task (C48, C49). Events are arbitrary: any calls
    at any time, any network events in any order and with any content, any number of
    peers. [me] is the node's peer id. *)
From Coq Require Import List Bool Arith NArith Init.Byte Strings.Byte.
From Verif Require Import ActorId ActorId_spec ActorId_examples Swarm Swarm_spec Swarm_proofs Swarm_examples.
Import ListNotations.
Local Open Scope nat_scope.

(** ** C48: pending requests, lookups and registrations *)

(** A caller's wait ends at most once. *)
Theorem C48_at_most_once : forall T me es c,
  endings (T:=T) c (seen (snd (run me handler_new es))) <= 1.
Proof. exact at_most_once. Qed.
Print Assumptions C48_at_most_once.

(** An answer is the one for the caller's own call: the event that gives it carries the
    id under which the caller's query or request went out, or it is the handling of
    the caller's command, or the end of the task that serves it. *)
Theorem C48_own_answer : forall T me es h tr e h' o c a,
  run (T:=T) me handler_new es = (h, tr) -> step me h e = (h', o) -> In (OReply c a) o ->
  exists x, In (OSent c x) (seen tr) /\ own_answer me (store_get (h_store h)) (seen tr) e c x a.
Proof. exact replies_own. Qed.
Print Assumptions C48_own_answer.

(** Ids belong to one caller, callers to one call; a get and a put never share an id. *)
Theorem C48_ids_unique : forall T me es h tr, run (T:=T) me handler_new es = (h, tr) ->
  (forall c x y, In (OSent c x) (seen tr) -> In (OSent c y) (seen tr) -> x = y) /\
  (forall c c' q k k', In (OGet c q k) (seen tr) -> In (OGet c' q k') (seen tr) -> c = c' /\ k = k') /\
  (forall c c' q k k' v v', In (OPut c q k v) (seen tr) -> In (OPut c' q k' v') (seen tr) ->
     c = c' /\ k = k' /\ v = v') /\
  (forall c c' q k k' v, In (OGet c q k) (seen tr) -> ~ In (OPut c' q k' v) (seen tr)) /\
  (forall c c' r p p' q q', In (OWire c r p q) (seen tr) -> In (OWire c' r p' q') (seen tr) ->
     c = c' /\ p = p' /\ q = q') /\
  (forall t c c' q q', In (OServe t c q) (seen tr) -> In (OServe t c' q') (seen tr) -> c = c' /\ q = q').
Proof. exact ids_unique. Qed.
Print Assumptions C48_ids_unique.

(** A call starts at most one query, request or task. *)
Theorem C48_started_once : forall T me es c,
  length (filter (starts (T:=T) c) (seen (snd (run me handler_new es)))) <= 1.
Proof. exact started_once. Qed.
Print Assumptions C48_started_once.

(** One event answers at most one caller. *)
Theorem C48_one_reply : forall T me (h : handler T) e, replies (snd (step me h e)) <= 1.
Proof. exact one_reply. Qed.
Print Assumptions C48_one_reply.

(** A waiting caller is answered by the first event with its id. *)
Theorem C48_answered : forall T me es h tr c,
  run (T:=T) me handler_new es = (h, tr) -> endings c (seen tr) = 0 ->
  (forall t q r, In (OServe t c q) (seen tr) ->
     snd (step me h (ETask t (Some r))) = [OReply c (AResponse (RResult (request_kind q) r))]) /\
  (~ In OHandlerPanic (seen tr) ->
     (forall qid k v, In (OGet c qid k) (seen tr) ->
        snd (step me h (ENet (NFound qid v))) = [OReply c (AFound v)]) /\
     (forall qid k e, In (OGet c qid k) (seen tr) ->
        snd (step me h (ENet (NGetError qid e))) = [OReply c (AGetError e)]) /\
     (forall qid k v r, In (OPut c qid k v) (seen tr) ->
        snd (step me h (ENet (NPut qid r))) = [OReply c (AStored r)]) /\
     (forall rid p q r, In (OWire c rid p q) (seen tr) ->
        snd (step me h (ENet (NResponse rid r))) = [OReply c (AResponse r)]) /\
     (forall rid p q f e, In (OWire c rid p q) (seen tr) -> failure_means f e ->
        snd (step me h (ENet (NFailure rid f))) = [OReply c (AResponse (RFailure e))])).
Proof. exact answered. Qed.
Print Assumptions C48_answered.

(** No call is forgotten: one that has not ended is still queued, or has a task, or
    (while the handler runs) a query or a request under way. *)
Theorem C48_not_lost : forall T me es h tr c x, run (T:=T) me handler_new es = (h, tr) ->
  In (OSent c x) (seen tr) -> endings c (seen tr) = 0 ->
  (~ In OHandlerPanic (seen tr) /\ In (QCall c x) (h_cmds h)) \/
  (exists t q, In (OServe t c q) (seen tr)) \/
  (~ In OHandlerPanic (seen tr) /\
   ((exists qid k, In (OGet c qid k) (seen tr)) \/ (exists qid k v, In (OPut c qid k v) (seen tr)) \/
    (exists rid p q, In (OWire c rid p q) (seen tr)))).
Proof. exact not_lost. Qed.
Print Assumptions C48_not_lost.

(** Calls are started or answered in the order in which they were sent. *)
Theorem C48_in_order : forall T me es c c' x x', let os := seen (snd (run (T:=T) me handler_new es)) in
  In (OSent c x) os -> In (OSent c' x') os -> c < c' -> started c' os -> started c os.
Proof. exact in_order. Qed.
Print Assumptions C48_in_order.

Theorem C48_numbers_in_order : forall T me es h tr e h' o c c' x x', run (T:=T) me handler_new es = (h, tr) ->
  step me h e = (h', o) -> In (OSent c x) (seen tr) -> In (OSent c' x') o -> c < c'.
Proof. exact numbers_in_order. Qed.
Print Assumptions C48_numbers_in_order.

(** Two asks and a lookup: the second ask is answered first, repeated and stray events
    change nothing. *)
Example C48_case :
  seen (snd (run sw_a handler_new sw_events)) =
  [OSent 0 (sw_ask 1 10); OSent 1 (sw_ask 2 20); OSent 2 (CLookup sw_key);
   OWire 0 0 sw_b (QAsk (sw_id 1) 10); OWire 1 1 sw_b (QAsk (sw_id 2) 20); OGet 2 0 sw_key;
   OReply 1 (AResponse (RResult KAsk (sw_result 200))); OReply 0 (AResponse (RFailure NeTimeout));
   OReply 2 (AFound sw_value)].
Proof. by_vm. Qed.

(** A sender is dropped only if the handler panics or the task that serves it does. *)
Theorem C48_dropped_because : forall T me es h tr e h' o c, run (T:=T) me handler_new es = (h, tr) ->
  step me h e = (h', o) -> In (ODrop c) o ->
  In OHandlerPanic o \/ exists t q, e = ETask t None /\ In (OServe t c q) (seen tr).
Proof. exact dropped_because. Qed.
Print Assumptions C48_dropped_because.

(** What makes the handler panic: a local lookup of a name whose record does not parse,
    a registration or (with peers) an unregistration that the record store refuses. *)
Theorem C48_handler_panics : forall T me (h : handler T) e, In OHandlerPanic (snd (step me h e)) <->
  exists n ok c x l, e = ECommand n ok /\ h_alive h = true /\ h_cmds h = QCall c x :: l /\
    ((exists k r, x = CLookupLocal k /\ store_get (h_store h) k = Some r /\
        reg_from_bytes (st_peers T) (rc_value r) = None) \/
     (exists k v, x = CRegister k v /\ ok = false) \/
     (exists k, x = CUnregister k /\ n <> 0 /\ ok = false)).
Proof. exact panics_iff. Qed.
Print Assumptions C48_handler_panics.

(** After that every waiting caller not served by a task has been dropped, every further
    call panics its caller, and no network event does anything. *)
Theorem C48_dead_forever : forall T me es h tr es2 h2 tr2, run (T:=T) me handler_new es = (h, tr) ->
  In OHandlerPanic (seen tr) -> run me h es2 = (h2, tr2) ->
  (forall x, step me h2 (ESend x) = (h2, [OSendPanic])) /\
  (forall c x, In (OSent c x) (seen tr) -> endings c (seen tr) = 1 \/
     exists t q, In (OServe t c q) (seen tr)) /\
  (forall o, In o (seen tr2) ->
     match o with
     | OSendPanic | OTaskPanic _ => True
     | OReply c _ | ODrop c => exists t q, In (OServe t c q) (seen tr)
     | _ => False
     end).
Proof. exact dead_forever. Qed.
Print Assumptions C48_dead_forever.

Example C48_crash_case :
  seen (snd (run sw_a handler_new sw_crash)) =
  [OSent 0 (sw_ask 1 10); OSent 1 (sw_ask 2 20); OSent 2 (CLookup sw_key);
   OSent 3 (CRegister sw_key sw_value); OSent 4 CDial;
   OServe 0 0 (QAsk (sw_id 1) 10); OServe 1 1 (QAsk (sw_id 2) 20); OGet 2 0 sw_key;
   OTaskPanic 0; ODrop 0; OHandlerPanic; ODrop 3; ODrop 2; ODrop 4; OSendPanic;
   OReply 1 (AResponse (RResult KAsk (sw_result 5)))].
Proof. by_vm. Qed.

(** A peer that answers a request with another kind of answer makes the caller's future
    panic. *)
Theorem C48_wrong_kind_refuted : forall T me x p q k k' r,
  means (T:=T) me x p q -> kind_wanted x = Some k -> k <> k' ->
  seen (snd (run me handler_new [ESend x; ECommand 1 true; ENet (NResponse 0 (RResult k' r))]))
    = [OSent 0 x; OWire 0 0 p q; OReply 0 (AResponse (RResult k' r))] /\
  client_request k (Some (AResponse (RResult (T:=T) k' r))) = CallerPanic.
Proof. exact wrong_kind. Qed.
Print Assumptions C48_wrong_kind_refuted.

Example C48_wrong_kind_case :
  means (T:=sw_types) sw_a (CLink (sw_own 3) ex_name (sw_id 4) [x41]) sw_b
    (QLink (sw_id 4) [x41] (sw_own 3) ex_name) /\
  client_request (T:=sw_types) KLink (Some (AResponse (RResult KUnlink (sw_result 0)))) = CallerPanic /\
  client_request (T:=sw_types) KLink (Some (AResponse (RResult KLink (sw_result 7)))) = Value (inl (sw_result 7)).
Proof. split; [constructor; reflexivity|]. split; by_vm. Qed.

(** ** C49: names *)

(** [lookup_local] gives exactly what the record and the table say. *)
Theorem C49_lookup_local : forall T me (h : handler T) c k l n ok rid ty table,
  h_alive h = true -> h_cmds h = QCall c (CLookupLocal k) :: l ->
  local_verdict me rid ty table (store_get (h_store h) k)
    (client_lookup_local me rid ty table (answer_in c (snd (step me h (ECommand n ok))))).
Proof. exact lookup_local_verdict. Qed.
Print Assumptions C49_lookup_local.

Theorem C49_verdict_unique : forall T me rid ty table r a b,
  one_per_actor me table ->
  local_verdict (T:=T) me rid ty table r a -> local_verdict me rid ty table r b -> a = b.
Proof. exact local_verdict_unique. Qed.
Print Assumptions C49_verdict_unique.

(** The record of a name is changed only by registrations and unregistrations of that
    name handled here and by libp2p itself. Unregistering with peers removes it;
    without peers it removes it only if this node published it to peers. *)
Theorem C49_record_after : forall T me (h : handler T) e k, h_alive h = true ->
  store_get (h_store (fst (step me h e))) k =
  match e with
  | EStore k' r => if bytes_eqb k' k then r else store_get (h_store h) k
  | ECommand n ok =>
      match h_cmds h with
      | QCall _ (CRegister k' v) :: _ =>
          if (bytes_eqb k' k && ok)%bool
          then Some (mk_rec v (if Nat.eqb n 0 then None else Some me))
          else store_get (h_store h) k
      | QCall _ (CUnregister k') :: _ =>
          if bytes_eqb k' k then
            if Nat.eqb n 0 then
              match store_get (h_store h) k with
              | Some r =>
                  if opt_peer_eqb (st_peers T) (rc_publisher r) (Some me) then None else Some r
              | None => None
              end
            else if ok then None else store_get (h_store h) k
          else store_get (h_store h) k
      | _ => store_get (h_store h) k
      end
  | _ => store_get (h_store h) k
  end.
Proof. exact store_after. Qed.
Print Assumptions C49_record_after.

(** The record that [register] stores, with the actor in the table: found. *)
Theorem C49_registered_found : forall T me x rid ty a pub table,
  id_ok (st_peers T) x -> is_text rid ->
  one_per_actor me table -> In (x, mk_entry ty a) table ->
  local_verdict (T:=T) me rid ty table
    (Some (mk_rec (reg_into_bytes (st_peers T) (Some me) (mk_reg x rid)) pub)) (Value (inl (Some a))).
Proof. exact registered_found. Qed.
Print Assumptions C49_registered_found.

Theorem C49_register_fills_table : forall T m e a,
  (fst (client_stored (T:=T) m (Some e) a) = Value (inl tt) -> snd (client_stored m (Some e) a) = e :: m) /\
  (fst (client_stored (T:=T) m (Some e) a) <> Value (inl tt) -> snd (client_stored m (Some e) a) = m).
Proof. exact register_fills_table. Qed.
Print Assumptions C49_register_fills_table.

(** Found under its own type; another remote id or another Rust type; not in the table. *)
Example C49_case :
  let o := seen (snd (run (T:=sw_types) sw_a handler_new
    [ESend (CRegister sw_key sw_value); ECommand 3 true; ENet (NPut 0 PrOk);
     ESend (CLookupLocal sw_key); ECommand 1 true])) in
  client_lookup_local (T:=sw_types) sw_a ex_name 1 sw_table (answer_in 1 o) = Value (inl (Some 30)) /\
  client_lookup_local (T:=sw_types) sw_a [x41] 1 sw_table (answer_in 1 o) = Value (inr ReBadActorType) /\
  client_lookup_local (T:=sw_types) sw_a ex_name 2 sw_table (answer_in 1 o) = Value (inr ReBadActorType) /\
  client_lookup_local (T:=sw_types) sw_a ex_name 1 [] (answer_in 1 o) = Value (inl None).
Proof. split; [|split; [|split]]; by_vm. Qed.

(** [unregister] leaves the table alone: the node keeps its reference to the actor. *)
Theorem C49_unregister_keeps_table : forall T m a, snd (client_stored (T:=T) m None a) = m.
Proof. exact unregister_keeps_table. Qed.
Print Assumptions C49_unregister_keeps_table.

(** Unregistering a name that was registered without peers, still without peers, answers
    Ok and leaves the name. *)
Theorem C49_unregister_alone_refuted : forall T me k v g n ok ok', reg_from_bytes (st_peers T) v = Some g ->
  seen (snd (run (T:=T) me handler_new
    [ESend (CRegister k v); ECommand 0 true; ESend (CUnregister k); ECommand 0 ok;
     ESend (CLookupLocal k); ECommand n ok'])) =
  [OSent 0 (CRegister k v); OReply 0 (AStored PrOk); OSent 1 (CUnregister k); OReply 1 (AStored PrOk);
   OSent 2 (CLookupLocal k); OReply 2 (ALocal (Some g))].
Proof. exact unregister_alone. Qed.
Print Assumptions C49_unregister_alone_refuted.

(** Whatever the state of the node: a record that does not parse, stored by a peer (the
    empty record of an unregistration is one), stops the swarm task at the next local
    lookup of the name. *)
Theorem C49_garbage_kills : forall T me es h tr k r n ok,
  run (T:=T) me handler_new es = (h, tr) -> ~ In OHandlerPanic (seen tr) -> h_cmds h = [] ->
  reg_from_bytes (st_peers T) (rc_value r) = None ->
  In OHandlerPanic (seen (snd (run me h [EStore k (Some r); ESend (CLookupLocal k); ECommand n ok]))).
Proof. exact garbage_kills. Qed.
Print Assumptions C49_garbage_kills.

(** With peers the name is gone here; the peer that got the empty record crashes. *)
Example C49_unregister_case :
  seen (snd (run (T:=sw_types) sw_a handler_new
    [ESend (CRegister sw_key sw_value); ECommand 0 true; ESend (CUnregister sw_key); ECommand 1 true;
     ESend (CLookupLocal sw_key); ECommand 1 true])) =
  [OSent 0 (CRegister sw_key sw_value); OReply 0 (AStored PrOk); OSent 1 (CUnregister sw_key);
   OPut 1 0 sw_key []; OSent 2 (CLookupLocal sw_key); OReply 2 (ALocal None)] /\
  seen (snd (run (T:=sw_types) sw_b handler_new
    [EStore sw_key (Some (mk_rec [] (Some sw_a)));
     ESend (CLookupLocal sw_key); ECommand 1 true])) =
  [OSent 0 (CLookupLocal sw_key); OHandlerPanic; ODrop 0].
Proof. split; by_vm. Qed.

(** [lookup] gives what the network found. *)
Theorem C49_lookup : forall T rid v,
  remote_verdict (T:=T) rid v
    (client_lookup rid (Some (match v with inl b => AFound b | inr e => AGetError e end))).
Proof. exact lookup_verdict. Qed.
Print Assumptions C49_lookup.

Theorem C49_lookup_unique : forall T rid v a b,
  remote_verdict (T:=T) rid v a -> remote_verdict rid v b -> a = b.
Proof. exact remote_verdict_unique. Qed.
Print Assumptions C49_lookup_unique.

(** A name registered on node [p] is looked up on node [me] as that node's actor. *)
Theorem C49_lookup_denotes : forall T me p x rid, id_ok (st_peers T) x -> is_text rid ->
  exists y, client_lookup (T:=T) rid (Some (AFound (reg_into_bytes (st_peers T) (Some p) (mk_reg x rid))))
            = Value (inl (Some y)) /\
    denotes (st_peers T) (Some me) y = denotes (st_peers T) (Some p) x.
Proof. exact lookup_denotes. Qed.
Print Assumptions C49_lookup_denotes.

Example C49_lookup_case :
  client_lookup (T:=sw_types) ex_name (Some (AFound sw_value)) = Value (inl (Some (id_with_peer ex_peers 7 ex_node_a))) /\
  client_lookup (T:=sw_types) [x41] (Some (AFound sw_value)) = Value (inr ReBadActorType) /\
  client_lookup (T:=sw_types) ex_name (Some (AFound [])) = Value (inl None) /\
  client_lookup (T:=sw_types) ex_name (Some (AFound [x00])) = CallerPanic /\
  client_lookup (T:=sw_types) ex_name (Some (AGetError (GeQuorum 2))) = Value (inr (ReQuorum 2)).
Proof. split; [|split; [|split; [|split]]]; by_vm. Qed.
