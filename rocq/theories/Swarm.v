(** Model of src/remote/swarm.rs: the task that runs the libp2p swarm
    ([ActorSwarmHandler], 497-996), the sender half (999-1019), the futures of callers
    (1723-1734) and what the methods of [ActorSwarm] do with the answers (280-484).

    One event of the model is one turn of the loop of [run] (517-541), one call of a
    method of [ActorSwarm], one end of a spawned task, or a change that libp2p makes by
    itself in the node's record store. The handler's functions do not await, so a turn
    of the loop is atomic. What libp2p decides (how many peers are connected, whether
    the record store takes a record, which events arrive, in which order and with
    which content) is part of the event and is arbitrary. Trusted of libp2p: query ids
    and request ids are never used twice by one swarm; [put_record] stores the record
    locally with the local peer as publisher before it starts the query;
    [remove_record] removes the local record only if its publisher is the local peer;
    [store_mut] gives the store as it is.

    Not modelled: [AddPeerAddress], [DisconnectPeerId] and mDNS discovery (no caller
    waits for them, no state of the handler changes), the payloads of asks and tells
    (area RemoteDispatch), publisher-less fields of records (expiry), the peer of a
    found record. *)
From Coq Require Import List Bool Arith PeanoNat Init.Byte Strings.Byte.
From Verif Require Import ActorId.
Import ListNotations.

(** The types the handler only passes on: peers (see ActorId), payloads of asks and
    tells, results of [remote::ask] etc., stop reasons. *)
Record swarm_types : Type := mk_types {
  st_peers : peers;
  st_body : Type;
  st_result : Type;
  st_reason : Type
}.

(** The five kinds of requests: swarm.rs 1231-1327 ([SwarmRequest], [SwarmResponse]). *)
Inductive kind_of : Type := KAsk | KTell | KLink | KUnlink | KSignal.

(** Equality of kinds (a match on the variant). *)
Definition kind_eqb (a b : kind_of) : bool :=
  match a, b with
  | KAsk, KAsk | KTell, KTell | KLink, KLink | KUnlink, KUnlink | KSignal, KSignal => true
  | _, _ => false
  end.

(** libp2p [OutboundFailure]; [Io] carries the error. *)
Inductive outbound_failure : Type :=
| OfDial | OfTimeout | OfClosed | OfUnsupported | OfIo (e : nat).

(** src/error.rs [RemoteSendError]: the variants that report a network failure. *)
Inductive net_error : Type :=
| NeDial | NeTimeout | NeClosed | NeUnsupported | NeIo (e : option nat).

(** swarm.rs 982-990. *)
Definition map_failure (f : outbound_failure) : net_error :=
  match f with
  | OfDial => NeDial
  | OfTimeout => NeTimeout
  | OfClosed => NeClosed
  | OfUnsupported => NeUnsupported
  | OfIo e => NeIo (Some e)
  end.

(** libp2p [GetRecordError] and [PutRecordResult]; the quorum stands for itself. *)
Inductive get_error : Type := GeNotFound | GeQuorum (q : nat) | GeTimeout.
Inductive put_result : Type := PrOk | PrQuorum (q : nat) | PrTimeout.

(** Equality of record keys and of remote ids: bytes. *)
Definition bytes_eqb (x y : list byte) : bool :=
  if list_eq_dec byte_eq_dec x y then true else false.

Section Swarm.
Variable T : swarm_types.
Notation peer_t := (peer (st_peers T)).
Notation id_t := (actor_id (st_peers T)).
Notation reg_t := (registration (st_peers T)).

(** A record of the node's store, libp2p [kad::Record]: value and publisher. *)
Record record : Type := mk_rec {
  rc_value : list byte;
  rc_publisher : option peer_t
}.

(** swarm.rs 1231-1299: [SwarmRequest], what goes to a peer. *)
Inductive request : Type :=
| QAsk (to : id_t) (b : st_body T)
| QTell (to : id_t) (b : st_body T)
| QLink (actor : id_t) (actor_rid : list byte) (sib : id_t) (sib_rid : list byte)
| QUnlink (actor : id_t) (actor_rid : list byte) (sib : id_t)
| QSignal (dead notified : id_t) (rid : list byte) (why : st_reason T).

(** The kind of a request: its variant, swarm.rs 1231-1299. *)
Definition request_kind (q : request) : kind_of :=
  match q with
  | QAsk _ _ => KAsk
  | QTell _ _ => KTell
  | QLink _ _ _ _ => KLink
  | QUnlink _ _ _ => KUnlink
  | QSignal _ _ _ _ => KSignal
  end.

(** swarm.rs 1303-1327: [SwarmResponse]. *)
Inductive response : Type :=
| RResult (k : kind_of) (r : st_result T)
| RFailure (e : net_error).

(** swarm.rs 1023-1190: the commands with a reply sender (see the header for the
    others); [CDial] stands for [ListenOn] and [Dial]. *)
Inductive call : Type :=
| CDial
| CLookup (k : list byte)
| CLookupLocal (k : list byte)
| CRegister (k v : list byte)
| CUnregister (k : list byte)
| CAsk (dest : peer_t) (to : id_t) (b : st_body T)
| CTell (dest : peer_t) (to : id_t) (b : st_body T)
| CLink (actor : id_t) (actor_rid : list byte) (sib : id_t) (sib_rid : list byte)
| CUnlink (actor sib : id_t) (sib_rid : list byte)
| CSignal (dead notified : id_t) (rid : list byte) (why : st_reason T).

(** The command channel: calls with the number of the caller's oneshot, and the
    [Send..Response] commands (swarm.rs 686-691, 720-722, 743-745, 774-778). *)
Inductive command : Type :=
| QCall (c : nat) (x : call)
| QRespond (ch : nat) (k : kind_of) (r : st_result T).

(** What the oneshot of a caller can carry. *)
Inductive answer : Type :=
| ADial
| AFound (v : list byte)
| AGetError (e : get_error)
| AStored (r : put_result)
| ALocal (r : option reg_t)
| AResponse (r : response).

(** A spawned task: serving a request for a caller of this node (617-632 etc.) or for
    a peer (871-960). *)
Inductive task : Type :=
| TLocal (c : nat) (q : request)
| TInbound (ch : nat) (q : request).

(** The handler (swarm.rs 497-504), its command channel, the parts of libp2p it calls
    (record store, id counters), the tasks it spawned, and the number of oneshots
    made so far. *)
Record handler : Type := mk_handler {
  h_alive : bool;
  h_cmds : list command;
  h_gets : list (nat * nat);
  h_puts : list (nat * nat);
  h_reqs : list (nat * nat);
  h_store : list (list byte * record);
  h_next_query : nat;
  h_next_request : nat;
  h_tasks : list (nat * task);
  h_next_task : nat;
  h_next_caller : nat
}.

(** swarm.rs 507-515: [ActorSwarmHandler::new], with an empty [MemoryStore]. *)
Definition handler_new : handler := mk_handler true [] [] [] [] [] 0 0 [] 0 0.

(** What can be seen: commands sent, answers, senders dropped without an answer,
    queries and requests given to libp2p, tasks spawned, panics. *)
Inductive obs : Type :=
| OSent (c : nat) (x : call)
| OSendPanic
| OReply (c : nat) (a : answer)
| ODrop (c : nat)
| OGet (c qid : nat) (k : list byte)
| OPut (c qid : nat) (k v : list byte)
| OWire (c rid : nat) (dest : peer_t) (q : request)
| OServe (t : nat) (c : nat) (q : request)
| OServePeer (t : nat) (ch : nat) (q : request)
| ORespond (ch : nat) (r : response)
| OPeerLost (p : peer_t)
| OHandlerPanic
| OTaskPanic (t : nat).

(** Events of libp2p that the handler looks at (swarm.rs 785-996). [NClosed p left]: a
    connection to [p] closed and [left] others remain (num_established, ignored by the
    pattern of line 791). *)
Inductive net_event : Type :=
| NFound (qid : nat) (v : list byte)
| NGetFinished (qid : nat)
| NGetError (qid : nat) (e : get_error)
| NPut (qid : nat) (r : put_result)
| NRequest (ch : nat) (q : request)
| NResponse (rid : nat) (r : response)
| NFailure (rid : nat) (f : outbound_failure)
| NClosed (p : peer_t) (left : nat)
| NOther.

(** One event; [ECommand n ok]: the loop takes a command while [n] peers are connected
    and the record store, if asked, takes the record iff [ok]. [EStore]: libp2p
    replaces or removes a record by itself (replication by a peer, expiry). *)
Inductive event : Type :=
| ESend (x : call)
| ECommand (n : nat) (ok : bool)
| ENet (e : net_event)
| ETask (t : nat) (r : option (st_result T))
| EStore (k : list byte) (r : option record).

(** ** Maps (std [HashMap], libp2p [MemoryStore]) *)

(** [HashMap::remove] on the handler's maps: the value and the rest. *)
Fixpoint take (k : nat) (m : list (nat * nat)) : option (nat * list (nat * nat)) :=
  match m with
  | [] => None
  | (k', c) :: m' =>
      if Nat.eqb k k' then Some (c, m')
      else match take k m' with
           | Some (d, r) => Some (d, (k', c) :: r)
           | None => None
           end
  end.

(** The end of a spawned task: it leaves the runtime. *)
Fixpoint take_task (k : nat) (m : list (nat * task)) : option (task * list (nat * task)) :=
  match m with
  | [] => None
  | (k', c) :: m' =>
      if Nat.eqb k k' then Some (c, m')
      else match take_task k m' with
           | Some (d, r) => Some (d, (k', c) :: r)
           | None => None
           end
  end.

(** libp2p [RecordStore::get]. *)
Fixpoint store_get (s : list (list byte * record)) (k : list byte) : option record :=
  match s with
  | [] => None
  | (k', r) :: s' => if bytes_eqb k' k then Some r else store_get s' k
  end.

(** libp2p [RecordStore::remove]. *)
Definition store_del (s : list (list byte * record)) (k : list byte) : list (list byte * record) :=
  filter (fun e => negb (bytes_eqb (fst e) k)) s.

(** libp2p [RecordStore::put], when the store takes the record. *)
Definition store_put (s : list (list byte * record)) (k : list byte) (r : record)
  : list (list byte * record) := (k, r) :: store_del s k.

(** libp2p [Behaviour::remove_record], called by swarm.rs 1709-1711. *)
Definition remove_record (me : peer_t) (s : list (list byte * record)) (k : list byte)
  : list (list byte * record) :=
  match store_get s k with
  | Some r => if opt_peer_eqb (st_peers T) (rc_publisher r) (Some me) then store_del s k else s
  | None => s
  end.

(** ** State updates *)

(** Field updates. *)
Definition set_cmds (h : handler) (l : list command) : handler :=
  mk_handler (h_alive h) l (h_gets h) (h_puts h) (h_reqs h) (h_store h)
    (h_next_query h) (h_next_request h) (h_tasks h) (h_next_task h) (h_next_caller h).
Definition set_gets (h : handler) (l : list (nat * nat)) : handler :=
  mk_handler (h_alive h) (h_cmds h) l (h_puts h) (h_reqs h) (h_store h)
    (h_next_query h) (h_next_request h) (h_tasks h) (h_next_task h) (h_next_caller h).
Definition set_puts (h : handler) (l : list (nat * nat)) : handler :=
  mk_handler (h_alive h) (h_cmds h) (h_gets h) l (h_reqs h) (h_store h)
    (h_next_query h) (h_next_request h) (h_tasks h) (h_next_task h) (h_next_caller h).
Definition set_reqs (h : handler) (l : list (nat * nat)) : handler :=
  mk_handler (h_alive h) (h_cmds h) (h_gets h) (h_puts h) l (h_store h)
    (h_next_query h) (h_next_request h) (h_tasks h) (h_next_task h) (h_next_caller h).
Definition set_store (h : handler) (s : list (list byte * record)) : handler :=
  mk_handler (h_alive h) (h_cmds h) (h_gets h) (h_puts h) (h_reqs h) s
    (h_next_query h) (h_next_request h) (h_tasks h) (h_next_task h) (h_next_caller h).
Definition set_tasks (h : handler) (l : list (nat * task)) : handler :=
  mk_handler (h_alive h) (h_cmds h) (h_gets h) (h_puts h) (h_reqs h) (h_store h)
    (h_next_query h) (h_next_request h) l (h_next_task h) (h_next_caller h).

(** A get query is started (libp2p [get_record]) and its sender kept: 568-571. *)
Definition start_get (h : handler) (c : nat) : handler :=
  mk_handler (h_alive h) (h_cmds h) ((h_next_query h, c) :: h_gets h) (h_puts h) (h_reqs h)
    (h_store h) (S (h_next_query h)) (h_next_request h) (h_tasks h) (h_next_task h)
    (h_next_caller h).

(** A put query is started (libp2p [put_record]) and its sender kept: 588-594, 602-608. *)
Definition start_put (h : handler) (c : nat) : handler :=
  mk_handler (h_alive h) (h_cmds h) (h_gets h) ((h_next_query h, c) :: h_puts h) (h_reqs h)
    (h_store h) (S (h_next_query h)) (h_next_request h) (h_tasks h) (h_next_task h)
    (h_next_caller h).

(** A request is given to libp2p ([send_request]) and its sender kept: 634-646 etc. *)
Definition start_request (h : handler) (c : nat) : handler :=
  mk_handler (h_alive h) (h_cmds h) (h_gets h) (h_puts h) ((h_next_request h, c) :: h_reqs h)
    (h_store h) (h_next_query h) (S (h_next_request h)) (h_tasks h) (h_next_task h)
    (h_next_caller h).

(** [tokio::spawn] of a serving task: 622-634 etc., 871-887 etc. *)
Definition spawn_task (h : handler) (t : task) : handler :=
  mk_handler (h_alive h) (h_cmds h) (h_gets h) (h_puts h) (h_reqs h) (h_store h)
    (h_next_query h) (h_next_request h) ((h_next_task h, t) :: h_tasks h) (S (h_next_task h))
    (h_next_caller h).

(** The callers of queued commands. *)
Definition command_callers (l : list command) : list nat :=
  flat_map (fun q => match q with QCall c _ => [c] | QRespond _ _ _ => [] end) l.

(** The handler's task panics (swarm.rs 151-157: a task of its own): the handler, its
    maps and the receiving half of the channel with the queued commands are dropped.
    [c] is the caller of the command being handled. The libp2p swarm goes too; the
    store is kept in the model only because nothing reads it any more. *)
Definition handler_panic (h : handler) (c : nat) : handler * list obs :=
  (mk_handler false [] [] [] [] (h_store h) (h_next_query h) (h_next_request h)
     (h_tasks h) (h_next_task h) (h_next_caller h),
   OHandlerPanic :: map ODrop (c :: map snd (h_gets h) ++ map snd (h_puts h)
                                ++ map snd (h_reqs h) ++ command_callers (h_cmds h))).

(** ** Commands: swarm.rs 551-780 *)

(** [ActorID::peer_id] (id.rs 99-101, 224-229) of a node whose swarm is [me]. *)
Definition peer_of (me : peer_t) (x : id_t) : option peer_t :=
  kind_peer (st_peers T) (Some me) (kind x).

(** Where a request goes and as what (swarm.rs 637-646, 674-682, 711-716, 736-739,
    765-770 with 1536-1634; without peers 624-632, 662-669, 701-706, 732, 755-760): the link, unlink and signal requests go to the peer of
    the actor whose links or mailbox they touch; [None] as peer is the panic of
    [expect] or [unwrap] (1592, 1609, 1626). [None] for the other commands. *)
Definition outgoing (me : peer_t) (x : call) : option (option peer_t * request) :=
  match x with
  | CAsk dest to b => Some (Some dest, QAsk to b)
  | CTell dest to b => Some (Some dest, QTell to b)
  | CLink actor actor_rid sib sib_rid =>
      Some (peer_of me sib, QLink sib sib_rid actor actor_rid)
  | CUnlink actor sib sib_rid => Some (peer_of me sib, QUnlink sib sib_rid actor)
  | CSignal dead notified rid why => Some (peer_of me notified, QSignal dead notified rid why)
  | _ => None
  end.

(** swarm.rs 551-780: [handle_command] on a command with a reply sender. *)
Definition handle_call (me : peer_t) (h : handler) (c : nat) (x : call) (n : nat) (ok : bool)
  : handler * list obs :=
  match x with
  | CDial => (h, [OReply c ADial])
  | CLookup k => (start_get h c, [OGet c (h_next_query h) k])
  | CLookupLocal k =>
      match store_get (h_store h) k with
      | None => (h, [OReply c (ALocal None)])
      | Some r =>
          match reg_from_bytes (st_peers T) (rc_value r) with
          | Some g => (h, [OReply c (ALocal (Some g))])
          | None => handler_panic h c
          end
      end
  | CRegister k v =>
      if Nat.eqb n 0 then
        if ok then (set_store h (store_put (h_store h) k (mk_rec v None)),
                    [OReply c (AStored PrOk)])
        else handler_panic h c
      else
        if ok then
          (start_put (set_store h (store_put (h_store h) k (mk_rec v (Some me)))) c,
           [OPut c (h_next_query h) k v])
        else handler_panic h c
  | CUnregister k =>
      if Nat.eqb n 0 then
        (set_store h (remove_record me (h_store h) k), [OReply c (AStored PrOk)])
      else
        if ok then
          (start_put
             (set_store h
                (remove_record me (store_put (h_store h) k (mk_rec [] (Some me))) k)) c,
           [OPut c (h_next_query h) k []])
        else handler_panic h c
  | CAsk _ _ _ | CTell _ _ _ | CLink _ _ _ _ | CUnlink _ _ _ | CSignal _ _ _ _ =>
      match outgoing me x with
      | None => (h, [])
      | Some (dest, q) =>
          if Nat.eqb n 0 then
            (spawn_task h (TLocal c q), [OServe (h_next_task h) c q])
          else
            match dest with
            | Some p => (start_request h c, [OWire c (h_next_request h) p q])
            | None => handler_panic h c
            end
      end
  end.

(** swarm.rs 551-780: [handle_command]. *)
Definition handle_command (me : peer_t) (h : handler) (q : command) (n : nat) (ok : bool)
  : handler * list obs :=
  match q with
  | QCall c x => handle_call me h c x n ok
  | QRespond ch k r => (h, [ORespond ch (RResult k r)])
  end.

(** ** Events: swarm.rs 785-996 *)

(** swarm.rs 785-996: [handle_event]. The task of a closed connection is the subject
    of the area PeerLoss. *)
Definition handle_event (h : handler) (e : net_event) : handler * list obs :=
  match e with
  | NFound qid v =>
      match take qid (h_gets h) with
      | Some (c, m) => (set_gets h m, [OReply c (AFound v)])
      | None => (h, [])
      end
  | NGetFinished _ => (h, [])
  | NGetError qid e =>
      match take qid (h_gets h) with
      | Some (c, m) => (set_gets h m, [OReply c (AGetError e)])
      | None => (h, [])
      end
  | NPut qid r =>
      match take qid (h_puts h) with
      | Some (c, m) => (set_puts h m, [OReply c (AStored r)])
      | None => (h, [])
      end
  | NRequest ch q => (spawn_task h (TInbound ch q), [OServePeer (h_next_task h) ch q])
  | NResponse rid r =>
      match take rid (h_reqs h) with
      | Some (c, m) => (set_reqs h m, [OReply c (AResponse r)])
      | None => (h, [])
      end
  | NFailure rid f =>
      match take rid (h_reqs h) with
      | Some (c, m) => (set_reqs h m, [OReply c (AResponse (RFailure (map_failure f)))])
      | None => (h, [])
      end
  | NClosed p _ => (h, [OPeerLost p])
  | NOther => (h, [])
  end.

(** ** The whole *)

(** swarm.rs 999-1019: [SwarmSender::send_with_reply]: a new oneshot, the command
    queued; a panic of the caller if the handler is gone. *)
Definition send_call (h : handler) (x : call) : handler * list obs :=
  if h_alive h then
    (mk_handler (h_alive h) (h_cmds h ++ [QCall (h_next_caller h) x]) (h_gets h) (h_puts h)
       (h_reqs h) (h_store h) (h_next_query h) (h_next_request h) (h_tasks h) (h_next_task h)
       (S (h_next_caller h)),
     [OSent (h_next_caller h) x])
  else (h, [OSendPanic]).

(** A serving task ends with the result of [remote::ask] etc. or panics (swarm.rs
    622-634 etc.; 871-960): the caller is answered or its sender dropped; for a peer,
    the response is queued with [SwarmSender::send] (999-1005), which panics if the
    handler is gone. Tasks outlive the handler. *)
Definition finish_task (h : handler) (t : nat) (r : option (st_result T)) : handler * list obs :=
  match take_task t (h_tasks h) with
  | None => (h, [])
  | Some (TLocal c q, m) =>
      match r with
      | Some v => (set_tasks h m, [OReply c (AResponse (RResult (request_kind q) v))])
      | None => (set_tasks h m, [OTaskPanic t; ODrop c])
      end
  | Some (TInbound ch q, m) =>
      match r with
      | Some v =>
          if h_alive h
          then (set_tasks (set_cmds h (h_cmds h ++ [QRespond ch (request_kind q) v])) m, [])
          else (set_tasks h m, [OTaskPanic t])
      | None => (set_tasks h m, [OTaskPanic t])
      end
  end.

(** swarm.rs 517-541: [run], and what happens around it. Events that cannot happen in
    a state (a turn of the loop of a dead handler, of an empty channel) change
    nothing. *)
Definition step (me : peer_t) (h : handler) (e : event) : handler * list obs :=
  match e with
  | ESend x => send_call h x
  | ECommand n ok =>
      if h_alive h then
        match h_cmds h with
        | [] => (h, [])
        | q :: l => handle_command me (set_cmds h l) q n ok
        end
      else (h, [])
  | ENet e => if h_alive h then handle_event h e else (h, [])
  | ETask t r => finish_task h t r
  | EStore k r =>
      if h_alive h then
        match r with
        | Some r => (set_store h (store_put (h_store h) k r), [])
        | None => (set_store h (store_del (h_store h) k), [])
        end
      else (h, [])
  end.

(** A run: the final state and, for each event, what was seen. *)
Fixpoint run (me : peer_t) (h : handler) (es : list event) : handler * list (event * list obs) :=
  match es with
  | [] => (h, [])
  | e :: es' =>
      let '(h1, o) := step me h e in
      let '(h2, tr) := run me h1 es' in
      (h2, (e, o) :: tr)
  end.

(** ** The callers: swarm.rs 280-484 and 1723-1734 *)

(** What a caller's future gives: a value, or a panic: of [SwarmFuture] (1729-1732) when
    the sender was dropped, of a [match] on an answer of another kind (434, 455, 481), of
    the decoder of registrations (1217-1222). *)
Inductive outcome (A : Type) : Type :=
| Value (a : A)
| CallerPanic.
Arguments Value {A} a.
Arguments CallerPanic {A}.

(** src/error.rs [RegistryError]: the variants used here. *)
Inductive reg_error : Type := ReBadActorType | ReQuorum (q : nat) | ReTimeout.

(** An entry of the node's table of actors (src/remote.rs 76-83, [REMOTE_REGISTRY]):
    the Rust type the reference was stored with, and the actor. *)
Record entry : Type := mk_entry {
  en_rust_type : nat;
  en_actor_no : nat
}.

(** [HashMap::get] on the table; keys are compared with [ActorID]'s equality. *)
Fixpoint table_find (me : peer_t) (m : list (id_t * entry)) (x : id_t) : option entry :=
  match m with
  | [] => None
  | (y, e) :: m' => if id_eqb (st_peers T) (Some me) y x then Some e else table_find me m' x
  end.

(** swarm.rs 294-316: the rest of [lookup_local] after the answer, for an actor type
    with remote id [rid] and Rust type [ty]; [m] is the table when its lock is got. *)
Definition client_lookup_local (me : peer_t) (rid : list byte) (ty : nat)
  (m : list (id_t * entry)) (a : option answer) : outcome (option nat + reg_error) :=
  match a with
  | Some (ALocal None) => Value (inl None)
  | Some (ALocal (Some g)) =>
      if bytes_eqb rid (reg_remote g) then
        match table_find me m (reg_id g) with
        | None => Value (inl None)
        | Some e =>
            if Nat.eqb ty (en_rust_type e) then Value (inl (Some (en_actor_no e)))
            else Value (inr ReBadActorType)
        end
      else Value (inr ReBadActorType)
  | _ => CallerPanic
  end.

(** swarm.rs 331-353: the rest of [lookup]; the reference found is just the id. *)
Definition client_lookup (rid : list byte) (a : option answer) : outcome (option id_t + reg_error) :=
  match a with
  | Some (AFound v) =>
      match v with
      | [] => Value (inl None)
      | _ =>
          match reg_from_bytes (st_peers T) v with
          | None => CallerPanic
          | Some g =>
              if bytes_eqb rid (reg_remote g) then Value (inl (Some (reg_id g)))
              else Value (inr ReBadActorType)
          end
      end
  | Some (AGetError GeNotFound) => Value (inl None)
  | Some (AGetError (GeQuorum q)) => Value (inr (ReQuorum q))
  | Some (AGetError GeTimeout) => Value (inr ReTimeout)
  | _ => CallerPanic
  end.

(** swarm.rs 371-391 ([register], on success the table gets the entry) and 406-414
    ([unregister], which leaves the table alone: [e] is [None]). *)
Definition client_stored (m : list (id_t * entry)) (e : option (id_t * entry)) (a : option answer)
  : outcome (unit + reg_error) * list (id_t * entry) :=
  match a with
  | Some (AStored PrOk) =>
      (Value (inl tt), match e with Some x => x :: m | None => m end)
  | Some (AStored (PrQuorum q)) => (Value (inr (ReQuorum q)), m)
  | Some (AStored PrTimeout) => (Value (inr ReTimeout), m)
  | _ => (CallerPanic, m)
  end.

(** swarm.rs 430-436, 452-458, 477-483 (and request/ask.rs 817-836, request/tell.rs 397-409):
    an answer of the caller's own kind, a network failure, or a panic. *)
Definition client_request (k : kind_of) (a : option answer) : outcome (st_result T + net_error) :=
  match a with
  | Some (AResponse (RResult k' r)) => if kind_eqb k k' then Value (inl r) else CallerPanic
  | Some (AResponse (RFailure e)) => Value (inr e)
  | _ => CallerPanic
  end.

End Swarm.
Arguments mk_rec {T} _ _.
Arguments rc_value {T} r.
Arguments rc_publisher {T} r.
Arguments QAsk {T} to b.
Arguments QTell {T} to b.
Arguments QLink {T} actor actor_rid sib sib_rid.
Arguments QUnlink {T} actor actor_rid sib.
Arguments QSignal {T} dead notified rid why.
Arguments request_kind {T} q.
Arguments RResult {T} k r.
Arguments RFailure {T} e.
Arguments CDial {T}.
Arguments CLookup {T} k.
Arguments CLookupLocal {T} k.
Arguments CRegister {T} k v.
Arguments CUnregister {T} k.
Arguments CAsk {T} dest to b.
Arguments CTell {T} dest to b.
Arguments CLink {T} actor actor_rid sib sib_rid.
Arguments CUnlink {T} actor sib sib_rid.
Arguments CSignal {T} dead notified rid why.
Arguments QCall {T} c x.
Arguments QRespond {T} ch k r.
Arguments ADial {T}.
Arguments AFound {T} v.
Arguments AGetError {T} e.
Arguments AStored {T} r.
Arguments ALocal {T} r.
Arguments AResponse {T} r.
Arguments TLocal {T} c q.
Arguments TInbound {T} ch q.
Arguments mk_handler {T}.
Arguments h_alive {T} h.
Arguments h_cmds {T} h.
Arguments h_gets {T} h.
Arguments h_puts {T} h.
Arguments h_reqs {T} h.
Arguments h_store {T} h.
Arguments h_next_query {T} h.
Arguments h_next_request {T} h.
Arguments h_tasks {T} h.
Arguments h_next_task {T} h.
Arguments h_next_caller {T} h.
Arguments handler_new {T}.
Arguments OSent {T} c x.
Arguments OSendPanic {T}.
Arguments OReply {T} c a.
Arguments ODrop {T} c.
Arguments OGet {T} c qid k.
Arguments OPut {T} c qid k v.
Arguments OWire {T} c rid dest q.
Arguments OServe {T} t c q.
Arguments OServePeer {T} t ch q.
Arguments ORespond {T} ch r.
Arguments OPeerLost {T} p.
Arguments OHandlerPanic {T}.
Arguments OTaskPanic {T} t.
Arguments NFound {T} qid v.
Arguments NGetFinished {T} qid.
Arguments NGetError {T} qid e.
Arguments NPut {T} qid r.
Arguments NRequest {T} ch q.
Arguments NResponse {T} rid r.
Arguments NFailure {T} rid f.
Arguments NClosed {T} p left.
Arguments NOther {T}.
Arguments ESend {T} x.
Arguments ECommand {T} n ok.
Arguments ENet {T} e.
Arguments ETask {T} t r.
Arguments EStore {T} k r.
Arguments take_task {T} k m.
Arguments store_get {T} s k.
Arguments store_del {T} s k.
Arguments store_put {T} s k r.
Arguments remove_record {T} me s k.
Arguments set_cmds {T} h l.
Arguments set_gets {T} h l.
Arguments set_puts {T} h l.
Arguments set_reqs {T} h l.
Arguments set_store {T} h s.
Arguments set_tasks {T} h l.
Arguments start_get {T} h c.
Arguments start_put {T} h c.
Arguments start_request {T} h c.
Arguments spawn_task {T} h t.
Arguments command_callers {T} l.
Arguments handler_panic {T} h c.
Arguments peer_of {T} me x.
Arguments outgoing {T} me x.
Arguments handle_call {T} me h c x n ok.
Arguments handle_command {T} me h q n ok.
Arguments handle_event {T} h e.
Arguments send_call {T} h x.
Arguments finish_task {T} h t r.
Arguments step {T} me h e.
Arguments run {T} me h es.
Arguments Value {A} a.
Arguments CallerPanic {A}.
Arguments table_find {T} me m x.
Arguments client_lookup_local {T} me rid ty m a.
Arguments client_lookup {T} rid a.
Arguments client_stored {T} m e a.
Arguments client_request {T} k a.
