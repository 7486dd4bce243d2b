(** Model of how a node serves a remote ask or tell (src/remote.rs 150-197,
    src/remote/_internal.rs 83-223) and of the caller's half of it
    (src/request/ask.rs 785-833, src/request/tell.rs 368-407).

    Serving a request is an async function run in its own task (src/remote/swarm.rs
    623-634, 661-671, 878-890, 901-912); it is modelled by what one poll of it does. Between two polls
    others may change the node's table, every mailbox and the reply channel. A poll
    that finds the table's lock taken changes nothing and is left out. *)
From Coq Require Import List Bool PeanoNat String.
Import ListNotations.
From Verif Require Import Errors Dyn Reply Requests.

Set Implicit Arguments.

(** The types fixed by one element of the slice REMOTE_MESSAGES: the functions in it
    are instances of [_internal::ask::<A, M>] and so on (macros/src/remote_message.rs
    56-120), that is the actor type, the message type and the reply type of
    [<A as Message<M>>] (_internal.rs 29-35). *)
Record msg_fns : Type := mk_fns {
  fn_actor : nat;
  fn_msg : ty;
  fn_reply : rty
}.

(** src/remote/_internal.rs 77-81: [RemoteMessageRegistrationID]: the remote ids of the
    actor and of the message. *)
Definition msg_key : Type := (string * string)%type.

(** _internal.rs 77: the derived [PartialEq]. *)
Definition key_eqb (x y : msg_key) : bool := String.eqb (fst x) (fst y) && String.eqb (snd x) (snd y).

(** remote.rs 97-105: the loop over the slice with the set of ids seen so far;
    [Some] is the id of the panic. *)
Fixpoint find_duplicate (seen : list msg_key) (l : list (msg_key * msg_fns)) : option msg_key :=
  match l with
  | [] => None
  | (k, _) :: l' => if existsb (key_eqb k) seen then Some k else find_duplicate (k :: seen) l'
  end.

(** std [HashMap::get], with the comparison of the key type. *)
Fixpoint table_get {K V : Type} (eqb : K -> K -> bool) (k : K) (l : list (K * V)) : option V :=
  match l with
  | [] => None
  | (k', v) :: l' => if eqb k' k then Some v else table_get eqb k l'
  end.

(** std [HashMap::insert]. *)
Definition table_insert {K V : Type} (eqb : K -> K -> bool) (k : K) (v : V) (l : list (K * V)) : list (K * V) :=
  (k, v) :: filter (fun e => negb (eqb (fst e) k)) l.

(** remote.rs 106: [REMOTE_MESSAGES.iter().copied().collect()]. *)
Definition collect_messages (l : list (msg_key * msg_fns)) : list (msg_key * msg_fns) :=
  fold_left (fun m e => table_insert key_eqb (fst e) (snd e) m) l [].

(** remote.rs 95-107: REMOTE_MESSAGES_MAP; [None]: forcing it panics, the first time
    by the duplicate, later because the [Lazy] is poisoned. *)
Definition messages_map (l : list (msg_key * msg_fns)) : option (list (msg_key * msg_fns)) :=
  match find_duplicate [] l with
  | Some _ => None
  | None => Some (collect_messages l)
  end.

(** remote.rs 79-83: an entry of the node's table: the type and the number of the
    actor behind the boxed [ActorRef<A>]. *)
Record reg_entry : Type := mk_entry {
  en_type : nat;
  en_actor : nat
}.

(** What the model is parametric in: the comparison of [ActorID]s (src/actor/id.rs, see
    ActorId.id_eqb); rmp_serde's [to_vec_named] and [decode::from_slice] for each type,
    arbitrary functions whose error is its text; and the elements of the slice
    REMOTE_MESSAGES (_internal.rs 19-20). [bytes] is [Vec<u8>]. *)
Record world (user : nat -> Type) (id bytes : Type) : Type := mk_world {
  w_eqb : id -> id -> bool;
  w_encode : forall t : ty, den user t -> result bytes string;
  w_decode : forall t : ty, bytes -> result (den user t) string;
  w_messages : list (msg_key * msg_fns)
}.

Section Dispatch.
Variable user : nat -> Type.
Variable id bytes : Type.
Variable w : world user id bytes.
Local Notation den := (den user).
Local Notation gsignal := (gsignal user).
Local Notation mailbox := (mailbox user).
Local Notation id_eqb := (w_eqb w).
Local Notation encode := (w_encode w).
Local Notation decode := (w_decode w).

(** src/remote/swarm.rs 1231-1269: [SwarmRequest::Ask] and [SwarmRequest::Tell];
    of a timeout only whether it is set. *)
Record request : Type := mk_request {
  q_ask : bool;
  q_id : id;
  q_actor : string;
  q_msg : string;
  q_payload : bytes;
  q_mailbox_timeout : bool;
  q_reply_timeout : bool;
  q_immediate : bool
}.

(** swarm.rs 1303-1328: [SwarmResponse]. The answers to [Link], [Unlink] and
    [SignalLinkDied] are kept apart only by their tag. *)
Inductive response : Type :=
| RespAsk (r : result bytes (remote_send_error bytes))
| RespTell (r : result unit (remote_send_error (den TInfallible)))
| RespOther (n : nat)
| RespFailure (e : remote_send_error (den TInfallible)).

(** remote.rs 168-172, 192-196 with _internal.rs 108-113, 150-154, 189-193, 218: the
    local request made. *)
Definition method_of (q : request) : method :=
  if q_ask q
  then if q_immediate q then MAskTry (q_reply_timeout q)
       else MAsk (q_mailbox_timeout q) (q_reply_timeout q)
  else if q_immediate q then MTellTry else MTell (q_mailbox_timeout q).

(** The reply type of the local request: a tell's error is [SendError<M, Infallible>]
    (tell.rs 78). *)
Definition reply_of (q : request) (f : msg_fns) : rty :=
  if q_ask q then fn_reply f else RPlain TUnit.

(** remote.rs 158-161: the key of the request. *)
Definition q_key (q : request) : msg_key := (q_actor q, q_msg q).

(** The node's table (remote.rs 76). *)
Definition registry : Type := list (id * reg_entry).

(** Where the task serving request [q] is. *)
Inductive d_pc (q : request) : Type :=
| DStart
| DLock (f : msg_fns)                 (* waiting for REMOTE_REGISTRY.lock() *)
| DRun (f : msg_fns) (a : nat) (msg : den (fn_msg f)) (ch : oneshot user)
       (p : rq_pc user (fn_msg f) (reply_of q f) (method_of q))
| DDone (r : response)
| DPanic.                             (* the task has panicked *)
Arguments DStart {q}.
Arguments DLock {q} f.
Arguments DRun {q} f a msg ch p.
Arguments DDone {q} r.
Arguments DPanic {q}.

(** The node: its table (remote.rs 76), the mailboxes of its actors, and the task. *)
Record node (q : request) : Type := mk_node {
  n_reg : registry;
  n_box : nat -> mailbox;
  n_pc : d_pc q
}.
Arguments mk_node {q} _ _ _.

(** An error before the request reached an actor, in the response type of the
    request (remote.rs 162-165, 186-189; _internal.rs 99-106, 180-187). *)
Definition refuse (q : request) (e : forall E, remote_send_error E) : response :=
  if q_ask q then RespAsk (Err (e bytes)) else RespTell (Err (e (den TInfallible))).

(** _internal.rs 117-122, 158-163: errors of the local ask. *)
Definition serialise_error {M E : ty} (e : send_error (den M) (den E)) : remote_send_error bytes :=
  re_flatten
    (re_map_err (fun x => match encode _ x with
                          | Ok p => RHandlerError p
                          | Err s => RSerializeHandlerError s
                          end)
       (re_of_send_error e)).

(** _internal.rs 114-123, 155-164: the match on the result of the local ask; a panic
    in it is a panic of the task. [OutSent] is not a result of an ask. *)
Definition finish_ask (M : ty) (r : rty) (o : outcome user M r) : option response :=
  match o with
  | OutOk v =>
      Some (RespAsk (match encode _ v with Ok p => Ok p | Err s => Err (RSerializeReply s) end))
  | OutErr e => Some (RespAsk (Err (serialise_error (M := M) (E := r_err r) e)))
  | OutPanic | OutSent => None
  end.

(** _internal.rs 194-197, 219-222: the match on the result of the local tell; its
    error type is [SendError<M, Infallible>]. *)
Definition finish_tell (M : ty) (o : outcome user M (RPlain TUnit)) : option response :=
  match o with
  | OutSent => Some (RespTell (Ok tt))
  | OutErr e => Some (RespTell (Err (re_of_send_error e)))
  | OutPanic | OutOk _ => None
  end.

(** The result of the local request, seen as one value: [tell] and [ask] fail with
    [SendError<M, _>] when the signal could not be sent (tell.rs 78, ask.rs 107).
    [None]: not finished. *)
Definition ended {M : ty} {r : rty} {k : method} (E : error_msg k M (r_ok (r_value r)) = M)
  (p : rq_pc user M r k) : option (outcome user M r) :=
  match p with
  | RqSend | RqWait => None
  | RqDone o => Some o
  | RqFailed (NotSent e) =>
      Some (OutErr (eq_rect _ (fun t => send_error (den t) (den (r_err r))) e _ E))
  | RqFailed _ => Some OutPanic
  end.

(** The error type of the requests used carries the message (Requests.error_msg;
    tell.rs 78, 109; ask.rs 107, 327). *)
Definition method_error (q : request) (M v : ty) : error_msg (method_of q) M v = M.
Proof. unfold method_of. destruct (q_ask q), (q_immediate q); reflexivity. Defined.

(** _internal.rs 114-123, 155-164, 194-197, 219-222. *)
Definition finish_local (q : request) (f : msg_fns) : outcome user (fn_msg f) (reply_of q f) -> option response :=
  match q_ask q as b return
    outcome user (fn_msg f) (if b then fn_reply f else RPlain TUnit) -> option response with
  | true => fun o => finish_ask o
  | false => fun o => finish_tell o
  end.

(** _internal.rs 95-106 (and 137-148, 176-187, 205-216): with the lock held, find the
    actor and check its type; then decode the message. [chk] is the next position. *)
Definition check (q : request) (f : msg_fns) (reg : registry) : d_pc q :=
  match table_get id_eqb (q_id q) reg with
  | None => DDone (refuse q (fun E => RActorNotRunning))
  | Some x =>
      if (en_type x =? fn_actor f)%nat then
        match decode (fn_msg f) (q_payload q) with
        | Err s => DDone (refuse q (fun E => RDeserializeMessage s))
        | Ok msg => DRun f (en_actor x) msg OEmpty RqSend
        end
      else DDone (refuse q (fun E => RBadActorType))
  end.

(** remote.rs 150-167, 175-191: the first lookup. *)
Definition lookup_fns (q : request) : d_pc q :=
  match messages_map (w_messages w) with
  | None => DPanic
  | Some m =>
      match table_get key_eqb (q_key q) m with
      | None => DDone (refuse q (fun E => RUnknownMessage (q_actor q) (q_msg q)))
      | Some f => DLock f
      end
  end.

(** Events: a poll of the task (with the state of the timers of the local request); a
    change of the table or of a mailbox by others; the reply channel. *)
Inductive d_event : Type :=
| DPoll (mailbox_timer reply_timer : bool)
| DEnvReg (reg : registry)
| DEnvBox (a : nat) (b : mailbox)
| DReply (v : boxed_reply user)
| DReplyDrop.

(** Replacing one mailbox. *)
Definition set_box (f : nat -> mailbox) (a : nat) (b : mailbox) : nat -> mailbox :=
  fun x => if (x =? a)%nat then b else f x.

(** The position after a step of the local request (_internal.rs 108-123). *)
Definition after_local (q : request) (f : msg_fns) (a : nat) (msg : den (fn_msg f)) (ch : oneshot user)
  (p : rq_pc user (fn_msg f) (reply_of q f) (method_of q)) : d_pc q :=
  match ended (method_error q (fn_msg f) _) p with
  | None => DRun f a msg ch p
  | Some o => match finish_local q f o with Some r => DDone r | None => DPanic end
  end.

(** One step; observed are the signals put into mailboxes. [chn] is the number of the
    reply channel of the local ask. The task runs outside any actor, so
    [sent_within_actor] is false (src/actor/actor_ref.rs 198-203). *)
Definition d_step (chn : nat) (q : request) (n : node q) (e : d_event)
  : option (node q * list (nat * gsignal)) :=
  match e with
  | DPoll mt rt =>
      match n_pc n with
      | DStart => Some (mk_node (n_reg n) (n_box n) (lookup_fns q), [])
      | DLock f => Some (mk_node (n_reg n) (n_box n) (check q f (n_reg n)), [])
      | DRun f a msg ch p =>
          match rq_step msg chn false (mk_rq (n_box n a) ch p) (RPoll mt rt) with
          | None => None
          | Some (s, os) =>
              Some (mk_node (n_reg n) (set_box (n_box n) a (rq_box s))
                      (after_local q f a msg (rq_ch s) (rq_pos s)), map (pair a) os)
          end
      | DDone _ | DPanic => None
      end
  | DEnvReg reg => Some (mk_node reg (n_box n) (n_pc n), [])
  | DEnvBox a b =>
      if env_ok (n_box n a) b then Some (mk_node (n_reg n) (set_box (n_box n) a b) (n_pc n), [])
      else None
  | DReply v =>
      match n_pc n with
      | DRun f a msg ch p =>
          match ch with
          | OEmpty => Some (mk_node (n_reg n) (n_box n) (DRun f a msg (OValue v) p), [])
          | _ => None
          end
      | _ => None
      end
  | DReplyDrop =>
      match n_pc n with
      | DRun f a msg ch p =>
          match ch with
          | OEmpty => Some (mk_node (n_reg n) (n_box n) (DRun f a msg ODropped p), [])
          | _ => None
          end
      | _ => None
      end
  end.

(** A run (swarm.rs 878-912: the task is polled until it ends). *)
Fixpoint d_exec (chn : nat) (q : request) (n : node q) (es : list d_event)
  : option (node q * list (nat * gsignal)) :=
  match es with
  | [] => Some (n, [])
  | e :: es' =>
      match d_step chn n e with
      | None => None
      | Some (n1, o1) =>
          match d_exec chn n1 es' with
          | None => None
          | Some (n2, o2) => Some (n2, o1 ++ o2)
          end
      end
  end.

(** ** The caller *)

(** What [RemoteActorRef::ask] and [tell] return (ask.rs 791, tell.rs 373). *)
Inductive remote_outcome (T E : Type) : Type :=
| RemoteOk (v : T)
| RemoteErr (e : remote_send_error E)
| RemotePanic.
Arguments RemoteOk {T E} v.
Arguments RemoteErr {T E} e.
Arguments RemotePanic {T E}.

(** ask.rs 800-815, tell.rs 381-395: building the command; an unserialisable message
    returns at once. [peer]: whether the actor's id has a peer id, else the [expect]
    panics, before the message is serialised. *)
Inductive built : Type :=
| Command (q : request)
| BuildError (s : string)
| BuildPanic.

(** ask.rs 785-815 and tell.rs 368-395. *)
Definition build (ask peer : bool) (i : id) (actor msg_id : string) (t : ty) (v : den t) (mt rt imm : bool)
  : built :=
  if peer then
    match encode _ v with
    | Ok p => Command (mk_request ask i actor msg_id p mt rt imm)
    | Err s => BuildError s
    end
  else BuildPanic.

(** ask.rs 817-832: what is done with the response; [None]: the sender was dropped. *)
Definition receive_ask (r : rty) (x : option response) : remote_outcome (den (r_ok r)) (den (r_err r)) :=
  match x with
  | Some (RespAsk (Ok p)) =>
      match decode (r_ok r) p with Ok v => RemoteOk v | Err s => RemoteErr (RDeserializeMessage s) end
  | Some (RespAsk (Err e)) =>
      RemoteErr (re_flatten
        (re_map_err (fun p => match decode (r_err r) p with
                              | Ok e => RHandlerError e
                              | Err s => RDeserializeHandlerError s
                              end) e))
  | Some (RespFailure e) =>
      RemoteErr (re_map_err (fun z : den TInfallible => match z with end) e)
  | Some (RespTell _) | Some (RespOther _) | None => RemotePanic
  end.

(** tell.rs 397-406. *)
Definition receive_tell (x : option response) : remote_outcome unit (den TInfallible) :=
  match x with
  | Some (RespTell (Ok u)) => RemoteOk u
  | Some (RespTell (Err e)) => RemoteErr e
  | Some (RespFailure e) => RemoteErr (re_map_err (fun z : den TInfallible => match z with end) e)
  | Some (RespAsk _) | Some (RespOther _) | None => RemotePanic
  end.

End Dispatch.

Arguments RespAsk {user bytes} r.
Arguments RespTell {user bytes} r.
Arguments RespOther {user bytes} n.
Arguments RespFailure {user bytes} e.
Arguments DStart {user id bytes q}.
Arguments DLock {user id bytes q} f.
Arguments DRun {user id bytes q} f a msg ch p.
Arguments DDone {user id bytes q} r.
Arguments DPanic {user id bytes q}.
Arguments mk_node {user id bytes q} _ _ _.
Arguments DPoll {user id} _ _.
Arguments DEnvReg {user id} _.
Arguments DEnvBox {user id} _ _.
Arguments DReply {user id} _.
Arguments DReplyDrop {user id}.
Arguments RemoteOk {T E} v.
Arguments RemoteErr {T E} e.
Arguments RemotePanic {T E}.
Arguments Command {id bytes} q.
Arguments BuildError {id bytes} s.
Arguments BuildPanic {id bytes}.
Arguments refuse {user id bytes} q e.
Arguments serialise_error {user id bytes} w M E e.
Arguments finish_ask {user id bytes} w M r o.
Arguments finish_tell {user} bytes M o.
Arguments ended {user M r k} E p.
Arguments finish_local {user id bytes} w q f o.
Arguments check {user id bytes} w q f reg.
Arguments lookup_fns {user id bytes} w q.
Arguments set_box {user} f a b.
Arguments after_local {user id bytes} w q f a msg ch p.
Arguments d_step {user id bytes} w chn q n e.
Arguments d_exec {user id bytes} w chn q n es.
Arguments build {user id bytes} w ask peer i actor msg_id t v mt rt imm.
Arguments receive_ask {user id bytes} w r x.
Arguments receive_tell {user bytes} x.
