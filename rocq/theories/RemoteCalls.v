(** Model of remote asks and tells from the caller to the mailbox and back: the nodes of
    the area Cluster, whose tasks for asks and tells run the code of the area
    RemoteDispatch ([remote::ask] and [remote::tell], src/remote.rs 150-197, called in
    src/remote/swarm.rs 623-634, 661-671, 878-890, 901-912).

    Every serving task has its own view of its node's table and mailboxes, which others
    change in any way between two of its polls ([DEnvReg], [DEnvBox]); what the task itself
    puts into mailboxes is recorded. Tasks for links, unlinks and death notices end with
    any result (areas RemoteLinks, RemoteRefs). All nodes run the same program; each
    compares actor ids as a node with its own peer id. *)
From Coq Require Import List Bool Arith PeanoNat String.
From Verif Require Import ActorId Errors Dyn Requests Swarm Cluster.
From Verif Require RemoteDispatch.
Import ListNotations.

(** The network error of a response as the error a request returns: src/error.rs 414-470
    ([RemoteSendError]), made in swarm.rs 982-990. *)
Definition send_error_of {E : Type} (e : net_error) : remote_send_error E :=
  match e with
  | NeDial => RDialFailure
  | NeTimeout => RNetworkTimeout
  | NeClosed => RConnectionClosed
  | NeUnsupported => RUnsupportedProtocols
  | NeIo c => RIo c
  end.

(** The program: the serialisers of all types and the slice REMOTE_MESSAGES (see
    RemoteDispatch.world; src/remote/_internal.rs 19-20). *)
Record program (user : nat -> Type) (bytes : Type) : Type := mk_program {
  pr_encode : forall t : ty, den user t -> result bytes string;
  pr_decode : forall t : ty, bytes -> result (den user t) string;
  pr_messages : list (RemoteDispatch.msg_key * RemoteDispatch.msg_fns)
}.
Arguments mk_program {user bytes} _ _ _.
Arguments pr_encode {user bytes} p t v.
Arguments pr_decode {user bytes} p t b.
Arguments pr_messages {user bytes} p.

Section Calls.
Variable P : peers.
Variable user : nat -> Type.
Variable bytes reason : Type.
Variable prog : program user bytes.
Notation id_t := (actor_id P).
Notation rd_request := (RemoteDispatch.request id_t bytes).
Notation rd_response := (RemoteDispatch.response user bytes).

(** Asks and tells carry the fields of [RemoteDispatch.request]; results are responses
    (swarm.rs 1231-1327). *)
Definition call_types : swarm_types := mk_types P rd_request rd_response reason.
Notation T := call_types.
Notation peer_t := (peer P).

(** The program at node [n]: ids are compared with the node's own peer id for local ones
    (src/actor/id.rs 224-237). *)
Definition world_at (n : peer_t) : RemoteDispatch.world user id_t bytes :=
  RemoteDispatch.mk_world user (id_eqb P (Some n)) (pr_encode prog) (pr_decode prog) (pr_messages prog).

(** What is passed to [remote::ask] or [remote::tell] (swarm.rs 623-634, 661-671, 878-890,
    901-912); [None]: another request. *)
Definition served (q : request T) : option rd_request :=
  match q with
  | QAsk to b =>
      Some (RemoteDispatch.mk_request true to (RemoteDispatch.q_actor b) (RemoteDispatch.q_msg b)
              (RemoteDispatch.q_payload b) (RemoteDispatch.q_mailbox_timeout b)
              (RemoteDispatch.q_reply_timeout b) (RemoteDispatch.q_immediate b))
  | QTell to b =>
      Some (RemoteDispatch.mk_request false to (RemoteDispatch.q_actor b) (RemoteDispatch.q_msg b)
              (RemoteDispatch.q_payload b) (RemoteDispatch.q_mailbox_timeout b)
              (RemoteDispatch.q_reply_timeout b) (RemoteDispatch.q_immediate b))
  | _ => None
  end.

(** The request of a serving task (swarm.rs 617-671, 871-960). *)
Definition task_request (k : task T) : request T :=
  match k with TLocal _ q => q | TInbound _ q => q end.

(** A serving task that has begun: its request and where it is. *)
Definition running : Type := { b : rd_request & RemoteDispatch.node user b }.

(** The nodes and their tasks that have begun, by node and number. *)
Record calls : Type := mk_calls {
  cs_net : cluster T;
  cs_runs : list ((peer_t * nat) * running)
}.

(** All nodes new (swarm.rs 507-515), no task. *)
Definition calls_new : calls := mk_calls cluster_new [].

(** Equality of task names. *)
Definition task_eqb (x y : peer_t * nat) : bool := peer_eqb P (fst x) (fst y) && Nat.eqb (snd x) (snd y).

(** The state of a task that has begun. *)
Fixpoint find_run (k : peer_t * nat) (l : list ((peer_t * nat) * running)) : option running :=
  match l with
  | [] => None
  | (k', x) :: l' => if task_eqb k' k then Some x else find_run k l'
  end.

(** Its replacement. *)
Fixpoint set_run (k : peer_t * nat) (x : running) (l : list ((peer_t * nat) * running))
  : list ((peer_t * nat) * running) :=
  match l with
  | [] => []
  | (k', y) :: l' => if task_eqb k' k then (k', x) :: l' else (k', y) :: set_run k x l'
  end.

(** Events: of the nodes and the network; a task for an ask or tell begins, with the
    table and mailboxes as they are; it goes on; it ends. *)
Inductive x_event : Type :=
| XNet (e : c_event T)
| XBegin (n : peer_t) (t : nat) (reg : RemoteDispatch.registry id_t) (box : nat -> mailbox user)
| XRun (n : peer_t) (t : nat) (e : RemoteDispatch.d_event user id_t)
| XEnd (n : peer_t) (t : nat).

(** What happened: in the cluster; a task went on and put these signals into mailboxes of
    its node. *)
Inductive x_happened : Type :=
| YNet (x : happened T)
| YBegin (n : peer_t) (t : nat) (reg : RemoteDispatch.registry id_t) (box : nat -> mailbox user)
| YRun (n : peer_t) (t : nat) (e : RemoteDispatch.d_event user id_t) (os : list (nat * gsignal user)).

(** The end of a task for an ask or tell is not an event of the cluster alone: its result
    is that of the task (swarm.rs 880-890). *)
Definition net_allowed (s : cluster T) (e : c_event T) : bool :=
  match e with
  | CNode n (ETask t _) =>
      match take_task t (h_tasks (cl_node s n)) with
      | Some (k, _) => match served (task_request k) with Some _ => false | None => true end
      | None => true
      end
  | _ => true
  end.

(** One event. The reply channel of a task's local ask is named by the task's number. *)
Definition x_step (s : calls) (e : x_event) : option (calls * x_happened) :=
  match e with
  | XNet e =>
      if net_allowed (cs_net s) e then
        match c_step (cs_net s) e with
        | Some (c, x) => Some (mk_calls c (cs_runs s), YNet x)
        | None => None
        end
      else None
  | XBegin n t reg box =>
      match take_task t (h_tasks (cl_node (cs_net s) n)), find_run (n, t) (cs_runs s) with
      | Some (k, _), None =>
          match served (task_request k) with
          | Some b =>
              Some (mk_calls (cs_net s)
                      (((n, t), existT _ b (RemoteDispatch.mk_node reg box RemoteDispatch.DStart)) :: cs_runs s),
                    YBegin n t reg box)
          | None => None
          end
      | _, _ => None
      end
  | XRun n t e =>
      match find_run (n, t) (cs_runs s) with
      | Some (existT _ b d) =>
          match RemoteDispatch.d_step (world_at n) t b d e with
          | Some (d', os) =>
              Some (mk_calls (cs_net s) (set_run (n, t) (existT _ b d') (cs_runs s)), YRun n t e os)
          | None => None
          end
      | None => None
      end
  | XEnd n t =>
      match find_run (n, t) (cs_runs s) with
      | Some (existT _ b d) =>
          let r := match RemoteDispatch.n_pc d with
                   | RemoteDispatch.DDone r => Some (Some r)
                   | RemoteDispatch.DPanic => Some None
                   | _ => None
                   end in
          match r with
          | Some r =>
              match c_step (cs_net s) (@CNode T n (@ETask T t r)) with
              | Some (c, x) => Some (mk_calls c (cs_runs s), YNet x)
              | None => None
              end
          | None => None
          end
      | None => None
      end
  end.

(** A run. *)
Fixpoint x_exec (s : calls) (es : list x_event) : option (calls * list x_happened) :=
  match es with
  | [] => Some (s, [])
  | e :: es' =>
      match x_step s e with
      | None => None
      | Some (s1, x) =>
          match x_exec s1 es' with
          | None => None
          | Some (s2, hist) => Some (s2, x :: hist)
          end
      end
  end.

(** The response as the caller sees it (swarm.rs 1303-1327, request/ask.rs 817-832,
    request/tell.rs 397-406). *)
Definition as_response (a : response T) : rd_response :=
  match a with
  | RResult _ r => r
  | RFailure e => RemoteDispatch.RespFailure (send_error_of e)
  end.

End Calls.
Arguments world_at {P user bytes} prog n.
Arguments served {P user bytes reason} q.
Arguments task_request {P user bytes reason} k.
Arguments mk_calls {P user bytes reason} _ _.
Arguments cs_net {P user bytes reason} c.
Arguments cs_runs {P user bytes reason} c.
Arguments calls_new {P user bytes reason}.
Arguments task_eqb {P} x y.
Arguments find_run {P user bytes} k l.
Arguments set_run {P user bytes} k x l.
Arguments XNet {P user bytes reason} e.
Arguments XBegin {P user bytes reason} n t reg box.
Arguments XRun {P user bytes reason} n t e.
Arguments XEnd {P user bytes reason} n t.
Arguments YNet {P user bytes reason} x.
Arguments YBegin {P user bytes reason} n t reg box.
Arguments YRun {P user bytes reason} n t e os.
Arguments net_allowed {P user bytes reason} s e.
Arguments x_step {P user bytes reason} prog s e.
Arguments x_exec {P user bytes reason} prog s es.
Arguments as_response {P user bytes reason} a.
