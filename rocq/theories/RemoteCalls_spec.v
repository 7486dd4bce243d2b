(** Vocabulary of the property of remote asks and tells across nodes (C63). *)
From Coq Require Import List Bool Arith.
From Verif Require Import ActorId Errors Dyn Requests Swarm Swarm_spec Cluster Cluster_spec RemoteCalls.
From Verif Require RemoteDispatch.
Import ListNotations.

Section Spec.
Variable P : peers.
Variable user : nat -> Type.
Variable bytes reason : Type.
Notation T := (call_types P user bytes reason).
Notation event_t := (x_happened P user bytes reason).
Notation peer_t := (peer P).

(** What happened in the cluster. *)
Definition net (hist : list event_t) : list (happened T) :=
  flat_map (fun x => match x with YNet x => [x] | _ => [] end) hist.

(** The signals that task [t] of node [n] put into mailboxes, in order, with the actor. *)
Definition puts (hist : list event_t) (n : peer_t) (t : nat) : list (nat * gsignal user) :=
  flat_map (fun x => match x with
                     | YRun n' t' _ os => if task_eqb (n', t') (n, t) then os else []
                     | _ => []
                     end) hist.

(** While the task ran, the node's table of actors was [reg]. *)
Definition had_table (hist : list event_t) (n : peer_t) (t : nat) (reg : RemoteDispatch.registry (actor_id P)) : Prop :=
  (exists box, In (YBegin n t reg box) hist) \/ (exists os, In (YRun n t (RemoteDispatch.DEnvReg reg) os) hist).

(** The signal of an ask or tell of message [v]: the message, with a channel for the reply
    if it is an ask. *)
Definition signal_of (ask : bool) (t : nat) (m : ty) (v : den user m) : gsignal user :=
  GMsg (existT _ m v) (if ask then Some t else None) false.

(** The request is the ask or tell [b]. *)
Inductive is_call : request T -> RemoteDispatch.request (actor_id P) bytes -> Prop :=
| call_ask : forall to b, RemoteDispatch.q_ask b = true -> RemoteDispatch.q_id b = to -> is_call (@QAsk T to b) b
| call_tell : forall to b, RemoteDispatch.q_ask b = false -> RemoteDispatch.q_id b = to -> is_call (@QTell T to b) b.

(** The result is an error of the network. *)
Definition network_error {V E : Type} (o : RemoteDispatch.remote_outcome V E) (e : net_error) : Prop :=
  match e with
  | NeDial => o = RemoteDispatch.RemoteErr RDialFailure
  | NeTimeout => o = RemoteDispatch.RemoteErr RNetworkTimeout
  | NeClosed => o = RemoteDispatch.RemoteErr RConnectionClosed
  | NeUnsupported => o = RemoteDispatch.RemoteErr RUnsupportedProtocols
  | NeIo c => o = RemoteDispatch.RemoteErr (RIo c)
  end.

End Spec.
Arguments net {P user bytes reason} hist.
Arguments puts {P user bytes reason} hist n t.
Arguments had_table {P user bytes reason} hist n t reg.
Arguments is_call {P user bytes reason} q b.
Arguments signal_of {user} ask t m v.
