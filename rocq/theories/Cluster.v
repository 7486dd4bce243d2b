(** Model of any number of nodes, each running the swarm task of src/remote/swarm.rs
    (area Swarm), and of the requests and responses between them.

    A request given to libp2p's request-response behaviour (swarm.rs 1536-1634) is on its
    way until it is delivered to its peer, at any time and in any order (860-867), or
    never. Its response channel can be used once (1636-1679) and the response given to it
    is delivered to the node the request came from under the request's id, at any time
    (960-975), or never. Failures are reported at any time (976-994), whether or not the
    request or the response was delivered. Trusted of libp2p: a request or response is
    delivered at most once, unchanged, only to the node it is for; channels are distinct.
    (An id of an own actor is sent with the sender's peer id and so denotes the same actor
    at the receiver, see the area ActorId; here requests are passed on as they are.)
    The nodes' tasks interleave arbitrarily; one event is one event of one node. *)
From Coq Require Import List Bool Arith PeanoNat.
From Verif Require Import ActorId Swarm.
Import ListNotations.

Section Cluster.
Variable T : swarm_types.
Notation peer_t := (peer (st_peers T)).

(** A request between nodes: the node and id it was sent with (swarm.rs 637-649 etc.),
    the peer it is for. *)
Record packet : Type := mk_packet {
  pk_from : peer_t;
  pk_rid : nat;
  pk_dest : peer_t;
  pk_req : request T
}.

(** The nodes, the requests on their way, the response channels not yet used (swarm.rs
    863), the responses on their way, the number of channels made. *)
Record cluster : Type := mk_cluster {
  cl_node : peer_t -> handler T;
  cl_wire : list packet;
  cl_open : list (nat * packet);
  cl_back : list (packet * response T);
  cl_next : nat
}.

(** Every node starts with [ActorSwarmHandler::new] (swarm.rs 507-515). *)
Definition cluster_new : cluster := mk_cluster (fun _ => handler_new) [] [] [] 0.

(** Events: node [p] does [e] (see Swarm.event); the [k]th request on its way is
    delivered; the [k]th response on its way is delivered. *)
Inductive c_event : Type :=
| CNode (p : peer_t) (e : event T)
| CDeliver (k : nat)
| CAnswer (k : nat).

(** What happened: a node's own event, a request delivered with a channel, a response
    delivered; with what the node did (swarm.rs 517-541). *)
Inductive happened : Type :=
| HNode (p : peer_t) (e : event T) (os : list (obs T))
| HDeliver (k : packet) (ch : nat) (os : list (obs T))
| HAnswer (k : packet) (r : response T) (os : list (obs T)).

(** Takes the [k]th element: libp2p picks which stream makes progress. *)
Fixpoint pick {A : Type} (k : nat) (l : list A) : option (A * list A) :=
  match l, k with
  | [], _ => None
  | x :: l', 0 => Some (x, l')
  | x :: l', S k' =>
      match pick k' l' with
      | Some (y, r) => Some (y, x :: r)
      | None => None
      end
  end.

(** The use of a response channel consumes it (libp2p [send_response], called by
    swarm.rs 1636-1679). *)
Fixpoint take_open (ch : nat) (l : list (nat * packet)) : option (packet * list (nat * packet)) :=
  match l with
  | [] => None
  | (c, k) :: l' =>
      if Nat.eqb ch c then Some (k, l')
      else match take_open ch l' with
           | Some (y, r) => Some (y, (c, k) :: r)
           | None => None
           end
  end.

(** What libp2p does with an action of node [p]: [send_request] (swarm.rs 1536-1634) puts a
    request on its way, [send_response] (1636-1679) a response. *)
Definition emit (p : peer_t) (s : cluster) (o : obs T) : cluster :=
  match o with
  | OWire _ rid dest q =>
      mk_cluster (cl_node s) (cl_wire s ++ [mk_packet p rid dest q]) (cl_open s) (cl_back s) (cl_next s)
  | ORespond ch r =>
      match take_open ch (cl_open s) with
      | Some (k, rest) =>
          mk_cluster (cl_node s) (cl_wire s) rest (cl_back s ++ [(k, r)]) (cl_next s)
      | None => s
      end
  | _ => s
  end.

(** Replacing the state of one node. *)
Definition set_node (f : peer_t -> handler T) (p : peer_t) (h : handler T) : peer_t -> handler T :=
  fun x => if peer_eqb (st_peers T) x p then h else f x.

(** Node [p] does [e] (swarm.rs 517-541). *)
Definition node_step (s : cluster) (p : peer_t) (e : event T) : cluster * list (obs T) :=
  let '(h, os) := step p (cl_node s p) e in
  (fold_left (emit p) os
     (mk_cluster (set_node (cl_node s) p h) (cl_wire s) (cl_open s) (cl_back s) (cl_next s)),
   os).

(** Events a node can do by itself: all but the arrival of a request or response; a task
    ends only if it runs (swarm.rs 871-960). *)
Definition own_event (h : handler T) (e : event T) : bool :=
  match e with
  | ENet (NRequest _ _) | ENet (NResponse _ _) => false
  | ETask t _ => match take_task t (h_tasks h) with Some _ => true | None => false end
  | _ => true
  end.

(** One event; [None]: it cannot happen (swarm.rs 517-541, 860-994 at one of the nodes). *)
Definition c_step (s : cluster) (e : c_event) : option (cluster * happened) :=
  match e with
  | CNode p e =>
      if own_event (cl_node s p) e then
        let '(s', os) := node_step s p e in Some (s', HNode p e os)
      else None
  | CDeliver k =>
      match pick k (cl_wire s) with
      | None => None
      | Some (pk, rest) =>
          let s1 := mk_cluster (cl_node s) rest ((cl_next s, pk) :: cl_open s) (cl_back s) (S (cl_next s)) in
          let '(s', os) := node_step s1 (pk_dest pk) (ENet (NRequest (cl_next s) (pk_req pk))) in
          Some (s', HDeliver pk (cl_next s) os)
      end
  | CAnswer k =>
      match pick k (cl_back s) with
      | None => None
      | Some ((pk, r), rest) =>
          let s1 := mk_cluster (cl_node s) (cl_wire s) (cl_open s) rest (cl_next s) in
          let '(s', os) := node_step s1 (pk_from pk) (ENet (NResponse (pk_rid pk) r)) in
          Some (s', HAnswer pk r os)
      end
  end.

(** A run. *)
Fixpoint c_exec (s : cluster) (es : list c_event) : option (cluster * list happened) :=
  match es with
  | [] => Some (s, [])
  | e :: es' =>
      match c_step s e with
      | None => None
      | Some (s1, x) =>
          match c_exec s1 es' with
          | None => None
          | Some (s2, hist) => Some (s2, x :: hist)
          end
      end
  end.

End Cluster.
Arguments mk_packet {T} _ _ _ _.
Arguments pk_from {T} p.
Arguments pk_rid {T} p.
Arguments pk_dest {T} p.
Arguments pk_req {T} p.
Arguments mk_cluster {T} _ _ _ _ _.
Arguments cl_node {T} c _.
Arguments cl_wire {T} c.
Arguments cl_open {T} c.
Arguments cl_back {T} c.
Arguments cl_next {T} c.
Arguments cluster_new {T}.
Arguments CNode {T} p e.
Arguments CDeliver {T} k.
Arguments CAnswer {T} k.
Arguments HNode {T} p e os.
Arguments HDeliver {T} k ch os.
Arguments HAnswer {T} k r os.
Arguments take_open {T} ch l.
Arguments emit {T} p s o.
Arguments set_node {T} f p h _.
Arguments node_step {T} s p e.
Arguments own_event {T} h e.
Arguments c_step {T} s e.
Arguments c_exec {T} s es.
