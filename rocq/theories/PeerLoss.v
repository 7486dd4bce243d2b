(** Model of what a node does when a connection closes (src/remote/swarm.rs 791-817):
    the task spawned for the event, the node's table of actors ([REMOTE_REGISTRY],
    src/remote.rs 76-83) and the link maps of the actors in it.

    One event is one change of the table or of a link map by anybody else, one closed
    connection, or one piece of a task between two of its awaits. The table is behind
    one lock, whose guard lives as long as the [for] loop of 794-798 (a temporary of the
    iterated expression); the link maps have a lock each, taken and released once per
    actor (800). Actors are numbers; the order in which the table and a link map are
    iterated (std [HashMap]) is arbitrary. Whether the mailbox of an actor accepts the
    signal (mailbox.rs 546-558) is part of the event. Links are represented by the
    other actor's id: the task looks at the keys only (800). *)
From Coq Require Import List Bool Arith PeanoNat.
From Verif Require Import ActorId.
Import ListNotations.

Section Node.

(** Peers: see ActorId. *)
Variable P : peers.

(** Ids and peers of links: src/actor/id.rs 21-24. *)
Local Notation id_t := (actor_id P).
Local Notation peer_t := (peer P).

(** Where a task is: before the lock of the table (798); inside the loop (794-814), with
    the actors not yet visited and the futures pushed so far; in the loop of 816; ended. *)
Inductive state : Type :=
| AtTable
| Scanning (rest : list nat) (futures : list (nat * id_t))
| Telling (futures : list (nat * id_t))
| Ended.

(** One task: swarm.rs 792; the peer is moved into it. *)
Record task : Type := mk_task { t_peer : peer_t; t_state : state }.

(** The node: keys of the table (remote.rs 76), keys of the actors' link maps
    (actor_ref.rs 1357), all tasks ever spawned (swarm.rs 792). *)
Record node : Type := mk_node {
  n_table : list nat;
  n_links : nat -> list id_t;
  n_tasks : list task
}.

(** Before anything happens: remote.rs 76-77, an empty table. *)
Definition fresh : node := mk_node [] (fun _ => []) [].

(** Events. [Insert], [Remove]: actor_ref.rs 601-608, swarm.rs 376-383, spawn.rs 567.
    [Relink a l]: a's link map changes to [l] (actor_ref.rs 521-525, 564, 610, 644, 720,
    kind.rs 140, spawn.rs 521, _internal.rs 244-248, 271). [Closed p left]: swarm.rs 791,
    with [left] other connections to [p] remaining. [Lock], [Read], [Leave], [Tell],
    [Finish]: pieces of a task, swarm.rs 798, 800-812, 814, 816. *)
Inductive event : Type :=
| Insert (a : nat)
| Remove (a : nat)
| Relink (a : nat) (l : list id_t)
| Closed (p : peer_t) (left : nat)
| Lock (i : nat)
| Read (i a : nat)
| Leave (i : nat)
| Tell (i : nat) (k : nat) (accepted : bool)
| Finish (i : nat).

(** What happens: task [i] got the table, read the links of an actor, completed a
    future [signal_link_died(x, PeerDisconnected)] of actor [a] (swarm.rs 804-809), ended. *)
Inductive obs : Type :=
| OTable (i : nat) (actors : list nat)
| ORead (i a : nat) (l : list id_t)
| OTold (i a : nat) (x : id_t) (accepted : bool)
| OEnd (i : nat).

(** swarm.rs 801: [linked_actor_id.peer_id() == Some(&peer_id)] with id.rs 99-101 in a
    node whose swarm has peer id [me]. *)
Definition on_peer (me p : peer_t) (x : id_t) : bool :=
  opt_peer_eqb P (kind_peer P (Some me) (kind x)) (Some p).

(** swarm.rs 800-812: the futures pushed for one actor. *)
Definition pushed (me p : peer_t) (a : nat) (l : list id_t) : list (nat * id_t) :=
  map (fun x => (a, x)) (filter (on_peer me p) l).

(** Some task holds the lock of the table: its guard lives through swarm.rs 794-814. *)
Definition table_locked (n : node) : bool :=
  existsb (fun t => match t_state t with Scanning _ _ => true | _ => false end) (n_tasks n).

(** A task moves on (swarm.rs 792-817). *)
Fixpoint set_task (i : nat) (s : state) (ts : list task) : list task :=
  match ts, i with
  | [], _ => []
  | t :: ts', O => mk_task (t_peer t) s :: ts'
  | t :: ts', S j => t :: set_task j s ts'
  end.

(** As above, in the node. *)
Definition go (n : node) (i : nat) (s : state) (o : list obs) : option (node * list obs) :=
  Some (mk_node (n_table n) (n_links n) (set_task i s (n_tasks n)), o).

(** The futures without the one that completed (swarm.rs 816, [FuturesUnordered::next]). *)
Fixpoint drop_nth {A : Type} (k : nat) (l : list A) : list A :=
  match l, k with
  | [], _ => []
  | _ :: l', O => l'
  | x :: l', S j => x :: drop_nth j l'
  end.

(** One event in a node with peer id [me]; [None]: it cannot happen now. *)
Definition step (me : peer_t) (n : node) (e : event) : option (node * list obs) :=
  match e with
  | Insert a =>
      if table_locked n then None
      else Some (mk_node (if existsb (Nat.eqb a) (n_table n) then n_table n else a :: n_table n)
                         (n_links n) (n_tasks n), [])
  | Remove a =>
      if table_locked n then None
      else Some (mk_node (remove Nat.eq_dec a (n_table n)) (n_links n) (n_tasks n), [])
  | Relink a l =>
      Some (mk_node (n_table n) (fun b => if Nat.eqb b a then l else n_links n b) (n_tasks n), [])
  | Closed p _ =>
      (* swarm.rs 791-792: num_established is not looked at *)
      Some (mk_node (n_table n) (n_links n) (n_tasks n ++ [mk_task p AtTable]), [])
  | Lock i =>
      match nth_error (n_tasks n) i with
      | Some (mk_task _ AtTable) =>
          if table_locked n then None
          else go n i (Scanning (n_table n) []) [OTable i (n_table n)]
      | _ => None
      end
  | Read i a =>
      match nth_error (n_tasks n) i with
      | Some (mk_task p (Scanning rest fs)) =>
          if existsb (Nat.eqb a) rest
          then go n i (Scanning (remove Nat.eq_dec a rest) (fs ++ pushed me p a (n_links n a)))
                  [ORead i a (n_links n a)]
          else None
      | _ => None
      end
  | Leave i =>
      match nth_error (n_tasks n) i with
      | Some (mk_task _ (Scanning [] fs)) => go n i (Telling fs) []
      | _ => None
      end
  | Tell i k ok =>
      match nth_error (n_tasks n) i with
      | Some (mk_task _ (Telling fs)) =>
          match nth_error fs k with
          | Some (a, x) => go n i (Telling (drop_nth k fs)) [OTold i a x ok]
          | None => None
          end
      | _ => None
      end
  | Finish i =>
      match nth_error (n_tasks n) i with
      | Some (mk_task _ (Telling [])) => go n i Ended [OEnd i]
      | _ => None
      end
  end.

(** Runs (swarm.rs 792-817 beside everything that touches the table and the links). *)
Fixpoint exec (me : peer_t) (n : node) (es : list event) : option (node * list obs) :=
  match es with
  | [] => Some (n, [])
  | e :: es' =>
      match step me n e with
      | None => None
      | Some (n1, o1) =>
          match exec me n1 es' with
          | None => None
          | Some (n2, o2) => Some (n2, o1 ++ o2)
          end
      end
  end.

End Node.

Arguments AtTable {P}.
Arguments Scanning {P} rest futures.
Arguments Telling {P} futures.
Arguments Ended {P}.
Arguments mk_task {P} t_peer t_state.
Arguments t_peer {P} t.
Arguments t_state {P} t.
Arguments mk_node {P} n_table n_links n_tasks.
Arguments n_table {P} n.
Arguments n_links {P} n a.
Arguments n_tasks {P} n.
Arguments fresh {P}.
Arguments Insert {P} a.
Arguments Remove {P} a.
Arguments Relink {P} a l.
Arguments Closed {P} p left.
Arguments Lock {P} i.
Arguments Read {P} i a.
Arguments Leave {P} i.
Arguments Tell {P} i k accepted.
Arguments Finish {P} i.
Arguments OTable {P} i actors.
Arguments ORead {P} i a l.
Arguments OTold {P} i a x accepted.
Arguments OEnd {P} i.
Arguments on_peer {P} me p x.
Arguments pushed {P} me p a l.
Arguments table_locked {P} n.
Arguments set_task {P} i s ts.
Arguments go {P} n i s o.
Arguments step {P} me n e.
Arguments exec {P} me n es.
