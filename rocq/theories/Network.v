(** Model of how a node is asked to listen, dial, note an address or disconnect
    ([ActorSwarm::listen_on], [dial], [add_peer_address], [disconnect_peer_id],
    src/remote/swarm.rs 185-279), what its handler does with that (545-570), what it learns
    from mDNS (818-826, 994), and what becomes of the futures ([SwarmSender], 1000-1019,
    [SwarmFuture], 1720-1735).

    libp2p is an oracle: what [listen_on], [dial] and [disconnect_peer_id] return is part of
    the event. Addresses, dial options and peers are numbers. Commands of the other kinds
    (names, requests to actors) are in the area Swarm. *)
From Coq Require Import List Bool PeanoNat.
Import ListNotations.

(** The commands (swarm.rs 1025-1050): [ListenOn], [Dial], [AddPeerAddress],
    [DisconnectPeerId]. *)
Inductive command : Type :=
| Listen (addr : nat)
| Dial (opts : nat)
| AddAddress (peer addr : nat)
| Disconnect (peer : nat).

(** What libp2p's [listen_on], [dial] and [disconnect_peer_id] return (swarm.rs 554, 561,
    568): a listener id or nothing of interest; an error. *)
Inductive result : Type :=
| Good (id : nat)
| Bad (err : nat).

(** The future of a call (swarm.rs 212-218, 250-255, 1725): its command has not been
    answered; it is answered, with libp2p's result;
    its sender is dropped; it is over (returned, panicked or dropped), or the method has
    none (265-268, 276-279). *)
Inductive future : Type :=
| Unanswered
| Answered (r : result)
| Abandoned
| Over.

(** The node: the commands in the channel (swarm.rs 1000) with the numbers of their calls,
    the futures of all calls made, whether the handler exists (498-503), the mode Kademlia
    was set to (555-557; [false]: never set), the addresses given to Kademlia (822-825). *)
Record node : Type := mk_node {
  n_line : list (nat * command);
  n_futures : list future;
  n_alive : bool;
  n_server : bool;
  n_known : list (nat * nat)
}.

(** swarm.rs 506-514: [ActorSwarmHandler::new]. *)
Definition fresh : node := mk_node [] [] true false [].

(** Events: a method is called (swarm.rs 212, 250, 265, 276); the handler takes a command
    (520, 546-548) and libp2p returns [r] (554, 561, 568); mDNS has found or lost addresses
    (818-820, 994); a future is polled or dropped (1730-1735); the handler is dropped. *)
Inductive event : Type :=
| Call (c : command)
| Take (r : result)
| Found (l : list (nat * nat))
| Expired (l : list (nat * nat))
| Poll (i : nat)
| Forget (i : nat)
| Lose.

(** Observations: call [i] returns; the call panics (swarm.rs 1006); libp2p was given the
    command of call [i] and returned [r]; Kademlia is set to server mode (555-557), is
    given an address (822-825); a future is pending, returns, panics (1732-1733); the
    handler is gone. *)
Inductive obs : Type :=
| OCalled (i : nat) (c : command)
| OCallPanicked (c : command)
| ODid (i : nat) (c : command) (r : result)
| OServer
| OLearned (peer addr : nat)
| OPending (i : nat)
| OReady (i : nat) (r : result)
| OFuturePanicked (i : nat)
| OLost.

(** swarm.rs 212-279: what a call leaves its caller with. *)
Definition future_of (c : command) : future :=
  match c with
  | Listen _ | Dial _ => Unanswered
  | AddAddress _ _ | Disconnect _ => Over
  end.

(** Update of an element of a list (no counterpart in the code). *)
Fixpoint update (i : nat) (x : future) (l : list future) : list future :=
  match l, i with
  | [], _ => []
  | _ :: l', 0 => x :: l'
  | y :: l', S j => y :: update j x l'
  end.

(** swarm.rs 558, 562: [reply.send]; the result is dropped if the future is. *)
Definition reply (i : nat) (r : result) (l : list future) : list future :=
  match nth_error l i with
  | Some Unanswered => update i (Answered r) l
  | _ => l
  end.

(** The handler is dropped, and with it the senders in its channel (swarm.rs 498-503). *)
Definition abandon (x : future) : future :=
  match x with Unanswered => Abandoned | _ => x end.

(** One event; [None]: it cannot happen. *)
Definition step (s : node) (e : event) : option (node * list obs) :=
  match e with
  | Call c =>                                                             (* 1003-1018 *)
      let i := length (n_futures s) in
      if n_alive s
      then Some (mk_node (n_line s ++ [(i, c)]) (n_futures s ++ [future_of c]) true (n_server s) (n_known s),
                 [OCalled i c])
      else Some (s, [OCallPanicked c])
  | Take r =>
      match n_line s with
      | (i, c) :: q =>
          let did x srv := mk_node q x (n_alive s) srv (n_known s) in
          Some match c with
               | Listen _ =>                                              (* 553-559 *)
                   (did (reply i r (n_futures s)) true, [ODid i c r; OServer])
               | Dial _ =>                                                (* 560-563 *)
                   (did (reply i r (n_futures s)) (n_server s), [ODid i c r])
               | AddAddress _ _ | Disconnect _ =>                         (* 564-569 *)
                   (did (n_futures s) (n_server s), [ODid i c r])
               end
      | [] => None
      end
  | Found l =>                                                            (* 818-826 *)
      if n_alive s
      then Some (mk_node (n_line s) (n_futures s) true (n_server s) (n_known s ++ l),
                 map (fun x => OLearned (fst x) (snd x)) l)
      else None
  | Expired _ => if n_alive s then Some (s, []) else None                 (* 994 *)
  | Poll i =>                                                             (* 1730-1735 *)
      let stop x := Some (mk_node (n_line s) (update i Over (n_futures s)) (n_alive s) (n_server s) (n_known s), [x]) in
      match nth_error (n_futures s) i with
      | Some Unanswered => Some (s, [OPending i])
      | Some (Answered r) => stop (OReady i r)
      | Some Abandoned => stop (OFuturePanicked i)
      | Some Over | None => None
      end
  | Forget i =>
      match nth_error (n_futures s) i with
      | Some Over | None => None
      | Some _ =>
          Some (mk_node (n_line s) (update i Over (n_futures s)) (n_alive s) (n_server s) (n_known s), [])
      end
  | Lose =>
      if n_alive s
      then Some (mk_node [] (map abandon (n_futures s)) false (n_server s) (n_known s), [OLost])
      else None
  end.

(** Runs: a list of events that all happen (swarm.rs 516-538). *)
Fixpoint exec (s : node) (es : list event) : option (node * list obs) :=
  match es with
  | [] => Some (s, [])
  | e :: es' =>
      match step s e with
      | Some (s1, o1) =>
          match exec s1 es' with
          | Some (s2, o2) => Some (s2, o1 ++ o2)
          | None => None
          end
      | None => None
      end
  end.
