(** Model of how a process gets its swarm: the static [ACTOR_SWARM] (src/remote/swarm.rs
    33), the four functions that fill it (80-183), [ActorSwarm::get] (227-229), and what
    becomes of the commands sent through it ([SwarmSender], 1002-1019, [SwarmFuture],
    1725-1734).

    Any number of calls, from any number of threads, one piece of a call at a time.
    [bootstrap] (80-82) is [bootstrap_with_identity] with a new key. Whether libp2p makes
    a behaviour or builds a swarm, and whether a call runs inside a tokio runtime, is part
    of the event. Peer ids are numbers. What the handler does with commands is in the
    area Swarm. *)
From Coq Require Import List Bool PeanoNat.
Import ListNotations.

(** The functions: [bootstrap_with_identity] (swarm.rs 95-99),
    [bootstrap_with_behaviour] (111-128), [bootstrap_with_swarm] (139-166),
    [bootstrap_manual] (172-183). *)
Inductive method : Type := Identity | Behaviour | Given | Manual.

(** An [ActorSwarm] (swarm.rs 66-69): the call that made it, whose channel it sends
    commands to, and its peer id. *)
Record swarm : Type := mk_swarm { sw_maker : nat; sw_peer : nat }.

(** How a call ends: [Ok] (swarm.rs 159), [AlreadyBootstrapped] with the swarm that is
    there and whether the call's own libp2p swarm is given back (116, 161-164),
    [BehaviourError] (97, 124), [Some] with the handler (181), [None] (182), a panic
    (151: [tokio::spawn] outside a runtime). *)
Inductive outcome : Type :=
| Started (s : swarm)
| Already (s : swarm) (own : bool)
| NoBehaviour
| Handed (s : swarm)
| Refused
| Panicked.

(** Where a call is: at [ActorSwarmBehaviour::new] (swarm.rs 96), at the check (115), at
    the building of the swarm (120-127), at [try_insert] (146, 177), at [tokio::spawn]
    (151), over. *)
Inductive point : Type :=
| AtNew
| AtCheck
| AtBuild
| AtInsert
| AtSpawn
| Over (r : outcome).

(** A call: its function, the peer id of its key, where it is. *)
Record call : Type := mk_call { c_method : method; c_peer : nat; c_at : point }.

(** The process: the static (swarm.rs 33), the calls, and the other end of the channel of
    the swarm in the static, [cmd_rx] (143, 173): whether it exists, and the commands in
    it. *)
Record process : Type := mk_process {
  p_swarm : option swarm;
  p_calls : list call;
  p_open : bool;
  p_queue : list nat
}.

(** swarm.rs 33: [OnceCell::new]. *)
Definition boot : process := mk_process None [] false [].

(** Events: a call is made; it goes one piece further, which goes well or not; the
    handler is dropped (with the runtime its task runs on, or by the user of
    [bootstrap_manual], or because it panicked); it takes a command (swarm.rs 519-520,
    546-548); [ActorSwarm::get] (227-229); command [c] is sent through it
    ([send_with_reply], 1009-1018). *)
Inductive event : Type :=
| Enter (m : method) (peer : nat)
| Go (i : nat) (well : bool)
| Lose
| Take
| Get
| Send (c : nat).

(** Observations: a call ends; what [get] returns; a command: there is no swarm, it is
    accepted, the send panics (swarm.rs 1006), the handler takes it, the future of its
    answer panics as its sender is dropped (1730-1731). *)
Inductive obs : Type :=
| OEnd (i : nat) (r : outcome)
| OGet (s : option swarm)
| ONone (c : nat)
| OAccepted (c : nat)
| OSendPanic (c : nat)
| OTaken (c : nat)
| OLost (c : nat).

(** Where a call of each function starts (swarm.rs 95-96, 115, 142-146, 173-177). *)
Definition entry (m : method) : point :=
  match m with Identity => AtNew | Behaviour => AtCheck | Given => AtInsert | Manual => AtInsert end.

(** Update of an element of a list (no counterpart in the code). *)
Fixpoint update (i : nat) (c : call) (l : list call) : list call :=
  match l, i with
  | [], _ => []
  | _ :: l', 0 => c :: l'
  | x :: l', S j => x :: update j c l'
  end.

(** Call [i] is at [p] next (swarm.rs 95-183). *)
Definition move (p : process) (i : nat) (c : call) (a : point) : process :=
  mk_process (p_swarm p) (update i (mk_call (c_method c) (c_peer c) a) (p_calls p)) (p_open p) (p_queue p).

(** Call [i] ends (swarm.rs 95-183). *)
Definition finish (p : process) (i : nat) (c : call) (r : outcome) : process * list obs :=
  (move p i c (Over r), [OEnd i r]).

(** The handler and with it [cmd_rx] is dropped: the senders in its commands are dropped. *)
Definition lose (p : process) : process * list obs :=
  (mk_process (p_swarm p) (p_calls p) false [], map OLost (p_queue p)).

(** The next piece of call [i]. *)
Definition go (p : process) (i : nat) (c : call) (well : bool) : option (process * list obs) :=
  match c_at c with
  | AtNew =>                                                              (* swarm.rs 96-98 *)
      if well then Some (move p i c AtCheck, []) else Some (finish p i c NoBehaviour)
  | AtCheck =>                                                            (* 115-117 *)
      match p_swarm p with
      | Some s => Some (finish p i c (Already s false))
      | None => Some (move p i c AtBuild, [])
      end
  | AtBuild =>                                                            (* 119-127 *)
      if well then Some (move p i c AtInsert, []) else Some (finish p i c NoBehaviour)
  | AtInsert =>                                                           (* 146-164, 176-182 *)
      match p_swarm p with
      | Some s =>
          Some (finish p i c (match c_method c with Manual => Refused | _ => Already s true end))
      | None =>
          let s := mk_swarm i (c_peer c) in
          let p' := mk_process (Some s) (p_calls p) true [] in
          match c_method c with
          | Manual => Some (finish p' i c (Handed s))
          | _ => Some (move p' i c AtSpawn, [])
          end
      end
  | AtSpawn =>                                                            (* 151-159 *)
      if well then Some (finish p i c (Started (mk_swarm i (c_peer c))))
      else let '(p1, o1) := lose p in
           let '(p2, o2) := finish p1 i c Panicked in Some (p2, o1 ++ o2)
  | Over _ => None
  end.

(** One event; [None]: it cannot happen. A handler exists once its call is over (swarm.rs
    151-159, 181). *)
Definition step (p : process) (e : event) : option (process * list obs) :=
  match e with
  | Enter m peer =>
      Some (mk_process (p_swarm p) (p_calls p ++ [mk_call m peer (entry m)]) (p_open p) (p_queue p), [])
  | Go i well =>
      match nth_error (p_calls p) i with Some c => go p i c well | None => None end
  | Lose =>
      match p_swarm p with
      | Some s =>
          match nth_error (p_calls p) (sw_maker s) with
          | Some c => match c_at c with Over _ => if p_open p then Some (lose p) else None | _ => None end
          | None => None
          end
      | None => None
      end
  | Take =>
      match p_swarm p with
      | Some s =>
          match nth_error (p_calls p) (sw_maker s) with
          | Some c =>
              match c_at c, p_queue p with
              | Over _, q :: l => Some (mk_process (p_swarm p) (p_calls p) (p_open p) l, [OTaken q])
              | _, _ => None
              end
          | None => None
          end
      | None => None
      end
  | Get => Some (p, [OGet (p_swarm p)])
  | Send c =>
      match p_swarm p with
      | None => Some (p, [ONone c])
      | Some _ =>
          if p_open p
          then Some (mk_process (p_swarm p) (p_calls p) true (p_queue p ++ [c]), [OAccepted c])
          else Some (p, [OSendPanic c])
      end
  end.

(** Runs (no counterpart in the code). *)
Fixpoint exec (p : process) (es : list event) : option (process * list obs) :=
  match es with
  | [] => Some (p, [])
  | e :: es' =>
      match step p e with
      | Some (p1, o1) =>
          match exec p1 es' with
          | Some (p2, o2) => Some (p2, o1 ++ o2)
          | None => None
          end
      | None => None
      end
  end.
