(** Model of [ActorRef::link_remote] and [ActorRef::unlink_remote]
    (src/actor/actor_ref.rs 589-618, 708-725) running beside the lifecycle of the actor
    they are called on (area Lifecycle): what they do to that actor's links and to the
    strong reference held by the node's table of actors ([REMOTE_REGISTRY],
    src/remote.rs 76-83).

    One event is one step of the actor or of its environment (any event of Lifecycle),
    the start of a call, one piece of a call between two of its awaits, or the drop of
    a call's future. The answers of the swarm are arbitrary (area Swarm). Other calls
    that fill the table ([ActorSwarm::register]) are the event [ERegister] of
    Lifecycle. Ids are numbers, as in Lifecycle; whether the sibling is the actor
    itself is a parameter of the call. *)
From Coq Require Import List Bool Arith PeanoNat.
From Verif Require Import Lifecycle.
Import ListNotations.

(** The two functions: actor_ref.rs 589 and 708. *)
Inductive op : Type := Link | Unlink.

(** What a call returns (actor_ref.rs 592, 711): [Done] is Ok, [NotBootstrapped] the
    error of 615 and 722, [Refused e] any other [RemoteSendError], [CallPanic] the
    panics of swarm.rs 1006, 1731, 434 and 455. *)
Inductive result : Type := Done | NotBootstrapped | Refused (e : nat) | CallPanic.

(** Where a call is: before the first await (597, 716), at the lock of the links (610;
    for [Unlink] the first await, 720), at [ActorSwarm::get] (614, 721), at the await of
    the answer (617, 724), returned, or dropped. *)
Inductive point : Type :=
| AtStart
| AtLinks
| AtSwarm
| AtAnswer
| Finished (r : result)
| Dropped.

(** One call: actor_ref.rs 589-592, 708-711; [to_self]: the ids are equal (597, 716). *)
Record call : Type := mk_call { c_op : op; c_sibling : actor_id; c_self : bool; c_at : point }.

(** What [ActorSwarm::get] and the send of the command find (swarm.rs 1002-1007): no
    swarm, a swarm whose task has ended, a running one. *)
Inductive swarm : Type := NoSwarm | DeadSwarm | Running.

(** The actor (Lifecycle) and all calls ever made on its references
    (actor_ref.rs 589-618, 708-725). *)
Record world : Type := mk_world { w_actor : actor; w_calls : list call }.

(** Events; [Poll i sw a] lets call [i] pass its next await, finding [sw] and [a]
    (actor_ref.rs 601-617, 720-724). *)
Inductive event : Type :=
| Life (e : Lifecycle.event)
| Call (o : op) (sib : actor_id) (to_self : bool)
| Poll (i : nat) (sw : swarm) (a : result)
| Drop (i : nat).

(** Observations: those of the actor (Lifecycle), the insertion into the table
    (actor_ref.rs 601-608), the end of a call (592, 711). *)
Inductive obs : Type :=
| Saw (o : Lifecycle.obs)
| Inserted (i : nat)
| Returned (i : nat) (r : result).

(** Update of call [i] (its future moves to another state, actor_ref.rs 589-618). *)
Fixpoint set_at (i : nat) (p : point) (cs : list call) : list call :=
  match cs, i with
  | [], _ => []
  | c :: cs', O => mk_call (c_op c) (c_sibling c) (c_self c) p :: cs'
  | c :: cs', S j => c :: set_at j p cs'
  end.

(** A step of Lifecycle inside a call: actor_ref.rs 601-613, 720. *)
Definition act (w : world) (e : Lifecycle.event) (i : nat) (p : point) (o : list obs)
  : option (world * list obs) :=
  match step (w_actor w) e with
  | Some (s, _) => Some (mk_world s (set_at i p (w_calls w)), o)
  | None => None
  end.

(** A piece of a call that does not touch the actor: actor_ref.rs 597-599, 614-617,
    716-718, 721-724. *)
Definition move (w : world) (i : nat) (p : point) (o : list obs) : option (world * list obs) :=
  Some (mk_world (w_actor w) (set_at i p (w_calls w)), o).

(** actor_ref.rs 589-618, 708-725: the next piece of call [i]. *)
Definition poll (w : world) (i : nat) (c : call) (sw : swarm) (a : result)
  : option (world * list obs) :=
  match c_at c with
  | AtStart =>
      if c_self c then move w i (Finished Done) [Returned i Done]            (* 597, 716 *)
      else match c_op c with
           | Link => act w ERegister i AtLinks [Inserted i]                   (* 601-608 *)
           | Unlink => act w (EUnlink (c_sibling c)) i AtSwarm []             (* 720 *)
           end
  | AtLinks => act w (ELink (c_sibling c)) i AtSwarm []                       (* 610-613 *)
  | AtSwarm =>
      match sw with
      | NoSwarm => move w i (Finished NotBootstrapped) [Returned i NotBootstrapped] (* 615, 722 *)
      | DeadSwarm => move w i (Finished CallPanic) [Returned i CallPanic]    (* swarm.rs 1006 *)
      | Running => move w i AtAnswer []                                       (* 616, 723 *)
      end
  | AtAnswer => move w i (Finished a) [Returned i a]                         (* 617, 724 *)
  | Finished _ | Dropped => None
  end.

(** One event; [None]: it cannot happen. A call is made on a reference
    (actor_ref.rs 589-592, 708-711). *)
Definition wstep (w : world) (e : event) : option (world * list obs) :=
  match e with
  | Life x =>
      match step (w_actor w) x with
      | Some (s, o) => Some (mk_world s (w_calls w), map Saw o)
      | None => None
      end
  | Call o sib self =>
      if 0 <? ext (w_actor w)
      then Some (mk_world (w_actor w) (w_calls w ++ [mk_call o sib self AtStart]), [])
      else None
  | Poll i sw a =>
      match nth_error (w_calls w) i with
      | Some c => poll w i c sw a
      | None => None
      end
  | Drop i =>
      match nth_error (w_calls w) i with
      | Some c =>
          match c_at c with
          | Finished _ | Dropped => None
          | _ => move w i Dropped []
          end
      | None => None
      end
  end.

(** Runs: a list of events that all happen (src/actor/spawn.rs 415-591 beside
    actor_ref.rs 589-618, 708-725). *)
Fixpoint wexec (w : world) (es : list event) : option (world * list obs) :=
  match es with
  | [] => Some (w, [])
  | e :: es' =>
      match wstep w e with
      | None => None
      | Some (w1, o1) =>
          match wexec w1 es' with
          | None => None
          | Some (w2, o2) => Some (w2, o1 ++ o2)
          end
      end
  end.

(** A fresh actor (spawn.rs 306-326) and no call yet. *)
Definition winit (c : config) : world := mk_world (init c) [].
