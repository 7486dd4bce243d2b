(** Model of the actor error hook (src/error.rs 25-82) of a process with any number of
    actors: [set_actor_error_hook] and the three places where a lifecycle task calls the
    hook (src/actor/spawn.rs 445, 488, 580). The tasks themselves are those of the area
    Lifecycle; this file only adds the calls to them.

    A hook is a function pointer, here a number; 0 is [default_panic_hook] (error.rs
    27-33). The load of the pointer and the call are two events, as other threads may set
    the hook in between. Whether a call returns or panics is part of the event. The
    pointer is loaded and stored with [SeqCst] (error.rs 72, 77). *)
From Coq Require Import List Bool PeanoNat.
From Verif Require Import Lifecycle.
Import ListNotations.

(** How far [invoke_actor_error_hook] has got for the error at hand (error.rs 75-82): not
    called yet, past the load (77), returned (81). *)
Inductive stage : Type :=
| Idle
| Loaded (h : nat)
| Called.

(** One actor and its task (spawn.rs 415-591). *)
Record member : Type := mk_member { m_life : actor; m_stage : stage }.

(** The process: the static [PANIC_HOOK] (error.rs 27) and its actors, in the order in
    which they were spawned. *)
Record process : Type := mk_process { p_hook : nat; p_actors : list member }.

(** error.rs 27: the default hook, and no actors. *)
Definition boot : process := mk_process 0 [].

(** Events: [set_actor_error_hook] (error.rs 70-73), an actor is spawned (spawn.rs
    306-326), an event of the lifecycle of actor [i], the two pieces of
    [invoke_actor_error_hook] (error.rs 77, 80-81). *)
Inductive hevent : Type :=
| Set_hook (h : nat)
| Spawned (c : config)
| Life (i : nat) (e : event)
| Load (i : nat)
| Call (i : nat) (returns : bool).

(** What can be observed: a hook is set, something the actor's lifecycle shows, a hook is
    called with the error of an actor. *)
Inductive hobs : Type :=
| OSet (h : nat)
| OLife (i : nat) (o : obs)
| OHook (h i : nat) (f : failure).

(** The error whose [Err] arm a task is in before it stores it (spawn.rs 444-450, 486-496,
    578-587). *)
Definition at_hook (p : phase) : option failure :=
  match p with
  | PStarted (HookFail f) | PFailSet _ (HookFail f) | PSet _ (HookFail f) => Some f
  | _ => None
  end.

(** The event with which a task stores a result (spawn.rs 439-449, 479-495, 570-586). *)
Definition is_store (e : event) : bool :=
  match e with ASetStartup | ASetShutdown => true | _ => false end.

(** A task that has an error to report stores it only after the hook has returned
    (spawn.rs 445-449, 488-494, 580-586). *)
Definition allowed (m : member) (e : event) : bool :=
  match is_store e, at_hook (ph (m_life m)), m_stage m with
  | true, Some _, Called => true
  | true, Some _, _ => false
  | _, _, _ => true
  end.

(** The list with its [i]th element replaced (no counterpart in the code). *)
Fixpoint put (l : list member) (i : nat) (m : member) : list member :=
  match l, i with
  | [], _ => []
  | _ :: l', 0 => m :: l'
  | x :: l', S i' => x :: put l' i' m
  end.

(** One event. *)
Definition hstep (p : process) (e : hevent) : option (process * list hobs) :=
  match e with
  | Set_hook h => Some (mk_process h (p_actors p), [OSet h])             (* error.rs 70-73 *)
  | Spawned c =>                                                        (* spawn.rs 306-326 *)
      Some (mk_process (p_hook p) (p_actors p ++ [mk_member (init c) Idle]), [])
  | Life i e =>
      match nth_error (p_actors p) i with
      | Some m =>
          if allowed m e
          then match step (m_life m) e with
               | Some (s, o) =>
                   Some (mk_process (p_hook p)
                           (put (p_actors p) i (mk_member s (if is_store e then Idle else m_stage m))),
                         map (OLife i) o)
               | None => None
               end
          else None
      | None => None
      end
  | Load i =>                                                           (* error.rs 77 *)
      match nth_error (p_actors p) i with
      | Some m =>
          match at_hook (ph (m_life m)), m_stage m with
          | Some _, Idle =>
              Some (mk_process (p_hook p) (put (p_actors p) i (mk_member (m_life m) (Loaded (p_hook p)))), [])
          | _, _ => None
          end
      | None => None
      end
  | Call i returns =>                                                   (* error.rs 80-81 *)
      match nth_error (p_actors p) i with
      | Some m =>
          match at_hook (ph (m_life m)), m_stage m with
          | Some f, Loaded h =>
              if returns
              then Some (mk_process (p_hook p) (put (p_actors p) i (mk_member (m_life m) Called)), [OHook h i f])
              else (* the panic leaves the task: nothing around these lines catches it *)
                   let '(s, o) := crash (m_life m) in
                   Some (mk_process (p_hook p) (put (p_actors p) i (mk_member s Called)),
                         OHook h i f :: map (OLife i) o)
          | _, _ => None
          end
      | None => None
      end
  end.

(** Runs (no counterpart in the code). *)
Fixpoint hexec (p : process) (es : list hevent) : option (process * list hobs) :=
  match es with
  | [] => Some (p, [])
  | e :: es' =>
      match hstep p e with
      | Some (p1, o1) =>
          match hexec p1 es' with
          | Some (p2, o2) => Some (p2, o1 ++ o2)
          | None => None
          end
      | None => None
      end
  end.
