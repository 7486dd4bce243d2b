(** Model of an actor whose task is dropped instead of stopped: [JoinHandle::abort] on what
    [PreparedActor::spawn] returned (src/actor/spawn.rs 380-393), the future of
    [PreparedActor::run] dropped (367-375), a [PreparedActor] never run (279-283), or the
    runtime shut down.

    The rest is the actor of Lifecycle.v, whose phase [PCrashed] stands for a task that is gone.
    Simplified: a future of the user's code is taken to have an await wherever it runs. *)
From Coq Require Import List Bool PeanoNat.
Import ListNotations.
From Verif Require Import Lifecycle.

(** The await points of [run_actor_lifecycle] (spawn.rs 431-591), and the time before the first
    poll: tokio drops a task's future only while it is not polled. The lock of the remote
    registry (567) exists with the feature [remote] only. *)
Definition at_await (s : actor) : bool :=
  match ph s with
  | PInit => true                                    (* 367-410 *)
  | PStarting => true                                (* 431-433 *)
  | PFailPanic _ | PFailStop _ => true               (* 470-476 *)
  | PLoop _ => negb (polling s)                      (* 503-512 *)
  | PDrainLinks _ | PStop _ _ => true                (* 519, 562 *)
  | PNotify _ _ _ | PRegRemove _ _ => true           (* 565, 567 *)
  | _ => false
  end.

(** What the dropped loop future held (spawn.rs 593-658, kind.rs 76-149): the handler that runs
    with its message's reply channel, the drained messages not yet handled, a hook. *)
Definition cut_loop (p : phase) : list obs :=
  match p with
  | PLoop (LHandle m owned rest _) =>
      OHandleCut m :: (if owned then [OReplyDropped (mid m)] else []) ++ discard rest
  | PLoop (LLink _ _) => [OLinkHookCut]
  | PLoop (LPanic _) | PFailPanic _ => [OPanicHookCut]
  | _ => []
  end.

(** The future is dropped: with it the actor, its startup buffer (kind.rs 55) and the receiver
    (spawn.rs 418). A thread's [block_on] (404-410) does not drop its future. *)
Definition drop_task (s : actor) : option (actor * list obs) :=
  if at_await s && negb (threaded s)
  then
    let '(s1, o) := close_mailbox (set_buf [] (set_polling false (set_ph PCrashed s))) in
    Some (s1, cut_loop (ph s) ++ discard (buf s) ++ o)
  else None.
