(** Model of what an actor's task does with whatever [Actor::next] gives it
    (src/actor/spawn.rs 415-658, src/actor/kind.rs 50-188).

    [Actor::next] (src/actor.rs 259-265) may be overridden: it may wait on other channels,
    leave signals in the mailbox, drop them, make up signals of its own, or panic. The area
    Lifecycle fixes the default, which takes signals from the mailbox; here every call of
    [next] gives an arbitrary answer, and the mailbox does not occur. What the other
    functions of the user's actor return is part of the events too. Messages are named by
    the number of the call of [next] that gave them. Reply channels, references and the
    notification of links are in the areas Lifecycle and System; here the links are taken and told at
    two points of the run. *)
From Coq Require Import List Bool PeanoNat.
From Verif Require Import Lifecycle.
Import ListNotations.

(** What a call of [next] gives: a signal (src/mailbox.rs 441-454), of a message whether
    it was sent within the actor, or [None]. *)
Inductive gave : Type :=
| GStartup
| GMessage (within : bool)
| GLinkDied (id : actor_id) (r : reason)
| GStop
| GNone.

(** The user's code that the task runs: [on_start] (spawn.rs 431), [next] (spawn.rs 626,
    kind.rs 72-74), the handler of a message (kind.rs 115-117), [on_link_died] (kind.rs
    133-139), [on_panic] (kind.rs 166), [on_stop] (spawn.rs 476, 562). *)
Inductive hook : Type :=
| HStart
| HNext
| HMessage (k : nat)
| HLinkDied (id : actor_id) (r : reason)
| HPanic (f : failure)
| HStop (r : reason).

(** What can be seen of a run.
    - [Began]: a hook is called; [Cut]: its future is dropped by a kill; [Aborted]: the loop
      is dropped by a kill (spawn.rs 503-513)
    - [Started] .. [Stopped]: how a hook ended; a handler fails if it panics or its error
      has no asker to go to (kind.rs 118-124, C14)
    - [NextPanicked]: [next] panicked
    - [NoRoom]: the startup signal did not fit into the mailbox (spawn.rs 453-458)
    - [Ready]: [wait_for_startup] may return (spawn.rs 467, 628)
    - [Dropped]: a message is dropped unhandled
    - [Took]: the links are taken, to be told the reason (spawn.rs 517-560); [Told]: they
      are told it (565)
    - [Returned]: the task returns (spawn.rs 498, 590); [Crashed]: it panics *)
Inductive sight : Type :=
| Began (x : hook)
| Cut (x : hook)
| Started (res : hook_res)
| Gave (g : gave)
| NextPanicked
| Handled (k : nat) (res : hook_res)
| LinkDone (res : flow_res)
| PanicDone (res : flow_res)
| Stopped (res : hook_res)
| NoRoom
| Ready
| Dropped (k : nat)
| Took (r : reason)
| Returned (r : reason)
| Crashed
| Aborted
| Told (r : reason).

(** Where the task is.
    - [QStart]: spawn.rs 431; [QEntry]: the loop has not been polled (503)
    - [QNext]: spawn.rs 626
    - [QHandle k rest stopping]: kind.rs 115-117; [rest]: messages of the buffer still to be
      handled (kind.rs 78); [stopping]: for [handle_stop] (kind.rs 153-158)
    - [QLink]: kind.rs 133-139; [QForget res]: the lock of the links is awaited (140);
      [QPanic]: kind.rs 166, for a failed start (spawn.rs 470-474)
      or in the loop (610); [QStop]: spawn.rs 476, 562
      ([linked]: the links were taken); [QOver]: 498, 590, or panicked *)
Inductive place : Type :=
| QStart
| QEntry
| QNext
| QHandle (k : nat) (rest : list nat) (stopping : bool)
| QLink (id : actor_id) (r : reason)
| QForget (res : flow_res)
| QPanic (f : failure) (start_failed : bool)
| QStop (r : reason) (linked : bool)
| QOver.

(** The task: where it is, [finished_startup] and [startup_buffer] (kind.rs 54-55), and
    how many answers [next] has given. *)
Record task : Type := mk_task {
  t_place : place;
  t_finished : bool;
  t_buffer : list nat;
  t_count : nat
}.

(** The task is polled first (spawn.rs 415-431, kind.rs 63-70). *)
Definition task_new : task := mk_task QStart false [] 0.
Definition first_sights : list sight := [Began HStart].

(** The same task elsewhere (no counterpart in the code). *)
Definition at_place (p : place) (s : task) : task := mk_task p (t_finished s) (t_buffer s) (t_count s).

(** Leaving the loop (spawn.rs 503-562): the buffer is dropped with the state, the links
    are taken, [on_stop] is called. *)
Definition leave (r : reason) (s : task) : task * list sight :=
  (mk_task (QStop r true) (t_finished s) [] (t_count s), map Dropped (t_buffer s) ++ [Took r; Began (HStop r)]).

(** An uncaught panic: the task is unwound. *)
Definition unwind (s : task) : task * list sight :=
  (mk_task QOver (t_finished s) [] (t_count s), map Dropped (t_buffer s) ++ [Crashed]).

(** [on_shutdown] (kind.rs 161-182, spawn.rs 608-613). *)
Definition shut (r : reason) (s : task) : task * list sight :=
  match r with
  | Panicked f => (at_place (QPanic f false) s, [Began (HPanic f)])
  | Normal | Killed | LinkDied _ _ | PeerDisconnected => leave r s
  end.

(** Back at the top of the loop (spawn.rs 625-626). *)
Definition again (s : task) : task * list sight := (at_place QNext s, [Began HNext]).

(** The next message of the buffer, or what comes after it (kind.rs 78-93, 153-158). *)
Definition deal (ms : list nat) (stopping : bool) (s : task) : task * list sight :=
  match ms with
  | k :: rest => (at_place (QHandle k rest stopping) s, [Began (HMessage k)])
  | [] => if stopping then shut Normal s else again s
  end.

(** [handle_startup_finished] (kind.rs 76-94). *)
Definition open_up (stopping : bool) (s : task) : task * list sight :=
  deal (t_buffer s) stopping (mk_task (t_place s) true [] (t_count s)).

(** One answer of [next] (spawn.rs 626-656). *)
Definition take (g : gave) (s : task) : task * list sight :=
  let k := t_count s in
  let s := mk_task (t_place s) (t_finished s) (t_buffer s) (S k) in
  match g with
  | GStartup => let '(s1, o) := open_up false s in (s1, Ready :: o)        (* 627-632 *)
  | GMessage within =>                                                    (* kind.rs 104-117 *)
      if negb within && negb (t_finished s)
      then again (mk_task (t_place s) false (t_buffer s ++ [k]) (t_count s))
      else deal [k] false s
  | GLinkDied id r => (at_place (QLink id r) s, [Began (HLinkDied id r)])  (* 646-650 *)
  | GStop | GNone => open_up true s                                       (* 651-655 *)
  end.

(** Events: each hook ends in some way; the task goes on where it waits for no hook; the
    loop is aborted at a point where it waits. *)
Inductive move : Type :=
| DStart (res : hook_res) (room : bool)
| DNext (g : gave)
| DNextPanic
| DHandled (res : hook_res)
| DLink (res : flow_res)
| DPanic (res : flow_res)
| DStop (res : hook_res)
| DOn
| DKill.

(** The hook that runs (no counterpart in the code). *)
Definition runs (p : place) : option hook :=
  match p with
  | QStart => Some HStart
  | QNext => Some HNext
  | QHandle k _ _ => Some (HMessage k)
  | QLink id r => Some (HLinkDied id r)
  | QPanic f _ => Some (HPanic f)
  | QStop r _ => Some (HStop r)
  | QEntry | QForget _ | QOver => None
  end.

(** One event; [None]: it cannot happen. *)
Definition advance (s : task) (e : move) : option (task * list sight) :=
  match e, t_place s with
  | DStart HookOk true, QStart =>                                          (* spawn.rs 437-464 *)
      Some (at_place QEntry s, [Started HookOk])
  | DStart HookOk false, QStart =>                                         (* 453-458, 603-607 *)
      Some (mk_task QEntry true (t_buffer s) (t_count s), [Started HookOk; NoRoom])
  | DOn, QEntry => Some (again s)                                          (* 503-513, 603-626 *)
  | DStart (HookFail f) _, QStart =>                                       (* 466-474 *)
      Some (at_place (QPanic f true) s, [Started (HookFail f); Ready; Began (HPanic f)])
  | DNext g, QNext => let '(s1, o) := take g s in Some (s1, Gave g :: o)
  | DNextPanic, QNext =>                                                   (* 626: not caught *)
      let '(s1, o) := unwind s in Some (s1, NextPanicked :: o)
  | DHandled HookOk, QHandle k rest stopping =>                            (* kind.rs 119, 86-87 *)
      let '(s1, o) := deal rest stopping s in Some (s1, Handled k HookOk :: o)
  | DHandled (HookFail f), QHandle k rest _ =>                             (* kind.rs 120-123, 87 *)
      let '(s1, o) := shut (Panicked f) s in
      Some (s1, Handled k (HookFail f) :: map Dropped rest ++ o)
  | DLink res, QLink _ _ => Some (at_place (QForget res) s, [LinkDone res])  (* kind.rs 133-140 *)
  | DOn, QForget res =>                                                    (* kind.rs 141-149 *)
      Some match res with
           | FlowOk Continue => again s
           | FlowOk (Break r) => shut r s
           | FlowFail f => shut (Panicked f) s
           end
  | DPanic res, QPanic f start_failed =>                                   (* kind.rs 166-172 *)
      let stop r := if start_failed
                    then (at_place (QStop r false) s, [Began (HStop r)])         (* spawn.rs 470-476 *)
                    else leave r s in                                      (* 610-612 *)
      let '(s1, o) :=
        match res with
        | FlowOk Continue => if start_failed then stop (Panicked f) else again s
        | FlowOk (Break r) => stop r
        | FlowFail (FErr e) => stop (Panicked (FErr e))
        | FlowFail (FPanic _) => unwind s
        end in
      Some (s1, PanicDone res :: o)
  | DStop res, QStop r linked =>                                                  (* spawn.rs 476-498, 562-590 *)
      match res with
      | HookFail (FPanic _) => let '(s1, o) := unwind s in Some (s1, Stopped res :: o)
      | _ => Some (at_place QOver s, Stopped res :: (if linked then [Told r] else []) ++ [Returned r])
      end
  | DKill, QEntry | DKill, QNext | DKill, QHandle _ _ _ | DKill, QLink _ _ | DKill, QForget _
  | DKill, QPanic _ false =>
      let dropped := match t_place s with QHandle _ rest _ => map Dropped rest | _ => [] end in
      let cut := match runs (t_place s) with Some x => [Cut x] | None => [] end in
      let '(s1, o) := leave Killed s in Some (s1, cut ++ Aborted :: dropped ++ o)  (* spawn.rs 503-513 *)
  | _, _ => None
  end.

(** Runs of the task (no counterpart in the code). *)
Fixpoint advances (s : task) (es : list move) : option (task * list sight) :=
  match es with
  | [] => Some (s, [])
  | e :: es' =>
      match advance s e with
      | Some (s1, o1) =>
          match advances s1 es' with
          | Some (s2, o2) => Some (s2, o1 ++ o2)
          | None => None
          end
      | None => None
      end
  end.

(** What a run from the start shows. *)
Definition run_task (es : list move) : option (task * list sight) :=
  match advances task_new es with
  | Some (s, o) => Some (s, first_sights ++ o)
  | None => None
  end.
