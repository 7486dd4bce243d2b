(** The default [Actor::next] (src/actor.rs 259-265) as one of the [next]s of C65: what a run of
    an actor with its mailbox (Lifecycle) and a run of the task (Loop) both show. *)
From Coq Require Import List Bool PeanoNat.
From Verif Require Lifecycle Loop.
Import ListNotations.

(** What user code of the actor is called, how it ends, and how the task ends. *)
Inductive mark : Type :=
| MStart | MStarted (res : Lifecycle.hook_res)
| MHandle (m : Lifecycle.msg) | MHandled (m : Lifecycle.msg) | MHandleCut (m : Lifecycle.msg)
| MLink (id : Lifecycle.actor_id) (r : Lifecycle.reason) | MLinked (res : Lifecycle.flow_res) | MLinkCut
| MPanic (f : Lifecycle.failure) | MPanicDone (res : Lifecycle.flow_res) | MPanicCut
| MLeft (r : Lifecycle.reason)
| MStop (r : Lifecycle.reason) | MStopped (res : Lifecycle.hook_res)
| MReturned (r : Lifecycle.reason) | MCrashed.

(** In a run with the mailbox. *)
Definition life_mark (o : Lifecycle.obs) : list mark :=
  match o with
  | Lifecycle.OStartBegin => [MStart]
  | Lifecycle.OStartEnd res => [MStarted res]
  | Lifecycle.OHandle m => [MHandle m]
  | Lifecycle.OHandleEnd m _ => [MHandled m]
  | Lifecycle.OHandleCut m => [MHandleCut m]
  | Lifecycle.OLinkHook id r => [MLink id r]
  | Lifecycle.OLinkHookEnd res => [MLinked res]
  | Lifecycle.OLinkHookCut => [MLinkCut]
  | Lifecycle.OPanicHook f => [MPanic f]
  | Lifecycle.OPanicHookEnd res => [MPanicDone res]
  | Lifecycle.OPanicHookCut => [MPanicCut]
  | Lifecycle.OExit r => [MLeft r]
  | Lifecycle.OStopHook r => [MStop r]
  | Lifecycle.OStopHookEnd res => [MStopped res]
  | Lifecycle.OReturn r => [MReturned r]
  | Lifecycle.OCrash => [MCrashed]
  | _ => []
  end.
Definition life_marks (tr : list Lifecycle.obs) : list mark := flat_map life_mark tr.

(** The signals the mailbox took in, in order. *)
Definition accepted (tr : list Lifecycle.obs) : list Lifecycle.signal :=
  flat_map (fun o => match o with Lifecycle.OAccept sg => [sg] | _ => [] end) tr.

(** What [recv] returns, as an answer of [next]: a signal of the mailbox, or none. *)
Definition answer (a : option Lifecycle.signal) : Loop.gave :=
  match a with
  | Some Lifecycle.SStartup => Loop.GStartup
  | Some (Lifecycle.SMsg m) => Loop.GMessage (Lifecycle.inside m)
  | Some (Lifecycle.SLinkDied id r) => Loop.GLinkDied id r
  | Some Lifecycle.SStop => Loop.GStop
  | None => Loop.GNone
  end.
Definition signals (l : list (option Lifecycle.signal)) : list Lifecycle.signal :=
  flat_map (fun a => match a with Some sg => [sg] | None => [] end) l.

(** In a run of the task whose [next] returned [got]: message [k] is the one answer [k] was. *)
Definition task_mark (got : list (option Lifecycle.signal)) (x : Loop.sight) : list mark :=
  let named k (f : Lifecycle.msg -> mark) :=
    match nth_error got k with Some (Some (Lifecycle.SMsg m)) => [f m] | _ => [] end in
  match x with
  | Loop.Began Loop.HStart => [MStart]
  | Loop.Began (Loop.HMessage k) => named k MHandle
  | Loop.Began (Loop.HLinkDied id r) => [MLink id r]
  | Loop.Began (Loop.HPanic f) => [MPanic f]
  | Loop.Began (Loop.HStop r) => [MStop r]
  | Loop.Cut (Loop.HMessage k) => named k MHandleCut
  | Loop.Cut (Loop.HLinkDied _ _) => [MLinkCut]
  | Loop.Cut (Loop.HPanic _) => [MPanicCut]
  | Loop.Started res => [MStarted res]
  | Loop.Handled k _ => named k MHandled
  | Loop.LinkDone res => [MLinked res]
  | Loop.PanicDone res => [MPanicDone res]
  | Loop.Took r => [MLeft r]
  | Loop.Stopped res => [MStopped res]
  | Loop.Returned r => [MReturned r]
  | Loop.Crashed => [MCrashed]
  | _ => []
  end.
Definition task_marks (got : list (option Lifecycle.signal)) (h : list Loop.sight) : list mark :=
  flat_map (task_mark got) h.
