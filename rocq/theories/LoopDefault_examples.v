(** The run of the task that goes with a run of an actor with its mailbox. *)
From Coq Require Import List Bool.
From Verif Require Import Lifecycle Lifecycle_examples Loop.
Import ListNotations.

(** What the task does in [ex_stop]: startup, one message, the stop; the message behind it stays. *)
Definition stop_moves : list move :=
  [DStart HookOk true; DOn; DNext GStartup; DNext (GMessage false); DHandled HookOk; DNext GStop; DStop HookOk].
Definition stop_got : list (option signal) :=
  [Some SStartup; Some (SMsg (mk_msg 0 false true)); Some SStop].

(** A message sent before the start is over is buffered, its handler fails and [on_panic] is killed. *)
Definition late_kill : list event :=
  [AStart; ESend false false; AStartDone HookOk; ASetStartup; ASignal; ADowngrade; APoll; ARecv; ARecv;
   AHandleDone (OutPanic 1); AYield; EKill; APoll] ++ finish.
Definition kill_moves : list move :=
  [DStart HookOk true; DOn; DNext (GMessage false); DNext GStartup; DHandled (HookFail (FPanic 1)); DKill; DStop HookOk].
Definition kill_got : list (option signal) := [Some (SMsg (mk_msg 0 false false)); Some SStartup].

(** What the task does in [ex_dead]: the last message is handled, then [next] gives none. *)
Definition dead_moves : list move :=
  [DStart HookOk true; DOn; DNext GStartup; DNext (GMessage false); DHandled HookOk; DNext GNone; DStop HookOk].
Definition dead_got : list (option signal) := [Some SStartup; Some (SMsg (mk_msg 0 false false)); None].
