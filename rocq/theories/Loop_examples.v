(** Example runs of the task of an actor with a [next] of its own. *)
From Coq Require Import List.
From Verif Require Import Lifecycle Loop Loop_spec.
Import ListNotations.

(** Started; two messages of others wait (0, 2), one sent within the actor is handled at
    once (1); a linked actor died and the actor goes on; the startup signal comes, the two are
    handled, the second fails, [on_panic] lets the actor go on; a message (5) is handled at
    once; [next] gives nothing. *)
Definition full : list move :=
  [DStart HookOk true; DOn; DNext (GMessage false); DNext (GMessage true); DHandled HookOk; DNext (GMessage false);
   DNext (GLinkDied 9 Killed); DLink (FlowOk Continue); DOn; DNext GStartup; DHandled HookOk; DHandled (HookFail (FErr 3));
   DPanic (FlowOk Continue); DNext (GMessage false); DHandled HookOk; DNext GNone; DStop HookOk].

Definition full_h1 : list sight :=
  [Began HStart; Started HookOk; Began HNext; Gave (GMessage false); Began HNext; Gave (GMessage true);
   Began (HMessage 1); Handled 1 HookOk; Began HNext; Gave (GMessage false); Began HNext; Gave (GLinkDied 9 Killed);
   Began (HLinkDied 9 Killed); LinkDone (FlowOk Continue); Began HNext; Gave GStartup; Ready; Began (HMessage 0);
   Handled 0 HookOk].
Definition full_h2 : list sight :=
  [Handled 2 (HookFail (FErr 3)); Began (HPanic (FErr 3)); PanicDone (FlowOk Continue);
   Began HNext; Gave (GMessage false); Began (HMessage 5); Handled 5 HookOk; Began HNext; Gave GNone; Took Normal;
   Began (HStop Normal); Stopped HookOk; Told Normal; Returned Normal].

Example full_runs : exists s, run_task full = Some (s, full_h1 ++ Began (HMessage 2) :: full_h2).
Proof. eexists. vm_compute. reflexivity. Qed.

(** Messages 0, 1 and 2 of others wait; [next] gives a stop before the startup signal; the
    second handler fails, so the third message is dropped, and [on_panic] lets the actor go on;
    [next] is asked again although it gave a stop; the actor is killed. *)
Definition cut_short : list move :=
  [DStart HookOk true; DOn; DNext (GMessage false); DNext (GMessage false); DNext (GMessage false); DNext GStop;
   DHandled HookOk; DHandled (HookFail (FPanic 4)); DPanic (FlowOk Continue); DKill; DStop HookOk].

Definition cut_h1 : list sight :=
  [Began HStart; Started HookOk; Began HNext; Gave (GMessage false); Began HNext; Gave (GMessage false); Began HNext;
   Gave (GMessage false); Began HNext; Gave GStop; Began (HMessage 0); Handled 0 HookOk; Began (HMessage 1);
   Handled 1 (HookFail (FPanic 4))].
Definition cut_h2 : list sight := [Began (HPanic (FPanic 4)); PanicDone (FlowOk Continue)].
Definition cut_h3 : list sight := [Cut HNext; Aborted; Took Killed; Began (HStop Killed); Stopped HookOk; Told Killed; Returned Killed].

Example cut_runs : exists s, run_task cut_short = Some (s, cut_h1 ++ Dropped 2 :: cut_h2 ++ Began HNext :: cut_h3).
Proof. eexists. vm_compute. reflexivity. Qed.

(** [on_start] fails, [on_panic] asks for another reason. *)
Definition failing : list move :=
  [DStart (HookFail (FErr 1)) true; DPanic (FlowOk (Break Killed)); DStop (HookFail (FPanic 2))].

Example failing_runs : exists s, run_task failing = Some (s,
  [Began HStart; Started (HookFail (FErr 1)); Ready; Began (HPanic (FErr 1)); PanicDone (FlowOk (Break Killed));
   Began (HStop Killed); Stopped (HookFail (FPanic 2)); Crashed]).
Proof. eexists. vm_compute. reflexivity. Qed.

(** [next] panics while a message of another waits. *)
Definition broken : list move := [DStart HookOk true; DOn; DNext (GMessage false); DNextPanic].

Example broken_runs : exists s, run_task broken = Some (s,
  [Began HStart; Started HookOk; Began HNext; Gave (GMessage false); Began HNext; NextPanicked; Dropped 0; Crashed]).
Proof. eexists. vm_compute. reflexivity. Qed.
