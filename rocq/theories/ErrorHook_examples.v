(** Concrete runs used beside the theorems of P_ErrorHook. *)
From Coq Require Import List Bool PeanoNat.
From Verif Require Import Lifecycle ErrorHook ErrorHook_spec.
Import ListNotations.

Definition eh_cfg : config := mk_config None true false 1.

(** The outcome of a run that goes through. *)
Definition eh_get (o : option (process * list hobs)) : process * list hobs :=
  match o with Some r => r | None => (boot, []) end.
Lemma eh_some : forall o, (match o with Some _ => true | None => false end) = true ->
  o = Some (fst (eh_get o), snd (eh_get o)).
Proof. intros [[n t]|] H; [reflexivity|discriminate]. Qed.

(** The on_start of actor 1 panics and its on_stop returns an error, while actor 0 starts;
    the hook is set between the two reports and once while the first one is on its way. *)
Definition eh_both : list hevent :=
  [Spawned eh_cfg; Spawned eh_cfg; Set_hook 4; Life 1 AStart; Life 0 AStart; Life 1 (AStartDone (HookFail (FPanic 7)));
   Life 0 (AStartDone HookOk); Load 1; Set_hook 5; Call 1 true; Life 1 ASetStartup; Life 0 ASetStartup;
   Life 1 ASignal; Life 1 ADowngrade; Life 1 EWaitStartup; Life 1 (APanicDone (FlowOk Continue));
   Life 1 (AStopDone (HookFail (FErr 9))); Load 1; Call 1 true; Life 1 ASetShutdown; Life 1 AClose; Life 1 EWaitShutdown].
Definition eh_r1 := eh_get (hexec boot eh_both).

(** An actor with a link whose on_stop has returned an error. *)
Definition eh_stopping : list hevent :=
  [Spawned eh_cfg; Life 0 AStart; Life 0 (AStartDone HookOk); Life 0 ASetStartup; Life 0 ASignal; Life 0 ADowngrade;
   Life 0 (ELink 3); Life 0 EKill; Life 0 APoll; Life 0 ADrainLinks; Life 0 (AStopDone (HookFail (FErr 9)))].
Definition eh_r2 := eh_get (hexec boot eh_stopping).
Definition eh_more : list hevent := [Life 0 EAcquire; Set_hook 4; Life 0 (EUnlink 3)].
Definition eh_rest : list hevent := [Life 0 (ANotify 3 true); Life 0 ANotifyEnd; Life 0 ARegRemove; Load 0].

(** Hooks about to be called: for a failed on_start, and for a failed on_stop. *)
Definition eh_start : list hevent := [Spawned eh_cfg; Life 0 AStart; Life 0 (AStartDone (HookFail (FErr 7))); Load 0].
Definition eh_r3 := eh_get (hexec boot eh_start).
Definition eh_r4 := eh_get (hstep (fst eh_r3) (Call 0 false)).
Definition eh_stop : list hevent := eh_stopping ++ eh_rest.
Definition eh_r5 := eh_get (hexec boot eh_stop).
Definition eh_r6 := eh_get (hstep (fst eh_r5) (Call 0 false)).
Definition eh_r7 := eh_get (hexec (fst eh_r6) [Life 0 EWaitShutdown]).

(** An on_stop that panics. *)
Definition eh_running : list hevent :=
  [Spawned eh_cfg; Life 0 AStart; Life 0 (AStartDone HookOk); Life 0 ASetStartup; Life 0 ASignal; Life 0 ADowngrade;
   Life 0 EKill; Life 0 APoll; Life 0 ADrainLinks].
Definition eh_r8 := eh_get (hexec boot eh_running).
Definition eh_r9 := eh_get (hstep (fst eh_r8) (Life 0 (AStopDone (HookFail (FPanic 9))))).
