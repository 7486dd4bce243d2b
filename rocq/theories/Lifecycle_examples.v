(** Concrete runs used as examples and counterexamples in P_Lifecycle. *)
From Coq Require Import List Bool PeanoNat.
Import ListNotations.
From Verif Require Import Lifecycle Lifecycle_spec.

(** [P] holds of the final state and trace of the run [es], which is possible. *)
Definition runs (c : config) (es : list event) (P : actor -> list obs -> Prop) : Prop :=
  match exec (init c) es with Some (s, tr) => P s tr | None => False end.

Definition plain : config := mk_config None true false 1.
Definition bounded (n : nat) : config := mk_config (Some n) true false 1.

(** on_start succeeds, the marker is received; one reference remains outside. *)
Definition started : list event :=
  [AStart; AStartDone HookOk; EDrop; ASetStartup; ASignal; ADowngrade; APoll; ARecv].

(** From leaving the loop to the end, one link to be told. *)
Definition finish : list event :=
  [ADrainLinks; AStopDone HookOk; ANotifyEnd; ARegRemove; ASetShutdown; AClose].

Definition ex_two : list event :=
  started ++ [ESend false false; ESend false true; ARecv; AHandleDone (OutOk 1); ARecv;
              AHandleDone (OutOk 7); ESend false false].

(** A message from outside is accepted first, then one from on_start itself. *)
Definition ex_self : list event :=
  [AStart; ESend false false; ESend true false; AStartDone HookOk; ASetStartup; ASignal;
   ADowngrade; APoll; ARecv; ARecv; AHandleDone (OutOk 0); ARecv; AHandleDone (OutOk 0)].

(** A stop with messages before and after it. *)
Definition ex_stop : list event :=
  started ++ [ELink 5; ESend false true; EStop; ESend false true; ARecv; AHandleDone (OutOk 3); ARecv;
              ADrainLinks; AStopDone HookOk; ANotify 5 true; ANotifyEnd; ARegRemove; ASetShutdown;
              AClose; EWaitShutdown].

(** All references dropped with a message still queued. *)
Definition ex_dead : list event :=
  started ++ [ESend false false; EDrop; ARecv; AHandleDone (OutOk 3); ARecv] ++ finish.

(** A handler fails, on_panic continues, the next message is handled. *)
Definition ex_recover : list event :=
  started ++ [ESend false false; ESend false true; ARecv; AHandleDone (OutPanic 4);
              APanicDone (FlowOk Continue); ARecv; AHandleDone (OutErr 6)].

(** kill while a handler is suspended. *)
Definition ex_kill : list event :=
  started ++ [ESend false true; ARecv; AYield; EKill; APoll].

(** on_start fails. *)
Definition ex_fail : list event :=
  [AStart; ESend false true; AStartDone (HookFail (FErr 9)); ASetStartup; ASignal; ADowngrade;
   APanicDone (FlowOk Continue); AStopDone HookOk; ASetShutdown; AClose].

(** on_stop panics with a link present. *)
Definition ex_crash : list event :=
  started ++ [ELink 5; EStop; ARecv; ADrainLinks; AStopDone (HookFail (FPanic 2))].

(** The mailbox (capacity 2) is full when on_start returns. *)
Definition ex_full : list event :=
  [AStart; ESend false false; ESend true false; AStartDone HookOk; ASetStartup; ASignal;
   ADowngrade; APoll; ARecv; ARecv; AHandleDone (OutOk 0)].

(** Stop accepted before the marker, a buffered message panics, on_panic continues. *)
Definition ex_lost_stop : list event :=
  [AStart; ESend false false; EStop; AStartDone HookOk; ASetStartup; ASignal; ADowngrade; APoll;
   ARecv; ARecv; AHandleDone (OutPanic 1); APanicDone (FlowOk Continue); ARecv].

(** As above without the stop, two buffered messages. *)
Definition ex_lost_buffer : list event :=
  [AStart; ESend false false; ESend false false; AStartDone HookOk; ASetStartup; ASignal; ADowngrade;
   APoll; ARecv; ARecv; ARecv; AHandleDone (OutPanic 1); APanicDone (FlowOk Continue)].

Lemma runs_intro : forall c es (P : actor -> list obs -> Prop) s tr,
  exec (init c) es = Some (s, tr) -> P s tr -> runs c es P.
Proof. unfold runs. intros c es P s tr E H. rewrite E. exact H. Qed.

Ltac run_it := eapply runs_intro; [vm_compute; reflexivity|]; cbv beta.
Ltac is_in := vm_compute; repeat first [left; reflexivity | right].
Ltac not_in H := vm_compute in H; repeat (destruct H as [H|H]; [discriminate H|]); destruct H.
(** Closes the parts of a conjunction of computable facts. *)
Ltac facts := repeat split;
  first [ vm_compute; reflexivity | solve [is_in]
        | solve [repeat intro; match goal with H : In _ _ |- _ => not_in H end]
        | vm_compute; discriminate | vm_compute; repeat constructor | idtac ].
