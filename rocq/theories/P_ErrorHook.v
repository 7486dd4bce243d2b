(** Properties of the actor error hook (C56). *)
From Coq Require Import List Bool PeanoNat Lia.
From Verif Require Import Lifecycle ErrorHook ErrorHook_spec ErrorHook_proofs ErrorHook_examples.
Import ListNotations.

(** The hooks are called for the failures of an actor in their order, once for each; at
    most the last one may still have to be reported. *)
Theorem C56_each_once : forall es p t i, hexec boot es = Some (p, t) ->
  exists rest, failures i t = reported i t ++ rest /\ length rest <= 1.
Proof. exact reported_each. Qed.
Print Assumptions C56_each_once.

(** And none is left once the task has returned. *)
Theorem C56_all_reported : forall es p t i r, hexec boot es = Some (p, t) ->
  In (OLife i (OReturn r)) t -> failures i t = reported i t.
Proof. exact reported_all. Qed.
Print Assumptions C56_all_reported.

(** Whoever waits for the start or the end of the actor gets the error only after the hook. *)
Theorem C56_before_waiters : forall es p t i f t1 t2 x, hexec boot es = Some (p, t) -> t = t1 ++ OLife i x :: t2 ->
  x = OSawStartup (Some (Some f)) \/ x = OSawShutdown (Some (Some f)) -> In f (reported i t1).
Proof. exact saw_after. Qed.
Print Assumptions C56_before_waiters.

(** The hook that is called was the one set last at a moment between the failure and the call. *)
Theorem C56_which_hook : forall es p t i h f t0 t3, hexec boot es = Some (p, t) -> t = t0 ++ OHook h i f :: t3 ->
  exists t1 t2, t0 = t1 ++ t2 /\ current t1 = h /\ failures i t1 = reported i t0 ++ [f].
Proof. exact which_hook. Qed.
Print Assumptions C56_which_hook.

(** As long as no hook panics the actors do what they would do without any. *)
Theorem C56_lifecycle : forall es p t i m, hexec boot es = Some (p, t) -> (forall j, ~ In (Call j false) es) ->
  nth_error (p_actors p) i = Some m ->
  exists c, nth_error (spawns es) i = Some c /\ exec (init c) (events_of i es) = Some (m_life m, shown i t).
Proof. exact lives. Qed.
Print Assumptions C56_lifecycle.

(** And everything an actor can do without hooks it can do with them. *)
Theorem C56_harmless : forall es c s o, exec (init c) es = Some (s, o) ->
  exists hes p t, hexec boot (Spawned c :: hes) = Some (p, t) /\ events_of 0 hes = es
    /\ (forall j, ~ In (Call j false) hes) /\ shown 0 t = o
    /\ exists st, p = mk_process 0 [mk_member s st] /\ (st <> Called -> st = Idle).
Proof. exact harmless. Qed.
Print Assumptions C56_harmless.

(** The documentation has the hook called immediately. For an error of on_stop it is not
    called as long as some link has not been told of the end. *)
Theorem C56_waits_for_links : forall es i p m id r f pend0 p2 t2,
  nth_error (p_actors p) i = Some m -> ph (m_life m) = PNotify r (HookFail f) pend0 -> In id pend0 ->
  m_stage m = Idle ->
  hexec p es = Some (p2, t2) -> (forall d, ~ In (Life i (ANotify id d)) es) -> reported i t2 = [].
Proof. exact waits_for_links. Qed.
Print Assumptions C56_waits_for_links.

(** A hook that panics over a failed on_start leaves everybody who waits for the start
    waiting for ever. *)
Theorem C56_panic_on_start : forall es1 p1 t1 i m res p2 o es2 p3 t3, hexec boot es1 = Some (p1, t1) ->
  nth_error (p_actors p1) i = Some m -> ph (m_life m) = PStarted res ->
  hstep p1 (Call i false) = Some (p2, o) -> hexec p2 es2 = Some (p3, t3) ->
  forall v, ~ In (OLife i (OSawStartup v)) (t1 ++ o ++ t3).
Proof. exact panic_on_start. Qed.
Print Assumptions C56_panic_on_start.

(** A hook that panics leaves no result for those that wait for the end, who panic over it. *)
Theorem C56_panic_on_stop : forall es1 p1 t1 i m p2 o es2 p3 t3, hexec boot es1 = Some (p1, t1) ->
  nth_error (p_actors p1) i = Some m ->
  hstep p1 (Call i false) = Some (p2, o) -> hexec p2 es2 = Some (p3, t3) ->
  forall v, In (OLife i (OSawShutdown v)) t3 -> v = None.
Proof. exact panic_on_stop. Qed.
Print Assumptions C56_panic_on_stop.

(** An on_stop that panics, unlike an on_start that does, is not reported at all. *)
Theorem C56_stop_panic_silent : forall p i m res p2 o es2 p3 t3,
  nth_error (p_actors p) i = Some m -> (exists v, res = HookFail (FPanic v)) ->
  hstep p (Life i (AStopDone res)) = Some (p2, o) -> hexec p2 es2 = Some (p3, t3) -> reported i (o ++ t3) = [].
Proof. exact stop_panic_silent. Qed.
Print Assumptions C56_stop_panic_silent.

Example C56_case :
  hexec boot eh_both = Some (fst eh_r1, snd eh_r1)
  /\ failures 1 (snd eh_r1) = [FPanic 7; FErr 9] /\ reported 1 (snd eh_r1) = [FPanic 7; FErr 9]
  /\ reported 0 (snd eh_r1) = [] /\ In (OHook 4 1 (FPanic 7)) (snd eh_r1) /\ In (OHook 5 1 (FErr 9)) (snd eh_r1)
  /\ In (OLife 1 (OSawStartup (Some (Some (FPanic 7))))) (snd eh_r1)
  /\ In (OLife 1 (OSawShutdown (Some (Some (FErr 9))))) (snd eh_r1)
  /\ In (OLife 1 (OReturn (Panicked (FPanic 7)))) (snd eh_r1) /\ (forall j, ~ In (Call j false) eh_both)
  /\ length (p_actors (fst eh_r1)) = 2.
Proof.
  split; [exact (eh_some (hexec boot eh_both) eq_refl)|].
  split; [vm_compute; reflexivity|]. split; [vm_compute; reflexivity|]. split; [vm_compute; reflexivity|].
  split; [vm_compute; tauto|]. split; [vm_compute; tauto|]. split; [vm_compute; tauto|].
  split; [vm_compute; tauto|]. split; [vm_compute; tauto|].
  split; [vm_compute; intuition discriminate|vm_compute; reflexivity].
Qed.

Example C56_links_case :
  hexec boot eh_stopping = Some (fst eh_r2, snd eh_r2)
  /\ (exists m, nth_error (p_actors (fst eh_r2)) 0 = Some m
       /\ ph (m_life m) = PNotify Killed (HookFail (FErr 9)) [3] /\ m_stage m = Idle)
  /\ hexec (fst eh_r2) eh_more <> None /\ (forall d, ~ In (Life 0 (ANotify 3 d)) eh_more)
  /\ failures 0 (snd eh_r2) = [FErr 9].
Proof.
  split; [exact (eh_some (hexec boot eh_stopping) eq_refl)|].
  split; [exists (nth 0 (p_actors (fst eh_r2)) (mk_member (init eh_cfg) Idle));
          split; [vm_compute; reflexivity|split; vm_compute; reflexivity]|].
  split; [vm_compute; discriminate|]. split; [vm_compute; intuition discriminate|vm_compute; reflexivity].
Qed.

Example C56_panic_case :
  hexec boot eh_start = Some (fst eh_r3, snd eh_r3)
  /\ (exists m res, nth_error (p_actors (fst eh_r3)) 0 = Some m /\ ph (m_life m) = PStarted res)
  /\ hstep (fst eh_r3) (Call 0 false) = Some (fst eh_r4, snd eh_r4)
  /\ hexec boot eh_stop = Some (fst eh_r5, snd eh_r5)
  /\ hstep (fst eh_r5) (Call 0 false) = Some (fst eh_r6, snd eh_r6)
  /\ hexec (fst eh_r6) [Life 0 EWaitShutdown] = Some (fst eh_r7, snd eh_r7)
  /\ In (OLife 0 (OSawShutdown None)) (snd eh_r7).
Proof.
  split; [exact (eh_some (hexec boot eh_start) eq_refl)|].
  split; [exists (nth 0 (p_actors (fst eh_r3)) (mk_member (init eh_cfg) Idle)), (HookFail (FErr 7));
          split; vm_compute; reflexivity|].
  split; [exact (eh_some (hstep (fst eh_r3) (Call 0 false)) eq_refl)|].
  split; [exact (eh_some (hexec boot eh_stop) eq_refl)|].
  split; [exact (eh_some (hstep (fst eh_r5) (Call 0 false)) eq_refl)|].
  split; [exact (eh_some (hexec (fst eh_r6) [Life 0 EWaitShutdown]) eq_refl)|]. vm_compute. tauto.
Qed.

Example C56_stop_panic_case :
  hexec boot eh_running = Some (fst eh_r8, snd eh_r8)
  /\ hstep (fst eh_r8) (Life 0 (AStopDone (HookFail (FPanic 9)))) = Some (fst eh_r9, snd eh_r9)
  /\ In (OLife 0 OCrash) (snd eh_r9).
Proof.
  split; [exact (eh_some (hexec boot eh_running) eq_refl)|].
  split; [exact (eh_some (hstep (fst eh_r8) (Life 0 (AStopDone (HookFail (FPanic 9))))) eq_refl)|].
  vm_compute. tauto.
Qed.
