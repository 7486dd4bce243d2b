(** Specification vocabulary for actor lifecycles. Nothing here refers to the
    transition system: only to observations, events' payloads and lists. *)
From Coq Require Import List Bool PeanoNat Permutation.
Import ListNotations.
From Verif Require Import Lifecycle.

(** [subseq l1 l2]: [l1] is [l2] with some elements left out, order kept. *)
Inductive subseq {A : Type} : list A -> list A -> Prop :=
| subseq_nil : subseq [] []
| subseq_take : forall x l1 l2, subseq l1 l2 -> subseq (x :: l1) (x :: l2)
| subseq_skip : forall x l1 l2, subseq l1 l2 -> subseq l1 (x :: l2).

(** [prefix l1 l2]: [l1] is an initial segment of [l2]. *)
Definition prefix {A : Type} (l1 l2 : list A) : Prop := exists l3, l2 = l1 ++ l3.

(** Messages and signals accepted by the mailbox, in order. *)
Definition accepted_signals (tr : list obs) : list signal :=
  flat_map (fun o => match o with OAccept sg => [sg] | _ => [] end) tr.
Definition accepted (tr : list obs) : list msg :=
  flat_map (fun o => match o with OAccept (SMsg m) => [m] | _ => [] end) tr.

(** Messages whose handler was invoked, in order. *)
Definition handled (tr : list obs) : list msg :=
  flat_map (fun o => match o with OHandle m => [m] | _ => [] end) tr.

(** Messages dropped without being handled. *)
Definition discarded (tr : list obs) : list msg :=
  flat_map (fun o => match o with ODiscard m => [m] | _ => [] end) tr.

(** Asks whose reply channel got a value or was dropped. *)
Definition answered (tr : list obs) : list nat :=
  flat_map (fun o => match o with OReply id _ | OReplyDropped id => [id] | _ => [] end) tr.

Definition outside_msgs (ms : list msg) : list msg := filter (fun m => negb (inside m)) ms.
Definition inside_msgs (ms : list msg) : list msg := filter inside ms.
Definition ask_ids (ms : list msg) : list nat := map mid (filter ask ms).

(** The part of a list before the first element satisfying [p]. *)
Fixpoint before {A : Type} (p : A -> bool) (l : list A) : list A :=
  match l with
  | [] => []
  | x :: l' => if p x then [] else x :: before p l'
  end.

Definition is_stop_signal (sg : signal) : bool := match sg with SStop => true | _ => false end.
Definition accepts_stop (o : obs) : bool :=
  match o with OAccept SStop => true | _ => false end.
Definition accepts_marker (o : obs) : bool :=
  match o with OAccept SStartup => true | _ => false end.

(** Calls of user hooks and handlers, and the ends of the loop and of the task. *)
Definition is_call (o : obs) : bool :=
  match o with
  | OStartBegin | OStartEnd _ | OHandle _ | OHandleEnd _ _ | OHandleCut _
  | OLinkHook _ _ | OLinkHookEnd _ | OLinkHookCut
  | OPanicHook _ | OPanicHookEnd _ | OPanicHookCut
  | OStopHook _ | OStopHookEnd _ | OExit _ | OReturn _ | OCrash => true
  | _ => false
  end.

(** Things that only a successfully started actor does. *)
Definition is_loop_obs (o : obs) : bool :=
  match o with
  | OHandle _ | OHandleEnd _ _ | OHandleCut _
  | OLinkHook _ _ | OLinkHookEnd _ | OLinkHookCut | OExit _ => true
  | _ => false
  end.

(** Beginnings of user code of the actor. *)
Definition begins_code (o : obs) : bool :=
  match o with
  | OStartBegin | OHandle _ | OLinkHook _ _ | OPanicHook _ | OStopHook _ => true
  | _ => false
  end.
Definition ends_code (o : obs) : bool :=
  match o with
  | OStartEnd _ | OHandleEnd _ _ | OHandleCut _ | OLinkHookEnd _ | OLinkHookCut
  | OPanicHookEnd _ | OPanicHookCut | OStopHookEnd _ => true
  | _ => false
  end.

(** No two pieces of user code of the actor overlap. [b]: one is running. *)
Fixpoint one_at_a_time (b : bool) (tr : list obs) : Prop :=
  match tr with
  | [] => True
  | o :: tr' =>
      if begins_code o then b = false /\ one_at_a_time true tr'
      else if ends_code o then b = true /\ one_at_a_time false tr'
      else one_at_a_time b tr'
  end.

(** The reply sender of ask [id] leaves the handler's context. *)
Definition gives_away (id : nat) (o : obs) : bool :=
  match o with
  | OReplyTaken id' | OReply id' _ => Nat.eqb id' id
  | _ => false
  end.

(** The next call made after a point. *)
Definition next_call (tr : list obs) : option obs := find is_call tr.
Definition last_call (tr : list obs) : option obs := find is_call (rev tr).

(** A trace in which every on_panic (resp. on_link_died) that returned, returned
    [Ok(Continue)]. *)
Definition recovers (tr : list obs) : Prop :=
  forall res, In (OPanicHookEnd res) tr -> res = FlowOk Continue.
Definition ignores_links (tr : list obs) : Prop :=
  forall res, In (OLinkHookEnd res) tr -> res = FlowOk Continue.
Definition no_failure (tr : list obs) : Prop := forall f, ~ In (OPanicHook f) tr.
Definition no_exit (tr : list obs) : Prop := (forall r, ~ In (OExit r) tr) /\ ~ In OCrash tr.

(** No hook asked for a normal stop. *)
Definition no_hook_stop (tr : list obs) : Prop :=
  ~ In (OPanicHookEnd (FlowOk (Break Normal))) tr
  /\ ~ In (OLinkHookEnd (FlowOk (Break Normal))) tr.

(** The error a hook's result stands for. *)
Definition error_of (res : hook_res) : option failure :=
  match res with HookOk => None | HookFail f => Some f end.

(** ** The lifecycle protocol promised by the documentation of [Actor]
    (src/actor.rs 28-109 and the hooks' docs): an automaton over observations. *)
Inductive proto : Type :=
| QFresh
| QInStart
| QStartFailed (f : failure)
| QInFailPanic (f : failure)
| QFailVerdict (r : reason)
| QReady
| QInHandler (m : msg) (owned : bool)
| QInLink
| QAfterLink (res : flow_res)
| QMustReply (id : nat) (v : reply)    (* the very next thing is this answer *)
| QDropThenFail (id : nat) (f : failure)
| QDropThenExit (id : nat)
| QFailed (f : failure)
| QInPanic (f : failure)
| QMustExit (r : reason)
| QMustCrash
| QExited (r : reason)
| QInStop (r : reason) (started : bool)
| QStopped (r : reason) (started : bool)
| QClosed (r : reason)
| QCrashing
| QEnd.

(** What a panic hook's result means once the actor was running. *)
Definition after_panic (res : flow_res) : proto :=
  match res with
  | FlowOk Continue => QReady
  | FlowOk (Break r) => QMustExit r
  | FlowFail (FErr e) => QMustExit (Panicked (FErr e))
  | FlowFail (FPanic _) => QMustCrash
  end.
(** ... and after a failed start, where the actor stops in any case. *)
Definition after_fail_panic (f : failure) (res : flow_res) : proto :=
  match res with
  | FlowOk Continue => QFailVerdict (Panicked f)
  | FlowOk (Break r) => QFailVerdict r
  | FlowFail (FErr e) => QFailVerdict (Panicked (FErr e))
  | FlowFail (FPanic _) => QMustCrash
  end.
Definition after_stop (r : reason) (started : bool) (res : hook_res) : proto :=
  match res with HookFail (FPanic _) => QMustCrash | _ => QStopped r started end.
(** [owned]: the handler of an ask returned without giving its reply sender away. *)
Definition after_handler (owned : bool) (id : nat) (out : outcome) : proto :=
  match out with
  | OutOk v => if owned then QMustReply id (ReplyOk v) else QReady
  | OutErr e => if owned then QMustReply id (ReplyErr e) else QFailed (FErr e)
  | OutPanic p => if owned then QDropThenFail id (FPanic p) else QFailed (FPanic p)
  end.

Scheme Equality for failure.
Scheme Equality for reason.
Scheme Equality for reply.

Definition flow_res_allows_exit (res : flow_res) (r : reason) : bool :=
  match r with
  | Panicked _ => false
  | Killed => true
  | _ => match res with FlowOk (Break r') => reason_beq r' r | _ => false end
  end.
Definition flow_res_allows_panic (res : flow_res) (f : failure) : bool :=
  match res with
  | FlowOk (Break (Panicked f')) | FlowFail f' => failure_beq f' f
  | _ => false
  end.

Definition proto_step (q : proto) (o : obs) : option proto :=
  match q with
  | QMustReply id v =>
      match o with
      | OReply id' v' => if Nat.eqb id id' && reply_beq v v' then Some QReady else None
      | _ => None
      end
  | QDropThenFail id f =>
      match o with
      | OReplyDropped id' => if Nat.eqb id id' then Some (QFailed f) else None
      | _ => None
      end
  | QDropThenExit id =>
      match o with
      | OReplyDropped id' => if Nat.eqb id id' then Some (QMustExit Killed) else None
      | _ => None
      end
  | _ =>
  match o with
  | OStartBegin => match q with QFresh => Some QInStart | _ => None end
  | OStartEnd res =>
      match q with
      | QInStart => Some (match res with HookOk => QReady | HookFail f => QStartFailed f end)
      | _ => None
      end
  | OHandle m =>
      match q with
      | QReady | QAfterLink (FlowOk Continue) => Some (QInHandler m (ask m))
      | _ => None
      end
  | OReplyTaken id | OReply id _ =>
      match q with
      | QInHandler m true => Some (QInHandler m (negb (Nat.eqb id (mid m))))
      | _ => Some q
      end
  | OHandleEnd m out =>
      match q with
      | QInHandler m' owned => if Nat.eqb (mid m) (mid m') then Some (after_handler owned (mid m) out) else None
      | _ => None
      end
  | OHandleCut m =>
      match q with
      | QInHandler m' owned =>
          if Nat.eqb (mid m) (mid m')
          then Some (if owned then QDropThenExit (mid m) else QMustExit Killed) else None
      | _ => None
      end
  | OLinkHook _ _ =>
      match q with
      | QReady | QAfterLink (FlowOk Continue) => Some QInLink
      | _ => None
      end
  | OLinkHookEnd res => match q with QInLink => Some (QAfterLink res) | _ => None end
  | OLinkHookCut => match q with QInLink => Some (QMustExit Killed) | _ => None end
  | OPanicHook f =>
      match q with
      | QFailed f' => if failure_beq f' f then Some (QInPanic f) else None
      | QStartFailed f' => if failure_beq f' f then Some (QInFailPanic f) else None
      | QAfterLink res => if flow_res_allows_panic res f then Some (QInPanic f) else None
      | _ => None
      end
  | OPanicHookEnd res =>
      match q with
      | QInPanic _ => Some (after_panic res)
      | QInFailPanic f => Some (after_fail_panic f res)
      | _ => None
      end
  | OPanicHookCut => match q with QInPanic _ => Some (QMustExit Killed) | _ => None end
  | OExit r =>
      match q with
      | QReady | QAfterLink (FlowOk Continue) =>
          match r with Normal | Killed => Some (QExited r) | _ => None end
      | QAfterLink res => if flow_res_allows_exit res r then Some (QExited r) else None
      | QMustExit r' => if reason_beq r' r then Some (QExited r) else None
      | _ => None
      end
  | OStopHook r =>
      match q with
      | QExited r' => if reason_beq r' r then Some (QInStop r true) else None
      | QFailVerdict r' => if reason_beq r' r then Some (QInStop r false) else None
      | _ => None
      end
  | OStopHookEnd res =>
      match q with QInStop r b => Some (after_stop r b res) | _ => None end
  | ONotify _ r _ =>
      match q with
      | QStopped r' true => if reason_beq r' r then Some q else None
      | _ => None
      end
  | OClosed =>
      match q with
      | QStopped r _ => Some (QClosed r)
      | QCrashing => Some QEnd
      | _ => None
      end
  | OReturn r =>
      match q with
      | QClosed r' => if reason_beq r' r then Some QEnd else None
      | _ => None
      end
  | OCrash => match q with QMustCrash => Some QCrashing | _ => None end
  | OSawStartup v =>
      match q with
      | QFresh | QInStart => None
      | _ => Some q
      end
  | OSawShutdown v =>
      match q with
      | QEnd => Some q
      | _ => None
      end
  | OLinksTaken _ => match q with QExited _ => Some q | _ => None end
  | OAccept _ | ODiscard _ | OReplyDropped _ | OKill => Some q
  end
  end.

Fixpoint proto_run (q : proto) (tr : list obs) : option proto :=
  match tr with
  | [] => Some q
  | o :: tr' => match proto_step q o with Some q' => proto_run q' tr' | None => None end
  end.

(** Steps of the actor's own task, and those among them that make progress
    (being polled or suspended is no progress). *)
Definition is_task (e : event) : bool :=
  match e with
  | AStart | AStartDone _ | ASetStartup | ASignal | ADowngrade | APoll | AYield | ARecv
  | ATakeReply | AReplyNow _ | AHandleDone _ | ALinkDone _ | ALinkRm | APanicDone _
  | ADrainLinks | AStopDone _ | ANotify _ _ | ANotifyEnd | ARegRemove | ASetShutdown | AClose => true
  | _ => false
  end.
Definition is_work (e : event) : bool :=
  match e with APoll | AYield => false | _ => is_task e end.
Definition work (es : list event) : nat := length (filter is_work es).

(** The task sleeps in its message loop: nothing queued, references left, not killed. *)
Definition waits (s : actor) : Prop :=
  ph s = PLoop LRecv /\ queue s = [] /\ 0 < strong s /\ aborted s = false.

(** The message loop has not been entered yet. *)
Definition starting (p : phase) : bool :=
  match p with
  | PInit | PStarting | PStarted _ | PSignal _ | PDowngrade _ _ => true
  | _ => false
  end.

(** The message loop was left. *)
Definition past_loop (p : phase) : bool :=
  match p with
  | PDrainLinks _ | PStop _ _ | PNotify _ _ _ | PRegRemove _ _ | PSet _ _ | PClosing _
  | PDone _ | PCrashed => true
  | _ => false
  end.

(** Messages sent by the actor to itself before the startup marker was queued. *)
Definition own_startup_msgs (tr : list obs) : list msg :=
  inside_msgs (accepted (before accepts_marker tr)).
(** No stop signal was accepted before the marker. *)
Definition no_stop_before_marker (tr : list obs) : Prop :=
  ~ In (OAccept SStop) (before accepts_marker tr).

(** What the message loop does next, kill or not. *)
Definition loop_acts (o : obs) : bool :=
  match o with OHandle _ | OLinkHook _ _ | OExit _ => true | _ => false end.

Definition loop_acts_or_panics (o : obs) : bool :=
  match o with OPanicHook _ | OStopHook _ => true | _ => loop_acts o end.


(** Why a running actor may leave its loop with reason [r]. *)
Definition exit_cause (tr : list obs) (r : reason) : Prop :=
  r = Normal \/ (r = Killed /\ In OKill tr)
  \/ In (OPanicHookEnd (FlowOk (Break r))) tr
  \/ In (OLinkHookEnd (FlowOk (Break r))) tr
  \/ (exists e, r = Panicked (FErr e) /\ In (OPanicHookEnd (FlowFail (FErr e))) tr).

(** What a failed start ends with, given the failure and on_panic's verdict. *)
Definition failed_verdict (f : failure) (res : flow_res) : obs :=
  match res with
  | FlowOk Continue => OStopHook (Panicked f)
  | FlowOk (Break r) => OStopHook r
  | FlowFail (FErr e) => OStopHook (Panicked (FErr e))
  | FlowFail (FPanic _) => OCrash
  end.
