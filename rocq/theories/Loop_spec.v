(** Vocabulary of the property of an actor's task with any [next] (C65), in terms of what
    can be seen of a run. *)
From Coq Require Import List Bool PeanoNat.
From Verif Require Import Lifecycle Loop.
Import ListNotations.

(** The answers of [next], the messages whose handler was called, the messages dropped, in
    order. *)
Definition gaves (h : list sight) : list gave :=
  flat_map (fun o => match o with Gave g => [g] | _ => [] end) h.
Definition begun (h : list sight) : list nat :=
  flat_map (fun o => match o with Began (HMessage k) => [k] | _ => [] end) h.
Definition dropped (h : list sight) : list nat :=
  flat_map (fun o => match o with Dropped k => [k] | _ => [] end) h.

(** Answer [k] of [next] was a message, sent within the actor or not. *)
Definition given (h : list sight) (k : nat) (within : bool) : Prop :=
  nth_error (gaves h) k = Some (GMessage within).

(** The messages that [next] gave and that were neither handled nor dropped. *)
Definition is_message (h : list sight) (k : nat) : bool :=
  match nth_error (gaves h) k with Some (GMessage _) => true | _ => false end.
Definition waiting (h : list sight) : list nat :=
  filter (fun k => is_message h k && negb (existsb (Nat.eqb k) (begun h ++ dropped h)))
    (seq 0 (length (gaves h))).

(** Messages sent by others are handled from here on: [next] gave the startup signal or a
    stop, or the startup signal did not fit into the mailbox. *)
Definition opens (o : sight) : bool :=
  match o with Gave GStartup | Gave GStop | Gave GNone | NoRoom => true | _ => false end.
Definition opened (h : list sight) : bool := existsb opens h.

(** One hook at a time: the hook that runs after [h]; [None]: two ran at once, or one
    ended that did not run. *)
Definition same_hook (o : sight) (x : hook) : bool :=
  match o, x with
  | Started _, HStart | Gave _, HNext | NextPanicked, HNext | LinkDone _, HLinkDied _ _
  | PanicDone _, HPanic _ | Stopped _, HStop _ => true
  | Handled k _, HMessage k' => Nat.eqb k k'
  | _, _ => false
  end.
Definition track (st : option (option hook)) (o : sight) : option (option hook) :=
  match st with
  | None => None
  | Some now =>
      match o with
      | Began x => match now with None => Some (Some x) | Some _ => None end
      | Cut x => match now with Some _ => Some None | None => None end
      | Started _ | Gave _ | NextPanicked | Handled _ _ | LinkDone _ | PanicDone _ | Stopped _ =>
          match now with
          | Some x => if same_hook o x then Some None else None
          | None => None
          end
      | NoRoom | Ready | Dropped _ | Took _ | Returned _ | Crashed | Aborted | Told _ => Some now
      end
  end.
Definition running (h : list sight) : option (option hook) := fold_left track h (Some None).

(** The last thing that ended a hook, or the loop. *)
Definition is_end (o : sight) : bool :=
  match o with
  | Cut _ | Started _ | Gave _ | NextPanicked | Handled _ _ | LinkDone _ | PanicDone _ | Stopped _
  | Aborted => true
  | _ => false
  end.
Definition ends (h : list sight) : list sight := filter is_end h.
Definition last_end (h : list sight) : option sight := hd_error (rev (ends h)).

(** The last answer of [next] was a stop. *)
Definition stop_given (h : list sight) : bool :=
  match hd_error (rev (gaves h)) with Some GStop | Some GNone => true | _ => false end.

(** How [on_start] failed. *)
Definition start_failed (h : list sight) : option failure :=
  match h with
  | Began HStart :: Started (HookFail f) :: _ => Some f
  | _ => None
  end.

(** [on_shutdown]: a failure goes to [on_panic], every other reason to [on_stop]. *)
Definition closing (r : reason) : hook :=
  match r with Panicked f => HPanic f | _ => HStop r end.

(** The messages that wait are handled first, if others' messages are handled at all. *)
Definition waiting_first (h : list sight) (x : hook) : hook :=
  if opened h then match waiting h with k :: _ => HMessage k | [] => x end else x.

(** What the task calls next, by what has been seen. *)
Definition expected (h : list sight) : option hook :=
  match last_end h with
  | None => Some HStart
  | Some o =>
      match o with
      | Started HookOk => Some HNext
      | Started (HookFail f) => Some (HPanic f)
      | Gave GStartup => Some (waiting_first h HNext)
      | Gave (GMessage within) =>
          Some (if within || opened h then HMessage (pred (length (gaves h))) else HNext)
      | Gave (GLinkDied id r) => Some (HLinkDied id r)
      | Gave GStop | Gave GNone => Some (waiting_first h (HStop Normal))
      | Handled _ HookOk => Some (waiting_first h (if stop_given h then HStop Normal else HNext))
      | Handled _ (HookFail f) => Some (HPanic f)
      | LinkDone (FlowOk Continue) => Some HNext
      | LinkDone (FlowOk (Break r)) => Some (closing r)
      | LinkDone (FlowFail f) => Some (HPanic f)
      | PanicDone (FlowOk Continue) =>
          match start_failed h with Some f => Some (HStop (Panicked f)) | None => Some HNext end
      | PanicDone (FlowOk (Break r)) => Some (HStop r)
      | PanicDone (FlowFail (FErr e)) => Some (HStop (Panicked (FErr e)))
      | PanicDone (FlowFail (FPanic _)) => None
      | Aborted => Some (HStop Killed)
      | _ => None
      end
  end.

(** Every sight of a history satisfies [P] with what was seen before it. *)
Definition always (P : list sight -> sight -> Prop) (h : list sight) : Prop :=
  forall h1 o h2, h = h1 ++ o :: h2 -> P h1 o.

(** After this, messages may be dropped. *)
Definition loses (o : sight) : bool :=
  match o with
  | Aborted | NextPanicked | Handled _ (HookFail _) | LinkDone (FlowOk (Break _))
  | PanicDone (FlowOk (Break _)) | PanicDone (FlowFail _) => true
  | _ => false
  end.

(** After this, the task panics. *)
Definition uncaught (o : sight) : bool :=
  match o with
  | NextPanicked | PanicDone (FlowFail (FPanic _)) | Stopped (HookFail (FPanic _)) => true
  | _ => false
  end.

(** [on_stop] was called. *)
Definition stopping (h : list sight) : Prop := exists r, In (Began (HStop r)) h.

(** A handler has just failed and [on_panic] has let the actor go on. *)
Definition resumed (h : list sight) : Prop :=
  exists a k f, ends h = a ++ [Handled k (HookFail f); PanicDone (FlowOk Continue)].

(** What may be seen after [h1]. *)
Definition legal (h1 : list sight) (o : sight) : Prop :=
  match o with
  | Began x =>
      running h1 = Some None /\ expected h1 = Some x /\
      match x with
      | HMessage k =>
          In k (waiting h1) /\
          exists w, given h1 k w /\ (w = true \/ opened h1 = true) /\
            forall k', In k' (begun h1) -> given h1 k' w -> k' < k
      | HNext =>
          (forall k, In k (waiting h1) -> given h1 k false /\ opened h1 = false) /\
          (stop_given h1 = true -> resumed h1)
      | HStop r => waiting h1 = [] /\ (start_failed h1 = None -> exists h0, h1 = h0 ++ [Took r])
      | _ => True
      end
  | Cut x => running h1 = Some (Some x)
  | Dropped k => In k (waiting h1) /\ exists e, last_end h1 = Some e /\ loses e = true
  | Took r => start_failed h1 = None /\ expected h1 = Some (HStop r)
  | Told r =>
      In (Took r) h1 /\ start_failed h1 = None /\
      exists res, last_end h1 = Some (Stopped res) /\ uncaught (Stopped res) = false
  | Returned r =>
      In (Began (HStop r)) h1 /\ (start_failed h1 = None -> exists h0, h1 = h0 ++ [Told r]) /\
      exists res, last_end h1 = Some (Stopped res) /\ uncaught (Stopped res) = false
  | Crashed => running h1 = Some None /\ exists e, last_end h1 = Some e /\ uncaught e = true
  | Ready => exists h0 e, h1 = h0 ++ [e] /\ (e = Gave GStartup \/ exists f, e = Started (HookFail f))
  | Aborted =>
      running h1 = Some None /\ start_failed h1 = None /\
      exists e, last_end h1 = Some e /\ match e with Cut _ | Started HookOk | LinkDone _ => True | _ => False end
  | NoRoom => h1 = [Began HStart; Started HookOk]
  | _ => True
  end /\
  running (h1 ++ [o]) <> None /\
  (stopping h1 -> match o with Stopped _ | Told _ | Returned _ | Crashed => True | _ => False end).
