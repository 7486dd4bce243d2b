(** Property theorems about attached streams (C38): every stream, every schedule of the
    task, the actor and other senders, and every capacity of the mailbox. *)
From Coq Require Import List Bool PeanoNat.
From Verif Require Import Stream Stream_spec Stream_proofs.
Import ListNotations.

(** [Started], then the items from the first on without gap or repetition, and
    [Finished] only after the last one. *)
Theorem C38_order : forall M T F src (sv : T) (fv : F) cap (q : list (item M T F)) c es s t,
  (forall i, In i q -> exists v, i = Theirs v) ->
  run src sv fv cap (init q c) es = Some (s, t) -> in_stream_order src sv fv (accepted t).
Proof. exact @order_kept. Qed.
Print Assumptions C38_order.

Theorem C38_finished_after_end : forall M T F src (sv : T) (fv : F) cap (q : list (item M T F)) c es s t,
  (forall i, In i q -> exists v, i = Theirs v) ->
  run src sv fv cap (init q c) es = Some (s, t) ->
  In (Finished fv) (accepted t) -> exists n, src n = None /\ In (OPulled n) t.
Proof. exact @finished_after_end. Qed.
Print Assumptions C38_finished_after_end.

(** If the actor does not stop before the task has returned, the stream has ended, and
    all of it was delivered, with both markers. *)
Theorem C38_all_delivered : forall M T F src (sv : T) (fv : F) cap (q : list (item M T F)) es s t r,
  (forall i, In i q -> exists v, i = Theirs v) ->
  run src sv fv cap (init q false) es = Some (s, t) -> In (OReturned r) t -> ~ In OClosed t ->
  exists n l, first_items src n l /\ src n = None /\ r = ROk n
    /\ accepted t = Started sv :: map Next l ++ [Finished fv].
Proof. exact @alive_all_delivered. Qed.
Print Assumptions C38_all_delivered.

(** What is returned. A stream that is handed back has given up exactly the items that
    were delivered, and [Finished] is missing only because the actor stopped; an error
    holds the one message that was due next. *)
Theorem C38_returned : forall M T F src (sv : T) (fv : F) cap (q : list (item M T F)) c es s t r,
  (forall i, In i q -> exists v, i = Theirs v) ->
  run src sv fv cap (init q c) es = Some (s, t) -> In (OReturned r) t ->
  match r with
  | ROk n => exists l, first_items src n l
      /\ ((src n = None /\ accepted t = Started sv :: map Next l ++ [Finished fv])
          \/ (closed s = true /\ accepted t = Started sv :: map Next l))
  | RNotRunning m => closed s = true /\ in_stream_order src sv fv (accepted t ++ [m])
  end.
Proof. exact @returned_what. Qed.
Print Assumptions C38_returned.

(** The actor takes the messages from its mailbox in that order; only those that were in
    the mailbox when it stopped are lost. *)
Theorem C38_taken : forall M T F src (sv : T) (fv : F) cap (q : list (item M T F)) c es s t,
  (forall i, In i q -> exists v, i = Theirs v) ->
  run src sv fv cap (init q c) es = Some (s, t) ->
  (exists rest, accepted t = ours (taken t) ++ rest)
  /\ (closed s = false -> accepted t = ours (taken t) ++ ours (queue s)).
Proof. exact @taken_in_order. Qed.
Print Assumptions C38_taken.

Example C38_case : exists s t,
  run (fun n => nth_error [17; 19; 24] n) true false (Some 2) (init [Theirs 5] false)
    [ESent; ETake; ENext; ESent; ETake; ETake; ENext; ESent; EOther 9; ETake; ENext; ETake; ESent; ETake;
     ENext; ESent; ETake] = Some (s, t)
  /\ taken t = [Theirs 5; Ours (Started true); Ours (Next 17); Ours (Next 19); Theirs 9; Ours (Next 24);
                Ours (Finished false)]
  /\ In (OReturned (ROk 3)) t /\ ~ In OClosed t.
Proof.
  do 2 eexists. split; [vm_compute; reflexivity|]. split; [reflexivity|]. split; [cbn; tauto|].
  intro I. cbn in I. repeat (destruct I as [I|I]; [discriminate|]). contradiction.
Qed.

(** Once the actor has stopped, the task returns after at most two of its own steps, and
    until then it can make one. Before, it only waits for the stream or for room in the
    mailbox. *)
Theorem C38_ends_with_actor : forall M T F src (sv : T) (fv : F) cap es (s s' : state M T F) o,
  closed s = true -> run src sv fv cap s es = Some (s', o) -> length (filter task_step es) <= 2.
Proof. exact @ends_when_closed. Qed.
Print Assumptions C38_ends_with_actor.

Theorem C38_not_stuck : forall M T F src (sv : T) (fv : F) cap (q : list (item M T F)) c es s t,
  (forall i, In i q -> exists v, i = Theirs v) ->
  run src sv fv cap (init q c) es = Some (s, t) -> (forall r, ~ In (OReturned r) t) ->
  if closed s
  then step src sv fv cap s ERefused <> None \/ step src sv fv cap s EShutdown <> None
  else step src sv fv cap s ENext <> None \/ step src sv fv cap s ESent <> None
       \/ exists k, cap = Some k /\ k <= length (queue s) /\ (k > 0 -> step src sv fv cap s ETake <> None).
Proof. exact @not_stuck. Qed.
Print Assumptions C38_not_stuck.

(** Sends are refused from when the actor stops, or from the first when it had stopped
    already: then the task takes nothing from the stream. *)
Theorem C38_closed : forall M T F src (sv : T) (fv : F) cap es (q : list (item M T F)) c s t,
  run src sv fv cap (init q c) es = Some (s, t) -> (closed s = true <-> c = true \/ In OClosed t).
Proof. exact @closed_when. Qed.
Print Assumptions C38_closed.

Theorem C38_to_stopped : forall M T F src (sv : T) (fv : F) cap es (q : list (item M T F)) s t,
  run src sv fv cap (init q true) es = Some (s, t) -> t = [] \/ t = [OReturned (RNotRunning (Started sv))].
Proof. exact @to_stopped. Qed.
Print Assumptions C38_to_stopped.

Example C38_to_stopped_case : exists s,
  run (fun n => Some n) 7 tt None (init [Theirs 1] true) [ERefused] = Some (s, [OReturned (RNotRunning (Started 7))])
  /\ step (fun n => Some n) 7 tt None (init [Theirs 1] true) ESent = None.
Proof. eexists. split; reflexivity. Qed.

Example C38_stopped_case : exists s t,
  run (fun n => Some (2 * n)) tt tt None (init [] false) [ESent; ENext; ESent; EClose] = Some (s, t)
  /\ closed s = true /\ accepted t = [Started tt; Next 0] /\ (forall r, ~ In (OReturned r) t)
  /\ exists s' o, run (fun n => Some (2 * n)) tt tt None s [ENext; ERefused] = Some (s', o)
       /\ In (OReturned (RNotRunning (Next 2))) o.
Proof.
  do 2 eexists. split; [vm_compute; reflexivity|]. split; [reflexivity|]. split; [reflexivity|]. split.
  - intros r I. cbn in I. repeat (destruct I as [I|I]; [discriminate|]). contradiction.
  - do 2 eexists. split; [vm_compute; reflexivity|]. cbn. tauto.
Qed.

(** The stream is not always handed back when the actor stops: when a send fails, the
    caller gets the one message, and the rest of the stream is dropped. *)
Theorem C38_handed_back_refuted : forall M T F src (sv : T) (fv : F) cap (m : M),
  src 0 = Some m -> cap <> Some 0 ->
  exists es s t, run src sv fv cap (init [] false) es = Some (s, t)
    /\ In OClosed t /\ In (OReturned (RNotRunning (Next m))) t
    /\ forall es' s' t' n, run src sv fv cap s es' = Some (s', t') -> ~ In (OReturned (ROk n)) (t ++ t').
Proof. exact @stream_dropped. Qed.
Print Assumptions C38_handed_back_refuted.
