(** Properties of the references that remote links keep (C51). *)
From Coq Require Import List Bool PeanoNat.
Import ListNotations.
From Verif Require Import Lifecycle Lifecycle_spec Lifecycle_examples RemoteRefs RemoteRefs_spec
  RemoteRefs_proofs RemoteRefs_examples.

(** ** C51 *)

(** No link_remote returns, with whatever result, before it has put a strong reference
    into the node's table. *)
Theorem C51_inserted_first : forall c es w t1 i r t2,
  wexec (winit c) es = Some (w, t1 ++ Returned i r :: t2) -> is_link w i -> In (Inserted i) t1.
Proof. exact inserted_first. Qed.
Print Assumptions C51_inserted_first.

(** From then until the actor leaves its message loop the reference is there. *)
Theorem C51_pinned : forall c es w t i, wexec (winit c) es = Some (w, t) -> In (Inserted i) t ->
  (forall r, ~ In (Saw (OExit r)) t) -> in_table w /\ referenced w.
Proof. exact pinned. Qed.
Print Assumptions C51_pinned.

(** No step of a link_remote or unlink_remote, and no cancellation, takes it away. *)
Theorem C51_calls_keep : forall w e w' o, wstep w e = Some (w', o) -> (forall x, e <> Life x) ->
  in_table w -> in_table w'.
Proof. exact calls_keep. Qed.
Print Assumptions C51_calls_keep.

(** So the actor does not stop for want of references, whatever happens later: if it
    leaves its loop normally, a stop was accepted or a hook asked for it. *)
Theorem C51_not_exhausted : forall c es w t es' w' t' i, wexec (winit c) es = Some (w, t) ->
  In (Inserted i) t -> wexec w es' = Some (w', t') -> In (Saw (OExit Normal)) t' ->
  no_hook_stop (seen (t ++ t')) -> In (Saw (OAccept SStop)) (t ++ t').
Proof. exact not_exhausted. Qed.
Print Assumptions C51_not_exhausted.

Example C51_case : wruns plain ex_link_unlink (fun w t =>
  ext (w_actor w) = 0 /\ links (w_actor w) = [] /\ strong (w_actor w) = 1
  /\ In (Inserted 0) t /\ In (Returned 1 (Refused 3)) t /\ is_link w 0
  /\ step (w_actor w) ARecv = None
  /\ exists w' t', wexec w ex_found_and_stopped = Some (w', t')
     /\ In (Saw (OExit Normal)) t' /\ in_reg (w_actor w') = false
     /\ no_hook_stop (seen (t ++ t'))).
Proof.
  unfold wruns. vm_compute.
  split; [reflexivity|]. split; [reflexivity|]. split; [reflexivity|].
  split; [auto 20|]. split; [auto 20|]. split; [eexists; eexists; reflexivity|].
  split; [reflexivity|]. eexists. eexists. split; [reflexivity|].
  split; [auto 20|]. split; [reflexivity|].
  split; intros K; repeat (destruct K as [K|K]; [discriminate K|]); destruct K.
Qed.

(** A call to the actor itself returns Ok at once. Any other returns what the swarm answered,
    or that there is none, or panics if the swarm's task has ended; so Ok is the other node's. *)
Theorem C51_result : forall c es w t i r k, wexec (winit c) es = Some (w, t) -> In (Returned i r) t ->
  nth_error (w_calls w) i = Some k -> returns (c_op k) (c_self k) (polls i es) r.
Proof. exact call_returns. Qed.
Print Assumptions C51_result.

Example C51_result_case : wruns plain ex_link_unlink (fun w t =>
  In (Returned 0 Done) t /\ nth_error (w_calls w) 0 = Some (mk_call Link 7 false (Finished Done))
  /\ polls 0 ex_link_unlink = [(Running, Done); (Running, Done); (Running, Done); (Running, Done)]
  /\ polls 1 ex_link_unlink = [(Running, Done); (Running, Done); (Running, Refused 3)]).
Proof. unfold wruns. vm_compute. split; [auto 20|]. split; [reflexivity|]. split; reflexivity. Qed.

(** A call that is dropped is not carried on and never returns, and one that has returned
    does nothing more. *)
Theorem C51_dropped : forall c es1 i es2 w t, wexec (winit c) (es1 ++ Drop i :: es2) = Some (w, t) ->
  (forall sw a, ~ In (Poll i sw a) es2) /\ forall r, ~ In (Returned i r) t.
Proof. exact dropped_call. Qed.
Print Assumptions C51_dropped.

Theorem C51_once : forall c es1 i es2 w1 t1 w t r, wexec (winit c) es1 = Some (w1, t1) -> In (Returned i r) t1 ->
  wexec w1 es2 = Some (w, t) ->
  (forall sw a, ~ In (Poll i sw a) es2) /\ ~ In (Drop i) es2 /\ ~ In (Inserted i) t /\ forall r, ~ In (Returned i r) t.
Proof. exact returned_call. Qed.
Print Assumptions C51_once.

(** Dropped after the insertion; and a call that returned, followed by another. *)
Example C51_dropped_case :
  wruns plain (map Life started ++ [Call Link 7 false; Poll 0 Running Done; Drop 0; Call Link 7 false;
    Poll 1 Running Done; Poll 1 Running Done; Poll 1 NoSwarm Done]) (fun w t =>
    In (Inserted 0) t /\ In (Inserted 1) t /\ In (Returned 1 NotBootstrapped) t)
  /\ wruns plain (ex_failed_link ++ [Life EAcquire; Call Unlink 7 false; Poll 1 NoSwarm Done; Poll 1 NoSwarm Done])
    (fun w t => In (Returned 0 NotBootstrapped) t /\ In (Returned 1 NotBootstrapped) t).
Proof. unfold wruns. vm_compute. auto 40. Qed.

(** What the swarm answers changes neither the links nor the table ... *)
Theorem C51_answer_nothing : forall w i sw a w' o c, nth_error (w_calls w) i = Some c ->
  (c_at c = AtSwarm \/ c_at c = AtAnswer) -> wstep w (Poll i sw a) = Some (w', o) ->
  w_actor w' = w_actor w.
Proof. exact answer_nothing. Qed.
Print Assumptions C51_answer_nothing.

(** ... and the link is recorded before that. *)
Theorem C51_linked_locally : forall w i sw a w' o c, nth_error (w_calls w) i = Some c ->
  c_at c = AtLinks -> wstep w (Poll i sw a) = Some (w', o) ->
  In (c_sibling c) (links (w_actor w')).
Proof. exact linked_locally. Qed.
Print Assumptions C51_linked_locally.

(** A failed link_remote leaves the link and the reference behind: the error does not
    mean that nothing happened. *)
Theorem C51_failed_link_refuted : exists c es w t, wexec (winit c) es = Some (w, t)
  /\ In (Returned 0 NotBootstrapped) t /\ ext (w_actor w) = 0
  /\ In 7 (links (w_actor w)) /\ in_table w /\ step (w_actor w) ARecv = None.
Proof.
  exists plain, ex_failed_link. eexists. eexists. split; [vm_compute; reflexivity|].
  split; [vm_compute; auto 20|]. split; [reflexivity|]. split; [left; reflexivity|]. split; reflexivity.
Qed.
Print Assumptions C51_failed_link_refuted.

(** A reference that is in the table when the actor's task has ended, because it was
    inserted afterwards or because a hook crashed the task, is never removed. *)
Theorem C51_kept_forever : forall w es w' t, ended (ph (w_actor w)) = true -> in_table w ->
  wexec w es = Some (w', t) -> in_table w' /\ referenced w'.
Proof. exact kept_forever. Qed.
Print Assumptions C51_kept_forever.

Example C51_late_case : wruns plain ex_late (fun w t =>
  ended (ph (w_actor w)) = true /\ in_reg (w_actor w) = true /\ ext (w_actor w) = 0
  /\ strong (w_actor w) = 1).
Proof. unfold wruns. vm_compute. auto. Qed.
