(** Property theorems about linked actors (C31-C34, C36, C52): every run of the system of
    System.v. *)
From Coq Require Import List Bool PeanoNat Relations.
From Verif Require Import System System_spec System_proofs System_link_proofs System_examples.
Import ListNotations.

(** * C31: the link relation *)

(** [b] is in the link map of [a] exactly if they were linked and nothing ended that. *)
Theorem C31_links_exact : forall es s t a b, srun sinit es = Some (s, t) ->
  In b (links (s a)) <-> linked_after t a b.
Proof. exact links_exact. Qed.
Print Assumptions C31_links_exact.

(** Before either of the two leaves its loop: exactly if the last call was a link. *)
Theorem C31_last_call : forall es s t a b, srun sinit es = Some (s, t) ->
  (forall r, ~ In (OLeft a r) t) -> (forall r, ~ In (OLeft b r) t) ->
  In b (links (s a)) <-> last_call_links t a b.
Proof. exact linked_by_calls. Qed.
Print Assumptions C31_last_call.

Theorem C31_symmetric : forall es s t a b, srun sinit es = Some (s, t) ->
  (forall r, ~ In (OLeft a r) t) -> (forall r, ~ In (OLeft b r) t) ->
  In b (links (s a)) <-> In a (links (s b)).
Proof. exact links_symmetric. Qed.
Print Assumptions C31_symmetric.

Theorem C31_irreflexive : forall es s t a, srun sinit es = Some (s, t) ->
  NoDup (links (s a)) /\ ~ In a (links (s a)).
Proof. exact links_shape. Qed.
Print Assumptions C31_irreflexive.

Theorem C31_self : forall s a s' o,
  sstep s (ELink a a) = Some (s', o) \/ sstep s (EUnlink a a) = Some (s', o) -> s' = s /\ o = [].
Proof. exact self_link_nothing. Qed.
Print Assumptions C31_self.

(** Linking or unlinking again, from either end, changes nothing. *)
Theorem C31_link_idempotent : forall s a b s1 o1 x y,
  sstep s (ELink a b) = Some (s1, o1) -> same_pair a b x y ->
  exists s2 o2, sstep s1 (ELink x y) = Some (s2, o2) /\ forall c, s2 c = s1 c.
Proof. exact link_again. Qed.
Print Assumptions C31_link_idempotent.

Theorem C31_unlink_idempotent : forall s a b s1 o1 x y,
  sstep s (EUnlink a b) = Some (s1, o1) -> same_pair a b x y ->
  exists s2 o2, sstep s1 (EUnlink x y) = Some (s2, o2) /\ forall c, s2 c = s1 c.
Proof. exact unlink_again. Qed.
Print Assumptions C31_unlink_idempotent.

Example C31_case : exists s, srun sinit ex_links = Some (s, tr_links)
  /\ map (fun a => links (s a)) [0; 1; 2] = [[1]; [0]; []]
  /\ (forall a r, ~ In (OLeft a r) tr_links).
Proof.
  destruct (run_ok ex_links tr_links (fun s => map (fun a => links (s a)) [0; 1; 2] = [[1]; [0]; []]))
    as (s & H & K); [vm_compute; auto|].
  exists s. split; [exact H|]. split; [exact K|]. not_there.
Qed.
Example C31_again_case : exists s s1 o1,
  srun sinit (boot None 0 ++ boot None 1) = Some (s, trace_of (boot None 0 ++ boot None 1))
  /\ sstep s (ELink 0 1) = Some (s1, o1) /\ same_pair 0 1 1 0.
Proof.
  destruct (run_ok (boot None 0 ++ boot None 1) (trace_of (boot None 0 ++ boot None 1))
    (fun s => match sstep s (ELink 0 1) with Some _ => True | None => False end))
    as (s & H & K); [vm_compute; auto|].
  destruct (sstep s (ELink 0 1)) as [[s1 o1]|] eqn:E; [|contradiction].
  exists s, s1, o1. unfold same_pair. auto.
Qed.

(** Unlinking does not call back a report that is in the mailbox: it is still acted
    upon, here by stopping. *)
Theorem C31_unlink_recalls_report_refuted : exists es s t t1 t2,
  srun sinit es = Some (s, t) /\ t = t1 ++ OUnlink 0 1 :: t2
  /\ In (OHandled 0 (SLinkDied 1 RKilled) (VLeave (RLinkDied 1 RKilled))) t2
  /\ ~ In (OLink 0 1) t2 /\ ~ In (OLink 1 0) t2.
Proof. exact report_not_recalled. Qed.
Print Assumptions C31_unlink_recalls_report_refuted.

(** * C32: who is told of an actor's end *)

(** The links an actor takes down when it has left its loop are those it has then. *)
Theorem C32_whom : forall es s t t1 a r l t2, srun sinit es = Some (s, t) ->
  t = t1 ++ ODrained a r l :: t2 -> NoDup l /\ forall b, In b l <-> linked_after t1 a b.
Proof. exact drained_exact. Qed.
Print Assumptions C32_whom.

Theorem C32_at_most_once : forall es s t a b, srun sinit es = Some (s, t) ->
  length (reports a b t) <= 1.
Proof. exact at_most_once. Qed.
Print Assumptions C32_at_most_once.

(** A report goes to one of them, says why the actor stopped, and is sent before the
    actor counts as stopped. *)
Theorem C32_report : forall es s t t1 t2 a b r, srun sinit es = Some (s, t) ->
  t = t1 ++ OPush b (SLinkDied a r) :: t2 ->
  (exists l, In (ODrained a r l) t1 /\ In b l) /\ ~ In (OClosed a) t1 /\ ~ In (OClosed b) t1.
Proof. exact report_reason. Qed.
Print Assumptions C32_report.

(** When the actor has ended, each of them has been told, unless it has ended itself or
    nobody refers to it. *)
Theorem C32_all_told : forall es s t a b r l, srun sinit es = Some (s, t) ->
  In (ODrained a r l) t -> In (OClosed a) t -> ph (s a) <> Crashed -> In b l ->
  ~ In (OClosed b) t -> refd (s b) = true ->
  reports a b t = [r].
Proof. exact all_told. Qed.
Print Assumptions C32_all_told.

(** The same, from the point of view of a link that was made in time and kept. *)
Theorem C32_link_told : forall es s t a b r, srun sinit es = Some (s, t) ->
  linked_for_good t a b -> In (OLeft a r) t -> In (OClosed a) t -> ph (s a) <> Crashed ->
  ph (s b) = Running -> refd (s b) = true ->
  reports a b t = [r].
Proof. exact good_link_told. Qed.
Print Assumptions C32_link_told.

(** An actor that is still starting is told whether or not anybody refers to it. *)
Theorem C32_starting_told : forall es s t a b r l, srun sinit es = Some (s, t) ->
  In (ODrained a r l) t -> In (OClosed a) t -> ph (s a) <> Crashed -> In b l ->
  (forall ok, ~ In (OStarted b ok) t) ->
  reports a b t = [r].
Proof. exact starting_told. Qed.
Print Assumptions C32_starting_told.

Example C32_starting_told_case : exists s, srun sinit ex_told_starting = Some (s, tr_told_starting)
  /\ (ph (s 1) = Done RKilled /\ ph (s 0) = Starting /\ refd (s 0) = false)
  /\ In (ODrained 1 RKilled [0]) tr_told_starting /\ In (OClosed 1) tr_told_starting
  /\ (forall ok, ~ In (OStarted 0 ok) tr_told_starting) /\ reports 1 0 tr_told_starting = [RKilled].
Proof.
  destruct (run_ok ex_told_starting tr_told_starting (fun s => ph (s 1) = Done RKilled /\ ph (s 0) = Starting
      /\ refd (s 0) = false)) as (s & H & K); [vm_compute; auto 10|].
  exists s. split; [exact H|]. split; [exact K|]. do 2 (split; [cbn; tauto|]). split; [not_there|]. reflexivity.
Qed.

(** Reports wait their turn behind what was in the mailbox before. *)
Theorem C32_in_order : forall es s t b, srun sinit es = Some (s, t) ->
  exists rest, pushed b t = taken b t ++ rest /\ (open (s b) = true -> rest = queue (s b)).
Proof. exact in_order. Qed.
Print Assumptions C32_in_order.

Example C32_case : exists s, srun sinit ex_told = Some (s, tr_told)
  /\ (ph (s 1) = Done RKilled /\ ph (s 0) = Running /\ refd (s 0) = true
      /\ queue (s 0) = [SLinkDied 1 RKilled])
  /\ In (ODrained 1 RKilled [0]) tr_told /\ In (OClosed 1) tr_told /\ In (OLeft 1 RKilled) tr_told
  /\ ~ In (OClosed 0) tr_told /\ linked_for_good tr_told 1 0
  /\ reports 1 0 tr_told = [RKilled] /\ reports 1 2 tr_told = [] /\ taken 0 tr_told = [SStartup].
Proof.
  destruct (run_ok ex_told tr_told (fun s => ph (s 1) = Done RKilled /\ ph (s 0) = Running
      /\ refd (s 0) = true /\ queue (s 0) = [SLinkDied 1 RKilled]))
    as (s & H & K); [vm_compute; auto 10|].
  exists s. split; [exact H|]. split; [exact K|]. do 3 (split; [cbn; tauto|]). split; [not_there|]. split.
  { exists [OStarted 0 true; OPush 0 SStartup; OHandled 0 SStartup VContinue;
            OStarted 1 true; OPush 1 SStartup; OHandled 1 SStartup VContinue;
            OStarted 2 true; OPush 2 SStartup; OHandled 2 SStartup VContinue], (OLink 0 1).
    eexists. split; [reflexivity|]. split; [right; reflexivity|]. do 3 (split; [not_there|]). not_there. }
  repeat split; reflexivity.
Qed.

(** Not told: whoever links to an actor that has taken down its links already. *)
Theorem C32_late_link : forall es s t a b r l, srun sinit es = Some (s, t) ->
  In (ODrained a r l) t -> ~ In b l -> forall q, ~ In (OPush b (SLinkDied a q)) t.
Proof. exact late_link. Qed.
Print Assumptions C32_late_link.

Example C32_late_case : exists s, srun sinit ex_late = Some (s, tr_late)
  /\ (ph (s 1) = Done RKilled /\ links (s 0) = [1])
  /\ In (ODrained 1 RKilled []) tr_late /\ In (OLink 0 1) tr_late.
Proof.
  destruct (run_ok ex_late tr_late (fun s => ph (s 1) = Done RKilled /\ links (s 0) = [1]))
    as (s & H & K); [vm_compute; auto|].
  exists s. split; [exact H|]. split; [exact K|]. cbn; tauto.
Qed.

(** So "every actor one is linked to reports its end" does not hold. *)
Theorem C32_every_link_told_refuted : exists es s t,
  srun sinit es = Some (s, t) /\ In 1 (links (s 0)) /\ In (OLeft 1 RKilled) t /\ ph (s 1) = Done RKilled
  /\ ph (s 0) = Running /\ refd (s 0) = true
  /\ forall es' s' t' q, srun s es' = Some (s', t') -> ~ In (OPush 0 (SLinkDied 1 q)) (t ++ t').
Proof. exact late_link_forever. Qed.
Print Assumptions C32_every_link_told_refuted.

(** * C33: an actor whose [on_start] fails *)

Theorem C33_tells_nobody : forall es s t a b r, srun sinit es = Some (s, t) ->
  In (OStarted a false) t -> ~ In (OPush b (SLinkDied a r)) t.
Proof. exact failed_start_silent. Qed.
Print Assumptions C33_tells_nobody.

(** Whoever is linked to it keeps the link. *)
Theorem C33_stale_link : forall es s t a b, srun sinit es = Some (s, t) ->
  In (OStarted a false) t -> last_call_links t b a -> (forall r, ~ In (OLeft b r) t) ->
  In a (links (s b)).
Proof. exact stale_link. Qed.
Print Assumptions C33_stale_link.

Example C33_case : exists s, srun sinit ex_failed = Some (s, tr_failed)
  /\ (ph (s 1) = Done RPanicked /\ ph (s 0) = Running /\ queue (s 0) = [] /\ links (s 0) = [1])
  /\ In (OStarted 1 false) tr_failed /\ last_call_links tr_failed 0 1
  /\ (forall r, ~ In (OLeft 0 r) tr_failed).
Proof.
  destruct (run_ok ex_failed tr_failed (fun s => ph (s 1) = Done RPanicked /\ ph (s 0) = Running
      /\ queue (s 0) = [] /\ links (s 0) = [1])) as (s & H & K); [vm_compute; auto 10|].
  exists s. split; [exact H|]. split; [exact K|]. split; [cbn; tauto|]. split; [|not_there].
  exists [OStarted 0 true; OPush 0 SStartup; OHandled 0 SStartup VContinue], (OLink 1 0).
  eexists. split; [reflexivity|]. split; [right; reflexivity|]. split; not_there.
Qed.

(** * C34: the default reaction *)

Theorem C34_default_policy : forall es s t a x r v, srun sinit es = Some (s, t) ->
  In (OHandled a (SLinkDied x r) v) t -> dflt (s a) = true ->
  documented_policy x r v /\ In (OLeft x r) t
  /\ (r <> RNormal -> r <> RPeerDisconnected -> In (OLeft a (RLinkDied x r)) t).
Proof. exact default_policy. Qed.
Print Assumptions C34_default_policy.

(** An abnormal end takes down everything connected to it, once nothing more can happen,
    if all those actors keep the default reaction, have started, and none of them ends
    normally or panics in a hook. *)
Theorem C34_component : forall es s t a, srun sinit es = Some (s, t) -> settled s ->
  (forall x, connected t a x ->
     dflt (s x) = true /\ In (OStarted x true) t /\ ph (s x) <> Crashed /\ ~ In (OLeft x RNormal) t) ->
  (exists r, In (OLeft a r) t) ->
  forall x, connected t a x -> exists r, In (OLeft x r) t.
Proof. exact component_dies. Qed.
Print Assumptions C34_component.

(** Refuted: that a panic in [on_stop] of an actor in between does not matter: nobody is told of it. *)
Theorem C34_hook_panic_refuted : exists es s t, srun sinit es = Some (s, t) /\ settled s /\ connected t 1 2
  /\ (forall x, x < 3 -> dflt (s x) = true /\ In (OStarted x true) t)
  /\ (forall a b, In (OLink a b) t -> a < 3 /\ b < 3) /\ (forall x, ~ In (OLeft x RNormal) t)
  /\ In (OLeft 1 RKilled) t /\ ph (s 0) = Crashed /\ ph (s 2) = Running /\ forall r, ~ In (OLeft 2 r) t.
Proof. exact chain_panic. Qed.
Print Assumptions C34_hook_panic_refuted.

(** Refuted: that an actor in between may have ended normally before. *)
Theorem C34_normal_refuted : exists es s t, srun sinit es = Some (s, t) /\ settled s /\ connected t 1 2
  /\ (forall x, x < 3 -> dflt (s x) = true /\ In (OStarted x true) t /\ ph (s x) <> Crashed)
  /\ (forall a b, In (OLink a b) t -> a < 3 /\ b < 3)
  /\ In (OLeft 1 RKilled) t /\ ph (s 0) = Done RNormal /\ ph (s 2) = Running /\ forall r, ~ In (OLeft 2 r) t.
Proof. exact chain_normal. Qed.
Print Assumptions C34_normal_refuted.

Example C34_case : exists s, srun sinit ex_chain = Some (s, tr_chain)
  /\ settled s
  /\ (dflt (s 0) = true /\ dflt (s 1) = true /\ dflt (s 2) = true)
  /\ (ph (s 0) <> Crashed /\ ph (s 1) <> Crashed /\ ph (s 2) <> Crashed)
  /\ (forall x, x < 3 -> In (OStarted x true) tr_chain /\ ~ In (OLeft x RNormal) tr_chain)
  /\ In (OHandled 0 (SLinkDied 1 RKilled) (VLeave (RLinkDied 1 RKilled))) tr_chain
  /\ connected tr_chain 1 2
  /\ In (OLeft 2 (RLinkDied 0 (RLinkDied 1 RKilled))) tr_chain.
Proof.
  destruct (run_ok ex_chain tr_chain (fun s =>
      (quiet (s 0) = true /\ quiet (s 1) = true /\ quiet (s 2) = true)
      /\ (dflt (s 0) = true /\ dflt (s 1) = true /\ dflt (s 2) = true)
      /\ (ph (s 0) = Done (RLinkDied 1 RKilled) /\ ph (s 1) = Done RKilled
          /\ ph (s 2) = Done (RLinkDied 0 (RLinkDied 1 RKilled)))))
    as (s & H & (Q0 & Q1 & Q2) & D & P0 & P1 & P2); [vm_compute; auto 10|].
  exists s. split; [exact H|]. split.
  { apply quiet_settled. intro a. do 3 (destruct a; [assumption|]).
    destruct (untouched _ _ _ _ (S (S (S a))) H) as [U _]; [reflexivity|reflexivity|].
    unfold quiet. rewrite U. reflexivity. }
  split; [exact D|]. split; [rewrite P0, P1, P2; repeat split; discriminate|]. split.
  { intros x L. assert (X : x = 0 \/ x = 1 \/ x = 2).
    { clear - L. do 3 (destruct x; [auto|]). exfalso. do 3 apply Nat.succ_lt_mono in L. inversion L. }
    destruct X as [ -> | [ -> | -> ] ]; (split; [cbn; tauto|]); not_there. }
  split; [cbn; tauto|]. split; [|cbn; tauto].
  apply Relation_Operators.rt1n_trans with (y := 0); [|apply Relation_Operators.rt1n_trans with (y := 2); [|apply rt1n_refl]].
  - exists [OStarted 0 true; OPush 0 SStartup; OHandled 0 SStartup VContinue;
            OStarted 1 true; OPush 1 SStartup; OHandled 1 SStartup VContinue;
            OStarted 2 true; OPush 2 SStartup; OHandled 2 SStartup VContinue], (OLink 0 1).
    eexists. split; [reflexivity|]. split; [right; reflexivity|]. do 3 (split; [not_there|]). not_there.
  - exists [OStarted 0 true; OPush 0 SStartup; OHandled 0 SStartup VContinue;
            OStarted 1 true; OPush 1 SStartup; OHandled 1 SStartup VContinue;
            OStarted 2 true; OPush 2 SStartup; OHandled 2 SStartup VContinue; OLink 0 1], (OLink 2 0).
    eexists. split; [reflexivity|]. split; [right; reflexivity|]. do 3 (split; [not_there|]). not_there.
Qed.

(** * C36: an actor that has left its loop comes to an end *)

(** After taking down its links it needs at most two own steps and two per link. *)
Theorem C36_bounded : forall es s s' t a r l, ph (s a) = OnStop r l -> srun s es = Some (s', t) ->
  length (filter (own_exit_step a) es) <= 2 + 2 * length l.
Proof. exact bounded_exit. Qed.
Print Assumptions C36_bounded.

(** If nothing more can happen and it is not over, it waits for an actor with a full
    bounded mailbox that has not begun its loop or is in the same situation. *)
Theorem C36_waits_for : forall es s t a r p b, srun sinit es = Some (s, t) -> settled s ->
  ph (s a) = Notifying r p -> In b (map fst p) ->
  (exists c, cap (s b) = Some c /\ c <= length (queue (s b)))
  /\ (ph (s b) = Prepared \/ ph (s b) = Starting
      \/ exists r' p', ph (s b) = Notifying r' p' /\ p' <> []).
Proof. exact waits_for. Qed.
Print Assumptions C36_waits_for.

Theorem C36_unbounded : forall es s t a, srun sinit es = Some (s, t) -> settled s ->
  (forall b, cap (s b) = None) -> (exists r, In (OLeft a r) t) -> In (OClosed a) t.
Proof. exact unbounded_ends. Qed.
Print Assumptions C36_unbounded.

Example C36_case : exists s, srun sinit ex_chain = Some (s, tr_chain)
  /\ settled s /\ (forall b, cap (s b) = None) /\ In (OLeft 1 RKilled) tr_chain.
Proof.
  destruct (run_ok ex_chain tr_chain (fun s =>
      (quiet (s 0) = true /\ quiet (s 1) = true /\ quiet (s 2) = true)
      /\ (cap (s 0) = None /\ cap (s 1) = None /\ cap (s 2) = None)))
    as (s & H & (Q0 & Q1 & Q2) & C0 & C1 & C2); [vm_compute; auto 10|].
  assert (U : forall a, ph (s (S (S (S a)))) = Absent /\ cap (s (S (S (S a)))) = None)
    by (intro a; apply (untouched _ _ _ _ (S (S (S a))) H); reflexivity).
  exists s. split; [exact H|]. split; [|split; [|cbn; tauto]].
  - apply quiet_settled. intro a. do 3 (destruct a; [assumption|]). unfold quiet. rewrite (proj1 (U a)). reflexivity.
  - intro b. do 3 (destruct b; [assumption|]). apply U.
Qed.

Example C36_waits_case : exists s, srun sinit ex_deadlock = Some (s, tr_deadlock) /\ settled s
  /\ ph (s 0) = Notifying RKilled [(1, true)].
Proof. exact deadlock_settled. Qed.
Example C36_bounded_case : exists s s' t', srun sinit ex_onstop = Some (s, tr_onstop)
  /\ ph (s 1) = OnStop RKilled [0; 2]
  /\ srun s ex_ending = Some (s', t') /\ length (filter (own_exit_step 1) ex_ending) = 4.
Proof.
  destruct (run_ok ex_onstop tr_onstop (fun s => ph (s 1) = OnStop RKilled [0; 2]
      /\ match srun s ex_ending with Some _ => True | None => False end))
    as (s & H & K & E); [vm_compute; auto|].
  destruct (srun s ex_ending) as [[s' t']|] eqn:R; [|contradiction]. exists s, s', t'. do 3 (split; [assumption || reflexivity|]). reflexivity.
Qed.

(** Two linked actors with full bounded mailboxes wait for each other for ever. *)
Theorem C36_bounded_mailboxes_refuted : exists es s t, srun sinit es = Some (s, t)
  /\ In (OLeft 0 RKilled) t /\ In (OLeft 1 RKilled) t
  /\ forall es' s' t', srun s es' = Some (s', t') ->
     ~ In (OClosed 0) (t ++ t') /\ ~ In (OClosed 1) (t ++ t').
Proof. exact deadlock_reached. Qed.
Print Assumptions C36_bounded_mailboxes_refuted.

(** * C52: [spawn_link] *)

(** The link is made before the child's task runs. Whatever happens to either of them
    after that, the other one is told (once, with the reason), if it is running. *)
Theorem C52_no_gap : forall e1 e2 child parent s t, child <> parent ->
  srun sinit (e1 ++ ELink child parent :: e2) = Some (s, t) ->
  ~ In (ERun child) e1 -> ~ In (EDrain parent) e1 ->
  ~ In (EUnlink child parent) e2 -> ~ In (EUnlink parent child) e2 ->
  forall x y r, same_pair child parent x y ->
    In (OLeft x r) t -> In (OClosed x) t -> ph (s x) <> Crashed ->
    ph (s y) = Running -> refd (s y) = true -> reports x y t = [r].
Proof. exact spawn_link_told. Qed.
Print Assumptions C52_no_gap.

(** In particular for the three steps of [spawn_link], with anything in between. *)
Theorem C52_spawn_link : forall parent child c d x0 x1 x2 u0 u1 u2 u3 s t,
  spawn_link parent child c d = [x0; x1; x2] -> child <> parent ->
  srun sinit (u0 ++ x0 :: u1 ++ x1 :: u2 ++ x2 :: u3) = Some (s, t) ->
  ~ In (EDrain parent) (u0 ++ u1) ->
  ~ In (EUnlink child parent) (u2 ++ u3) -> ~ In (EUnlink parent child) (u2 ++ u3) ->
  forall x y r, same_pair child parent x y ->
    In (OLeft x r) t -> In (OClosed x) t -> ph (s x) <> Crashed ->
    ph (s y) = Running -> refd (s y) = true -> reports x y t = [r].
Proof. exact spawn_link_steps. Qed.
Print Assumptions C52_spawn_link.

Example C52_case : exists s,
  srun sinit (ex_spawn_pre ++ ELink 1 0 :: ex_spawn_post) = Some (s, tr_spawn)
  /\ ~ In (ERun 1) ex_spawn_pre /\ ~ In (EDrain 0) ex_spawn_pre
  /\ ~ In (EUnlink 1 0) ex_spawn_post /\ ~ In (EUnlink 0 1) ex_spawn_post
  /\ (ph (s 1) = Done RKilled /\ ph (s 0) = Running /\ refd (s 0) = true)
  /\ In (OLeft 1 RKilled) tr_spawn /\ In (OClosed 1) tr_spawn /\ reports 1 0 tr_spawn = [RKilled].
Proof.
  destruct (run_ok (ex_spawn_pre ++ ELink 1 0 :: ex_spawn_post) tr_spawn (fun s =>
      ph (s 1) = Done RKilled /\ ph (s 0) = Running /\ refd (s 0) = true))
    as (s & H & K); [vm_compute; auto|].
  exists s. split; [exact H|]. do 4 (split; [not_there|]). split; [exact K|].
  split; [cbn; tauto|]. split; [cbn; tauto|]. reflexivity.
Qed.
Example C52_spawn_case : exists x0 x1 x2 u3, spawn_link 0 1 None true = [x0; x1; x2]
  /\ ex_spawn_pre ++ ELink 1 0 :: ex_spawn_post = boot None 0 ++ x0 :: [] ++ x1 :: [] ++ x2 :: u3.
Proof. do 4 eexists. split; reflexivity. Qed.

(** Spawning first and linking afterwards does leave a gap: see
    [C32_every_link_told_refuted]. *)
