(** Property theorems about concurrent link operations (C35, and C31 for calls that
    overlap): every run of LinkLocks.v, that is every interleaving of any number of
    calls. *)
From Coq Require Import List Bool PeanoNat.
From Verif Require Import LinkLocks LinkLocks_spec LinkLocks_proofs LinkLocks_examples.
Import ListNotations.

(** * C35: do the calls complete *)

(** Each call does at most six steps, so calls that do not complete are blocked. *)
Theorem C35_few_steps : forall es s t c, lrun linit es = Some (s, t) ->
  length (filter (step_of c) es) <= 6.
Proof. exact at_most_six. Qed.
Print Assumptions C35_few_steps.

(** Blocking calls that take the two locks in one global order, along with any number of
    operations on one lock: when nothing moves any more, all calls have returned. *)
Theorem C35_ordered : forall rank es s t, lrun linit es = Some (s, t) -> at_rest s ->
  (forall c o, In (OCall c o) t -> in_rank_order rank o) -> all_returned t.
Proof. exact ordered_no_deadlock. Qed.
Print Assumptions C35_ordered.

Example C35_ordered_case : exists s, lrun linit ex_ranked = Some (s, tr_ranked)
  /\ at_rest s /\ (forall c o, In (OCall c o) tr_ranked -> in_rank_order (fun a => a) o)
  /\ In (OReturn 2) tr_ranked.
Proof.
  destruct (run_ok ex_ranked tr_ranked (fun s => forall c,
    match call s c with None => True | Some k => want k = [] /\ towrite k = [] /\ asked k = [] end))
    as (s & H & K); [vm_compute; split; [reflexivity|]; intros [|[|[|c]]]; auto|].
  exists s. split; [exact H|]. split; [apply all_done_rest; exact K|]. split.
  - intros c o I. cbn in I. repeat (destruct I as [I|I]; [inversion I; subst; cbn; auto|]); contradiction.
  - cbn. tauto.
Qed.

(** Async calls whose two lock requests are made with nothing in between (one thread). *)
Theorem C35_one_go : forall es s t, lrun linit es = Some (s, t) -> at_rest s ->
  (forall c, ~ In (LRequest c) es) -> all_returned t.
Proof. exact atomic_no_deadlock. Qed.
Print Assumptions C35_one_go.

Example C35_one_go_case : exists s, lrun linit ex_one_go = Some (s, tr_one_go)
  /\ at_rest s /\ (forall c, ~ In (LRequest c) ex_one_go) /\ In (OReturn 2) tr_one_go
  /\ length (filter (step_of 0) ex_one_go) = 5.
Proof.
  destruct (run_ok ex_one_go tr_one_go (fun s => forall c,
    match call s c with None => True | Some k => want k = [] /\ towrite k = [] /\ asked k = [] end))
    as (s & H & K); [vm_compute; split; [reflexivity|]; intros [|[|[|c]]]; auto|].
  exists s. split; [exact H|]. split; [apply all_done_rest; exact K|]. split; [|split; [cbn; tauto|reflexivity]].
  intros c I. cbn in I. repeat (destruct I as [I|I]; [discriminate|]); contradiction.
Qed.

(** Otherwise not. Blocking calls in opposite directions can wait for each other; so can
    two async calls [a.link(&b)] in the same direction, because [join!] requests the second
    lock when the first is taken. No operation on either of the actors ever completes
    afterwards, including the drain with which they end. *)
Theorem C35_opposite_refuted : forall a b, a <> b -> exists es s t,
  lrun linit es = Some (s, t)
  /\ t = [OCall 0 (OpBlockingLink a b); OCall 1 (OpBlockingLink b a)] /\ dead_for_ever s 0 1 a b.
Proof. exact opposite_dead. Qed.
Print Assumptions C35_opposite_refuted.

Theorem C35_same_direction_refuted : forall a b, a <> b -> exists es s t,
  lrun linit es = Some (s, t)
  /\ t = [OCall 0 (OpLink a b); OCall 1 (OpLink a b)] /\ dead_for_ever s 0 1 a b.
Proof. exact two_links_dead. Qed.
Print Assumptions C35_same_direction_refuted.

(** An actor shuts down in such a state: its drain asks for the lock. *)
Example C35_dead_case : exists s, lrun linit ex_dead = Some (s, tr_dead)
  /\ In (OCall 2 (OpDrain 1)) tr_dead /\ at_rest s /\ forall c, ~ In (OReturn c) tr_dead.
Proof.
  destruct (run_ok ex_dead tr_dead at_rest)
    as (s & H & K); [vm_compute; split; [reflexivity|]; intros [|[|[|c]]]; auto|].
  exists s. split; [exact H|]. split; [cbn; tauto|]. split; [exact K|].
  intros c I. cbn in I. repeat (destruct I as [I|I]; [discriminate|]); contradiction.
Qed.

(** * C31 for overlapping calls *)

(** Some order of the calls that wrote, which respects the order of calls that do not
    overlap, explains everything the calls found in the maps, and, when no call is under
    way, what is in the maps. *)
Theorem C31_linearizable : forall es s t, lrun linit es = Some (s, t) ->
  exists os, explains os t
    /\ (writers_returned t -> forall l x, In x (map_of s l) <-> linked (rev (map snd os)) l x).
Proof. exact linearizable. Qed.
Print Assumptions C31_linearizable.

Example C31_linearizable_case : exists s, lrun linit ex_mixed = Some (s, tr_mixed)
  /\ map (map_of s) [1; 2; 3] = [[]; [1]; [4]]
  /\ In (OWrite 2 1 [2]) tr_mixed /\ writers_returned tr_mixed.
Proof.
  destruct (run_ok ex_mixed tr_mixed (fun s => map (map_of s) [1; 2; 3] = [[]; [1]; [4]]))
    as (s & H & K); [vm_compute; auto|].
  exists s. split; [exact H|]. split; [exact K|]. split; [cbn; tauto|].
  intros c (l & m & I). cbn in I. repeat (destruct I as [I|I]; [inversion I; subst; cbn; tauto|]). contradiction.
Qed.
