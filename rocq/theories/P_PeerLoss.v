(** Properties of the signals sent when a peer is lost (C50). *)
From Coq Require Import List Bool NArith PeanoNat Permutation.
From Verif Require Import ActorId ActorId_examples PeerLoss PeerLoss_spec PeerLoss_proofs PeerLoss_examples.
From Verif Require Swarm Swarm_proofs Swarm_examples.
Import ListNotations.

(** ** C50 *)

(** A task that has ended has visited every actor of the table once and told it of each
    of its links on the peer, and of nothing else. *)
Theorem C50_exact : forall (P : peers) (me : peer P) es n t i,
  exec me fresh es = Some (n, t) -> In (OEnd i) t ->
  exists p actors, nth_error (n_tasks n) i = Some (mk_task p Ended)
    /\ In (OTable i actors) t /\ Permutation (map fst (visited i t)) actors
    /\ one_per_link me p (visited i t) (told i t).
Proof. exact exact. Qed.
Print Assumptions C50_exact.

(** Seen from the moment the connection closes: an actor that is and stays in the table
    and a link on that peer that is and stays there lead to a link death. *)
Theorem C50_told : forall (P : peers) (me : peer P) es1 n1 t1 p left es2 n2 t2 a x,
  exec me fresh es1 = Some (n1, t1) -> exec me n1 (Closed p left :: es2) = Some (n2, t2) ->
  In (OEnd (length (n_tasks n1))) t2 ->
  In a (n_table n1) -> ~ In (Remove a) es2 ->
  In x (n_links n1 a) -> (forall l, In (Relink a l) es2 -> In x l) ->
  lives_on me p x -> In (a, x) (told (length (n_tasks n1)) t2).
Proof. exact link_told. Qed.
Print Assumptions C50_told.

(** No other link death is sent, not even before the task ends. *)
Theorem C50_only_affected : forall (P : peers) (me : peer P) es1 n1 t1 p left es2 n2 t2 a x,
  exec me fresh es1 = Some (n1, t1) -> exec me n1 (Closed p left :: es2) = Some (n2, t2) ->
  In (a, x) (told (length (n_tasks n1)) t2) ->
  lives_on me p x /\ (In a (n_table n1) \/ In (Insert a) es2)
  /\ (In x (n_links n1 a) \/ exists l, In (Relink a l) es2 /\ In x l).
Proof. exact told_affected. Qed.
Print Assumptions C50_only_affected.

(** Link maps have each key once; then a task sends no link death twice. *)
Theorem C50_once : forall (P : peers) (me : peer P) es n t i, exec me fresh es = Some (n, t) ->
  (forall a l, In (Relink a l) es -> NoDup l) -> NoDup (told i t).
Proof. exact told_once. Qed.
Print Assumptions C50_once.

(** Nobody is told while the task still holds the table's lock. *)
Theorem C50_table_free : forall (P : peers) (me : peer P) es n0 n t1 i a x ok t2,
  exec me n0 es = Some (n, t1 ++ OTold i a x ok :: t2) -> visited i t2 = [].
Proof. exact free_before. Qed.
Print Assumptions C50_table_free.

(** While a task holds the lock of the table, and only then, no actor can be put into the table
    or taken out of it, and no other task gets at it. *)
Theorem C50_exclusive : forall (P : peers) (me : peer P) es n t e, exec me fresh es = Some (n, t) ->
  (exists a, e = Insert a \/ e = Remove a)
  \/ (exists i p, e = Lock i /\ nth_error (n_tasks n) i = Some (mk_task p AtTable)) ->
  (step me n e <> None <-> forall i, ~ holding i es).
Proof. exact table_lock. Qed.
Print Assumptions C50_exclusive.

Example C50_exclusive_case :
  (exists n t, exec pl_me fresh [Insert 4; Closed pl_gone 1; Closed pl_gone 0; Lock 1] = Some (n, t)
   /\ step pl_me n (Insert 5) = None /\ step pl_me n (Lock 0) = None)
  /\ exists n t, exec pl_me fresh [Insert 4; Closed pl_gone 1; Closed pl_gone 0; Lock 1; Read 1 4; Leave 1] = Some (n, t)
   /\ step pl_me n (Insert 5) <> None /\ step pl_me n (Lock 0) <> None.
Proof.
  split.
  - destruct (pl_then [Insert 4; Closed pl_gone 1; Closed pl_gone 0; Lock 1]
      (fun n => pl_blocked n (Insert 5) && pl_blocked n (Lock 0))%bool) as (n & t & E & F); [by_vm|].
    apply Bool.andb_true_iff in F. exists n, t.
    split; [exact E|]. split; apply pl_blocked_none; apply F.
  - destruct (pl_then [Insert 4; Closed pl_gone 1; Closed pl_gone 0; Lock 1; Read 1 4; Leave 1]
      (fun n => negb (pl_blocked n (Insert 5)) && negb (pl_blocked n (Lock 0)))%bool) as (n & t & E & F); [by_vm|].
    apply Bool.andb_true_iff in F. exists n, t.
    split; [exact E|]. split; apply pl_free_some; apply Bool.negb_true_iff; apply F.
Qed.

(** The tasks can always run to their ends without help. *)
Theorem C50_ends : forall (P : peers) (me : peer P) n,
  exists es n' t, forallb of_task es = true /\ exec me n es = Some (n', t)
  /\ Forall (fun k => t_state k = Ended) (n_tasks n').
Proof. exact all_end. Qed.
Print Assumptions C50_ends.

Example C50_case : exists n1 t1 n2 t2,
  exec pl_me fresh pl_before = Some (n1, t1)
  /\ exec pl_me n1 (Closed pl_gone 3 :: pl_task) = Some (n2, t2)
  /\ In (OEnd (length (n_tasks n1))) t2
  /\ In 4 (n_table n1) /\ In (pl_far 1) (n_links n1 4) /\ lives_on pl_me pl_gone (pl_far 1)
  /\ ~ lives_on pl_me pl_gone (pl_near 2)
  /\ told 0 t2 = [(5, pl_far 9); (4, pl_far 1); (4, pl_far 3)]
  /\ visited 0 t2 = [(4, [pl_far 1; pl_near 2; pl_far 3]); (5, [pl_near 1; pl_far 9])].
Proof.
  exists (fst pl_r1), (snd pl_r1), (fst pl_r2), (snd pl_r2).
  split; [apply pl_some; by_vm|]. split; [apply pl_some; by_vm|].
  split; [apply pl_in with (k := 6); by_vm|].
  split; [apply pl_in with (k := 1); by_vm|].
  split; [apply pl_in with (k := 0); by_vm|].
  split; [reflexivity|]. split; [intros E; vm_compute in E; discriminate E|].
  split; by_vm.
Qed.

(** Every closed connection starts such a task, however many others to the same peer
    remain, and nothing else does. *)
Theorem C50_any_connection : forall T me h p left, Swarm.h_alive h = true ->
  Swarm.step me h (Swarm.ENet (Swarm.NClosed p left)) = (h, [Swarm.OPeerLost (T:=T) p]).
Proof. exact Swarm_proofs.closed_starts. Qed.
Print Assumptions C50_any_connection.

Theorem C50_only_closed : forall T me h e h' o p, Swarm.step me h e = (h', o) ->
  In (Swarm.OPeerLost (T:=T) p) o -> exists left, e = Swarm.ENet (Swarm.NClosed p left).
Proof. exact Swarm_proofs.only_closed_starts. Qed.
Print Assumptions C50_only_closed.

Example C50_connection_case :
  snd (Swarm.step Swarm_examples.sw_a (Swarm.handler_new (T:=Swarm_examples.sw_types)) (Swarm.ENet (Swarm.NClosed Swarm_examples.sw_b 1)))
  = [Swarm.OPeerLost Swarm_examples.sw_b].
Proof. reflexivity. Qed.

(** So the same links are reported dead again by the next connection that closes: once
    per connection, not once per lost peer. *)
Theorem C50_twice_refuted : exists es n t,
  exec pl_me fresh es = Some (n, t) /\ In (OEnd 0) t /\ In (OEnd 1) t
  /\ (forall a l, In (Relink a l) es -> NoDup l)
  /\ In (4, pl_far 1) (told 0 t) /\ In (4, pl_far 1) (told 1 t).
Proof.
  exists pl_long, (fst pl_r3), (snd pl_r3).
  split; [apply pl_some; by_vm|]. split; [apply pl_in with (k := 6); by_vm|].
  split; [apply pl_in with (k := 15); by_vm|].
  split.
  - intros a l I. unfold pl_long, pl_before, pl_task, pl_again in I. cbn [app] in I.
    repeat (destruct I as [I|I]; [try discriminate I; injection I as <- <-;
      repeat (constructor; [intros J; cbn in J; intuition discriminate|]); constructor|]).
    destruct I.
  - split; [apply pl_in with (k := 1)|apply pl_in with (k := 2)]; by_vm.
Qed.
Print Assumptions C50_twice_refuted.
