(** Concrete runs used beside the theorems of P_PeerLoss. *)
From Coq Require Import List NArith PeanoNat.
From Verif Require Import ActorId ActorId_examples PeerLoss PeerLoss_spec.
Import ListNotations.

Definition pl_me : peer ex_peers := ex_node_a.
Definition pl_gone : peer ex_peers := ex_node_b.
Definition pl_far (n : N) : actor_id ex_peers := id_with_peer ex_peers n ex_node_b.
Definition pl_near (n : N) : actor_id ex_peers := id_new ex_peers n.

(** Equality by the kernel's virtual machine. *)
Ltac by_vm := match goal with |- ?a = ?b => exact (eq_refl b <: a = b) end.

(** Actor 4 is linked to two actors of the peer and one of its own node, actor 5 to one
    actor of its own node, actor 6 is not in the table. *)
Definition pl_before : list (event ex_peers) :=
  [Insert 4; Insert 5; Relink 4 [pl_far 1; pl_near 2; pl_far 3]; Relink 5 [pl_near 1];
   Relink 6 [pl_far 1]].

(** The task of the closed connection; in between actor 5 is linked and the mailbox of
    actor 4 refuses. *)
Definition pl_task : list (event ex_peers) :=
  [Lock 0; Read 0 4; Relink 5 [pl_near 1; pl_far 9]; Read 0 5; Leave 0; Insert 6; Tell 0 2 true;
   Tell 0 0 false; Tell 0 0 true; Finish 0].

(** A second connection to the same peer closes. *)
Definition pl_again : list (event ex_peers) :=
  [Closed pl_gone 0; Lock 1; Read 1 6; Read 1 5; Read 1 4; Leave 1; Tell 1 0 true; Tell 1 0 true;
   Tell 1 0 true; Tell 1 0 true; Finish 1].

(** The outcome of a run that goes through. *)
Definition pl_get (o : option (node ex_peers * list (obs ex_peers))) : node ex_peers * list (obs ex_peers) :=
  match o with
  | Some r => r
  | None => (fresh, [])
  end.
Lemma pl_some : forall o, (match o with Some _ => true | None => false end) = true ->
  o = Some (fst (pl_get o), snd (pl_get o)).
Proof. intros [[n t]|] H; [reflexivity|discriminate]. Qed.

Definition pl_r1 := pl_get (exec pl_me fresh pl_before).
Definition pl_r2 := pl_get (exec pl_me (fst pl_r1) (Closed pl_gone 3 :: pl_task)).
Definition pl_long : list (event ex_peers) := pl_before ++ Closed pl_gone 1 :: pl_task ++ pl_again.
Definition pl_r3 := pl_get (exec pl_me fresh pl_long).
Lemma pl_in : forall A (l : list A) k x, nth_error l k = Some x -> In x l.
Proof. intros A l k x H. exact (nth_error_In l k H). Qed.
(** The run goes through and [f] holds where it ends. *)
Lemma pl_then : forall es (f : node ex_peers -> bool),
  match exec pl_me fresh es with Some (n, _) => f n | None => false end = true ->
  exists n t, exec pl_me fresh es = Some (n, t) /\ f n = true.
Proof. intros es f H. destruct (exec pl_me fresh es) as [[n t]|]; [exists n, t; auto|discriminate]. Qed.
Definition pl_blocked (n : node ex_peers) (e : event ex_peers) : bool :=
  match step pl_me n e with None => true | Some _ => false end.
Lemma pl_blocked_none : forall n e, pl_blocked n e = true -> step pl_me n e = None.
Proof. unfold pl_blocked. intros n e H. destruct (step pl_me n e); [discriminate|reflexivity]. Qed.
Lemma pl_free_some : forall n e, pl_blocked n e = false -> step pl_me n e <> None.
Proof. unfold pl_blocked. intros n e H. destruct (step pl_me n e); discriminate. Qed.
