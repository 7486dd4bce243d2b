(** Data for the examples beside the theorems about remote asks and tells across nodes. *)
From Coq Require Import String List Bool Arith NArith Init.Byte Strings.Byte.
From Verif Require Import ActorId ActorId_examples Errors Dyn Reply Requests Swarm Swarm_spec Cluster Cluster_spec RemoteCalls RemoteCalls_spec.
From Verif Require Import RemoteDispatch RemoteDispatch_spec RemoteDispatch_examples.
From Verif Require Cluster_proofs Requests_spec.
Import ListNotations.
Local Open Scope nat_scope.
Local Open Scope list_scope.

(** Equality by the kernel's virtual machine. *)
Ltac by_vm := match goal with |- ?a = ?b => exact (eq_refl b <: a = b) end.

(** The program and nodes of the earlier examples. *)
Definition rc_prog : program rd_user nat := mk_program rd_encode rd_decode (w_messages rd_world).
Notation rc_event := (x_event ex_peers rd_user nat nat).
Notation rc_happened := (x_happened ex_peers rd_user nat nat).
Notation rc_types := (call_types ex_peers rd_user nat nat).

(** Actor 1 of node b is its actor 30, of type 1, there under its local id. *)
Definition rc_id : actor_id ex_peers := id_with_peer ex_peers 1 ex_node_b.
Definition rc_table : registry (actor_id ex_peers) := [(id_new ex_peers 1, RemoteDispatch.mk_entry 1 30)].
Definition rc_boxes : nat -> mailbox rd_user := fun _ => mk_mailbox (Some 5) [] 0 true.

Definition rc_ask (v : nat) : RemoteDispatch.request (actor_id ex_peers) nat :=
  mk_request true rc_id "A" "m" v true true false.
Definition rc_tell (v : nat) : RemoteDispatch.request (actor_id ex_peers) nat :=
  mk_request false rc_id "A" "m" v true false false.

Definition rc_net (e : c_event rc_types) : rc_event := XNet e.
Definition rc_at (n : peer ex_peers) (e : event rc_types) : rc_event := XNet (@CNode rc_types n e).
Definition rc_run (t : nat) (e : d_event rd_user (actor_id ex_peers)) : rc_event := XRun ex_node_b t e.
Definition rc_poll (t : nat) : rc_event := rc_run t (DPoll false false).

(** Node a asks 42; actor 30 replies 7. *)
Definition rc_asked : list rc_event :=
  [rc_at ex_node_a (ESend (@CAsk rc_types ex_node_b rc_id (rc_ask 42))); rc_at ex_node_a (ECommand 1 true);
   rc_net (CDeliver 0); XBegin ex_node_b 0 [] rc_boxes; rc_poll 0; rc_run 0 (DEnvReg rc_table); rc_poll 0; rc_poll 0;
   rc_run 0 (DReply (Ok (existT _ (TUser 3) 7))); rc_poll 0; XEnd ex_node_b 0; rc_at ex_node_b (ECommand 1 true);
   rc_net (CAnswer 0)].

(** Node a tells 10; when that is over, node b tells 20 itself. *)
Definition rc_told : list rc_event :=
  [rc_at ex_node_a (ESend (@CTell rc_types ex_node_b rc_id (rc_tell 10))); rc_at ex_node_a (ECommand 1 true);
   rc_net (CDeliver 0); XBegin ex_node_b 0 rc_table rc_boxes; rc_poll 0; rc_poll 0; rc_poll 0; XEnd ex_node_b 0;
   rc_at ex_node_b (ECommand 1 true); rc_net (CAnswer 0)].
Definition rc_told_again : list rc_event :=
  [rc_at ex_node_b (ESend (@CTell rc_types ex_node_b rc_id (rc_tell 20))); rc_at ex_node_b (ECommand 0 true);
   XBegin ex_node_b 1 rc_table rc_boxes; rc_poll 1; rc_poll 1; rc_poll 1; XEnd ex_node_b 1].

(** Node a tells 10 and then 20 without waiting; 20 arrives first. *)
Definition rc_two_sent : list rc_event :=
  [rc_at ex_node_a (ESend (@CTell rc_types ex_node_b rc_id (rc_tell 10)))].
Definition rc_two_second : list rc_event :=
  [rc_at ex_node_a (ESend (@CTell rc_types ex_node_b rc_id (rc_tell 20)));
   rc_at ex_node_a (ECommand 1 true); rc_at ex_node_a (ECommand 1 true);
   rc_net (CDeliver 1); XBegin ex_node_b 0 rc_table rc_boxes; rc_poll 0; rc_poll 0; rc_poll 0].
Definition rc_two_first : list rc_event :=
  [rc_net (CDeliver 0); XBegin ex_node_b 1 rc_table rc_boxes; rc_poll 1; rc_poll 1; rc_poll 1].

(** The network reports a timeout though the message is in the mailbox. *)
Definition rc_late : list rc_event :=
  [rc_at ex_node_a (ESend (@CTell rc_types ex_node_b rc_id (rc_tell 10))); rc_at ex_node_a (ECommand 1 true);
   rc_net (CDeliver 0); XBegin ex_node_b 0 rc_table rc_boxes; rc_poll 0; rc_poll 0; rc_poll 0;
   rc_at ex_node_a (ENet (NFailure 0 OfTimeout))].

(** What happened in a run. *)
Definition rc_hist (es : list rc_event) : list rc_happened :=
  match x_exec rc_prog calls_new es with Some (_, h) => h | None => [] end.
Definition rc_state (es : list rc_event) : calls ex_peers rd_user nat nat :=
  match x_exec rc_prog calls_new es with Some (s, _) => s | None => calls_new end.

Lemma rc_ran : forall es, match x_exec rc_prog (calls_new (reason := nat)) es with Some _ => true | None => false end = true ->
  x_exec rc_prog calls_new es = Some (rc_state es, rc_hist es).
Proof.
  intros es; unfold rc_state, rc_hist. destruct (x_exec rc_prog calls_new es) as [[s h]|]; [reflexivity|discriminate].
Qed.

Ltac rc_place n := unfold saw, task_ended, did; apply (nth_error_In _ n); by_vm.

Lemma rc_unique (n : peer ex_peers) : ids_unique (world_at rc_prog n).
Proof. exact rd_unique. Qed.
Lemma rc_round_trip (n : peer ex_peers) k : round_trip (world_at rc_prog n) (TUser k).
Proof. exact (rd_round_trip k). Qed.

Lemma rc_served (es : list rc_event) t c rid ch (q : Swarm.request rc_types) i j :
  nth_error (seen (at_node (T := rc_types) ex_node_a (net (rc_hist es)))) i = Some (@OWire rc_types c rid ex_node_b q) ->
  nth_error (net (rc_hist es)) j
    = Some (HDeliver (@mk_packet rc_types ex_node_a rid ex_node_b q) ch [OServePeer t ch q]) ->
  serves (T := rc_types) (net (rc_hist es)) ex_node_b t ex_node_a c q.
Proof.
  intros A B. eapply serves_there; [exact (nth_error_In _ _ A)|exact (nth_error_In _ _ B)|now left].
Qed.

Definition rc_no_sent (c : nat) (o : obs rc_types) : bool :=
  match o with OSent c' _ => negb (Nat.eqb c c') | _ => true end.
Lemma rc_not_sent es n c : forallb (rc_no_sent c) (seen (at_node (T := rc_types) n (net (rc_hist es)))) = true ->
  forall x, ~ saw (T := rc_types) (net (rc_hist es)) n (OSent c x).
Proof.
  intros F x H. apply (proj1 (forallb_forall _ _) F) in H. cbn in H. rewrite Nat.eqb_refl in H. discriminate H.
Qed.

Definition rc_no_fall (o : obs rc_types) : bool := match o with OHandlerPanic => false | _ => true end.
Lemma rc_no_panic : forall n, ~ saw (T := rc_types) (net (rc_hist (firstn 2 rc_told))) n (@OHandlerPanic rc_types).
Proof.
  intros n H. apply Cluster_proofs.saw_in in H as (x & e & os & I & D & H).
  assert (F : forallb (fun y => forallb rc_no_fall (snd (snd (doer y)))) (net (rc_hist (firstn 2 rc_told))) = true)
    by (by_vm).
  apply (proj1 (forallb_forall _ _) F) in I. rewrite D in I.
  apply (proj1 (forallb_forall _ _) I) in H. discriminate H.
Qed.

Lemma rc_one_entry : one_entry (world_at rc_prog ex_node_b) rc_table.
Proof. intros i x y (k & [[= <- <-]|[]] & _) (k' & [[= <- <-]|[]] & _). reflexivity. Qed.
Lemma rc_accepted : forall ask v mt rt imm, Nat.ltb v 100 = true ->
  accepted (world_at rc_prog ex_node_b) (mk_request ask rc_id "A" "m" v mt rt imm) rc_table rd_fns 30 v.
Proof.
  intros ask v mt rt imm L. exists (RemoteDispatch.mk_entry 1 30). split; [now left|].
  split; [exists (id_new ex_peers 1); split; [now left|by_vm]|].
  split; [reflexivity|]. split; [reflexivity|].
  change ((if Nat.ltb v 100 then Ok v else Err "bad data"%string) = Ok v). rewrite L. reflexivity.
Qed.
Lemma rc_room : ~ Requests_spec.full rd_user (rc_boxes 30).
Proof. intros (n & [= <-] & L). cbn in L. inversion L. Qed.
