(** Property theorems about actor ids and registration records (C26-C29). [P] is any
    type of peer ids satisfying the contract in ActorId.v; [boot] says whether and as
    which peer the node's swarm is bootstrapped. *)
From Coq Require Import List Bool NArith Init.Byte.
Import ListNotations.
From Verif Require Import ActorId ActorId_spec ActorId_proofs ActorId_text_proofs ActorId_examples.
Local Open Scope N_scope.

(** ** C26: [w] is the width of [usize]; the threads may call in any order, the
    counter may start anywhere. *)
Theorem C26_distinct : forall P w threads c i j x y b, w <= 64 -> c < 2 ^ w ->
  N.of_nat (length threads) <= 2 ^ w ->
  nth_error (ids_of P (generate_all P w c threads)) i = Some (Some x) ->
  nth_error (ids_of P (generate_all P w c threads)) j = Some (Some y) ->
  i <> j -> id_eqb P b x y = false.
Proof. exact generated_distinct. Qed.
Print Assumptions C26_distinct.

Theorem C26_never_panics : forall P w threads c i o, w <= 64 -> c < 2 ^ w ->
  nth_error (ids_of P (generate_all P w c threads)) i = Some o ->
  exists x, o = Some x /\ kind x = Local.
Proof. exact generated_defined. Qed.
Print Assumptions C26_never_panics.

(** Sequence ids count from 0, as documented. *)
Theorem C26_sequential : forall P threads i, N.of_nat (length threads) <= 2 ^ 64 -> (i < length threads)%nat ->
  nth_error (ids_of P (generate_all P 64 0 threads)) i = Some (Some (id_new P (N.of_nat i))).
Proof. exact generated_sequence. Qed.
Print Assumptions C26_sequential.

(** The bound is sharp: after [2^w] ids they repeat. *)
Theorem C26_wraps : forall P w threads i, w <= 64 -> (i + N.to_nat (2 ^ w) < length threads)%nat ->
  nth_error (ids_of P (generate_all P w 0 threads)) (i + N.to_nat (2 ^ w))
  = nth_error (ids_of P (generate_all P w 0 threads)) i.
Proof. exact generated_wraps. Qed.
Print Assumptions C26_wraps.

(** Three threads, near the end of a 2-bit counter. *)
Example C26_case :
  ids_of ex_peers (generate_all ex_peers 2 3 [7; 1; 7; 5]%nat)
  = map (fun n => Some (id_new ex_peers n)) [3; 0; 1; 2].
Proof. vm_compute. reflexivity. Qed.
Example C26_wrap_case :
  nth_error (ids_of ex_peers (generate_all ex_peers 2 0 [0; 1; 0; 1; 0; 1]%nat)) 5
  = Some (Some (id_new ex_peers 1)).
Proof. vm_compute. reflexivity. Qed.

(** ** C27 *)
Theorem C27_roundtrip : forall P b x, id_ok P x ->
  exists y, id_from_bytes P (id_to_bytes P b x) = FbOk y /\ id_eqb P b x y = true.
Proof. exact roundtrip_same_node. Qed.
Print Assumptions C27_roundtrip.

(** After bootstrap the bytes denote the same actor on every node [b']. *)
Theorem C27_same_on_every_node : forall P p b' x, id_ok P x ->
  exists y, id_from_bytes P (id_to_bytes P (Some p) x) = FbOk y /\
    denotes P b' y = denotes P (Some p) x.
Proof. exact roundtrip_any_node. Qed.
Print Assumptions C27_same_on_every_node.

(** An id with an explicit peer is fine in any state. *)
Theorem C27_remote_id : forall P b b' n q, n < 2 ^ 64 ->
  exists y, id_from_bytes P (id_to_bytes P b (id_with_peer P n q)) = FbOk y /\
    denotes P b' y = (n, Some q).
Proof. exact remote_any_node. Qed.
Print Assumptions C27_remote_id.

(** Before bootstrap they denote the reader's own actor. *)
Theorem C27_unbootstrapped_refuted : forall P n q, n < 2 ^ 64 ->
  exists y, id_from_bytes P (id_to_bytes P None (id_new P n)) = FbOk y /\
    id_eqb P (Some q) y (id_with_peer P n q) = true.
Proof. exact unbootstrapped_alias. Qed.
Print Assumptions C27_unbootstrapped_refuted.

Theorem C27_injective : forall P b x y, id_ok P x -> id_ok P y ->
  (id_to_bytes P b x = id_to_bytes P b y <-> id_eqb P b x y = true).
Proof. exact to_bytes_inj. Qed.
Print Assumptions C27_injective.

(** All byte strings. *)
Theorem C27_short_panics : forall P bs, id_from_bytes P bs = FbPanic <-> (length bs < 8)%nat.
Proof. exact from_bytes_short. Qed.
Print Assumptions C27_short_panics.

Theorem C27_parsed_is_u64 : forall P bs x, id_from_bytes P bs = FbOk x -> id_ok P x.
Proof. exact from_bytes_u64. Qed.
Print Assumptions C27_parsed_is_u64.

(** The documented error for short input is never returned. *)
Theorem C27_missing_sequence_refuted : forall P bs, id_from_bytes P bs <> FbMissingSequence.
Proof. exact missing_sequence_never. Qed.
Print Assumptions C27_missing_sequence_refuted.

Example C27_case :
  id_to_bytes ex_peers (Some ex_node_a) (id_new ex_peers 258)
    = [x02; x01; x00; x00; x00; x00; x00; x00; x00; x02; x0a; x01]
  /\ id_from_bytes ex_peers [x02; x01; x00; x00; x00; x00; x00; x00; x00; x02; x0a; x01]
    = FbOk (id_with_peer ex_peers 258 ex_node_a)
  /\ id_from_bytes ex_peers [x02; x01; x00; x00; x00; x00; x00; x00; x07] = FbParsePeer
  /\ id_from_bytes ex_peers [x02; x01; x00] = FbPanic.
Proof. repeat split; vm_compute; reflexivity. Qed.

(** ** C28 *)
Theorem C28_equivalence : forall P b,
  (forall x, id_eqb P b x x = true) /\
  (forall x y, id_eqb P b x y = true -> id_eqb P b y x = true) /\
  (forall x y z, id_eqb P b x y = true -> id_eqb P b y z = true -> id_eqb P b x z = true).
Proof. exact eq_equivalence. Qed.
Print Assumptions C28_equivalence.

Theorem C28_equality_is_denotation : forall P b x y,
  id_eqb P b x y = true <-> same_actor P b x y.
Proof. exact id_eqb_spec. Qed.
Print Assumptions C28_equality_is_denotation.

Theorem C28_hash_agrees : forall P b x y, id_hash P b x = id_hash P b y <-> id_eqb P b x y = true.
Proof. exact hash_iff. Qed.
Print Assumptions C28_hash_agrees.

(** Bootstrapping changes the hash of every local id (and of no other), and its
    equality with ids that name the node explicitly. *)
Theorem C28_hash_stable_refuted : forall P n p,
  id_hash P None (id_new P n) <> id_hash P (Some p) (id_new P n).
Proof. exact bootstrap_changes_hash. Qed.
Print Assumptions C28_hash_stable_refuted.

Theorem C28_remote_hash_stable : forall P n q b b',
  id_hash P b (id_with_peer P n q) = id_hash P b' (id_with_peer P n q).
Proof. exact bootstrap_keeps_remote. Qed.
Print Assumptions C28_remote_hash_stable.

Theorem C28_equality_stable_refuted : forall P n p,
  id_eqb P None (id_new P n) (id_with_peer P n p) = false /\
  id_eqb P (Some p) (id_new P n) (id_with_peer P n p) = true.
Proof. exact bootstrap_changes_eq. Qed.
Print Assumptions C28_equality_stable_refuted.

Example C28_case :
  id_eqb ex_peers (Some ex_node_a) (id_new ex_peers 5) (id_with_peer ex_peers 5 ex_node_a) = true
  /\ id_eqb ex_peers (Some ex_node_b) (id_new ex_peers 5) (id_with_peer ex_peers 5 ex_node_a) = false
  /\ id_hash ex_peers (Some ex_node_a) (id_new ex_peers 5) = [HU64 5; HBytes [x00; x02; x0a; x01]].
Proof. repeat split; vm_compute; reflexivity. Qed.

(** ** C29: a record written on a bootstrapped node (registering requires one) is read
    on any node [b']. *)
Theorem C29_roundtrip : forall P p b' r, id_ok P (reg_id r) -> is_text (reg_remote r) ->
  exists r', reg_from_bytes P (reg_into_bytes P (Some p) r) = Some r' /\
    reg_remote r' = reg_remote r /\ denotes P b' (reg_id r') = denotes P (Some p) (reg_id r).
Proof. exact reg_roundtrip_text. Qed.
Print Assumptions C29_roundtrip.

(** Everything that is not a well-formed record makes the reader panic. *)
Theorem C29_accepts_exactly : forall P bs r,
  reg_from_bytes P bs = Some r <->
  exists l idb, bs = l :: idb ++ reg_remote r /\ length idb = (8 + N.to_nat (Byte.to_N l))%nat /\
    id_from_bytes P idb = FbOk (reg_id r) /\ is_text (reg_remote r).
Proof. exact reg_accepts_text. Qed.
Print Assumptions C29_accepts_exactly.

Theorem C29_short_panics : forall P bs, (length bs < 9)%nat -> reg_from_bytes P bs = None.
Proof. exact reg_short_panics. Qed.
Print Assumptions C29_short_panics.

(** What unregister stores on other nodes (swarm.rs 597-609). *)
Theorem C29_unregistered_refuted : forall P, reg_from_bytes P [] = None.
Proof. exact reg_empty_panics. Qed.
Print Assumptions C29_unregistered_refuted.

Example C29_case :
  reg_into_bytes ex_peers (Some ex_node_a) (mk_reg (id_new ex_peers 7) ex_name)
    = x04 :: [x07; x00; x00; x00; x00; x00; x00; x00] ++ [x00; x02; x0a; x01] ++ ex_name
  /\ reg_from_bytes ex_peers (x04 :: [x07; x00; x00; x00; x00; x00; x00; x00] ++ [x00; x02; x0a; x01] ++ ex_name)
    = Some (mk_reg (id_with_peer ex_peers 7 ex_node_a) ex_name)
  /\ reg_from_bytes ex_peers (x00 :: [x07; x00; x00; x00; x00; x00; x00; x00] ++ [xc3]) = None.
Proof. repeat split; vm_compute; reflexivity. Qed.

(** The name in it is text: h, U+00E9, o. *)
Example C29_text_case : is_text ex_name.
Proof. apply utf8_valid_iff. reflexivity. Qed.
