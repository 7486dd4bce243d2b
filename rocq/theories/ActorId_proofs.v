(** Lemmas about actor ids and registration records. *)
From Coq Require Import List Bool NArith Init.Byte Strings.Byte Lia PeanoNat.
Import ListNotations.
From Verif Require Import ActorId ActorId_spec.
Local Open Scope N_scope.

Lemma low_byte_to_N : forall n, Byte.to_N (low_byte n) = n mod 256.
Proof.
  intros n. unfold low_byte.
  assert (B : n mod 256 < 256) by (apply N.mod_lt; lia).
  destruct (Byte.of_N (n mod 256)) as [b|] eqn:E.
  - now apply Byte.to_of_N.
  - apply Byte.of_N_None_iff in E. lia.
Qed.

Lemma le_bytes_length : forall n v, length (le_bytes n v) = n.
Proof. induction n; intros; cbn; auto. Qed.

Lemma of_le_bytes_le : forall n v, v < 256 ^ (N.of_nat n) -> of_le_bytes (le_bytes n v) = v.
Proof.
  induction n as [|n IH]; intros v H.
  - cbn in *. lia.
  - cbn [le_bytes of_le_bytes]. rewrite low_byte_to_N.
    rewrite Nat2N.inj_succ, N.pow_succ_r' in H.
    rewrite IH; [|apply N.div_lt_upper_bound; lia].
    rewrite N.add_comm. symmetry. apply N.div_mod. lia.
Qed.

Lemma le_bytes_inj : forall n v w, v < 256 ^ (N.of_nat n) -> w < 256 ^ (N.of_nat n) ->
  le_bytes n v = le_bytes n w -> v = w.
Proof. intros n v w V W E. rewrite <- (of_le_bytes_le n v V), <- (of_le_bytes_le n w W). congruence. Qed.

Lemma of_le_bytes_bound : forall bs, of_le_bytes bs < 256 ^ (N.of_nat (length bs)).
Proof.
  induction bs as [|b bs IH]; [reflexivity|].
  cbn [of_le_bytes length]. rewrite Nat2N.inj_succ, N.pow_succ_r'.
  assert (B := Byte.to_N_bounded b). lia.
Qed.

Section Ids.
Variable P : peers.
Local Notation actor_id := (actor_id P).
Local Notation kind_peer := (kind_peer P).

(** ** Equality and hashing *)

Lemma opt_peer_eqb_eq : forall x y, opt_peer_eqb P x y = true <-> x = y.
Proof.
  intros [x|] [y|]; cbn; split; intros H; try congruence; try discriminate.
  - apply (peer_eqb_eq P) in H. congruence.
  - injection H as ->. now apply (peer_eqb_eq P).
Qed.

Lemma id_eqb_spec : forall b x y, id_eqb P b x y = true <-> same_actor P b x y.
Proof.
  intros b x y. unfold id_eqb, same_actor, denotes. rewrite andb_true_iff, N.eqb_eq, opt_peer_eqb_eq.
  unfold ActorId.kind_peer. split; [intros [? ?]; f_equal; assumption|intros [= ? ?]; auto].
Qed.

Lemma peer_bytes_inj : forall p q, peer_bytes P p = peer_bytes P q -> p = q.
Proof.
  intros p q H. assert (A := peer_parse_bytes P p). rewrite H, (peer_parse_bytes P q) in A. congruence.
Qed.

Lemma hash_iff : forall b x y, id_hash P b x = id_hash P b y <-> id_eqb P b x y = true.
Proof.
  intros b x y. rewrite id_eqb_spec. unfold id_hash, same_actor, denotes.
  change (match kind x with Local => b | PeerId p => Some p end) with (kind_peer b (kind x)).
  change (match kind y with Local => b | PeerId p => Some p end) with (kind_peer b (kind y)).
  split.
  - destruct (kind_peer b (kind x)) as [p|], (kind_peer b (kind y)) as [q|]; intros H;
      try discriminate; injection H; intros; try congruence.
    match goal with H : peer_bytes _ _ = _ |- _ => apply peer_bytes_inj in H end. congruence.
  - intros H. injection H as E1 E2. now rewrite E1, E2.
Qed.

Lemma eq_equivalence : forall b,
  (forall x, id_eqb P b x x = true) /\
  (forall x y, id_eqb P b x y = true -> id_eqb P b y x = true) /\
  (forall x y z, id_eqb P b x y = true -> id_eqb P b y z = true -> id_eqb P b x z = true).
Proof.
  intros b. repeat split.
  - intros x. apply id_eqb_spec. reflexivity.
  - intros x y H. apply id_eqb_spec in H. apply id_eqb_spec. symmetry. exact H.
  - intros x y z H1 H2. apply id_eqb_spec in H1, H2. apply id_eqb_spec.
    unfold same_actor in *. congruence.
Qed.

Lemma bootstrap_changes_hash : forall n p, id_hash P None (id_new P n) <> id_hash P (Some p) (id_new P n).
Proof. intros n p. discriminate. Qed.

Lemma bootstrap_keeps_remote : forall n q b b', id_hash P b (id_with_peer P n q) = id_hash P b' (id_with_peer P n q).
Proof. reflexivity. Qed.

Lemma bootstrap_changes_eq : forall n p,
  id_eqb P None (id_new P n) (id_with_peer P n p) = false /\
  id_eqb P (Some p) (id_new P n) (id_with_peer P n p) = true.
Proof.
  intros n p. split.
  - unfold id_eqb. cbn. apply andb_false_r.
  - apply id_eqb_spec. reflexivity.
Qed.

(** ** Bytes *)

Lemma to_bytes_eq : forall b x,
  id_to_bytes P b x = le_bytes 8 (seq_id x) ++
    match kind_peer b (kind x) with Some p => peer_bytes P p | None => [] end.
Proof.
  intros b x. unfold id_to_bytes. destruct (kind x); cbn; [|reflexivity].
  destruct b; reflexivity.
Qed.

Lemma u64_bound : 2 ^ 64 = 256 ^ (N.of_nat 8).
Proof. reflexivity. Qed.

Lemma slice8 : forall a bs, length a = 8%nat -> slice (a ++ bs) 0 8 = Some a.
Proof.
  intros a bs L. unfold slice.
  rewrite app_length, L. cbn [Nat.leb andb Nat.add].
  rewrite <- L. cbn [skipn]. rewrite Nat.sub_0_r, firstn_app, Nat.sub_diag, firstn_all. cbn.
  now rewrite app_nil_r.
Qed.

Lemma from_bytes_app : forall a bs, length a = 8%nat ->
  id_from_bytes P (a ++ bs) =
  match bs with
  | [] => FbOk (mk_id (of_le_bytes a) Local)
  | _ => match peer_parse P bs with
         | Some p => FbOk (mk_id (of_le_bytes a) (PeerId p))
         | None => FbParsePeer
         end
  end.
Proof.
  intros a bs L. unfold id_from_bytes. rewrite slice8 by exact L. rewrite L. cbn [Nat.eqb].
  rewrite app_length, L.
  rewrite <- L at 3. rewrite skipn_app, skipn_all, Nat.sub_diag. cbn [app skipn].
  destruct bs as [|c bs].
  - reflexivity.
  - replace (Nat.ltb 8 (8 + length (c :: bs))) with true; [reflexivity|].
    symmetry. apply Nat.ltb_lt. cbn [length]. lia.
Qed.

Lemma roundtrip : forall b x, id_ok P x ->
  id_from_bytes P (id_to_bytes P b x)
  = FbOk (mk_id (seq_id x) (match kind_peer b (kind x) with Some p => PeerId p | None => Local end)).
Proof.
  intros b x OK. rewrite to_bytes_eq. rewrite from_bytes_app by apply le_bytes_length.
  rewrite of_le_bytes_le by exact OK.
  destruct (kind_peer b (kind x)) as [p|]; [|reflexivity].
  rewrite (peer_parse_bytes P p).
  assert (NE := peer_bytes_nonempty P p). destruct (peer_bytes P p); [congruence|reflexivity].
Qed.

Lemma roundtrip_same_node : forall b x, id_ok P x ->
  exists y, id_from_bytes P (id_to_bytes P b x) = FbOk y /\ id_eqb P b x y = true.
Proof.
  intros b x OK. rewrite (roundtrip b x OK). eexists. split; [reflexivity|].
  apply id_eqb_spec. unfold same_actor, denotes. cbn. unfold ActorId.kind_peer.
  destruct (kind x); cbn; [|reflexivity]. destruct b; reflexivity.
Qed.

Lemma roundtrip_any_node : forall p b' x, id_ok P x ->
  exists y, id_from_bytes P (id_to_bytes P (Some p) x) = FbOk y /\
    denotes P b' y = denotes P (Some p) x.
Proof.
  intros p b' x OK. rewrite (roundtrip (Some p) x OK). eexists. split; [reflexivity|].
  unfold denotes. cbn. destruct (kind x); reflexivity.
Qed.

Lemma remote_any_node : forall b b' n q, n < 2 ^ 64 ->
  exists y, id_from_bytes P (id_to_bytes P b (id_with_peer P n q)) = FbOk y /\
    denotes P b' y = (n, Some q).
Proof.
  intros b b' n q OK. rewrite (roundtrip b (id_with_peer P n q) OK). eexists. split; reflexivity.
Qed.

Lemma unbootstrapped_alias : forall n q, n < 2 ^ 64 ->
  exists y, id_from_bytes P (id_to_bytes P None (id_new P n)) = FbOk y /\
    id_eqb P (Some q) y (id_with_peer P n q) = true.
Proof.
  intros n q OK. rewrite (roundtrip None (id_new P n) OK). eexists. split; [reflexivity|].
  apply id_eqb_spec. reflexivity.
Qed.

Lemma to_bytes_inj : forall b x y, id_ok P x -> id_ok P y ->
  (id_to_bytes P b x = id_to_bytes P b y <-> id_eqb P b x y = true).
Proof.
  intros b x y OX OY. split; intros H.
  - assert (RX := roundtrip b x OX). assert (RY := roundtrip b y OY).
    rewrite H, RY in RX. injection RX as E1 E2. apply id_eqb_spec. unfold same_actor, denotes.
    rewrite E1. f_equal.
    change (kind_peer b (kind x) = kind_peer b (kind y)).
    destruct (kind_peer b (kind x)), (kind_peer b (kind y)); congruence.
  - apply id_eqb_spec in H. unfold same_actor, denotes in H. injection H as E1 E2.
    rewrite !to_bytes_eq. rewrite E1.
    change (kind_peer b (kind x) = kind_peer b (kind y)) in E2. now rewrite E2.
Qed.

Lemma from_bytes_short : forall bs, id_from_bytes P bs = FbPanic <-> (length bs < 8)%nat.
Proof.
  intros bs. destruct (Nat.lt_ge_cases (length bs) 8) as [L|L].
  - split; [auto|]. intros _. unfold id_from_bytes, slice.
    replace (Nat.leb 8 (length bs)) with false; [reflexivity|]. symmetry. now apply Nat.leb_gt.
  - split; [|lia]. rewrite <- (firstn_skipn 8 bs), from_bytes_app; [|rewrite firstn_length; lia].
    destruct (skipn 8 bs); [discriminate|]. destruct (peer_parse P _); discriminate.
Qed.

Lemma from_bytes_total : forall bs, (8 <= length bs)%nat ->
  id_from_bytes P bs =
  match skipn 8 bs with
  | [] => FbOk (mk_id (of_le_bytes (firstn 8 bs)) Local)
  | _ => match peer_parse P (skipn 8 bs) with
         | Some p => FbOk (mk_id (of_le_bytes (firstn 8 bs)) (PeerId p))
         | None => FbParsePeer
         end
  end.
Proof.
  intros bs L. rewrite <- (firstn_skipn 8 bs) at 1. rewrite from_bytes_app; [reflexivity|].
  rewrite firstn_length. lia.
Qed.

Lemma from_bytes_u64 : forall bs x, id_from_bytes P bs = FbOk x -> id_ok P x.
Proof.
  intros bs x H. destruct (Nat.lt_ge_cases (length bs) 8) as [L|L].
  - apply from_bytes_short in L. congruence.
  - rewrite from_bytes_total in H by exact L.
    assert (B := of_le_bytes_bound (firstn 8 bs)).
    rewrite firstn_length, Nat.min_l in B by exact L. rewrite <- u64_bound in B.
    unfold id_ok. destruct (skipn 8 bs); [|destruct (peer_parse P _); [|discriminate]];
      injection H as <-; exact B.
Qed.

Lemma missing_sequence_never : forall bs, id_from_bytes P bs <> FbMissingSequence.
Proof.
  intros bs. destruct (Nat.lt_ge_cases (length bs) 8) as [L|L].
  - apply from_bytes_short in L. congruence.
  - rewrite from_bytes_total by exact L.
    destruct (skipn 8 bs); [discriminate|]. destruct (peer_parse P _); discriminate.
Qed.

(** ** Generation *)

Lemma generate_all_nth : forall w ts c i, w <= 64 -> c < 2 ^ w -> (i < length ts)%nat ->
  nth_error (ids_of P (generate_all P w c ts)) i
  = Some (Some (id_new P ((c + N.of_nat i) mod 2 ^ w))).
Proof.
  intros w ts. induction ts as [|t ts IH]; intros c i W C I; [cbn in I; lia|].
  assert (B : c < 2 ^ 64).
  { eapply N.lt_le_trans; [exact C|]. apply N.pow_le_mono_r; lia. }
  assert (Z : 2 ^ w <> 0) by (apply N.pow_nonzero; lia).
  cbn [generate_all generate ids_of map snd].
  rewrite (proj2 (N.ltb_lt _ _) B).
  destruct i as [|i].
  - cbn. rewrite N.add_0_r, N.mod_small by exact C. reflexivity.
  - cbn [nth_error]. unfold ids_of in IH. cbn in I.
    rewrite IH; [|exact W|apply N.mod_lt; exact Z|lia].
    rewrite N.add_mod_idemp_l by exact Z.
    replace (c + 1 + N.of_nat i) with (c + N.of_nat (S i)) by lia. reflexivity.
Qed.

Lemma generate_all_length : forall w ts c, length (ids_of P (generate_all P w c ts)) = length ts.
Proof.
  intros w ts. induction ts as [|t ts IH]; intros c; [reflexivity|].
  cbn. unfold ids_of in IH. now rewrite IH.
Qed.

Lemma generated_distinct : forall w ts c i j x y b, w <= 64 -> c < 2 ^ w ->
  N.of_nat (length ts) <= 2 ^ w ->
  nth_error (ids_of P (generate_all P w c ts)) i = Some (Some x) ->
  nth_error (ids_of P (generate_all P w c ts)) j = Some (Some y) ->
  i <> j -> id_eqb P b x y = false.
Proof.
  intros w ts c i j x y b W C L HI HJ NE.
  assert (LI : (i < length ts)%nat).
  { rewrite <- (generate_all_length w ts c). apply nth_error_Some. congruence. }
  assert (LJ : (j < length ts)%nat).
  { rewrite <- (generate_all_length w ts c). apply nth_error_Some. congruence. }
  rewrite generate_all_nth in HI by auto. rewrite generate_all_nth in HJ by auto.
  injection HI as <-. injection HJ as <-.
  destruct (id_eqb P b _ _) eqn:E; [|reflexivity]. exfalso.
  apply id_eqb_spec in E. injection E as E.
  assert (Z : 2 ^ w <> 0) by (apply N.pow_nonzero; lia).
  assert (DI := N.div_mod (c + N.of_nat i) (2 ^ w) Z).
  assert (DJ := N.div_mod (c + N.of_nat j) (2 ^ w) Z).
  rewrite E in DI.
  set (qi := (c + N.of_nat i) / 2 ^ w) in *. set (qj := (c + N.of_nat j) / 2 ^ w) in *.
  assert (qi = qj \/ qi < qj \/ qj < qi) as [Q|[Q|Q]] by lia.
  - rewrite Q in DI. lia.
  - assert (2 ^ w * (qi + 1) <= 2 ^ w * qj) by (apply N.mul_le_mono_l; lia). lia.
  - assert (2 ^ w * (qj + 1) <= 2 ^ w * qi) by (apply N.mul_le_mono_l; lia). lia.
Qed.

Lemma generated_defined : forall w ts c i o, w <= 64 -> c < 2 ^ w ->
  nth_error (ids_of P (generate_all P w c ts)) i = Some o -> exists x, o = Some x /\ kind x = Local.
Proof.
  intros w ts c i o W C H.
  assert (LI : (i < length ts)%nat).
  { rewrite <- (generate_all_length w ts c). apply nth_error_Some. congruence. }
  rewrite generate_all_nth in H by auto. injection H as <-. eexists. split; reflexivity.
Qed.

Lemma generated_sequence : forall ts i, N.of_nat (length ts) <= 2 ^ 64 -> (i < length ts)%nat ->
  nth_error (ids_of P (generate_all P 64 0 ts)) i = Some (Some (id_new P (N.of_nat i))).
Proof.
  intros ts i L I. rewrite generate_all_nth; [|lia|reflexivity|exact I].
  rewrite N.add_0_l, N.mod_small; [reflexivity|]. lia.
Qed.

Lemma generated_wraps : forall w ts i, w <= 64 -> (i + N.to_nat (2 ^ w) < length ts)%nat ->
  nth_error (ids_of P (generate_all P w 0 ts)) (i + N.to_nat (2 ^ w))
  = nth_error (ids_of P (generate_all P w 0 ts)) i.
Proof.
  intros w ts i W I.
  assert (Z : 2 ^ w <> 0) by (apply N.pow_nonzero; lia).
  assert (0 < 2 ^ w) by lia.
  rewrite !generate_all_nth by (auto; lia).
  rewrite Nat2N.inj_add, N2Nat.id, !N.add_0_l.
  rewrite <- (N.mul_1_l (2 ^ w)) at 1. rewrite N.mod_add by exact Z. reflexivity.
Qed.

(** ** Registration records *)

Lemma skipn_len : forall (A : Type) (a b : list A), skipn (length a) (a ++ b) = b.
Proof. intros A a b. rewrite skipn_app, skipn_all, Nat.sub_diag. reflexivity. Qed.

Lemma to_bytes_length : forall b x, exists n, length (id_to_bytes P b x) = (8 + n)%nat /\ (n <= 255)%nat.
Proof.
  intros b x. rewrite to_bytes_eq, app_length, le_bytes_length.
  destruct (kind_peer b (kind x)) as [p|]; eexists; (split; [reflexivity|]); [apply (peer_bytes_short P)|cbn; lia].
Qed.

Lemma reg_parse_app : forall l idb rest, length idb = (8 + N.to_nat (Byte.to_N l))%nat ->
  reg_from_bytes P (l :: idb ++ rest) =
  match id_from_bytes P idb with
  | FbOk x => if utf8_valid rest then Some (mk_reg x rest) else None
  | _ => None
  end.
Proof.
  intros l idb rest L. unfold reg_from_bytes.
  assert (S1 : slice (l :: idb ++ rest) 0 1 = Some [l]) by reflexivity.
  rewrite S1.
  assert (S2 : slice (l :: idb ++ rest) 1 (1 + 8 + N.to_nat (Byte.to_N l)) = Some idb).
  { unfold slice. replace (_ && _)%bool with true.
    - cbn [skipn]. replace (1 + 8 + N.to_nat (Byte.to_N l) - 1)%nat with (length idb) by lia.
      rewrite firstn_app, Nat.sub_diag, firstn_all. cbn. now rewrite app_nil_r.
    - symmetry. apply andb_true_iff. split; apply Nat.leb_le; cbn [length]; rewrite ?app_length; lia. }
  rewrite S2.
  replace (skipn (1 + 8 + N.to_nat (Byte.to_N l)) (l :: idb ++ rest)) with rest; [reflexivity|].
  replace (1 + 8 + N.to_nat (Byte.to_N l))%nat with (S (length idb)) by lia.
  cbn [skipn]. symmetry. apply skipn_len.
Qed.

Lemma reg_roundtrip : forall p b' r, id_ok P (reg_id r) -> utf8_valid (reg_remote r) = true ->
  exists r', reg_from_bytes P (reg_into_bytes P (Some p) r) = Some r' /\
    reg_remote r' = reg_remote r /\ denotes P b' (reg_id r') = denotes P (Some p) (reg_id r).
Proof.
  intros p b' r OK U. unfold reg_into_bytes.
  destruct (to_bytes_length (Some p) (reg_id r)) as (n & L & B).
  rewrite reg_parse_app.
  - destruct (roundtrip_any_node p b' (reg_id r) OK) as (y & -> & D). rewrite U.
    eexists. split; [reflexivity|]. auto.
  - rewrite low_byte_to_N, L. rewrite N.mod_small; lia.
Qed.

Lemma reg_short_panics : forall bs, (length bs < 9)%nat -> reg_from_bytes P bs = None.
Proof.
  intros bs L. unfold reg_from_bytes. destruct bs as [|l bs]; [reflexivity|].
  cbn [slice]. assert (S1 : slice (l :: bs) 0 1 = Some [l]) by reflexivity. rewrite S1.
  assert (S2 : slice (l :: bs) 1 (1 + 8 + N.to_nat (Byte.to_N l)) = None).
  { unfold slice. replace (_ && _)%bool with false; [reflexivity|].
    symmetry. apply andb_false_iff. right. apply Nat.leb_gt. cbn [length] in *. lia. }
  now rewrite S2.
Qed.

Lemma reg_empty_panics : reg_from_bytes P [] = None.
Proof. reflexivity. Qed.

(** Exactly the well-formed records are accepted. *)
Lemma reg_accepts : forall bs r,
  reg_from_bytes P bs = Some r <->
  exists l idb, bs = l :: idb ++ reg_remote r /\ length idb = (8 + N.to_nat (Byte.to_N l))%nat /\
    id_from_bytes P idb = FbOk (reg_id r) /\ utf8_valid (reg_remote r) = true.
Proof.
  intros bs r. split.
  - intros H. destruct bs as [|l bs]; [discriminate|].
    destruct (Nat.lt_ge_cases (length bs) (8 + N.to_nat (Byte.to_N l))) as [L|L].
    { exfalso. unfold reg_from_bytes in H.
      assert (S1 : slice (l :: bs) 0 1 = Some [l]) by reflexivity. rewrite S1 in H.
      assert (S2 : slice (l :: bs) 1 (1 + 8 + N.to_nat (Byte.to_N l)) = None).
      { unfold slice. replace (_ && _)%bool with false; [reflexivity|].
        symmetry. apply andb_false_iff. right. apply Nat.leb_gt. cbn [length] in *. lia. }
      rewrite S2 in H. discriminate. }
    rewrite <- (firstn_skipn (8 + N.to_nat (Byte.to_N l)) bs) in H.
    assert (LI : length (firstn (8 + N.to_nat (Byte.to_N l)) bs) = (8 + N.to_nat (Byte.to_N l))%nat).
    { rewrite firstn_length. lia. }
    rewrite reg_parse_app in H by exact LI.
    destruct (id_from_bytes P _) eqn:EI; try discriminate.
    destruct (utf8_valid _) eqn:EU; [|discriminate]. injection H as <-.
    exists l, (firstn (8 + N.to_nat (Byte.to_N l)) bs). cbn [reg_remote reg_id].
    rewrite firstn_skipn. auto.
  - intros (l & idb & -> & L & E & U). rewrite reg_parse_app by exact L. rewrite E, U.
    destruct r; reflexivity.
Qed.

End Ids.
