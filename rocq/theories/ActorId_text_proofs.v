(** What the UTF-8 check accepts. *)
From Coq Require Import List Bool NArith ZArith Lia Init.Byte.
Import ListNotations.
From Verif Require Import ActorId ActorId_spec ActorId_proofs.
Local Open Scope N_scope.

Ltac Zify.zify_post_hook ::= Z.to_euclidean_division_equations.

Lemma in_range_iff : forall lo hi b, in_range lo hi b = true <-> lo <= Byte.to_N b /\ Byte.to_N b <= hi.
Proof. intros lo hi b. unfold in_range. rewrite andb_true_iff, !N.leb_le. reflexivity. Qed.

Lemma in_range_not : forall lo hi b, in_range lo hi b = false <-> Byte.to_N b < lo \/ hi < Byte.to_N b.
Proof. intros lo hi b. unfold in_range. rewrite andb_false_iff, !N.leb_gt. reflexivity. Qed.

Ltac ranges := repeat match goal with
  | H : in_range _ _ _ = true |- _ => apply in_range_iff in H
  | H : in_range _ _ _ = false |- _ => apply in_range_not in H
  | H : (_ =? _) = true |- _ => apply N.eqb_eq in H
  | H : (_ =? _) = false |- _ => apply N.eqb_neq in H
  end.

Ltac nums := repeat match goal with
  | |- context [?a <? ?b] => destruct (N.ltb_spec a b); try lia
  end; repeat (f_equal; try lia).

Lemma valid_text : forall n bs, (length bs <= n)%nat -> utf8_valid bs = true -> is_text bs.
Proof.
  induction n as [|n IH]; intros bs L V.
  - destruct bs; [constructor|cbn in L; lia].
  - destruct bs as [|a r1]; [constructor|]. cbn [length] in L. cbn [utf8_valid] in V.
    destruct (in_range 0 127 a) eqn:R0.
    { apply (text_char (Byte.to_N a) [a] r1); [ranges; left; lia| |apply IH; [lia|exact V]].
      ranges. cbn [map]. unfold utf8. nums. }
    destruct (in_range 194 223 a) eqn:R1.
    { destruct r1 as [|b r2]; [discriminate|]. cbn [length] in L. apply andb_true_iff in V. destruct V as [B V].
      apply (text_char ((Byte.to_N a - 192) * 64 + (Byte.to_N b - 128)) [a; b] r2);
        [ranges; left; lia| |apply IH; [lia|exact V]].
      ranges. cbn [map]. unfold utf8. nums. }
    destruct (in_range 224 239 a) eqn:R2.
    { destruct r1 as [|b [|c r3]]; try discriminate. cbn [length] in L. rewrite !andb_true_iff in V. destruct V as [[B C] V].
      assert (BB : 128 <= Byte.to_N b /\ Byte.to_N b <= 191 /\ (Byte.to_N a = 224 -> 160 <= Byte.to_N b)
                   /\ (Byte.to_N a = 237 -> Byte.to_N b <= 159)).
      { destruct (Byte.to_N a =? 224) eqn:X; [ranges; lia|]. destruct (Byte.to_N a =? 237) eqn:Y; ranges; lia. }
      apply (text_char ((Byte.to_N a - 224) * 4096 + (Byte.to_N b - 128) * 64 + (Byte.to_N c - 128)) [a; b; c] r3);
        [ranges; unfold scalar; lia| |apply IH; [lia|exact V]].
      ranges. cbn [map]. unfold utf8. nums. }
    destruct (in_range 240 244 a) eqn:R3; [|discriminate].
    destruct r1 as [|b [|c [|d r4]]]; try discriminate. cbn [length] in L. rewrite !andb_true_iff in V.
    destruct V as [[[B C] D] V].
    assert (BB : 128 <= Byte.to_N b /\ Byte.to_N b <= 191 /\ (Byte.to_N a = 240 -> 144 <= Byte.to_N b)
                 /\ (Byte.to_N a = 244 -> Byte.to_N b <= 143)).
    { destruct (Byte.to_N a =? 240) eqn:X; [ranges; lia|]. destruct (Byte.to_N a =? 244) eqn:Y; ranges; lia. }
    apply (text_char ((Byte.to_N a - 240) * 262144 + (Byte.to_N b - 128) * 4096 + (Byte.to_N c - 128) * 64
                      + (Byte.to_N d - 128)) [a; b; c; d] r4);
      [ranges; unfold scalar; lia| |apply IH; [lia|exact V]].
    ranges. cbn [map]. unfold utf8. nums.
Qed.

Ltac decide_range := match goal with
  | |- context [in_range ?lo ?hi ?b] =>
      let E := fresh in
      first [assert (E : in_range lo hi b = true) by (apply in_range_iff; lia)
            |assert (E : in_range lo hi b = false) by (apply in_range_not; lia)]; rewrite E; clear E
  end.

Lemma cons_eq : forall A (x y : A) l k, x :: l = y :: k -> x = y /\ l = k.
Proof. intros A x y l k H. inversion H. auto. Qed.

Ltac conses E := cbn [map] in E; repeat (let A := fresh "A" in apply cons_eq in E; destruct E as [A E]).

Lemma text_valid : forall bs, is_text bs -> utf8_valid bs = true.
Proof.
  induction 1 as [|c l bs S E _ IH]; [reflexivity|]. unfold scalar in S. unfold utf8 in E.
  destruct (N.ltb_spec c 0x80); [|destruct (N.ltb_spec c 0x800); [|destruct (N.ltb_spec c 0x10000)]].
  - destruct l as [|a [|]]; try discriminate. conses E. cbn [app utf8_valid].
    decide_range. exact IH.
  - destruct l as [|a [|b [|]]]; try discriminate. conses E. cbn [app utf8_valid].
    repeat decide_range. exact IH.
  - destruct l as [|a [|b [|d [|]]]]; try discriminate. conses E. cbn [app utf8_valid].
    repeat decide_range. rewrite IH, andb_true_r.
    destruct (N.eqb_spec (Byte.to_N a) 224); [repeat decide_range; reflexivity|].
    destruct (N.eqb_spec (Byte.to_N a) 237); repeat decide_range; reflexivity.
  - destruct l as [|a [|b [|d [|e [|]]]]]; try discriminate. conses E. cbn [app utf8_valid].
    repeat decide_range. rewrite IH, andb_true_r.
    destruct (N.eqb_spec (Byte.to_N a) 240); [repeat decide_range; reflexivity|].
    destruct (N.eqb_spec (Byte.to_N a) 244); repeat decide_range; reflexivity.
Qed.

Lemma utf8_valid_iff : forall bs, utf8_valid bs = true <-> is_text bs.
Proof. intros bs. split; [apply (valid_text (length bs)); lia|apply text_valid]. Qed.

Ltac Zify.zify_post_hook ::= idtac.

Lemma reg_roundtrip_text : forall P p b' r, id_ok P (reg_id r) -> is_text (reg_remote r) ->
  exists r', reg_from_bytes P (reg_into_bytes P (Some p) r) = Some r' /\
    reg_remote r' = reg_remote r /\ denotes P b' (reg_id r') = denotes P (Some p) (reg_id r).
Proof. intros P p b' r OK U. apply utf8_valid_iff in U. exact (reg_roundtrip P p b' r OK U). Qed.

Lemma reg_accepts_text : forall P bs r,
  reg_from_bytes P bs = Some r <->
  exists l idb, bs = l :: idb ++ reg_remote r /\ length idb = (8 + N.to_nat (Byte.to_N l))%nat /\
    id_from_bytes P idb = FbOk (reg_id r) /\ is_text (reg_remote r).
Proof.
  intros P bs r. rewrite reg_accepts. split; intros (l & idb & A & B & C & D); exists l, idb;
    apply utf8_valid_iff in D; auto.
Qed.
