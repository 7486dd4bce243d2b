(** A concrete peer id type for the examples: identity multihashes (code 0) of a
    two-byte key. *)
From Coq Require Import List Bool NArith Init.Byte Strings.Byte Lia.
Import ListNotations.
From Verif Require Import ActorId.

Definition ex_peer_bytes (p : byte * byte) : list byte := [x00; x02; fst p; snd p].
Definition ex_peer_parse (bs : list byte) : option (byte * byte) :=
  match bs with
  | [x00; x02; a; b] => Some (a, b)
  | _ => None
  end.
Definition ex_peer_eqb (p q : byte * byte) : bool := Byte.eqb (fst p) (fst q) && Byte.eqb (snd p) (snd q).

Lemma ex_peer_eqb_eq : forall p q, ex_peer_eqb p q = true <-> p = q.
Proof.
  intros [a b] [c d]. unfold ex_peer_eqb. cbn. rewrite andb_true_iff. split.
  - intros [H1 H2]. apply Byte.byte_dec_bl in H1, H2. congruence.
  - intros [= -> ->]. split; now apply Byte.byte_dec_lb.
Qed.
Lemma ex_peer_parse_bytes : forall p, ex_peer_parse (ex_peer_bytes p) = Some p.
Proof. now intros []. Qed.
Lemma ex_peer_nonempty : forall p, ex_peer_bytes p <> [].
Proof. discriminate. Qed.
Lemma ex_peer_short : forall p, (length (ex_peer_bytes p) <= 255)%nat.
Proof. intros p. cbn. lia. Qed.

Definition ex_peers : peers :=
  mk_peers (byte * byte) ex_peer_eqb ex_peer_eqb_eq ex_peer_bytes ex_peer_parse
    ex_peer_parse_bytes ex_peer_nonempty ex_peer_short.

Definition ex_node_a : peer ex_peers := (x0a, x01).
Definition ex_node_b : peer ex_peers := (x0b, x02).
(** The bytes of "héo": a two-byte character inside. *)
Definition ex_name : list byte := [x68; xc3; xa9; x6f].
