(** Specification vocabulary for actor ids. *)
From Coq Require Import List Bool NArith Init.Byte.
Import ListNotations.
From Verif Require Import ActorId.
Local Open Scope N_scope.

Section Spec.
Variable P : peers.

(** A sequence id is a [u64]. *)
Definition id_ok (x : actor_id P) : Prop := seq_id x < 2 ^ 64.

(** The actor an id denotes on a node: sequence number and node. A node that is not
    part of a swarm is [None]. *)
Definition denotes (b : boot P) (x : actor_id P) : N * option (peer P) :=
  (seq_id x, match kind x with Local => b | PeerId p => Some p end).

(** Same denotation. *)
Definition same_actor (b : boot P) (x y : actor_id P) : Prop := denotes b x = denotes b y.

(** Ids handed out in a run. *)
Definition ids_of (l : list (nat * option (actor_id P))) : list (option (actor_id P)) := map snd l.
End Spec.

(** A Unicode scalar value. *)
Definition scalar (c : N) : Prop := c < 0xD800 \/ (0xE000 <= c /\ c <= 0x10FFFF).

(** The numbers of the bytes that stand for it in UTF-8 (RFC 3629, section 3). *)
Definition utf8 (c : N) : list N :=
  if c <? 0x80 then [c]
  else if c <? 0x800 then [0xC0 + c / 64; 0x80 + c mod 64]
  else if c <? 0x10000 then [0xE0 + c / 4096; 0x80 + c / 64 mod 64; 0x80 + c mod 64]
  else [0xF0 + c / 262144; 0x80 + c / 4096 mod 64; 0x80 + c / 64 mod 64; 0x80 + c mod 64].

(** The bytes of a [str]. *)
Inductive is_text : list byte -> Prop :=
| text_end : is_text []
| text_char : forall c l bs, scalar c -> map Byte.to_N l = utf8 c -> is_text bs -> is_text (l ++ bs).
