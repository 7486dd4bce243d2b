(** Model of src/actor/id.rs and of the registration records of
    src/remote/swarm.rs 1194-1227 (feature "remote"). *)
From Coq Require Import List Bool NArith Init.Byte Strings.Byte.
Import ListNotations.
Local Open Scope N_scope.

(** The contract of [libp2p::PeerId] used by the code: a type with equality, a byte
    encoding that is not empty and shorter than 256 bytes (a multihash is at most 2 +
    64 bytes here), and a parser that reads the encoding back. Everything below is
    for an arbitrary such type. *)
Record peers : Type := mk_peers {
  peer : Type;
  peer_eqb : peer -> peer -> bool;
  peer_eqb_eq : forall p q, peer_eqb p q = true <-> p = q;
  peer_bytes : peer -> list byte;
  peer_parse : list byte -> option peer;
  peer_parse_bytes : forall p, peer_parse (peer_bytes p) = Some p;
  peer_bytes_nonempty : forall p, peer_bytes p <> [];
  peer_bytes_short : forall p, (length (peer_bytes p) <= 255)%nat
}.

(** ** Little endian (std [u64::to_le_bytes], [u64::from_le_bytes]) *)

(** The low byte of a number ([as u8]). *)
Definition low_byte (n : N) : byte :=
  match Byte.of_N (n mod 256) with Some b => b | None => x00 end.

(** std [to_le_bytes], [n] bytes. *)
Fixpoint le_bytes (n : nat) (v : N) : list byte :=
  match n with
  | O => []
  | S n' => low_byte v :: le_bytes n' (v / 256)
  end.

(** std [from_le_bytes]. *)
Fixpoint of_le_bytes (bs : list byte) : N :=
  match bs with
  | [] => 0
  | b :: bs' => Byte.to_N b + 256 * of_le_bytes bs'
  end.

Section Ids.
Variable P : peers.

(** src/actor/id.rs 215-220: [PeerIdKind]. *)
Inductive peer_kind : Type :=
| Local
| PeerId (p : peer P).

(** src/actor/id.rs 18-24: [ActorID]; the sequence id is a [u64]. *)
Record actor_id : Type := mk_id {
  seq_id : N;
  kind : peer_kind
}.

(** src/actor/id.rs 39-45: [ActorID::new]. *)
Definition id_new (n : N) : actor_id := mk_id n Local.

(** src/actor/id.rs 57-63: [ActorID::new_with_peer_id]. *)
Definition id_with_peer (n : N) (p : peer P) : actor_id := mk_id n (PeerId p).

(** The process-wide swarm: [ActorSwarm::get()] (swarm.rs 227-229), [None] until
    bootstrapped; only its local peer id matters here. *)
Definition boot : Type := option (peer P).

(** src/actor/id.rs 224-229: [PeerIdKind::peer_id]. *)
Definition kind_peer (b : boot) (k : peer_kind) : option (peer P) :=
  match k with
  | Local => b
  | PeerId p => Some p
  end.

(** Equality of [Option<&PeerId>] (std). *)
Definition opt_peer_eqb (x y : option (peer P)) : bool :=
  match x, y with
  | None, None => true
  | Some p, Some q => peer_eqb P p q
  | _, _ => false
  end.

(** src/actor/id.rs 18 (derive) and 233-237: equality of ids. *)
Definition id_eqb (b : boot) (x y : actor_id) : bool :=
  (seq_id x =? seq_id y) && opt_peer_eqb (kind_peer b (kind x)) (kind_peer b (kind y)).

(** What is fed to a [Hasher] (std): a [u64] or a byte slice. *)
Inductive hash_write : Type :=
| HU64 (n : N)
| HBytes (bs : list byte).

(** src/actor/id.rs 18 (derive) and 243-249: hashing of ids. *)
Definition id_hash (b : boot) (x : actor_id) : list hash_write :=
  HU64 (seq_id x) ::
  match kind_peer b (kind x) with
  | Some p => [HBytes (peer_bytes P p)]
  | None => []
  end.

(** src/actor/id.rs 110-126: [ActorID::to_bytes]. The [or_else] of line 119 asks the
    swarm once more; [kind_peer] has asked it already. *)
Definition id_to_bytes (b : boot) (x : actor_id) : list byte :=
  le_bytes 8 (seq_id x) ++
  match option_map (peer_bytes P) (kind_peer b (kind x)) with
  | Some bs => bs
  | None =>
      match b with
      | Some p => peer_bytes P p
      | None => []
      end
  end.

(** Result of [from_bytes]: the id, [ParsePeerID], or a panic of the slicing. The
    error [MissingSequenceID] is not among them: see below. *)
Inductive from_bytes_result : Type :=
| FbOk (x : actor_id)
| FbMissingSequence
| FbParsePeer
| FbPanic.

(** std: [bs[i..j]]; [None] is a panic. *)
Definition slice (bs : list byte) (i j : nat) : option (list byte) :=
  if (Nat.leb i j && Nat.leb j (length bs))%bool then Some (firstn (j - i) (skipn i bs)) else None.

(** src/actor/id.rs 137-158: [ActorID::from_bytes]. The conversion of the slice to
    [[u8; 8]] (line 140) fails iff its length is not 8. *)
Definition id_from_bytes (bs : list byte) : from_bytes_result :=
  match slice bs 0 8 with
  | None => FbPanic
  | Some s =>
      if Nat.eqb (length s) 8 then
        let n := of_le_bytes s in
        if Nat.ltb 8 (length bs) then
          match peer_parse P (skipn 8 bs) with
          | Some p => FbOk (mk_id n (PeerId p))
          | None => FbParsePeer
          end
        else FbOk (mk_id n Local)
      else FbMissingSequence
  end.

(** ** Generation: src/actor/id.rs 13 and 72-79 *)

(** One [fetch_add] on the process-wide counter of [w] bits ([usize]); returns the
    generated id. [try_into] (line 76) cannot fail for [w <= 64]; [None] is its panic. *)
Definition generate (w : N) (counter : N) : option actor_id * N :=
  ((if counter <? 2 ^ 64 then Some (id_new counter) else None), (counter + 1) mod 2 ^ w).

(** A run of the process: the given threads call [generate] one after the other (the
    atomic makes any interleaving such a sequence); the ids in order of generation. *)
Fixpoint generate_all (w : N) (counter : N) (threads : list nat) : list (nat * option actor_id) :=
  match threads with
  | [] => []
  | t :: ts => let '(x, c) := generate w counter in (t, x) :: generate_all w c ts
  end.

(** ** Registration records: src/remote/swarm.rs 1194-1227 *)

(** swarm.rs 1194-1199: [ActorRegistration]; the remote id is the UTF-8 of a [str]. *)
Record registration : Type := mk_reg {
  reg_id : actor_id;
  reg_remote : list byte
}.

(** std [str::from_utf8]: validity of UTF-8 (the table of the std documentation,
    RFC 3629): continuation bytes, and the first continuation byte's range. *)
Definition in_range (lo hi : N) (b : byte) : bool := (lo <=? Byte.to_N b) && (Byte.to_N b <=? hi).

(** std [core::str::validations]: the decoder loop. *)
Fixpoint utf8_valid (bs : list byte) {struct bs} : bool :=
  let cont := in_range 128 191 in
  match bs with
  | [] => true
  | a :: r1 =>
      if in_range 0 127 a then utf8_valid r1
      else if in_range 194 223 a then
        match r1 with
        | b :: r2 => cont b && utf8_valid r2
        | [] => false
        end
      else if in_range 224 239 a then
        match r1 with
        | b :: c :: r3 =>
            (if Byte.to_N a =? 224 then in_range 160 191 b
             else if Byte.to_N a =? 237 then in_range 128 159 b
             else cont b)
            && cont c && utf8_valid r3
        | _ => false
        end
      else if in_range 240 244 a then
        match r1 with
        | b :: c :: d :: r4 =>
            (if Byte.to_N a =? 240 then in_range 144 191 b
             else if Byte.to_N a =? 244 then in_range 128 143 b
             else cont b)
            && cont c && cont d && utf8_valid r4
        | _ => false
        end
      else false
  end.

(** swarm.rs 1207-1215: [into_bytes]; line 1210 is [(len - 8) as u8]. *)
Definition reg_into_bytes (b : boot) (r : registration) : list byte :=
  let idb := id_to_bytes b (reg_id r) in
  low_byte (N.of_nat (length idb - 8)) :: idb ++ reg_remote r.

(** swarm.rs 1217-1222: [from_bytes]; [None] is a panic (slicing, the [unwrap] of the
    id, or the [unwrap] of [from_utf8]). *)
Definition reg_from_bytes (bs : list byte) : option registration :=
  match slice bs 0 1 with
  | Some [l] =>
      let n := N.to_nat (Byte.to_N l) in
      match slice bs 1 (1 + 8 + n) with
      | None => None
      | Some idb =>
          match id_from_bytes idb with
          | FbOk x =>
              let rest := skipn (1 + 8 + n) bs in
              if utf8_valid rest then Some (mk_reg x rest) else None
          | _ => None
          end
      end
  | _ => None
  end.

End Ids.
Arguments Local {P}.
Arguments PeerId {P} p.
Arguments mk_id {P} _ _.
Arguments seq_id {P} a.
Arguments kind {P} a.
Arguments mk_reg {P} _ _.
Arguments reg_id {P} r.
Arguments reg_remote {P} r.
Arguments FbOk {P} x.
Arguments FbMissingSequence {P}.
Arguments FbParsePeer {P}.
Arguments FbPanic {P}.
