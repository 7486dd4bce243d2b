(** Example data for the texts. *)
From Coq Require Import NArith Bool Init.Byte Strings.Byte Ascii String List.
Import ListNotations.
From Verif Require Import Errors Dyn ActorId ActorId_spec ActorId_examples Texts Texts_spec.
(** Each part of a conjunction of equalities, by the kernel's virtual machine. *)
Ltac by_vm := repeat match goal with |- _ /\ _ => split end;
  match goal with |- ?a = ?b => exact (eq_refl b <: a = b) end.

Local Open Scope string_scope.

(** A base-58 text of a byte: two letters. *)
Definition ex_byte_text (b : byte) : string :=
  let digit n := match String.get n "123456789ABCDEFG" with Some c => String c "" | None => "" end in
  let n := N.to_nat (Byte.to_N b) in digit (Nat.div n 16) ++ digit (Nat.modulo n 16).

(** The text of an example peer: four letters. *)
Definition ex_show (p : peer ex_peers) : string := ex_byte_text (fst p) ++ ex_byte_text (snd p).

(** Reading it back. *)
Definition ex_letter (c : ascii) : option N :=
  option_map N.of_nat (String.index 0 (String c "") "123456789ABCDEFG").
Definition ex_read2 (a b : ascii) : option byte :=
  match ex_letter a, ex_letter b with
  | Some x, Some y => Byte.of_N (16 * x + y)
  | _, _ => None
  end.
Definition ex_read (s : string) : option (byte * byte) :=
  match s with
  | String a (String b (String c (String d EmptyString))) =>
      match ex_read2 a b, ex_read2 c d with Some x, Some y => Some (x, y) | _, _ => None end
  | _ => None
  end.

(** The text of a byte is two letters of the alphabet that read back as the byte. *)
Definition ex_byte_fine (b : byte) : bool :=
  match ex_byte_text b with
  | String x (String y EmptyString) =>
      match ex_read2 x y with Some c => Byte.eqb c b | None => false end &&
      existsb (Ascii.eqb x) alphabet58 && existsb (Ascii.eqb y) alphabet58
  | _ => false
  end%bool.

Lemma ex_byte_fine_all : forall b, ex_byte_fine b = true.
Proof. intros b. destruct b; vm_compute; reflexivity. Qed.

Lemma ex_byte_read : forall b, exists x y, ex_byte_text b = String x (String y "") /\ ex_read2 x y = Some b /\
  In x alphabet58 /\ In y alphabet58.
Proof.
  intros b. pose proof (ex_byte_fine_all b) as F. unfold ex_byte_fine in F.
  destruct (ex_byte_text b) as [|x [|y [|z s]]]; try discriminate.
  destruct (ex_read2 x y) as [c|] eqn:R; try discriminate.
  apply andb_prop in F. destruct F as [F F3]. apply andb_prop in F. destruct F as [F1 F2].
  apply byte_dec_bl in F1. subst c.
  apply existsb_exists in F2. destruct F2 as (u & I & U). apply Ascii.eqb_eq in U. subst u.
  apply existsb_exists in F3. destruct F3 as (v & J & V). apply Ascii.eqb_eq in V. subst v.
  exists x, y. auto.
Qed.

Lemma ex_names58 : names58 ex_peers ex_show.
Proof.
  split.
  - intros [a b] c I. unfold ex_show in I. cbn [fst snd] in I.
    destruct (ex_byte_read a) as (x & y & E1 & _ & X & Y).
    destruct (ex_byte_read b) as (x' & y' & E2 & _ & X' & Y').
    rewrite E1, E2 in I. cbn in I. destruct I as [<-|[<-|[<-|[<-|[]]]]]; assumption.
  - intros [a b] [c d] E. unfold ex_show in E. cbn [fst snd] in E.
    assert (R : forall u v, ex_read (ex_byte_text u ++ ex_byte_text v) = Some (u, v)).
    { intros u v. destruct (ex_byte_read u) as (x & y & -> & R1 & _).
      destruct (ex_byte_read v) as (x' & y' & -> & R2 & _). cbn [append ex_read]. now rewrite R1, R2. }
    apply (f_equal ex_read) in E. rewrite !R in E. congruence.
Qed.

(** Actor 12 of node a died of a panic, and took actor 3 of the same node with it. *)
Definition ex_user (n : nat) : Type := nat.
Definition ex_panic : panic_error ex_user := pe_new ex_user (t := TString) "boom".
Definition ex_odd_panic : panic_error ex_user := pe_new ex_user (t := TUser 0) 7.
Definition ex_reason : reason ex_peers ex_user :=
  LinkDied (mk_id 3 Local) (LinkDied (mk_id 12 (PeerId ex_node_a)) (Panicked ex_panic)).
Definition ex_reason2 : reason ex_peers ex_user :=
  LinkDied (mk_id 3 (PeerId ex_node_a)) Killed.
