(** Data for the examples beside the theorems about remote requests. *)
From Coq Require Import List PeanoNat String.
Import ListNotations.
From Verif Require Import Errors Dyn Reply Requests Requests_spec RemoteDispatch RemoteDispatch_spec.
Local Open Scope string_scope.

(** User values are numbers; one byte string is one number; numbers from 100 on cannot
    be serialised. Actor type 1 handles message "m" (of type [TUser 1]) with replies
    [Result<TUser 3, TUser 2>], actor type 2 handles "m" and "n". *)
Definition rd_user : nat -> Type := fun _ => nat.
Definition rd_encode (t : ty) : den rd_user t -> result nat string :=
  match t return den rd_user t -> result nat string with
  | TUser _ => fun v : nat => if Nat.ltb v 100 then Ok v else Err "too big"
  | _ => fun _ => Err "no serializer"
  end.
Definition rd_decode (t : ty) (b : nat) : result (den rd_user t) string :=
  match t return result (den rd_user t) string with
  | TUser _ => if Nat.ltb b 100 then Ok (b : nat) else Err "bad data"
  | _ => Err "no deserializer"
  end.
Definition rd_fns : msg_fns := mk_fns 1 (TUser 1) (RRes (TUser 3) (TUser 2)).
Definition rd_world : world rd_user nat nat := mk_world rd_user Nat.eqb rd_encode rd_decode
  [(("A", "m"), rd_fns);
   (("B", "m"), mk_fns 2 (TUser 1) (RPlain (TUser 4)));
   (("B", "n"), mk_fns 2 (TUser 5) (RPlain (TUser 4)))].

Definition rd_dup_world : world rd_user nat nat := mk_world rd_user Nat.eqb rd_encode rd_decode
  [(("A", "m"), rd_fns); (("B", "m"), rd_fns); (("A", "m"), rd_fns)].

(** Actor 30 (type 1) is in the table under id 7, actor 31 (type 2) under id 8. *)
Definition rd_table : registry nat := [(8, mk_entry 2 31); (7, mk_entry 1 30)].
(** Mailboxes of capacity one with one message in them; and empty ones. *)
Definition rd_full : mailbox rd_user := mk_mailbox (Some 1) [GMsg (existT _ (TUser 9) 0) None false] 0 true.
Definition rd_empty : mailbox rd_user := mk_mailbox (Some 1) [] 0 true.

(** An ask (a tell) of actor id [i], with its timeouts set. *)
Definition rd_ask (i : nat) (a m : string) (p : nat) : request nat nat := mk_request true i a m p true true false.
Definition rd_tell (i : nat) (a m : string) (p : nat) : request nat nat := mk_request false i a m p true false false.

Lemma rd_unique : ids_unique rd_world.
Proof.
  unfold ids_unique. cbn. repeat (apply NoDup_cons; [intros H; cbn in H|]); [| |exact H|apply NoDup_nil].
  - destruct H as [H | [H | H]]; [discriminate H | discriminate H | exact H].
  - destruct H as [H | H]; [discriminate H | exact H].
Qed.

Lemma rd_round_trip n : round_trip rd_world (TUser n).
Proof.
  intros v p.
  change ((if Nat.ltb v 100 then Ok (v : nat) else Err "too big") = Ok p ->
    (if Nat.ltb p 100 then Ok p else Err "bad data") = Ok (v : nat)).
  destruct (Nat.ltb v 100) eqn:E; [|discriminate]. intros [= <-]. rewrite E. reflexivity.
Qed.

Lemma rd_one_entry : one_entry rd_world rd_table.
Proof.
  intros i x y (k & I & K) (k' & I' & K'). apply Nat.eqb_eq in K, K'. subst.
  cbn in I, I'. destruct I as [[= <- <-] | [[= <- <-] | []]], I' as [[= E] | [[= E] | []]]; congruence.
Qed.

Lemma rd_accepted : accepted rd_world (rd_ask 7 "A" "m" 42) rd_table rd_fns 30 42.
Proof.
  exists (mk_entry 1 30). repeat split; cbn; auto. exists 7. cbn. auto.
Qed.
