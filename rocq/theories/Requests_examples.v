(** Data for the examples beside the request theorems. *)
From Coq Require Import List.
Import ListNotations.
From Verif Require Import Errors Dyn Reply Requests.

(** Mailboxes used in the examples: one message waiting. *)
Definition ex_user : nat -> Type := fun _ => nat.
Definition ex_any : any ex_user := existT _ (TUser 9) 0.
Definition ex_box (cap : option nat) (open : bool) : mailbox ex_user :=
  mk_mailbox cap [GMsg ex_any None false] 0 open.
Definition ex_rep : rty := RRes TUnit (TUser 2).

(** Results of sending a [TUser 1]. *)
Definition ex_error (e : send_error nat nat) : sent ex_user (TUser 1) (TUser 2) := NotSent (user := ex_user) (M := TUser 1) (E := TUser 2) e.
Definition ex_error_unit (e : send_error unit nat) : sent ex_user TUnit (TUser 2) := NotSent (user := ex_user) (M := TUnit) (E := TUser 2) e.
Definition ex_reply_error (e : send_error nat nat) : outcome ex_user (TUser 1) ex_rep :=
  OutErr (e : send_error (den ex_user (TUser 1)) (den ex_user (r_err ex_rep))).
Notation ex_failed k e := (RqFailed (user := ex_user) (m := TUser 1) (r := ex_rep) (k := k) e).
Notation ex_failed_unit k e := (RqFailed (user := ex_user) (m := TUnit) (r := ex_rep) (k := k) e).
