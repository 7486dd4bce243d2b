(** Property theorems about replies (C21, C22). [user] is an arbitrary family of
    user-defined Rust types. *)
From Coq Require Import List String.
Import ListNotations.
From Verif Require Import Errors Dyn Reply Reply_spec Reply_proofs.

(** ** C22: every reply type of the family, every value sent through its
    [ReplySender] *)
Theorem C22_sent_is_received : forall user N r (w : rval user (r_value r)) res,
  to_result (r_value r) w = Some res ->
  exists b, sender_send (r_value r) w = Some b /\ delivers user res (receive N r b).
Proof. exact value_received. Qed.
Print Assumptions C22_sent_is_received.

Theorem C22_sending_never_panics : forall user r (w : rval user (r_value r)),
  exists res, to_result (r_value r) w = Some res.
Proof. exact value_to_result. Qed.
Print Assumptions C22_sending_never_panics.

(** A handler that returns its reply. *)
Theorem C22_returned_result : forall user N ch t e (v : result (den user t) (den user e)),
  exists b, finish (Some ch) (RRes t e) v = HSent ch b /\ delivers user v (receive N (RRes t e) b).
Proof. exact returned_value. Qed.
Print Assumptions C22_returned_result.

Theorem C22_returned_plain : forall user N ch t (v : den user t),
  exists b, finish (Some ch) (RPlain t) v = HSent ch b /\ receive N (RPlain t) b = AnsOk (r := RPlain t) v.
Proof. exact returned_plain. Qed.
Print Assumptions C22_returned_plain.

(** A handler called without a reply sender: an error goes to [on_panic], anything
    else is dropped. *)
Theorem C22_unasked : forall user r (v : rval user r),
  (exists a, is_error user r v a /\ finish None r v = HFailed a)
  \/ ((forall a, ~ is_error user r v a) /\ finish None r v = HQuiet).
Proof. exact unasked. Qed.
Print Assumptions C22_unasked.

Example C22_unasked_case :
  finish (user := fun _ => nat) None (RRes TUnit (TUser 2)) (Err 5 : result unit nat)
  = HFailed (box _ (t := TUser 2) 5).
Proof. reflexivity. Qed.

(** "A handler whose message was asked always ends by replying" is false: a
    [DelegatedReply] can be returned while the reply sender is still in the context. *)
Theorem C22_stale_marker_refuted : forall user ch r,
  finish (Some ch) (RDeleg r) (tt : rval user (RDeleg r)) = HPanicked.
Proof. exact marker_panics. Qed.
Print Assumptions C22_stale_marker_refuted.

(** A nested delegated reply whose value is an error of a user type. *)
Example C22_delegated_error :
  receive (user := fun _ => nat) TUnit (RDeleg (RDeleg (RRes TString (TUser 3))))
    (Err (HandlerError (box _ (t := TUser 3) 7))) = AnsErr (r := RDeleg (RDeleg (RRes TString (TUser 3)))) (HandlerError 7).
Proof. vm_compute. reflexivity. Qed.
(** A wrong type would be noticed: the asker panics. *)
Example C22_wrong_type :
  receive (user := fun _ => nat) TUnit (RRes TString (TUser 3)) (Ok (box _ (t := TUser 3) 7)) = AnsPanic.
Proof. vm_compute. reflexivity. Qed.

(** ** C21 *)
Theorem C21_values_any_chain : forall user ms N r (w : rval user (r_value r)) v,
  to_result (r_value r) w = Some (Ok v) ->
  exists v', ask_through ms N r w = AnsOk v' /\ same user v v'.
Proof. exact chain_value. Qed.
Print Assumptions C21_values_any_chain.

Theorem C21_error_one_hop : forall user m N r (w : rval user (r_value r)) x,
  to_result (r_value r) w = Some (Err x) ->
  exists x' : den user (r_err r), ask_through [m] N r w
             = AnsErr (r := RFwd m r) (HandlerError (HandlerError x'))
             /\ same user x x'.
Proof. exact one_hop. Qed.
Print Assumptions C21_error_one_hop.

Theorem C21_error_more_hops_refuted : forall user m1 m2 ms N r (w : rval user (r_value r)) x,
  to_result (r_value r) w = Some (Err x) ->
  ask_through (m1 :: m2 :: ms) N r w = AnsPanic.
Proof. exact more_hops. Qed.
Print Assumptions C21_error_more_hops_refuted.

Example C21_one_hop_case :
  ask_through (user := fun _ => nat) [TUser 1] (TUser 0) (RRes TUnit (TUser 2)) (Err 5 : result unit nat)
  = AnsErr (r := RFwd (TUser 1) (RRes TUnit (TUser 2))) (HandlerError (HandlerError 5)).
Proof. vm_compute. reflexivity. Qed.
Example C21_two_hops_case :
  ask_through (user := fun _ => nat) [TUser 0; TUser 1] (TUser 0) (RRes TUnit (TUser 2)) (Err 5 : result unit nat) = AnsPanic.
Proof. vm_compute. reflexivity. Qed.
Example C21_three_hops_ok :
  ask_through (user := fun _ => nat) [TUser 0; TUser 1; TUnit] (TUser 0) (RRes (TUser 4) (TUser 2)) (Ok 5 : result nat nat)
  = AnsOk (r := chain [TUser 0; TUser 1; TUnit] (RRes (TUser 4) (TUser 2))) 5.
Proof. vm_compute. reflexivity. Qed.
