(** Proofs about the answer to a [Dispatch], for P_Pool.v. *)
From Coq Require Import List Lia.
From Verif Require Import Errors Dyn Errors_proofs Reply Reply_spec Reply_proofs Pool_reply.
Import ListNotations.

Lemma pool_ok : forall user m N r v, pool_answer user m N r (Ok v) = AnsOk (r := RDeleg r) v.
Proof.
  intros user m N r v. unfold pool_answer, sender_send. cbn [to_result]. unfold receive, downcast_ok. cbn [r_ok].
  rewrite unbox_box. reflexivity.
Qed.

Lemma pool_err : forall user m N r e, pool_answer user m N r (Err e) = AnsPanic.
Proof.
  intros user m N r e. unfold pool_answer, sender_send. cbn [to_result]. unfold receive, downcast_err, se_downcast.
  cbn [se_try_downcast r_err]. rewrite unbox_other; [reflexivity|].
  intros H. apply (f_equal tsize) in H. cbn in H. lia.
Qed.
