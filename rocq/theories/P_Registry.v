(** Property theorems about the local registry (C30): every history of operations on
    a fresh registry. *)
From Coq Require Import List String.
Import ListNotations.
From Verif Require Import Registry Registry_spec Registry_proofs.
Local Open Scope string_scope.
Local Open Scope list_scope.

(** Every operation of every history returns what looking back through the history
    says it should. *)
Theorem C30_answers : forall ops1 op ops2 o,
  nth_error (snd (reg_run reg_new (ops1 ++ op :: ops2))) (List.length ops1) = Some o ->
  right_answer ops1 op o.
Proof. exact answers_right. Qed.
Print Assumptions C30_answers.

Theorem C30_answers_all : forall ops m, List.length (snd (reg_run m ops)) = List.length ops.
Proof. exact answers_total. Qed.
Print Assumptions C30_answers_all.

(** [contains_name], [names] and [len] agree with it. *)
Theorem C30_contains : forall ops n,
  (exists r, last_registered n ops r) /\ reg_contains n (fst (reg_run reg_new ops)) = true
  \/ (forall r, ~ last_registered n ops r) /\ reg_contains n (fst (reg_run reg_new ops)) = false.
Proof. exact contains_last. Qed.
Print Assumptions C30_contains.

Theorem C30_names : forall ops,
  NoDup (reg_names (fst (reg_run reg_new ops))) /\
  forall n, In n (reg_names (fst (reg_run reg_new ops))) <-> exists r, last_registered n ops r.
Proof. exact (fun ops => conj (names_nodup ops) (names_exact ops)). Qed.
Print Assumptions C30_names.

Theorem C30_len : forall ops, exists l, NoDup l /\ List.length l = reg_len (fst (reg_run reg_new ops)) /\
  (forall n, In n l <-> exists r, last_registered n ops r).
Proof. exact len_exact. Qed.
Print Assumptions C30_len.

(** Two actors of different types under one name, then removal. *)
Example C30_case :
  reg_run reg_new
    [OpRegister "a" (mk_ref 1 10); OpGet 2 "a"; OpInsert "a" (mk_ref 2 20); OpLookup 2 "a"; OpGet 1 "b";
     OpInsert "b" (mk_ref 1 11); OpRemove "a"; OpRemove "a"; OpGet 2 "a"; OpGet 1 "b"]
  = ([("b", mk_ref 1 11)],
     [OutUnit; OutLookup LBadActorType; OutFlag true; OutLookup (LFound 20); OutLookup LAbsent;
      OutFlag false; OutFlag true; OutFlag false; OutLookup LAbsent; OutLookup (LFound 11)]).
Proof. vm_compute. reflexivity. Qed.
Example C30_last_case :
  last_registered "a" [OpInsert "a" (mk_ref 1 10); OpInsert "a" (mk_ref 2 20); OpRemove "b"; OpGet 1 "a"] (mk_ref 2 20).
Proof.
  exists [OpInsert "a" (mk_ref 1 10)], (OpInsert "a" (mk_ref 2 20)), [OpRemove "b"; OpGet 1 "a"].
  split; [reflexivity|]. split; [right; reflexivity|]. repeat constructor. cbn. discriminate.
Qed.
