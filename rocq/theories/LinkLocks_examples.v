(** Runs used in the examples of P_LinkLocks.v. *)
From Coq Require Import List Bool PeanoNat.
From Verif Require Import LinkLocks LinkLocks_spec LinkLocks_proofs.
Import ListNotations.

Definition trace_of (es : list levent) : list lobs :=
  match lrun linit es with Some (_, t) => t | None => [] end.
Lemma run_ok : forall es t (P : lsys -> Prop),
  match lrun linit es with Some (s, t') => t' = t /\ P s | None => False end ->
  exists s, lrun linit es = Some (s, t) /\ P s.
Proof.
  intros es t P H. destruct (lrun linit es) as [[s t']|]; [|contradiction]. destruct H as [-> H]. eauto.
Qed.

(** Two blocking calls on overlapping pairs, both in the order of the ids, and the drain
    of one of the actors; they get in each other's way. *)
Definition ex_ranked : list levent :=
  [LStart 0 (OpBlockingLink 1 2); LStart 1 (OpBlockingUnlink 2 3); LStart 2 (OpDrain 2);
   LRequest 0; LRequest 1; LRequest 0; LRequest 2; LRequest 1;
   LWrite 1; LWrite 1; LRelease 1 2; LRelease 1 3;
   LWrite 0; LWrite 0; LRelease 0 2; LWrite 2; LRelease 2 2; LRelease 0 1].
Definition tr_ranked : list lobs := Eval vm_compute in trace_of ex_ranked.

(** Two async calls on the same pair in opposite directions, and an unlink. *)
Definition ex_one_go : list levent :=
  [LStart 0 (OpLink 1 2); LStart 1 (OpLink 2 1); LStart 2 (OpUnlink 3 1);
   LRequestAll 1; LRequestAll 0; LRequestAll 2;
   LWrite 1; LWrite 1; LRelease 1 2; LRelease 1 1;
   LWrite 0; LWrite 0; LRelease 0 1; LWrite 2; LWrite 2; LRelease 0 2; LRelease 2 1; LRelease 2 3].
Definition tr_one_go : list lobs := Eval vm_compute in trace_of ex_one_go.

(** A link, an unlink of another pair half way through it, and a drain that finds the
    new link. *)
Definition ex_mixed : list levent :=
  [LStart 0 (OpLink 1 2); LRequest 0; LRequest 0; LStart 1 (OpInsert 3 4); LRequest 1; LWrite 0;
   LWrite 1; LRelease 1 3; LWrite 0; LStart 2 (OpDrain 1); LRequest 2; LRelease 0 1; LWrite 2;
   LRelease 2 1; LRelease 0 2].
Definition tr_mixed : list lobs := Eval vm_compute in trace_of ex_mixed.

(** Two calls [a.link(&b)] wait for each other, and then the actor shuts down. *)
Definition ex_dead : list levent :=
  [LStart 0 (OpLink 1 2); LStart 1 (OpLink 1 2); LRequest 0; LRequest 1; LRequest 1; LRequest 0;
   LStart 2 (OpDrain 1); LRequest 2].
Definition tr_dead : list lobs := Eval vm_compute in trace_of ex_dead.
