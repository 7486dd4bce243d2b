(** Property theorems about how panic errors are read (C69). *)
From Coq Require Import Ascii String List Bool PeanoNat.
From Verif Require Import Errors Dyn PanicLock PanicLock_spec PanicLock_proofs PanicLock_examples.
Import ListNotations.
Open Scope string_scope.

(** ** C69 *)

(** What can happen next and what is seen of it is told by the calls and closures before. *)
Theorem C69_exact : forall user h x o,
  possible user (h ++ [(x, o)]) <-> possible user h /\ allowed user (seen user h) x o.
Proof. exact read_exact. Qed.
Print Assumptions C69_exact.

(** One closure at a time for an error, whichever clones it is read through. *)
Theorem C69_exclusive : forall user h, possible user h ->
  (forall t, NoDup (inside (seen user h) t)) /\
  (forall e t1 t2, In e (inside (seen user h) t1) -> In e (inside (seen user h) t2) -> t1 = t2).
Proof. exact read_exclusive. Qed.
Print Assumptions C69_exclusive.

(** A closure that panics leaves the error as one that returns. *)
Theorem C69_again : forall user h t m h',
  possible user (h ++ (EPanic t m, OOver) :: h') <-> possible user (h ++ (EReturn t, OOver) :: h').
Proof. exact read_again. Qed.
Print Assumptions C69_again.

(** Reading an error inside of a closure for the same error never returns. *)
Theorem C69_inside : forall user h t hd u h', possible user (h ++ (ECall t hd u, OCalled) :: h') ->
  In (nth hd (refers (seen user h)) 0) (inside (seen user h) t) -> forall o, ~ In (EGet t, o) h'.
Proof. exact read_inside. Qed.
Print Assumptions C69_inside.

(** Nor does the call of any thread of several that wait for each other. *)
Theorem C69_never : forall user h ts, entangled user (seen user h) ts ->
  forall h', possible user (h ++ h') -> forall t, ts t ->
  awaits (seen user (h ++ h')) t = awaits (seen user h) t /\ forall o, ~ In (EGet t, o) h'.
Proof. exact read_never. Qed.
Print Assumptions C69_never.

(** If errors are read inside of closures for others in one order only, then while any thread
    waits some thread that waits can have its error or some closure can return. *)
Theorem C69_progress : forall user rank h t e u, possible user h -> ordered user rank h ->
  awaits (seen user h) t = Some (e, u) ->
  (exists t o, possible user (h ++ [(EGet t, o)])) \/
  (exists t, inside (seen user h) t <> [] /\ possible user (h ++ [(EReturn t, OOver)])).
Proof. exact read_progress. Qed.
Print Assumptions C69_progress.

(** Without an order this is not so. *)
Theorem C69_progress_refuted : ~ forall user (h : list (event user * out user)) t e u,
  possible user h -> awaits (seen user h) t = Some (e, u) ->
  (exists t o, possible user (h ++ [(EGet t, o)])) \/
  (exists t, inside (seen user h) t <> [] /\ possible user (h ++ [(EReturn t, OOver)])).
Proof. exact progress_refuted. Qed.
Print Assumptions C69_progress_refuted.

(** Runs that meet the hypotheses. *)
Example C69_shared_case : possible nats shared /\ ordered nats (fun e => e) shared /\
  inside (seen nats (firstn 8 shared)) 0 = [1; 0] /\
  awaits (seen nats (firstn 8 shared)) 1 = Some (0, UWith).
Proof. exact (conj shared_possible (conj shared_ordered (conj eq_refl eq_refl))). Qed.
Print Assumptions C69_shared_case.

Example C69_twice_case : possible nats twice /\ entangled nats (seen nats twice) (fun t => t = 0) /\
  In (nth 1 (refers (seen nats (firstn 4 twice))) 0) (inside (seen nats (firstn 4 twice)) 0).
Proof. exact (conj twice_possible (conj twice_entangled (or_introl eq_refl))). Qed.
Print Assumptions C69_twice_case.

Example C69_crossed_case : possible nats crossed /\ entangled nats (seen nats crossed) (fun t => t < 2).
Proof. exact (conj crossed_possible crossed_entangled). Qed.
Print Assumptions C69_crossed_case.
