(** Cases for C72. *)
From Coq Require Import List Bool PeanoNat.
From Verif Require Import Network Network_spec.
Import ListNotations.

(** Two calls of [listen_on], a [dial] whose future is dropped before the handler gets to
    it, an address, a disconnect; mDNS finds two addresses and loses one; then the handler
    is dropped with a [dial] in its channel. *)
Definition day : list event :=
  [Call (Listen 7); Call (Dial 8); Poll 0; Forget 1; Call (AddAddress 3 9); Found [(3, 4); (5, 6)];
   Take (Bad 2); Take (Good 0); Poll 0; Expired [(3, 4)]; Take (Good 0); Call (Disconnect 3); Take (Bad 1);
   Call (Dial 10); Lose; Poll 4; Call (Listen 11)].
Definition day_end : option (node * list obs) := Eval vm_compute in exec fresh day.
Definition day_node : node := Eval vm_compute in match day_end with Some (s, _) => s | None => fresh end.
Definition day_trace : list obs := Eval vm_compute in match day_end with Some (_, t) => t | None => [] end.
Lemma day_runs : exec fresh day = Some (day_node, day_trace).
Proof. vm_compute. reflexivity. Qed.

(** One failed [listen_on]. *)
Definition deaf : list event := [Call (Listen 7); Take (Bad 2)].
Lemma failed_listen : ~ (forall es s t, exec fresh es = Some (s, t) -> n_server s = true ->
  exists i a n, In (ODid i (Listen a) (Good n)) t).
Proof.
  intro H. destruct (H deaf _ _ eq_refl eq_refl) as (i & a & n & X).
  simpl in X. intuition discriminate.
Qed.

Lemma expired_kept : ~ (forall es l s t x, exec fresh (es ++ [Expired l]) = Some (s, t) -> In x l -> ~ In x (n_known s)).
Proof.
  intro H. apply (H [Found [(3, 4)]] [(3, 4)] _ _ (3, 4) eq_refl); simpl; auto.
Qed.
