(** Proofs about the messages of a [PubSub] actor: they are handled in turn, and it stops
    only when it is stopped or a filter panics. *)
From Coq Require Import List Bool PeanoNat Lia.
Import ListNotations.
From Verif Require Import Errors Delivery PubSub Delivery_spec PubSub_spec Delivery_proofs PubSub_proofs.

Set Implicit Arguments.

Section Line.
  Context {fil msg : Type}.
  Variable call : fil -> msg -> option (bool * fil).
  Local Notation pobs := (@pobs fil msg).
  Local Notation pstate := (@pstate fil msg).
  Local Notation pevent := (@pevent fil msg).
  Local Notation pstep := (@pstep fil msg call).
  Local Notation prun := (@prun fil msg call).

  Lemma paccepted_app : forall a b : list pevent, paccepted (a ++ b) = paccepted a ++ paccepted b.
  Proof. intros. apply flat_map_app. Qed.
  Lemma phandled_app : forall a b : list pobs, phandled (a ++ b) = phandled a ++ phandled b.
  Proof. intros. apply flat_map_app. Qed.
  Lemma expired_handled : forall l (n : nat), phandled (map POExpired l ++ [POFinished n] : list pobs) = [].
  Proof. intros l n. rewrite phandled_app, app_nil_r. induction l; cbn; auto. Qed.

  Ltac pcases E :=
    repeat (match type of E with
            | (if ?b then _ else _) = _ => destruct b eqn:?
            | (match ?x with _ => _ end) = _ => destruct x eqn:?
            end; try discriminate E); try discriminate E; injection E as <- <-.

  Lemma pstep_line : forall s e s' o, pstep s e = Some (s', o) ->
    (pph s' <> PStopped -> phandled o ++ items (pinbox s') = items (pinbox s) ++ paccepted [e])
    /\ exists rest, items (pinbox s) ++ paccepted [e] = phandled o ++ rest.
  Proof.
    intros s e s' o E. destruct e; cbn [PubSub.pstep] in E; pcases E; rewrite ?expired_handled;
      cbn; rewrite ?app_nil_r; (split; [intros; congruence|]);
      match goal with
      | |- exists rest, items (pinbox ?s) = rest => eexists; reflexivity
      | H : items (pinbox s) = _ :: ?q |- _ => exists q; congruence
      | _ => eexists; reflexivity
      end.
  Qed.

  Lemma pstep_stopped : forall s e s' o, pstep s e = Some (s', o) -> pph s = PStopped -> pph s' = PStopped /\ phandled o = [].
  Proof.
    intros s e s' o E P. destruct e; cbn [PubSub.pstep] in E; rewrite ?P in E; pcases E; cbn; auto.
  Qed.

  Lemma pstep_stops : forall s e s' o, pstep s e = Some (s', o) ->
    pph s' = PStopped <-> pph s = PStopped \/ e = PEStop \/ exists n a, In (POPanicked n a) o.
  Proof.
    intros s e s' o E. split.
    - destruct e; cbn [PubSub.pstep] in E; pcases E; cbn; intros P; try discriminate P; auto.
      + right. right. eauto.
      + congruence.
    - intros [P|[->|(n & a & P)]].
      + exact (proj1 (pstep_stopped _ _ E P)).
      + injection E as <- _. reflexivity.
      + destruct e; cbn [PubSub.pstep] in E; pcases E; cbn in P; try (intuition discriminate).
        apply in_app_or in P. destruct P as [P|[P|[]]]; [|discriminate].
        apply in_map_iff in P. destruct P as (z & Z & _). discriminate.
  Qed.

  Lemma pin_turn : forall cap caps es s tr, prun (pinit cap caps) es = Some (s, tr) ->
    exists rest, paccepted es = phandled tr ++ rest /\ (pph s <> PStopped -> items (pinbox s) = rest).
  Proof.
    intros cap caps es. induction es as [|e es IH] using rev_ind; intros s tr R.
    - injection R as <- <-. exists []. auto.
    - rewrite prun_app in R. destruct (prun (pinit cap caps) es) as [[s1 t1]|] eqn:E1; [|discriminate].
      cbn [PubSub.prun] in R. destruct (pstep s1 e) as [[s2 o]|] eqn:E2; [|discriminate]. injection R as <- <-.
      rewrite app_nil_r, paccepted_app, phandled_app. destruct (IH _ _ eq_refl) as (rest & A & B). rewrite A.
      destruct (pstep_line _ _ E2) as (L1 & (rest' & L2)).
      assert (D : pph s1 = PStopped \/ pph s1 <> PStopped) by (destruct (pph s1); auto; right; discriminate).
      destruct D as [D|D].
      + destruct (pstep_stopped _ _ E2 D) as (D1 & ->). exists (rest ++ paccepted [e]).
        rewrite app_nil_r, app_assoc. split; [reflexivity|congruence].
      + rewrite (B D) in *. exists rest'. rewrite <- !app_assoc, L2. split; [reflexivity|].
        intros D2. specialize (L1 D2). rewrite L2 in L1. exact (app_inv_head _ _ _ L1).
  Qed.

  Lemma pstops_when : forall cap caps es s tr, prun (pinit cap caps) es = Some (s, tr) ->
    pph s = PStopped <-> In PEStop es \/ exists n a, In (POPanicked n a) tr.
  Proof.
    intros cap caps es. induction es as [|e es IH] using rev_ind; intros s tr R.
    - injection R as <- <-. split; [discriminate|]. intros [[]|(n & a & [])].
    - rewrite prun_app in R. destruct (prun (pinit cap caps) es) as [[s1 t1]|] eqn:E1; [|discriminate].
      cbn [PubSub.prun] in R. destruct (pstep s1 e) as [[s2 o]|] eqn:E2; [|discriminate]. injection R as <- <-.
      rewrite app_nil_r, (pstep_stops _ _ E2), (IH _ _ eq_refl). split.
      + intros [[I|(n & a & I)]|[->|(n & a & I)]].
        * left. apply in_or_app. auto.
        * right. exists n, a. apply in_or_app. auto.
        * left. apply in_or_app. right. left. reflexivity.
        * right. exists n, a. apply in_or_app. auto.
      + intros [I|(n & a & I)]; apply in_app_or in I; destruct I as [I|I]; eauto 6.
        destruct I as [->|[]]. auto.
  Qed.

  Lemma ptaken : forall cap caps es s tr b q, prun (pinit cap caps) es = Some (s, tr) ->
    pph s = PIdle -> items (pinbox s) = b :: q ->
    exists s' o, prun (pinit cap caps) (es ++ [PETake]) = Some (s', tr ++ o) /\ phandled o = [b].
  Proof.
    intros cap caps es s tr b q R I L. rewrite prun_app, R. cbn [PubSub.prun PubSub.pstep]. rewrite I, L.
    destruct b as [a f|m]; [|destruct (call_all call m (psubs s)) as [[l acc]|a]]; eexists; eexists; (split; [reflexivity|reflexivity]).
  Qed.

  (** Its mailbox is open until it stops. *)
  Lemma pstep_box : forall s e s' o, pstep s e = Some (s', o) ->
    (bopen (pinbox s) = true <-> pph s <> PStopped) ->
    (bopen (pinbox s') = true <-> pph s' <> PStopped)
    /\ bcap (pinbox s') = bcap (pinbox s) /\ held (pinbox s') = held (pinbox s).
  Proof.
    intros s e s' o E I. destruct e; cbn [PubSub.pstep] in E; pcases E; cbn in *;
      repeat match goal with H : pph s = _ |- _ => rewrite H in * end;
      (split; [|auto]); try tauto;
      try (split; [discriminate|intros X; now contradict X]);
      (assert (X : bopen (pinbox s) = true) by (apply I; discriminate); rewrite X; split; [discriminate|reflexivity]).
  Qed.

  Lemma pbox : forall cap caps es s tr, prun (pinit cap caps) es = Some (s, tr) ->
    (bopen (pinbox s) = true <-> pph s <> PStopped) /\ bcap (pinbox s) = cap /\ held (pinbox s) = 0.
  Proof.
    intros cap caps es. induction es as [|e es IH] using rev_ind; intros s tr R.
    - injection R as <- <-. cbn. split; [|auto]. split; [discriminate|reflexivity].
    - rewrite prun_app in R. destruct (prun (pinit cap caps) es) as [[s1 t1]|] eqn:E1; [|discriminate].
      cbn [PubSub.prun] in R. destruct (pstep s1 e) as [[s2 o]|] eqn:E2; [|discriminate]. injection R as <- <-.
      destruct (IH _ _ eq_refl) as (I1 & <- & <-). exact (pstep_box _ _ E2 I1).
  Qed.

  Lemma paccepts : forall cap caps es s tr b, prun (pinit cap caps) es = Some (s, tr) ->
    (exists s', prun (pinit cap caps) (es ++ [PESend b]) = Some (s', tr)) <->
    pph s <> PStopped
    /\ match cap with Some c => length (paccepted es) < c + length (phandled tr) | None => True end.
  Proof.
    intros cap caps es s tr b R. destruct (pbox _ _ _ R) as (B1 & B2 & B3).
    destruct (pin_turn _ _ _ R) as (rest & L & N). rewrite prun_app, R. cbn [PubSub.prun PubSub.pstep].
    assert (D : pph s = PStopped \/ pph s <> PStopped) by (destruct (pph s); auto; right; discriminate).
    destruct D as [D|D].
    - destruct (bopen (pinbox s)) eqn:O; [exfalso; now apply (proj1 B1 eq_refl)|]. cbn.
      split; [intros (x & X); discriminate|intros (X & _); contradiction].
    - specialize (N D). apply B1 in D as O. rewrite O. cbn [andb].
      assert (HR : room (pinbox s) = true <-> match cap with Some c => length (paccepted es) < c + length (phandled tr) | None => True end).
      { unfold room. rewrite B2, B3, N, L, app_length. destruct cap; [|tauto]. rewrite Nat.ltb_lt. lia. }
      rewrite <- HR. destruct (room (pinbox s)); cbn; (split; [intros X|intros (X & Y)]).
      + auto.
      + rewrite app_nil_r. eauto.
      + destruct X as (x & X). discriminate.
      + discriminate.
  Qed.
End Line.
