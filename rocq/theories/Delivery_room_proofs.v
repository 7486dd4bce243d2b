(** Proofs about the room in the mailboxes of subscribers. *)
From Coq Require Import List Bool PeanoNat Lia.
Import ListNotations.
From Verif Require Import Errors Delivery PubSub Delivery_spec PubSub_spec Delivery_room_spec.

Set Implicit Arguments.

Section Room.
  Context {key topic reg msg : Type}.
  Variable key_eqb : key -> key -> bool.
  Variable recipient : reg -> nat.
  Variable rid : reg -> nat.
  Variable targets : list (key * list reg) -> topic -> list (key * reg).
  Variable usable : topic -> reg -> bool.
  Variable fits : key -> reg -> bool.
  Variable has_all : bool.
  Variable strat : strategy.
  Local Notation state := (@state key topic reg msg).
  Local Notation event := (@event key topic reg msg).
  Local Notation obs := (@obs key topic reg msg).
  Local Notation step := (@step key topic reg msg key_eqb recipient rid targets usable fits has_all strat).
  Local Notation run := (@run key topic reg msg key_eqb recipient rid targets usable fits has_all strat).
  Local Notation sends := (@sends key topic reg msg recipient).

  (** What events and observations do to the mailbox of [a]. *)
  Definition keeps (a : nat) (b : box (@ditem msg)) (es : list event) (b' : box (@ditem msg)) (tr : list obs) : Prop :=
    bcap b' = bcap b
    /\ (bopen b' = true <-> bopen b = true /\ ~ In (OEnded a) tr)
    /\ (bopen b' = true ->
        length (items b') + held b' + length (reads a tr) + frees a es
        = length (items b) + held b + length (sends a tr) + others a es + holds a es).

  Ltac cases E :=
    repeat match type of E with
    | None = Some _ => discriminate E
    | Some _ = Some _ => injection E as <- <-
    | (match ?x with _ => _ end) = Some _ => destruct x eqn:?; try discriminate E
    end;
    repeat match goal with
    | H : (_, _) = (_, _) |- _ => injection H; clear H; intros; subst
    end.

  Lemma polled : forall fired (b b' : box (@ditem msg)) i (m : msg) x, poll_tell fired b i m = Some (b', x) ->
    (b' = put i b /\ x = Ok tt /\ bopen b = true) \/ (b' = b /\ exists e, x = Err e).
  Proof.
    unfold poll_tell. intros fired b b' i m x E. destruct (bopen b); [destruct (room b); [|destruct fired]|];
      inversion E; subst; eauto.
  Qed.

  Lemma tried : forall (b b' : box (@ditem msg)) i (m : msg) x, try_tell b i m = (b', x) ->
    (b' = put i b /\ x = Ok tt /\ bopen b = true) \/ (b' = b /\ exists e, x = Err e).
  Proof.
    unfold try_tell. intros b b' i m x E. destruct (bopen b); [destruct (room b)|]; inversion E; subst; eauto.
  Qed.

  Lemma expired_quiet : forall (dead : list (key * nat)) n a,
    let o : list obs := map (fun e => OExpired (fst e) (snd e)) dead ++ [OFinished n] in
    reads a o = [] /\ sends a o = [] /\ ~ In (OEnded a) o.
  Proof.
    intros dead n a. cbn zeta. induction dead as [|x dead (A & B & C)]; cbn.
    - repeat split; auto. intros [K|[]]; discriminate K.
    - repeat split; auto. intros [K|K]; [discriminate K|exact (C K)].
  Qed.

  Lemma step_keeps : forall s e s' o a, step s e = Some (s', o) -> keeps a (boxes s a) [e] (boxes s' a) o.
  Proof.
    intros s e s' o a E. unfold keeps.
    destruct e; unfold Delivery.step, settle in E; cases E.
    all: repeat match goal with
         | H : poll_tell _ (boxes _ _) _ _ = Some _ |- _ => apply polled in H; destruct H as [(-> & -> & ?)|(-> & ? & ->)]
         | H : try_tell _ _ _ = _ |- _ => apply tried in H; destruct H as [(-> & -> & ?)|(-> & ? & ->)]
         end.
    all: try match goal with |- context [map _ ?d ++ [OFinished ?n]] =>
               destruct (expired_quiet d n a) as (X1 & X2 & X3); rewrite X1, X2 end.
    all: repeat match goal with x : option nat |- _ => destruct x end.
    all: cbn; unfold upd, others, holds, frees, count; cbn.
    all: repeat match goal with
         | |- context [?x =? ?x] => rewrite (Nat.eqb_refl x); cbn
         | |- context [?y =? ?x] => destruct (Nat.eqb_spec y x) as [N|N]; [rewrite N in *|]; cbn
         end; try congruence.
    all: repeat match goal with |- context [?y =? ?x] => destruct (Nat.eqb_spec y x); try congruence; cbn end.
    all: rewrite ?Nat.eqb_refl; cbn; rewrite ?app_length; cbn.
    all: repeat match goal with
         | H : items ?b = _ |- _ => rewrite H; clear H
         | H : held ?b = _ |- _ => rewrite H; clear H
         end; cbn.
    all: split; [reflexivity|split].
    all: try lia.
    all: try (intuition congruence).
    all: try (intuition (try discriminate; congruence)).
    all: destruct (not_running _); cbn; intuition (try discriminate; try congruence; lia).
  Qed.

  Lemma parts : forall (a : nat) e (es : list event) (o tr : list obs),
    others a (e :: es) = others a [e] + others a es /\ holds a (e :: es) = holds a [e] + holds a es
    /\ frees a (e :: es) = frees a [e] + frees a es
    /\ reads a (o ++ tr) = reads a o ++ reads a tr /\ sends a (o ++ tr) = sends a o ++ sends a tr.
  Proof.
    intros a e es o tr. unfold others, holds, frees, count, reads, Delivery_spec.sends.
    rewrite !flat_map_app. cbn [filter].
    repeat match goal with |- context [if ?b then _ else _] => destruct b end; cbn; auto.
  Qed.

  Lemma run_keeps : forall a es s s' tr, run s es = Some (s', tr) -> keeps a (boxes s a) es (boxes s' a) tr.
  Proof.
    intros a. induction es as [|e es IH]; intros s s' tr R.
    - injection R as <- <-. unfold keeps. cbn. repeat split; intuition.
    - cbn in R. destruct (step s e) as [[s1 o1]|] eqn:E; [|discriminate].
      destruct (run s1 es) as [[s2 o2]|] eqn:R2; [|discriminate]. injection R as <- <-.
      destruct (@step_keeps s e s1 o1 a E) as (C1 & O1 & B1). destruct (IH _ _ _ R2) as (C2 & O2 & B2).
      destruct (parts a e es o1 o2) as (P1 & P2 & P3 & P4 & P5). unfold keeps. rewrite P1, P2, P3, P4, P5, !app_length.
      split; [congruence|]. rewrite O2, O1. split.
      + rewrite in_app_iff. tauto.
      + intros ((K1 & K2) & K3).
        assert (X1 : bopen (boxes s1 a) = true) by (apply O1; auto).
        assert (X2 : bopen (boxes s2 a) = true) by (apply O2; auto).
        specialize (B1 X1). specialize (B2 X2). lia.
  Qed.

  Lemma box_room : forall cap caps es s tr a, run (init cap caps) es = Some (s, tr) ->
    (bopen (boxes s a) = true <-> ~ In (OEnded a) tr)
    /\ (~ In (OEnded a) tr -> (has_room (boxes s a) <-> not_full recipient (caps a) a es tr)).
  Proof.
    intros cap caps es s tr a R. destruct (@run_keeps a _ _ _ _ R) as (C & O & B). cbn in C, O, B.
    split; [tauto|]. intros N. assert (X : bopen (boxes s a) = true) by tauto. specialize (B X).
    unfold has_room, not_full. rewrite C. destruct (caps a); [|tauto]. lia.
  Qed.
End Room.

Section PubSubRoom.
  Context {fil msg : Type}.
  Variable call : fil -> msg -> option (bool * fil).
  Local Notation pobs := (@pobs fil msg).
  Local Notation pstate := (@pstate fil msg).
  Local Notation pevent := (@pevent fil msg).
  Local Notation pstep := (@pstep fil msg call).
  Local Notation prun := (@prun fil msg call).

  Definition pkeeps (a : nat) (b : box (@ditem msg)) (es : list pevent) (b' : box (@ditem msg)) (tr : list pobs) : Prop :=
    bcap b' = bcap b
    /\ (bopen b' = true <-> bopen b = true /\ ~ In (POEnded a) tr)
    /\ (bopen b' = true ->
        length (items b') + held b' + length (preads a tr) + pfrees a es
        = length (items b) + held b + length (psends a tr) + pothers a es + pholds a es).

  Lemma pexpired_quiet : forall (l : list nat) n a,
    let o : list pobs := map POExpired l ++ [POFinished n] in
    preads a o = [] /\ psends a o = [] /\ ~ In (POEnded a) o.
  Proof.
    intros l n a. cbn zeta. induction l as [|x l (A & B & C)]; cbn.
    - repeat split; auto. intros [K|[]]; discriminate K.
    - repeat split; auto. intros [K|K]; [discriminate K|exact (C K)].
  Qed.

  Ltac pcases E :=
    repeat (match type of E with
            | (if ?b then _ else _) = _ => destruct b eqn:?
            | (match ?x with _ => _ end) = _ => destruct x eqn:?
            end; try discriminate E); try discriminate E; injection E as <- <-.

  Lemma pstep_keeps : forall s e s' o a, pstep s e = Some (s', o) -> pkeeps a (pboxes s a) [e] (pboxes s' a) o.
  Proof.
    intros s e s' o a E. unfold pkeeps.
    destruct e; cbn [PubSub.pstep] in E; pcases E.
    all: subst.
    all: repeat match goal with
         | H : poll_tell _ (pboxes _ _) _ _ = Some _ |- _ => apply polled in H; destruct H as [(-> & -> & ?)|(-> & ? & ->)]
         end.
    all: try match goal with |- context [map POExpired ?d ++ [POFinished ?n]] =>
               destruct (pexpired_quiet d n a) as (X1 & X2 & X3); rewrite X1, X2 end.
    all: cbn; unfold upd, pothers, pholds, pfrees, count; cbn.
    all: repeat match goal with
         | |- context [?x =? ?x] => rewrite (Nat.eqb_refl x); cbn
         | |- context [?y =? ?x] => destruct (Nat.eqb_spec y x) as [N|N]; [rewrite N in *|]; cbn
         end; try congruence.
    all: repeat match goal with |- context [?y =? ?x] => destruct (Nat.eqb_spec y x); try congruence; cbn end.
    all: rewrite ?Nat.eqb_refl; cbn; rewrite ?app_length; cbn.
    all: repeat match goal with
         | H : items ?b = _ |- _ => rewrite H; clear H
         | H : held ?b = _ |- _ => rewrite H; clear H
         end; cbn.
    all: split; [reflexivity|split].
    all: try lia.
    all: try (intuition congruence).
    all: try (intuition (try discriminate; congruence)).
  Qed.

  Lemma pparts : forall (a : nat) e (es : list pevent) (o tr : list pobs),
    pothers a (e :: es) = pothers a [e] + pothers a es /\ pholds a (e :: es) = pholds a [e] + pholds a es
    /\ pfrees a (e :: es) = pfrees a [e] + pfrees a es
    /\ preads a (o ++ tr) = preads a o ++ preads a tr /\ psends a (o ++ tr) = psends a o ++ psends a tr.
  Proof.
    intros a e es o tr. unfold pothers, pholds, pfrees, count, preads, psends.
    rewrite !flat_map_app. cbn [filter].
    repeat match goal with |- context [if ?b then _ else _] => destruct b end; cbn; auto.
  Qed.

  Lemma prun_keeps : forall a es s s' tr, prun s es = Some (s', tr) -> pkeeps a (pboxes s a) es (pboxes s' a) tr.
  Proof.
    intros a. induction es as [|e es IH]; intros s s' tr R.
    - injection R as <- <-. unfold pkeeps. cbn. repeat split; intuition.
    - cbn in R. destruct (pstep s e) as [[s1 o1]|] eqn:E; [|discriminate].
      destruct (prun s1 es) as [[s2 o2]|] eqn:R2; [|discriminate]. injection R as <- <-.
      destruct (@pstep_keeps s e s1 o1 a E) as (C1 & O1 & B1). destruct (IH _ _ _ R2) as (C2 & O2 & B2).
      destruct (pparts a e es o1 o2) as (P1 & P2 & P3 & P4 & P5). unfold pkeeps. rewrite P1, P2, P3, P4, P5, !app_length.
      split; [congruence|]. rewrite O2, O1. split.
      + rewrite in_app_iff. tauto.
      + intros ((K1 & K2) & K3).
        assert (X1 : bopen (pboxes s1 a) = true) by (apply O1; auto).
        assert (X2 : bopen (pboxes s2 a) = true) by (apply O2; auto).
        specialize (B1 X1). specialize (B2 X2). lia.
  Qed.

  Lemma pbox_room : forall cap caps es s tr a, prun (pinit cap caps) es = Some (s, tr) ->
    (bopen (pboxes s a) = true <-> ~ In (POEnded a) tr)
    /\ (~ In (POEnded a) tr -> (has_room (pboxes s a) <-> pnot_full (caps a) a es tr)).
  Proof.
    intros cap caps es s tr a R. destruct (@prun_keeps a _ _ _ _ R) as (C & O & B). cbn in C, O, B.
    split; [tauto|]. intros N. assert (X : bopen (pboxes s a) = true) by tauto. specialize (B X).
    unfold has_room, pnot_full. rewrite C. destruct (caps a); [|tauto]. lia.
  Qed.
End PubSubRoom.
