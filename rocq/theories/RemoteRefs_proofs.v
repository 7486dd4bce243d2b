(** Proofs about RemoteRefs. *)
From Coq Require Import List Bool Arith PeanoNat Lia.
From Verif Require Import Lifecycle Lifecycle_spec Lifecycle_proofs Lifecycle_order_proofs
  Lifecycle_fifo_proofs Lifecycle_stop_proofs Lifecycle_wait_proofs Lifecycle_final_proofs
  RemoteRefs RemoteRefs_spec.
Import ListNotations.

Lemma reg_step : forall s e s' o, step s e = Some (s', o) -> in_reg s = true ->
  in_reg s' = true \/ (e = ARegRemove /\ o = [] /\ past_loop (ph s) = true).
Proof.
  intros s e s' o H R. destruct e; step_cases H; simp_fields; auto.
  all: try (right; phs; auto; fail).
Qed.

(** ** Runs *)

Lemma wexec_app : forall es1 es2 w,
  wexec w (es1 ++ es2) =
  match wexec w es1 with
  | None => None
  | Some (w1, o1) =>
      match wexec w1 es2 with None => None | Some (w2, o2) => Some (w2, o1 ++ o2) end
  end.
Proof.
  induction es1 as [|e es1 IH]; intros es2 w; cbn [wexec app].
  - destruct (wexec w es2) as [[w2 o2]|]; reflexivity.
  - destruct (wstep w e) as [[w1 o1]|]; [|reflexivity].
    rewrite IH. destruct (wexec w1 es1) as [[w2 o2]|]; [|reflexivity].
    destruct (wexec w2 es2) as [[w3 o3]|]; [|reflexivity].
    rewrite app_assoc. reflexivity.
Qed.

Lemma wexec_invariant : forall (P : world -> list obs -> Prop) w0,
  P w0 [] ->
  (forall w t e w' o, P w t -> wstep w e = Some (w', o) -> P w' (t ++ o)) ->
  forall es w t, wexec w0 es = Some (w, t) -> P w t.
Proof.
  intros P w0 H0 Hstep es. induction es as [|e es IH] using rev_ind; intros w t H.
  - cbn in H. inversion H; subst. exact H0.
  - rewrite wexec_app in H. destruct (wexec w0 es) as [[w1 o1]|] eqn:E; [|discriminate].
    cbn [wexec] in H. destruct (wstep w1 e) as [[w3 o3]|] eqn:E2; [|discriminate].
    inversion H; subst. rewrite app_nil_r. eapply Hstep; eauto.
Qed.

Lemma seen_app : forall a b, seen (a ++ b) = seen a ++ seen b.
Proof. induction a as [|[o|i|i r] a IH]; intros b; cbn; congruence. Qed.

Lemma seen_saw : forall l, seen (map Saw l) = l.
Proof. induction l; cbn; congruence. Qed.

Lemma in_seen : forall o t, In o (seen t) <-> In (Saw o) t.
Proof.
  intros o t. induction t as [|[x|i|i r] t IH]; cbn; [tauto| | |]; rewrite IH; split.
  - intros [-> |I]; auto.
  - intros [E|I]; [injection E as ->|]; auto.
  - auto.
  - intros [E|I]; [discriminate|exact I].
  - auto.
  - intros [E|I]; [discriminate|exact I].
Qed.

(** Steps inside a call are silent steps of the actor. *)
Lemma quiet : forall s e s' o, In e [ERegister] \/ (exists x, e = ELink x \/ e = EUnlink x) ->
  step s e = Some (s', o) -> o = [].
Proof.
  intros s e s' o K H.
  assert (C : e = ERegister \/ exists x, e = ELink x \/ e = EUnlink x).
  { destruct K as [[K|[]]|K]; auto. }
  clear K. destruct C as [->|(x & [->| ->])]; step_cases H; reflexivity.
Qed.

(** What one event does to the actor. *)
Lemma wstep_actor : forall w e w' o, wstep w e = Some (w', o) ->
  (w_actor w' = w_actor w /\ seen o = [])
  \/ exists x, step (w_actor w) x = Some (w_actor w', seen o)
     /\ (e = Life x
         \/ (x = ERegister /\ exists i, o = [Inserted i])
         \/ (exists id, x = ELink id \/ x = EUnlink id)).
Proof.
  intros w e w' o H. destruct e as [x|p sib self|i sw a|i]; cbn [wstep] in H.
  - destruct (step (w_actor w) x) as [[s l]|] eqn:E; [|discriminate]. injection H as <- <-.
    right. exists x. cbn [w_actor]. rewrite seen_saw. auto.
  - destruct (0 <? ext (w_actor w)); [|discriminate]. injection H as <- <-. auto.
  - destruct (nth_error (w_calls w) i) as [c|]; [|discriminate].
    unfold poll in H. destruct (c_at c).
    + destruct (c_self c); [injection H as <- <-; auto|].
      destruct (c_op c); unfold act in H.
      * destruct (step (w_actor w) ERegister) as [[s l]|] eqn:E; [|discriminate].
        injection H as <- <-. right. exists ERegister.
        pose proof (quiet _ _ _ _ (or_introl (or_introl eq_refl)) E) as ->. cbn [w_actor seen]. eauto 6.
      * destruct (step (w_actor w) (EUnlink (c_sibling c))) as [[s l]|] eqn:E; [|discriminate].
        injection H as <- <-. right. exists (EUnlink (c_sibling c)).
        assert (l = []) as -> by (refine (quiet _ _ _ _ (or_intror (ex_intro _ _ _)) E); auto). cbn [w_actor seen]. eauto 8.
    + unfold act in H.
      destruct (step (w_actor w) (ELink (c_sibling c))) as [[s l]|] eqn:E; [|discriminate].
      injection H as <- <-. right. exists (ELink (c_sibling c)).
      assert (l = []) as -> by (refine (quiet _ _ _ _ (or_intror (ex_intro _ _ _)) E); auto). cbn [w_actor seen]. eauto 8.
    + destruct sw; injection H as <- <-; auto.
    + injection H as <- <-; auto.
    + discriminate.
    + discriminate.
  - destruct (nth_error (w_calls w) i) as [c|]; [|discriminate].
    destruct (c_at c); try discriminate; injection H as <- <-; auto.
Qed.

Lemma actor_run : forall w0 es w t, wexec w0 es = Some (w, t) ->
  exists les, exec (w_actor w0) les = Some (w_actor w, seen t).
Proof.
  intros w0 es w t H. revert H.
  apply (wexec_invariant (fun w t => exists les, exec (w_actor w0) les = Some (w_actor w, seen t))).
  - exists []. reflexivity.
  - intros w1 t1 e w2 o (les & IH) H. rewrite seen_app.
    destruct (wstep_actor _ _ _ _ H) as [(-> & ->)|(x & S1 & _)].
    + exists les. rewrite app_nil_r. exact IH.
    + exists (les ++ [x]). rewrite exec_app, IH. cbn [exec]. rewrite S1. rewrite app_nil_r. reflexivity.
Qed.

(** ** The table's reference *)

Lemma calls_keep : forall w e w' o, wstep w e = Some (w', o) -> (forall x, e <> Life x) ->
  in_table w -> in_table w'.
Proof.
  unfold in_table. intros w e w' o H N R.
  destruct (wstep_actor _ _ _ _ H) as [(-> & _)|(x & S1 & [E|[(-> & _)|(id & [-> | ->])]])].
  - exact R.
  - destruct (N x E).
  - destruct (reg_step _ _ _ _ S1 R) as [K|(K & _)]; [exact K|discriminate].
  - destruct (reg_step _ _ _ _ S1 R) as [K|(K & _)]; [exact K|discriminate].
  - destruct (reg_step _ _ _ _ S1 R) as [K|(K & _)]; [exact K|discriminate].
Qed.

Lemma keep_step : forall w e w' o, wstep w e = Some (w', o) -> in_table w ->
  in_table w' \/ (e = Life ARegRemove /\ o = [] /\ past_loop (ph (w_actor w)) = true).
Proof.
  unfold in_table. intros w e w' o H R.
  destruct (wstep_actor _ _ _ _ H) as [(-> & _)|(x & S1 & K)]; [auto|].
  destruct (reg_step _ _ _ _ S1 R) as [Q|(-> & Q & P)]; [auto|].
  destruct K as [->|[(E & _)|(id & [E|E])]]; try discriminate E.
  right. split; [reflexivity|]. split; [|exact P].
  cbn [wstep] in H. destruct (step (w_actor w) ARegRemove) as [[s l]|] eqn:E; [|discriminate].
  injection H as <- <-. rewrite seen_saw in Q. subst l. reflexivity.
Qed.

Lemma past_step : forall w e w' o, wstep w e = Some (w', o) ->
  past_loop (ph (w_actor w)) = true ->
  past_loop (ph (w_actor w')) = true /\ forall r, ~ In (OExit r) (seen o).
Proof.
  intros w e w' o H P. destruct (wstep_actor _ _ _ _ H) as [(-> & ->)|(x & S1 & _)].
  - split; [exact P|intros r []].
  - destruct (past_loop_step _ _ _ _ P S1) as (A & _ & B). split; [exact A|].
    intros r I. specialize (B _ I). discriminate B.
Qed.

Lemma inserted_table : forall w e w' o i, wstep w e = Some (w', o) -> In (Inserted i) o -> in_table w'.
Proof.
  unfold in_table. intros w e w' o i H I.
  destruct e as [x|p sib self|j sw a|j]; cbn [wstep] in H.
  - destruct (step (w_actor w) x) as [[s l]|]; [|discriminate]. injection H as <- <-.
    apply in_map_iff in I. destruct I as (y & E & _). discriminate E.
  - destruct (0 <? ext (w_actor w)); [|discriminate]. injection H as <- <-. destruct I.
  - destruct (nth_error (w_calls w) j) as [c|]; [|discriminate].
    unfold poll in H. destruct (c_at c).
    + destruct (c_self c); [injection H as <- <-; destruct I as [I|I]; [discriminate I|destruct I]|].
      destruct (c_op c); unfold act in H.
      * destruct (step (w_actor w) ERegister) as [[s l]|] eqn:E; [|discriminate].
        injection H as <- <-. cbn [w_actor]. step_cases E. reflexivity.
      * destruct (step (w_actor w) (EUnlink (c_sibling c))) as [[s l]|] eqn:E; [|discriminate].
        injection H as <- <-. destruct I.
    + unfold act in H.
      destruct (step (w_actor w) (ELink (c_sibling c))) as [[s l]|] eqn:E; [|discriminate].
      injection H as <- <-. destruct I.
    + destruct sw; injection H as <- <-; cbn in I; intuition discriminate.
    + injection H as <- <-. destruct I as [I|[]]; discriminate I.
    + discriminate.
    + discriminate.
  - destruct (nth_error (w_calls w) j) as [c|]; [|discriminate].
    destruct (c_at c); try discriminate; injection H as <- <-; destruct I.
Qed.

(** The phases between the end of the loop and the removal from the table. *)
Definition closing (p : phase) : bool :=
  match p with PDrainLinks _ | PStop _ _ | PNotify _ _ _ | PRegRemove _ _ => true | _ => false end.

Lemma closing_exit : forall c les s tr, exec (init c) les = Some (s, tr) -> closing (ph s) = true ->
  exists r, In (OExit r) tr.
Proof.
  intros c les s tr H. revert H.
  apply (exec_invariant (fun s tr => closing (ph s) = true -> exists r, In (OExit r) tr)).
  - intros K. discriminate K.
  - clear. intros s tr e s' o IH H K.
    assert (Q : closing (ph s) = true \/ exists r, In (OExit r) o).
    { clear IH. destruct e; step_cases H; split_vars; simp_fields; phs; cbn in K; try discriminate K;
        auto.
      all: right; eexists; cbn; rewrite ?in_app_iff; cbn; rewrite ?in_app_iff; cbn; eauto 10. }
    destruct Q as [Q|(r & Q)].
    + destruct (IH Q) as (r & I). exists r. apply in_or_app. auto.
    + exists r. apply in_or_app. auto.
Qed.

Lemma removed_phase : forall s s' o, step s ARegRemove = Some (s', o) -> closing (ph s) = true.
Proof. intros s s' o H. cbn in H. destruct (ph s); try discriminate H. reflexivity. Qed.

(** As long as the actor has not left its message loop, an inserted reference is there. *)
Lemma pinned_inv : forall c es w t i, wexec (winit c) es = Some (w, t) -> In (Inserted i) t ->
  in_table w \/ exists r, In (OExit r) (seen t).
Proof.
  intros c es w t i H.
  enough (Q : (exists es, wexec (winit c) es = Some (w, t)) /\
    (In (Inserted i) t -> in_table w \/ exists r, In (OExit r) (seen t))) by (apply Q).
  revert H. revert w t.
  enough (Q : forall es w t, wexec (winit c) es = Some (w, t) ->
    In (Inserted i) t -> in_table w \/ exists r, In (OExit r) (seen t)) by (intros; split; eauto).
  clear es. intros es. induction es as [|e es IH] using rev_ind; intros w t H I.
  - cbn in H. injection H as <- <-. destruct I.
  - rewrite wexec_app in H. destruct (wexec (winit c) es) as [[w1 o1]|] eqn:E; [|discriminate].
    cbn [wexec] in H. destruct (wstep w1 e) as [[w3 o3]|] eqn:E2; [|discriminate].
    injection H as <- <-. rewrite app_nil_r in *. rewrite seen_app.
    apply in_app_or in I. destruct I as [I|I].
    + destruct (IH _ _ eq_refl I) as [K|(r & K)].
      * destruct (keep_step _ _ _ _ E2 K) as [Q|(-> & -> & _)]; [auto|].
        right. destruct (actor_run _ _ _ _ E) as (les & L).
        cbn [wstep] in E2. destruct (step (w_actor w1) ARegRemove) as [[s l]|] eqn:E3; [|discriminate].
        destruct (closing_exit _ _ _ _ L (removed_phase _ _ _ E3)) as (r & X).
        exists r. apply in_or_app. auto.
      * right. exists r. apply in_or_app. auto.
    + left. eapply inserted_table; eauto.
Qed.

Lemma table_referenced : forall w, in_table w -> referenced w.
Proof. unfold in_table, referenced, strong. intros w ->. lia. Qed.

Lemma pinned : forall c es w t i, wexec (winit c) es = Some (w, t) -> In (Inserted i) t ->
  (forall r, ~ In (Saw (OExit r)) t) -> in_table w /\ referenced w.
Proof.
  intros c es w t i H I N.
  destruct (pinned_inv _ _ _ _ _ H I) as [K|(r & K)].
  - split; [exact K|]. apply table_referenced, K.
  - destruct (N r). apply in_seen, K.
Qed.

Lemma in_dec_stop : forall tr, In (OAccept SStop) tr \/ ~ In (OAccept SStop) tr.
Proof.
  induction tr as [|o tr IH]; [right; intros []|].
  destruct IH as [I|I]; [left; right; exact I|].
  assert (D : o = OAccept SStop \/ o <> OAccept SStop).
  { destruct o; try (right; discriminate). destruct sg; auto; right; discriminate. }
  destruct D as [-> |D]; [left; left; reflexivity|].
  right. intros [E|J]; auto.
Qed.

(** The loop is left once. *)
Lemma exit_alone : forall c es w t e w' o r, wexec (winit c) es = Some (w, t) ->
  wstep w e = Some (w', o) -> In (OExit r) (seen o) -> forall r', ~ In (OExit r') (seen t).
Proof.
  intros c es w t e w' o r H S1 I r' J.
  destruct (actor_run _ _ _ _ H) as (les & L).
  pose proof (exit_past _ _ _ _ L _ J) as P.
  destruct (past_step _ _ _ _ S1 P) as (_ & N). exact (N _ I).
Qed.

Lemma not_exhausted : forall c es w t es' w' t' i, wexec (winit c) es = Some (w, t) ->
  In (Inserted i) t -> wexec w es' = Some (w', t') -> In (Saw (OExit Normal)) t' ->
  no_hook_stop (seen (t ++ t')) -> In (Saw (OAccept SStop)) (t ++ t').
Proof.
  intros c es w t es' w' t' i H I. revert w' t'.
  induction es' as [|e es' IH] using rev_ind; intros w' t' H' X N.
  - cbn in H'. injection H' as <- <-. destruct X.
  - rewrite wexec_app in H'. destruct (wexec w es') as [[w1 o1]|] eqn:E; [|discriminate].
    cbn [wexec] in H'. destruct (wstep w1 e) as [[w3 o3]|] eqn:E2; [|discriminate].
    injection H' as <- <-. rewrite app_nil_r in *. rewrite app_assoc in *.
    apply in_app_or in X. destruct X as [X|X].
    + apply in_or_app. left. apply (IH _ _ eq_refl X). rewrite seen_app in N.
      eapply no_hook_stop_l. exact N.
    + assert (W : wexec (winit c) (es ++ es') = Some (w1, t ++ o1)) by (rewrite wexec_app, H, E; reflexivity).
      assert (W' : wexec (winit c) ((es ++ es') ++ [e]) = Some (w3, (t ++ o1) ++ o3)).
      { rewrite wexec_app, W. cbn [wexec]. rewrite E2. rewrite app_nil_r. reflexivity. }
      apply in_seen in X.
      assert (T : in_table w1).
      { apply (pinned _ _ _ _ i W); [apply in_or_app; auto|].
        intros r J. apply in_seen in J. exact (exit_alone _ _ _ _ _ _ _ _ W E2 X _ J). }
      assert (T' : in_table w3).
      { destruct (keep_step _ _ _ _ E2 T) as [Q|(_ & -> & _)]; [exact Q|destruct X]. }
      apply table_referenced in T'. unfold referenced in T'.
      destruct (actor_run _ _ _ _ W') as (les & L).
      apply in_seen. destruct (in_dec_stop (seen ((t ++ o1) ++ o3))) as [Y|Y]; [exact Y|].
      destruct (run_referenced _ _ _ _ L) as (Z & _); [| exact N | exact Y | lia].
      rewrite seen_app. apply in_or_app. auto.
Qed.

(** ** The insertion comes before every result *)

Lemma split_app : forall A (t o t1 t2 : list A) x, t ++ o = t1 ++ x :: t2 ->
  (exists k, t = t1 ++ x :: k) \/ (exists k, t1 = t ++ k /\ o = k ++ x :: t2).
Proof.
  intros A t. induction t as [|y t IH]; intros o t1 t2 x E.
  - right. exists t1. auto.
  - destruct t1 as [|z t1]; cbn in E.
    + injection E as -> E. left. exists t. reflexivity.
    + injection E as -> E. destruct (IH _ _ _ _ E) as [(k & ->)|(k & -> & ->)].
      * left. exists k. reflexivity.
      * right. exists k. auto.
Qed.

Definition ordered (i : nat) (t : list obs) : Prop :=
  forall t1 r t2, t = t1 ++ Returned i r :: t2 -> In (Inserted i) t1.

Definition early (i : nat) (w : world) (t : list obs) : Prop :=
  match nth_error (w_calls w) i with
  | None => forall r, ~ In (Returned i r) t
  | Some c =>
      c_op c = Link -> c_self c = false ->
      ordered i t /\ (match c_at c with AtLinks | AtSwarm | AtAnswer => True | _ => False end ->
                      In (Inserted i) t)
  end.

Lemma ordered_more : forall i t o, ordered i t -> (forall r, ~ In (Returned i r) o) -> ordered i (t ++ o).
Proof.
  intros i t o O N t1 r t2 E. destruct (split_app _ _ _ _ _ _ E) as [(k & ->)|(k & -> & ->)].
  - exact (O _ _ _ eq_refl).
  - destruct (N r). apply in_or_app. right. left. reflexivity.
Qed.

Lemma ordered_end : forall i t r, ordered i t -> In (Inserted i) t -> ordered i (t ++ [Returned i r]).
Proof.
  intros i t r O I t1 r' t2 E. destruct (split_app _ _ _ _ _ _ E) as [(k & ->)|(k & -> & X)].
  - exact (O _ _ _ eq_refl).
  - apply in_or_app. auto.
Qed.

Lemma nth_set : forall cs i j p, nth_error (set_at i p cs) j =
  match nth_error cs j with
  | Some c => Some (if Nat.eqb i j then mk_call (c_op c) (c_sibling c) (c_self c) p else c)
  | None => None
  end.
Proof.
  induction cs as [|c cs IH]; intros [|i] [|j] p; cbn; try reflexivity.
  - destruct (nth_error cs j); reflexivity.
  - apply IH.
Qed.

Lemma early_other : forall i w w' t o, early i w t -> (forall r, ~ In (Returned i r) o) ->
  nth_error (w_calls w') i = nth_error (w_calls w) i -> early i w' (t ++ o).
Proof.
  unfold early. intros i w w' t o E N Q. rewrite Q. destruct (nth_error (w_calls w) i) as [c|].
  - intros A B. destruct (E A B) as (O & P). split; [apply ordered_more; assumption|].
    intros K. apply in_or_app. auto.
  - intros r I. apply in_app_or in I. destruct I as [I|I]; [exact (E r I)|exact (N r I)].
Qed.

Lemma early_move : forall i w w' t o c p, early i w t -> nth_error (w_calls w) i = Some c ->
  w_calls w' = set_at i p (w_calls w) ->
  (c_op c = Link -> c_self c = false -> ordered i t ->
   (match c_at c with AtLinks | AtSwarm | AtAnswer => True | _ => False end -> In (Inserted i) t) ->
   ordered i (t ++ o) /\ (match p with AtLinks | AtSwarm | AtAnswer => True | _ => False end ->
     In (Inserted i) (t ++ o))) ->
  early i w' (t ++ o).
Proof.
  unfold early. intros i w w' t o c p E Q C K. rewrite C, nth_set, Q, Nat.eqb_refl. cbn.
  rewrite Q in E. intros A B. destruct (E A B) as (O & P). auto.
Qed.

Lemma early_step : forall i w t e w' o, early i w t -> wstep w e = Some (w', o) -> early i w' (t ++ o).
Proof.
  intros i w t e w' o E H. destruct e as [x|p sib self|j sw a|j]; cbn [wstep] in H.
  - destruct (step (w_actor w) x) as [[s l]|]; [|discriminate]. injection H as <- <-.
    eapply early_other; [exact E| |reflexivity].
    intros r I. apply in_map_iff in I. destruct I as (y & Q & _). discriminate Q.
  - destruct (0 <? ext (w_actor w)); [|discriminate]. injection H as <- <-. rewrite app_nil_r.
    unfold early in *. cbn [w_calls].
    destruct (nth_error (w_calls w) i) as [c|] eqn:Q.
    + rewrite nth_error_app1; [rewrite Q; exact E|].
      apply nth_error_Some. congruence.
    + apply nth_error_None in Q. rewrite nth_error_app2 by exact Q.
      assert (O : ordered i t).
      { intros t1 r t2 X. destruct (E r). rewrite X. apply in_or_app. right. left. reflexivity. }
      destruct (i - length (w_calls w)) as [|k]; cbn.
      * intros _ _. split; [exact O|intros []].
      * destruct k; cbn; exact E.
  - destruct (nth_error (w_calls w) j) as [c|] eqn:Q; [|discriminate].
    assert (X : exists p, w_calls w' = set_at j p (w_calls w)
      /\ (forall k r, In (Returned k r) o -> k = j)
      /\ (c_op c = Link -> c_self c = false -> ordered j t ->
         (match c_at c with AtLinks | AtSwarm | AtAnswer => True | _ => False end -> In (Inserted j) t) ->
         ordered j (t ++ o) /\ (match p with AtLinks | AtSwarm | AtAnswer => True | _ => False end ->
           In (Inserted j) (t ++ o)))).
    { unfold poll, act, move in H. destruct (c_at c).
      - destruct (c_self c) eqn:Es.
        + injection H as <- <-. eexists. split; [reflexivity|]. split; [|discriminate].
          intros k r [I|[]]. congruence.
        + destruct (c_op c).
          * destruct (step (w_actor w) ERegister) as [[s l]|]; [|discriminate].
            injection H as <- <-. eexists. split; [reflexivity|]. split.
            -- intros k r [I|[]]. discriminate I.
            -- intros _ _ O _. split; [|intros _; apply in_or_app; right; left; reflexivity].
               apply ordered_more; [exact O|]. intros r [I|[]]. discriminate I.
          * destruct (step (w_actor w) (EUnlink (c_sibling c))) as [[s l]|]; [|discriminate].
            injection H as <- <-. eexists. split; [reflexivity|]. split; [intros k r []|discriminate].
      - destruct (step (w_actor w) (ELink (c_sibling c))) as [[s l]|]; [|discriminate].
        injection H as <- <-. eexists. split; [reflexivity|]. split; [intros k r []|].
        intros _ _ O P. rewrite app_nil_r. auto.
      - destruct sw; injection H as <- <-; (eexists; split; [reflexivity|]; split).
        + intros k r [I|[]]; congruence.
        + intros _ _ O P. split; [apply ordered_end; auto|]. intros _. apply in_or_app. auto.
        + intros k r [I|[]]; congruence.
        + intros _ _ O P. split; [apply ordered_end; auto|]. intros _. apply in_or_app. auto.
        + intros k r [].
        + intros _ _ O P. rewrite app_nil_r. auto.
      - injection H as <- <-; (eexists; split; [reflexivity|]; split).
        + intros k r [I|[]]; congruence.
        + intros _ _ O P. split; [apply ordered_end; auto|]. intros _. apply in_or_app. auto.
      - discriminate.
      - discriminate. }
    destruct X as (p & C & R & K). destruct (Nat.eq_dec j i) as [->|D].
    + eapply early_move; eauto.
    + eapply early_other; [exact E| |].
      * intros r I. apply D. symmetry. eapply R. exact I.
      * rewrite C, nth_set. destruct (nth_error (w_calls w) i); [|reflexivity].
        destruct (Nat.eqb_spec j i); [contradiction|reflexivity].
  - destruct (nth_error (w_calls w) j) as [c|] eqn:Q; [|discriminate].
    assert (X : w_calls w' = set_at j Dropped (w_calls w) /\ o = []).
    { destruct (c_at c); try discriminate; injection H as <- <-; auto. }
    destruct X as (C & ->). destruct (Nat.eq_dec j i) as [->|D].
    + eapply early_move; eauto. intros _ _ O _. rewrite app_nil_r. split; [exact O|intros []].
    + eapply early_other; [exact E|intros r []|].
      rewrite C, nth_set. destruct (nth_error (w_calls w) i); [|reflexivity].
      destruct (Nat.eqb_spec j i); [contradiction|reflexivity].
Qed.

Lemma inserted_first : forall c es w t1 i r t2, wexec (winit c) es = Some (w, t1 ++ Returned i r :: t2) ->
  is_link w i -> In (Inserted i) t1.
Proof.
  intros c es w t1 i r t2 H (sib & p & Q).
  assert (E : early i w (t1 ++ Returned i r :: t2)).
  { revert H. apply (wexec_invariant (early i)).
    - unfold early. destruct i; intros r' [].
    - intros. eapply early_step; eauto. }
  unfold early in E. rewrite Q in E. destruct (E eq_refl eq_refl) as (O & _).
  exact (O _ _ _ eq_refl).
Qed.

(** ** The answer changes nothing *)

Lemma answer_nothing : forall w i sw a w' o c, nth_error (w_calls w) i = Some c ->
  (c_at c = AtSwarm \/ c_at c = AtAnswer) -> wstep w (Poll i sw a) = Some (w', o) ->
  w_actor w' = w_actor w.
Proof.
  intros w i sw a w' o c Q K H. cbn [wstep] in H. rewrite Q in H. unfold poll in H.
  destruct K as [K|K]; rewrite K in H.
  - destruct sw; injection H as <- _; reflexivity.
  - injection H as <- _; reflexivity.
Qed.

Lemma linked_locally : forall w i sw a w' o c, nth_error (w_calls w) i = Some c ->
  c_at c = AtLinks -> wstep w (Poll i sw a) = Some (w', o) ->
  In (c_sibling c) (links (w_actor w')).
Proof.
  intros w i sw a w' o c Q K H. cbn [wstep] in H. rewrite Q in H. unfold poll, act in H.
  rewrite K in H. destruct (step (w_actor w) (ELink (c_sibling c))) as [[s l]|] eqn:E; [|discriminate].
  injection H as <- _. cbn [w_actor]. step_cases E. simp_fields.
  unfold add_link. destruct (existsb _ _) eqn:X; [apply existsb_eqb in X; exact X|].
  left. reflexivity.
Qed.

(** ** A reference inserted too late stays *)

Lemma ended_step : forall s e s' o, step s e = Some (s', o) -> ended (ph s) = true -> ended (ph s') = true.
Proof. intros s e s' o H P. destruct e; step_cases H; simp_fields; phs; auto; discriminate. Qed.

Lemma kept_forever : forall w es w' t, ended (ph (w_actor w)) = true -> in_table w ->
  wexec w es = Some (w', t) -> in_table w' /\ referenced w'.
Proof.
  intros w es w' t P R H.
  assert (X : in_table w' /\ ended (ph (w_actor w')) = true).
  { revert H. apply (wexec_invariant (fun w' t => in_table w' /\ ended (ph (w_actor w')) = true)); [auto|].
    clear. intros w t e w' o (R & P) H. split.
    - destruct (keep_step _ _ _ _ H R) as [Q|(-> & _ & _)]; [exact Q|].
      exfalso. cbn [wstep] in H.
      destruct (step (w_actor w) ARegRemove) as [[s l]|] eqn:E; [|discriminate].
      apply removed_phase in E. destruct (ph (w_actor w)); discriminate.
    - destruct (wstep_actor _ _ _ _ H) as [(-> & _)|(x & S1 & _)]; [exact P|].
      exact (ended_step _ _ _ _ S1 P). }
  destruct X as (X & _). split; [exact X|]. apply table_referenced, X.
Qed.

(** What a call returns. *)
Lemma polls_app : forall i a b, polls i (a ++ b) = polls i a ++ polls i b.
Proof.
  induction a as [|e a IH]; intros b; cbn; [reflexivity|].
  destruct e; try apply IH. destruct (Nat.eqb i i0); cbn; now rewrite IH.
Qed.

(** Where a call is, by what it found. *)
Definition stands (c : call) (l : list (swarm * result)) : Prop :=
  match c_at c with
  | AtStart => l = []
  | AtLinks => c_self c = false /\ c_op c = Link /\ length l = 1
  | AtSwarm => c_self c = false /\ length l = local_steps (c_op c)
  | AtAnswer => c_self c = false /\ exists l0 a, l = l0 ++ [(Running, a)] /\ length l0 = local_steps (c_op c)
  | Finished r => returns (c_op c) (c_self c) l r
  | Dropped => True
  end.

Record told (es : list event) (w : world) (t : list obs) : Prop := mk_told {
  to_stands : forall i c, nth_error (w_calls w) i = Some c -> stands c (polls i es);
  to_none : forall i, nth_error (w_calls w) i = None -> polls i es = [];
  to_ret : forall i r, In (Returned i r) t -> exists c, nth_error (w_calls w) i = Some c /\ c_at c = Finished r }.

Lemma told_same : forall es w t e w' o, told es w t -> w_calls w' = w_calls w ->
  (forall i, polls i [e] = []) -> (forall i r, ~ In (Returned i r) o) -> told (es ++ [e]) w' (t ++ o).
Proof.
  intros es w t e w' o [A B C] Q P N. split; rewrite ?Q; intros i; rewrite ?polls_app, ?P, ?app_nil_r; auto.
  intros r I. apply in_app_or in I. destruct I as [I|I]; [eauto|destruct (N _ _ I)].
Qed.

Lemma told_poll : forall es w t j sw a w' o c p, told es w t -> nth_error (w_calls w) j = Some c ->
  w_calls w' = set_at j p (w_calls w) ->
  (forall r, c_at c <> Finished r) ->
  stands (mk_call (c_op c) (c_sibling c) (c_self c) p) (polls j es ++ [(sw, a)]) ->
  (forall i r, In (Returned i r) o -> i = j /\ p = Finished r) -> told (es ++ [Poll j sw a]) w' (t ++ o).
Proof.
  intros es w t j sw a w' o c p [A B C] Q W F P N. split; rewrite W; intros i; rewrite nth_set, ?polls_app; cbn.
  - intros c'. destruct (Nat.eqb_spec j i) as [<-|Ne].
    + rewrite Q. intros E. injection E as <-. rewrite Nat.eqb_refl. exact P.
    + destruct (Nat.eqb_spec i j) as [<-|_]; [congruence|]. rewrite app_nil_r.
      destruct (nth_error (w_calls w) i) as [d|] eqn:D; intros E; [|discriminate]. injection E as <-. auto.
  - destruct (nth_error (w_calls w) i) as [d|] eqn:D; [discriminate|]. intros _.
    destruct (Nat.eqb_spec i j) as [<-|_]; [congruence|]. rewrite app_nil_r. auto.
  - intros r I. apply in_app_or in I. destruct I as [I|I].
    + destruct (C _ _ I) as (d & D & G). rewrite D. destruct (Nat.eqb_spec j i) as [<-|Ne]; [|eauto].
      rewrite Q in D. injection D as <-. destruct (F _ G).
    + destruct (N _ _ I) as [-> ->]. rewrite Q, Nat.eqb_refl. eexists. split; reflexivity.
Qed.

Lemma told_step : forall es w t e w' o, told es w t -> wstep w e = Some (w', o) -> told (es ++ [e]) w' (t ++ o).
Proof.
  intros es w t e w' o T H. destruct e as [x|op sib self|i sw a|i]; unfold wstep in H.
  - destruct (step (w_actor w) x) as [[s l]|]; [|discriminate]. injection H as <- <-.
    apply (told_same _ w); auto. intros i r I. apply in_map_iff in I. destruct I as (q & K & _). discriminate K.
  - destruct (0 <? ext (w_actor w)); [|discriminate]. injection H as <- <-. rewrite app_nil_r.
    destruct T as [A B C]. split; cbn; intros i; rewrite ?polls_app; cbn; rewrite ?app_nil_r.
    + intros c E. destruct (Nat.lt_ge_cases i (length (w_calls w))) as [L|L].
      * rewrite nth_error_app1 in E by exact L. auto.
      * rewrite nth_error_app2 in E by exact L. apply nth_error_None in L.
        destruct (i - length (w_calls w)) as [|[|?]]; try discriminate. injection E as <-. cbn. auto.
    + intros E. apply B. apply nth_error_None. apply nth_error_None in E. rewrite app_length in E. cbn in E.
      rewrite Nat.add_comm in E. exact (Nat.le_trans _ _ _ (Nat.le_succ_diag_r _) E).
    + intros r I. destruct (C _ _ I) as (c & E & F). exists c. split; [|exact F].
      rewrite nth_error_app1; [exact E|]. apply nth_error_Some. congruence.
  - destruct (nth_error (w_calls w) i) as [c|] eqn:E; [|discriminate]. pose proof (to_stands _ _ _ T _ _ E) as P.
    unfold poll, act, move in H. unfold stands in P.
    destruct (c_at c) eqn:Q; try discriminate.
    + destruct (c_self c) eqn:F; [|destruct (c_op c) eqn:O].
      * injection H as <- <-. (eapply told_poll; [eassumption|eassumption|reflexivity|intros ?; congruence| |]).
        -- rewrite P. cbn. rewrite F. constructor.
        -- intros j r [I|[]]. injection I as <- <-. auto.
      * destruct (step (w_actor w) ERegister) as [[s l]|]; [|discriminate]. injection H as <- <-.
        (eapply told_poll; [eassumption|eassumption|reflexivity|intros ?; congruence| |]).
        -- rewrite P. cbn. auto.
        -- intros j r [I|[]]. discriminate.
      * destruct (step (w_actor w) (EUnlink (c_sibling c))) as [[s l]|]; [|discriminate]. injection H as <- <-.
        (eapply told_poll; [eassumption|eassumption|reflexivity|intros ?; congruence| |]).
        -- rewrite P. cbn. rewrite O. auto.
        -- intros j r [].
    + destruct P as (F & O & L). destruct (step (w_actor w) (ELink (c_sibling c))) as [[s l]|]; [|discriminate].
      injection H as <- <-. (eapply told_poll; [eassumption|eassumption|reflexivity|intros ?; congruence| |]).
      * cbn. rewrite app_length, L, O. auto.
      * intros j r [].
    + destruct P as (F & L). destruct sw; injection H as <- <-; (eapply told_poll; [eassumption|eassumption|reflexivity|intros ?; congruence| |]);
      cbn; rewrite ?F; try (now constructor); try (intros j r [I|[]]; injection I as <- <-; auto; fail).
      split; [reflexivity|]. exists (polls i es), a. auto.
    + destruct P as (F & l0 & a0 & P & L). injection H as <- <-. (eapply told_poll; [eassumption|eassumption|reflexivity|intros ?; congruence| |]).
      * cbn. rewrite P, F, <- app_assoc. cbn. now constructor.
      * intros j r [I|[]]. injection I as <- <-. auto.
  - destruct (nth_error (w_calls w) i) as [c|] eqn:E; [|discriminate].
    assert (G : (forall r, c_at c <> Finished r) /\ move w i Dropped [] = Some (w', o)).
    { destruct (c_at c); try discriminate; split; congruence. }
    destruct G as (G & K). injection K as <- <-. rewrite app_nil_r.
    destruct T as [A B C]. split; cbn; intros j; rewrite ?polls_app; cbn; rewrite ?app_nil_r, nth_set.
    + destruct (nth_error (w_calls w) j) as [d|] eqn:D; intros c' Q; [|discriminate]. injection Q as <-.
      destruct (Nat.eqb i j); [exact Logic.I|auto].
    + destruct (nth_error (w_calls w) j) as [d|] eqn:D; [discriminate|auto].
    + intros r I. destruct (C _ _ I) as (d & D & F). rewrite D. destruct (Nat.eqb_spec i j) as [<-|Ne]; [|eauto].
      rewrite E in D. injection D as <-. destruct (G _ F).
Qed.

Lemma told_run : forall c es w t, wexec (winit c) es = Some (w, t) -> told es w t.
Proof.
  intros c es. induction es as [|e es IH] using rev_ind; intros w t H.
  - injection H as <- <-. split; cbn; intros [|j]; try discriminate; try reflexivity; intros r' [].
  - rewrite wexec_app in H. destruct (wexec (winit c) es) as [[w1 t1]|] eqn:E; [|discriminate].
    cbn in H. destruct (wstep w1 e) as [[w2 o2]|] eqn:E2; [|discriminate]. injection H as <- <-.
    rewrite app_nil_r. apply (told_step _ w1); [auto|exact E2].
Qed.

Lemma call_returns : forall c es w t i r k, wexec (winit c) es = Some (w, t) -> In (Returned i r) t ->
  nth_error (w_calls w) i = Some k -> returns (c_op k) (c_self k) (polls i es) r.
Proof.
  intros c es w t i r k H I K. pose proof (told_run _ _ _ _ H) as T.
  destruct (to_ret _ _ _ T _ _ I) as (k' & K' & F). rewrite K in K'. injection K' as <-.
  pose proof (to_stands _ _ _ T _ _ K) as P. unfold stands in P. rewrite F in P. exact P.
Qed.

(** ** A call that is over stays over *)

Lemma over_step : forall i w e w' o c, wstep w e = Some (w', o) -> nth_error (w_calls w) i = Some c ->
  (c_at c = Dropped \/ exists r, c_at c = Finished r) ->
  nth_error (w_calls w') i = Some c /\ (forall sw a, e <> Poll i sw a) /\ e <> Drop i
  /\ ~ In (Inserted i) o /\ forall r, ~ In (Returned i r) o.
Proof.
  intros i w e w' o c H Q K. destruct e as [x|op sib self|j sw a|j]; cbn [wstep] in H.
  - destruct (step (w_actor w) x) as [[s o0]|]; [|discriminate]. injection H as <- <-.
    repeat split; try assumption; try (intros; discriminate).
    + intros I. apply in_map_iff in I. destruct I as (? & X & _). discriminate.
    + intros r I. apply in_map_iff in I. destruct I as (? & X & _). discriminate.
  - destruct (0 <? ext (w_actor w)); [|discriminate]. injection H as <- <-.
    repeat split; try (intros; discriminate); auto.
    cbn. rewrite nth_error_app1; [exact Q|]. apply nth_error_Some. congruence.
  - destruct (nth_error (w_calls w) j) as [d|] eqn:D; [|discriminate].
    assert (N : i <> j).
    { intros <-. rewrite Q in D. injection D as <-. unfold poll in H. destruct K as [K|(r & K)]; rewrite K in H; discriminate. }
    assert (X : (exists p, w_calls w' = set_at j p (w_calls w)) /\ ~ In (Inserted i) o /\ forall r, ~ In (Returned i r) o).
    { assert (N1 : ~ In (Inserted i) [Inserted j]) by (intros [I|[]]; congruence).
      assert (N2 : forall r r', ~ In (Returned i r) [Returned j r']) by (intros r r' [I|[]]; congruence).
      assert (N3 : forall r, ~ In (Inserted i) [Returned j r]) by (intros r [I|[]]; congruence).
      assert (N4 : forall r, ~ In (Returned i r) [Inserted j]) by (intros r [I|[]]; congruence).
      unfold poll, move, act in H.
      destruct (c_at d); try discriminate;
      repeat match type of H with
        | (if ?x then _ else _) = _ => destruct x
        | (match ?x with _ => _ end) = _ => destruct x; try discriminate
        end; injection H as <- <-; (split; [eexists; reflexivity|split; auto]). }
    destruct X as ((p & X) & Y & Z). rewrite X, nth_set, Q. destruct (Nat.eqb_spec j i); [congruence|].
    repeat split; auto; congruence.
  - destruct (nth_error (w_calls w) j) as [d|] eqn:D; [|discriminate].
    assert (N : i <> j).
    { intros <-. rewrite Q in D. injection D as <-. destruct K as [K|(r & K)]; rewrite K in H; discriminate. }
    assert (X : w_calls w' = set_at j Dropped (w_calls w) /\ o = []) by (destruct (c_at d); try discriminate; injection H as <- <-; auto).
    destruct X as (X & ->). rewrite X, nth_set, Q. destruct (Nat.eqb_spec j i); [congruence|].
    repeat split; auto; congruence.
Qed.

Lemma over_run : forall i es w w' t c, wexec w es = Some (w', t) -> nth_error (w_calls w) i = Some c ->
  (c_at c = Dropped \/ exists r, c_at c = Finished r) ->
  (forall sw a, ~ In (Poll i sw a) es) /\ ~ In (Drop i) es /\ ~ In (Inserted i) t /\ forall r, ~ In (Returned i r) t.
Proof.
  intros i es. induction es as [|e es IH]; intros w w' t c H Q K; cbn in H.
  - injection H as <- <-. cbn. auto.
  - destruct (wstep w e) as [[w1 o1]|] eqn:E; [|discriminate]. destruct (wexec w1 es) as [[w2 o2]|] eqn:E2; [|discriminate].
    injection H as <- <-. destruct (over_step _ _ _ _ _ _ E Q K) as (A & B & C & D & F).
    destruct (IH _ _ _ _ E2 A K) as (B' & C' & D' & F').
    split; [intros sw a [X|X]; [exact (B _ _ X)|exact (B' _ _ X)]|].
    split; [intros [X|X]; auto|]. split; [intros X; apply in_app_or in X; tauto|].
    intros r X. apply in_app_or in X. destruct X as [X|X]; [exact (F _ X)|exact (F' _ X)].
Qed.

Lemma dropped_call : forall c es1 i es2 w t, wexec (winit c) (es1 ++ Drop i :: es2) = Some (w, t) ->
  (forall sw a, ~ In (Poll i sw a) es2) /\ forall r, ~ In (Returned i r) t.
Proof.
  intros c es1 i es2 w t H. rewrite wexec_app in H. destruct (wexec (winit c) es1) as [[w1 t1]|] eqn:E1; [|discriminate].
  cbn [wexec] in H. destruct (wstep w1 (Drop i)) as [[w2 o2]|] eqn:E2; [|discriminate].
  destruct (wexec w2 es2) as [[w3 t3]|] eqn:E3; [|discriminate]. injection H as <- <-.
  cbn [wstep] in E2. destruct (nth_error (w_calls w1) i) as [d|] eqn:D; [|discriminate].
  assert (X : (forall r, c_at d <> Finished r) /\ w_calls w2 = set_at i Dropped (w_calls w1) /\ o2 = []).
  { destruct (c_at d); try discriminate; injection E2 as <- <-; (split; [congruence|auto]). }
  destruct X as (N & X & ->).
  assert (Y : nth_error (w_calls w2) i = Some (mk_call (c_op d) (c_sibling d) (c_self d) Dropped)).
  { rewrite X, nth_set, D, Nat.eqb_refl. reflexivity. }
  destruct (over_run _ _ _ _ _ _ E3 Y (or_introl eq_refl)) as (A & _ & _ & B). split; [exact A|].
  intros r I. rewrite !in_app_iff in I. destruct I as [I|[[]|I]]; [|exact (B _ I)].
  destruct (to_ret _ _ _ (told_run _ _ _ _ E1) _ _ I) as (d' & D' & F). rewrite D in D'. injection D' as <-. exact (N _ F).
Qed.

Lemma returned_call : forall c es1 i es2 w1 t1 w t r, wexec (winit c) es1 = Some (w1, t1) -> In (Returned i r) t1 ->
  wexec w1 es2 = Some (w, t) ->
  (forall sw a, ~ In (Poll i sw a) es2) /\ ~ In (Drop i) es2 /\ ~ In (Inserted i) t /\ forall r, ~ In (Returned i r) t.
Proof.
  intros c es1 i es2 w1 t1 w t r E1 I E2.
  destruct (to_ret _ _ _ (told_run _ _ _ _ E1) _ _ I) as (d & D & F). eapply over_run; eauto.
Qed.
