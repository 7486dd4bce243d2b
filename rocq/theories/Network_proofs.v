(** Proofs for C72. *)
From Coq Require Import List Bool PeanoNat Lia.
From Verif Require Import Network Network_spec.
Import ListNotations.

Lemma called_app : forall a b, called (a ++ b) = called a ++ called b.
Proof. induction a as [|[] a IH]; intro b; simpl; try rewrite IH; reflexivity. Qed.
Lemma carried_app : forall a b, carried (a ++ b) = carried a ++ carried b.
Proof. induction a as [|[] a IH]; intro b; simpl; try rewrite IH; reflexivity. Qed.
Lemma learned_app : forall a b, learned (a ++ b) = learned a ++ learned b.
Proof. induction a as [|[] a IH]; intro b; simpl; try rewrite IH; reflexivity. Qed.
Lemma found_app : forall a b, found (a ++ b) = found a ++ found b.
Proof. induction a as [|[] a IH]; intro b; simpl; try rewrite IH; try rewrite app_assoc; reflexivity. Qed.
Lemma results_app : forall i a b, results i (a ++ b) = results i a + results i b.
Proof. intro i. induction a as [|[] a IH]; intro b; simpl; try rewrite IH; lia. Qed.

Lemma called_in : forall t i c, In (i, c) (called t) <-> In (OCalled i c) t.
Proof.
  induction t as [|o t IH]; intros i c; simpl; [tauto|].
  destruct o; simpl; rewrite IH; split; intro H; auto;
    try (destruct H as [H|H]; [try discriminate H; left; congruence | auto]).
Qed.
Lemma carried_in : forall t i c, In (i, c) (carried t) <-> exists r, In (ODid i c r) t.
Proof.
  induction t as [|o t IH]; intros i c; simpl; [split; [tauto | intros [r []]]|].
  destruct o; simpl; rewrite IH; split.
  all: try (intros [z [H|H]]; [discriminate H | exists z; exact H]).
  all: try (intros [z H]; exists z; right; exact H).
  - intros [H|[r' H]]; [injection H as -> ->; exists r; left; reflexivity | exists r'; right; exact H].
  - intros [r' [H|H]]; [left; congruence | right; exists r'; exact H].
Qed.

Lemma exec_app : forall es1 es2 s, exec s (es1 ++ es2) =
  match exec s es1 with
  | Some (s1, o1) => match exec s1 es2 with Some (s2, o2) => Some (s2, o1 ++ o2) | None => None end
  | None => None
  end.
Proof.
  induction es1 as [|e es1 IH]; intros es2 s; simpl.
  - destruct (exec s es2) as [[s2 o2]|]; reflexivity.
  - destruct (step s e) as [[s1 o1]|]; [|reflexivity].
    rewrite IH. destruct (exec s1 es1) as [[s2 o2]|]; [|reflexivity].
    destruct (exec s2 es2) as [[s3 o3]|]; [rewrite app_assoc|]; reflexivity.
Qed.

Lemma exec_last : forall es e s t, exec fresh (es ++ [e]) = Some (s, t) ->
  exists s0 t0 o, exec fresh es = Some (s0, t0) /\ step s0 e = Some (s, o) /\ t = t0 ++ o.
Proof.
  intros es e s t H. rewrite exec_app in H.
  destruct (exec fresh es) as [[s0 t0]|] eqn:E; [|discriminate].
  simpl in H. destruct (step s0 e) as [[s1 o1]|] eqn:F; [|discriminate].
  injection H as <- <-. exists s0, t0, o1. rewrite app_nil_r. auto.
Qed.

Lemma run_ind : forall P : list event -> node -> list obs -> Prop,
  P [] fresh [] ->
  (forall es s t e s' o, exec fresh es = Some (s, t) -> P es s t -> step s e = Some (s', o) ->
     P (es ++ [e]) s' (t ++ o)) ->
  forall es s t, exec fresh es = Some (s, t) -> P es s t.
Proof.
  intros P H0 HS. induction es as [|e es IH] using rev_ind; intros s t H.
  - injection H as <- <-. exact H0.
  - destruct (exec_last _ _ _ _ H) as (s0 & t0 & o & E & F & ->). apply (HS es s0 t0 e s o E (IH _ _ E) F).
Qed.

Lemma update_length : forall i x l, length (update i x l) = length l.
Proof. induction i as [|i IH]; intros x [|y l]; simpl; try rewrite IH; reflexivity. Qed.
Lemma update_same : forall l i x, i < length l -> nth_error (update i x l) i = Some x.
Proof.
  induction l as [|y l IH]; intros [|i] x H; simpl in *; try lia; [reflexivity|]. apply IH. lia.
Qed.
Lemma update_other : forall l i j x, i <> j -> nth_error (update i x l) j = nth_error l j.
Proof.
  induction l as [|y l IH]; intros [|i] [|j] x H; simpl; try reflexivity; try congruence. apply IH. congruence.
Qed.
Lemma reply_length : forall i r l, length (reply i r l) = length l.
Proof. intros. unfold reply. destruct (nth_error l i) as [[]|]; try rewrite update_length; reflexivity. Qed.

(** The shape of a run: line, mode, addresses. *)
Record shape (es : list event) (s : node) (t : list obs) : Prop := mk_shape {
  sh_numbers : map fst (called t) = seq 0 (length (n_futures s));
  sh_line : exists rest, called t = carried t ++ rest /\ (n_alive s = true -> rest = n_line s)
            /\ (n_alive s = false -> n_line s = []);
  sh_alive : n_alive s = false <-> In OLost t;
  sh_server : n_server s = true <-> exists i a r, In (ODid i (Listen a) r) t;
  sh_known : n_known s = learned t /\ learned t = found es
}.

Lemma learned_map : forall l, learned (map (fun x => OLearned (fst x) (snd x)) l) = l.
Proof. induction l as [|[p a] l IH]; simpl; [|rewrite IH]; reflexivity. Qed.
Lemma quiet_map : forall l,
  called (map (fun x : nat * nat => OLearned (fst x) (snd x)) l) = []
  /\ carried (map (fun x : nat * nat => OLearned (fst x) (snd x)) l) = [].
Proof. induction l as [|x l [A B]]; simpl; auto. Qed.

Ltac snoc := rewrite ?called_app, ?carried_app, ?learned_app, ?found_app; simpl; rewrite ?app_nil_r.
Ltac in_last := rewrite in_app_iff; simpl; intuition (try discriminate).

Lemma server_keeps : forall t o, (forall i a r, ~ In (ODid i (Listen a) r) o) ->
  ((exists i a r, In (ODid i (Listen a) r) (t ++ o)) <-> exists i a r, In (ODid i (Listen a) r) t).
Proof.
  intros t o N. split; intros (i & a & r & H); exists i, a, r.
  - apply in_app_or in H. destruct H as [H|H]; [exact H | destruct (N _ _ _ H)].
  - apply in_or_app. left. exact H.
Qed.

Lemma lost_keeps : forall t o, ~ In OLost o -> (In OLost (t ++ o) <-> In OLost t).
Proof. intros t o N. rewrite in_app_iff. tauto. Qed.

(** A step that shows nothing of the network. *)
Lemma shape_quiet : forall es e s t s' o, shape es s t ->
  n_line s' = n_line s -> length (n_futures s') = length (n_futures s) -> n_alive s' = n_alive s ->
  n_server s' = n_server s -> n_known s' = n_known s ->
  called o = [] -> carried o = [] -> learned o = [] -> ~ In OLost o -> (forall i a r, ~ In (ODid i (Listen a) r) o) ->
  found [e] = [] -> shape (es ++ [e]) s' (t ++ o).
Proof.
  intros es e s t s' o [A B C D E] H1 H2 H3 H4 H5 Q1 Q2 Q3 Q4 Q5 Q6.
  constructor; rewrite ?called_app, ?carried_app, ?learned_app, ?found_app, ?Q1, ?Q2, ?Q3, ?Q6, ?app_nil_r,
    ?H1, ?H2, ?H3, ?H4, ?H5, ?lost_keeps, ?server_keeps by assumption; assumption.
Qed.

Lemma shape_run : forall es s t, exec fresh es = Some (s, t) -> shape es s t.
Proof.
  apply run_ind.
  - constructor; simpl; try tauto.
    + exists []. auto.
    + split; [discriminate | tauto].
    + split; [discriminate | intros (i & a & r & [])].
  - intros es s t e s' o R S H. destruct e as [c|r|l|l|i|i|]; simpl in H.
    + destruct (n_alive s) eqn:Al.
      * injection H as <- <-. destruct S as [A (rest & B1 & B2 & B3) C D [E1 E2]].
        constructor; snoc; simpl.
        -- rewrite map_app, A. simpl. rewrite app_length. simpl. rewrite Nat.add_1_r, seq_S. reflexivity.
        -- exists (rest ++ [(length (n_futures s), c)]). rewrite B1, app_assoc. repeat split; try discriminate.
           intros _. rewrite (B2 Al). reflexivity.
        -- rewrite lost_keeps by (simpl; intuition discriminate). rewrite <- C, Al. tauto.
        -- rewrite server_keeps by (simpl; intuition discriminate). exact D.
        -- auto.
      * injection H as <- <-.
        apply (shape_quiet es (Call c) s t); try reflexivity; try exact S; simpl; intuition discriminate.
    + destruct (n_line s) as [|[i c] q] eqn:L; [discriminate|].
      destruct S as [A (rest & B1 & B2 & B3) C D [E1 E2]].
      destruct (n_alive s) eqn:Al; [|specialize (B3 eq_refl); congruence].
      specialize (B2 eq_refl). subst rest.
      assert (G : forall x srv o', Some (mk_node q x true srv (n_known s), ODid i c r :: o') = Some (s', o) ->
                length x = length (n_futures s) ->
                (srv = true <-> n_server s = true \/ exists a, c = Listen a) ->
                o' = [] \/ o' = [OServer] ->
                shape (es ++ [Take r]) s' (t ++ o)).
      { intros x srv o' K X1 X2 X3. injection K as <- <-.
        assert (Q : called o' = [] /\ carried o' = [] /\ learned o' = [] /\ ~ In OLost o'
                    /\ forall i a r, ~ In (ODid i (Listen a) r) o').
        { destruct X3 as [-> | ->]; repeat split; simpl; try tauto; intuition discriminate. }
        destruct Q as (Q1 & Q2 & Q3 & Q4 & Q5).
        constructor; snoc; simpl; rewrite ?Q1, ?Q2, ?Q3, ?app_nil_r.
        - rewrite X1. exact A.
        - exists q. split; [rewrite B1, L, <- app_assoc; reflexivity | split; [reflexivity | discriminate]].
        - rewrite lost_keeps by (simpl; intros [Z|Z]; [discriminate Z | exact (Q4 Z)]). exact C.
        - rewrite X2, D. split.
          + intros [(j & a & r' & K)|[a ->]]; [exists j, a, r' | exists i, a, r]; apply in_or_app; simpl; auto.
          + intros (j & a & r' & K). apply in_app_or in K. destruct K as [K|[K|K]].
            * left. exists j, a, r'. exact K.
            * right. exists a. congruence.
            * destruct (Q5 _ _ _ K).
        - auto. }
      destruct c as [a|a|p a|p]; injection H as <- <-.
      * eapply G; [reflexivity | apply reply_length | | auto]. split; eauto.
      * eapply G; [reflexivity | apply reply_length | | auto]. split; [auto | intros [K|[b K]]; [exact K | discriminate]].
      * eapply G; [reflexivity | reflexivity | | auto]. split; [auto | intros [K|[b K]]; [exact K | discriminate]].
      * eapply G; [reflexivity | reflexivity | | auto]. split; [auto | intros [K|[b K]]; [exact K | discriminate]].
    + destruct (n_alive s) eqn:Al; [|discriminate]. injection H as <- <-.
      destruct S as [A (rest & B1 & B2 & B3) C D [E1 E2]]. destruct (quiet_map l) as [Q1 Q2].
      assert (Q3 : ~ In OLost (map (fun x => OLearned (fst x) (snd x)) l)).
      { intro K. apply in_map_iff in K. destruct K as (? & K & _). discriminate. }
      assert (Q4 : forall i a r, ~ In (ODid i (Listen a) r) (map (fun x => OLearned (fst x) (snd x)) l)).
      { intros i a r K. apply in_map_iff in K. destruct K as (? & K & _). discriminate. }
      constructor; snoc; simpl; rewrite ?Q1, ?Q2, ?learned_map, ?app_nil_r.
      * exact A.
      * exists rest. repeat split; auto. discriminate.
      * rewrite lost_keeps by exact Q3. rewrite <- C, Al. tauto.
      * rewrite server_keeps by exact Q4. exact D.
      * rewrite E1, E2. auto.
    + destruct (n_alive s) eqn:Al; [|discriminate]. injection H as <- <-.
      apply (shape_quiet es (Expired l) s t); try reflexivity; try exact S; simpl; intuition discriminate.
    + destruct (nth_error (n_futures s) i) as [[]|]; try discriminate; injection H as <- <-;
        apply (shape_quiet es (Poll i) s t); try reflexivity; try (simpl; intuition discriminate); try exact S;
        simpl; apply update_length.
    + destruct (nth_error (n_futures s) i) as [[]|]; try discriminate; injection H as <- <-;
        apply (shape_quiet es (Forget i) s t); try reflexivity; try (simpl; intuition discriminate); try exact S;
        simpl; apply update_length.
    + destruct (n_alive s) eqn:Al; [|discriminate]. injection H as <- <-.
      destruct S as [A (rest & B1 & B2 & B3) C D [E1 E2]].
      constructor; snoc; simpl.
      * rewrite map_length. exact A.
      * exists rest. repeat split; auto. discriminate.
      * split; [intros _; apply in_or_app; simpl; auto | reflexivity].
      * rewrite server_keeps by (simpl; intuition discriminate). exact D.
      * auto.
Qed.

Lemma nodup_numbers : forall es s t, exec fresh es = Some (s, t) -> NoDup (map fst (called t)).
Proof. intros es s t R. rewrite (sh_numbers _ _ _ (shape_run _ _ _ R)). apply seq_NoDup. Qed.

Lemma in_order : forall es s t, exec fresh es = Some (s, t) ->
  map fst (called t) = seq 0 (length (called t))
  /\ exists rest, called t = carried t ++ rest /\ (~ In OLost t -> rest = n_line s).
Proof.
  intros es s t R. destruct (shape_run _ _ _ R) as [A (rest & B1 & B2 & B3) C D E]. split.
  - assert (L := f_equal (@length nat) A). rewrite map_length, seq_length in L. rewrite A, L. reflexivity.
  - exists rest. split; [exact B1|]. intro N. apply B2. destruct (n_alive s); [reflexivity|]. destruct N. apply C. reflexivity.
Qed.

Lemma server_when : forall es s t, exec fresh es = Some (s, t) ->
  n_server s = true <-> exists i a r, In (ODid i (Listen a) r) t.
Proof. intros es s t R. apply (sh_server _ _ _ (shape_run _ _ _ R)). Qed.

Lemma known_all : forall es s t, exec fresh es = Some (s, t) -> n_known s = found es /\ learned t = found es.
Proof. intros es s t R. destruct (sh_known _ _ _ (shape_run _ _ _ R)) as [A B]. rewrite A, B. auto. Qed.

Lemma next_taken : forall es s t r, exec fresh es = Some (s, t) -> ~ In OLost t -> carried t <> called t ->
  exists i c s' o, nth_error (called t) (length (carried t)) = Some (i, c)
    /\ step s (Take r) = Some (s', ODid i c r :: o).
Proof.
  intros es s t r R N H. destruct (in_order _ _ _ R) as (_ & rest & B1 & B2). specialize (B2 N). subst rest.
  destruct (n_line s) as [|[i c] q] eqn:L.
  - rewrite app_nil_r in B1. congruence.
  - assert (G : nth_error (called t) (length (carried t)) = Some (i, c)).
    { rewrite B1, nth_error_app2, Nat.sub_diag by lia. reflexivity. }
    simpl. rewrite L. destruct c; eexists _, _, _, _; (split; [exact G | reflexivity]).
Qed.

(** The futures. *)
Definition fits (es : list event) (t : list obs) (i : nat) (c : command) (x : future) : Prop :=
  match x with
  | Unanswered => awaits c /\ ~ let_go i es t /\ (forall c' r, ~ In (ODid i c' r) t) /\ ~ In OLost t
  | Answered r => awaits c /\ ~ let_go i es t /\ In (ODid i c r) t
  | Abandoned => awaits c /\ ~ let_go i es t /\ (forall c' r, ~ In (ODid i c' r) t) /\ In OLost t
  | Over => ~ awaits c \/ let_go i es t
  end.

Record kept (es : list event) (s : node) (t : list obs) : Prop := mk_kept {
  k_fits : forall i c, In (i, c) (called t) -> exists x, nth_error (n_futures s) i = Some x /\ fits es t i c x;
  k_small : forall i, let_go i es t \/ (exists c r, In (ODid i c r) t) -> i < length (n_futures s);
  k_once : forall i, results i t <= 1 /\ (results i t = 1 -> nth_error (n_futures s) i = Some Over)
}.

Lemma let_go_app : forall i es e t o, let_go i (es ++ [e]) (t ++ o) <->
  let_go i es t \/ e = Forget i \/ (exists r, In (OReady i r) o) \/ In (OFuturePanicked i) o.
Proof.
  intros i es e t o. unfold let_go. rewrite !in_app_iff. simpl. split.
  - intros [[H|[H|[]]]|[[r H]|[H|H]]]; auto.
    apply in_app_or in H. destruct H as [H|H]; [left; right; left | right; right; left]; exists r; exact H.
  - intros [[H|[[r H]|H]]|[H|[[r H]|H]]]; auto.
    + right. left. exists r. apply in_or_app. auto.
    + right. left. exists r. apply in_or_app. auto.
Qed.

Lemma did_line : forall es s t i c c' r, exec fresh es = Some (s, t) -> In (i, c) (n_line s) -> ~ In (ODid i c' r) t.
Proof.
  intros es s t i c c' r R L H. destruct (shape_run _ _ _ R) as [A (rest & B1 & B2 & B3) C D E].
  destruct (n_alive s) eqn:Al; [|rewrite (B3 eq_refl) in L; destruct L]. rewrite (B2 eq_refl) in B1.
  pose proof (nodup_numbers _ _ _ R) as N. rewrite B1, map_app in N.
  assert (X : In i (map fst (carried t))). { apply in_map_iff. exists (i, c'). split; [reflexivity|]. apply carried_in. eauto. }
  assert (Y : In i (map fst (n_line s))). { apply in_map_iff. exists (i, c). auto. }
  clear - N X Y. induction (map fst (carried t)) as [|z l IH]; [destruct X|].
  simpl in N. inversion N as [|? ? N1 N2]; subst. destruct X as [->|X]; [apply N1, in_or_app; auto | exact (IH N2 X)].
Qed.

Lemma one_command : forall es s t i c c', exec fresh es = Some (s, t) ->
  In (i, c) (called t) -> In (i, c') (called t) -> c = c'.
Proof.
  intros es s t i c c' R. pose proof (nodup_numbers _ _ _ R) as N. induction (called t) as [|[j d] l IH]; [intros []|].
  simpl in N. inversion N as [|? ? N1 N2]; subst. intros [X|X] [Y|Y].
  - congruence.
  - injection X as -> ->. destruct N1. apply in_map_iff. exists (i, c'). auto.
  - injection Y as -> ->. destruct N1. apply in_map_iff. exists (i, c). auto.
  - exact (IH N2 X Y).
Qed.

(** A step that touches no future. *)
Lemma kept_quiet : forall es e s t s' o, kept es s t -> n_futures s' = n_futures s ->
  called o = [] -> (forall i c r, ~ In (ODid i c r) o) -> ~ In OLost o ->
  (forall i, results i o = 0) -> (forall i, ~ (e = Forget i \/ (exists r, In (OReady i r) o) \/ In (OFuturePanicked i) o)) ->
  kept (es ++ [e]) s' (t ++ o).
Proof.
  intros es e s t s' o [F S O] H1 Q1 Q2 Q3 Q4 Q5.
  assert (G : forall i, let_go i (es ++ [e]) (t ++ o) <-> let_go i es t).
  { intro i. rewrite let_go_app. specialize (Q5 i). tauto. }
  assert (I : forall i c r, In (ODid i c r) (t ++ o) <-> In (ODid i c r) t).
  { intros i c r. rewrite in_app_iff. specialize (Q2 i c r). tauto. }
  constructor; rewrite ?H1.
  - intros i c X. rewrite called_app, Q1, app_nil_r in X. destruct (F i c X) as (x & X1 & X2). exists x. split; [exact X1|].
    destruct x; simpl in *; rewrite ?G, ?I, ?lost_keeps by exact Q3; try exact X2.
    + destruct X2 as (Z1 & Z2 & Z3 & Z4). repeat split; auto. intros c' r. rewrite I. apply Z3.
    + destruct X2 as (Z1 & Z2 & Z3 & Z4). repeat split; auto. intros c' r. rewrite I. apply Z3.
  - intros i [X|(c & r & X)]; apply S; [left; apply G; exact X | right; exists c, r; apply I; exact X].
  - intro i. rewrite results_app, Q4, Nat.add_0_r. apply O.
Qed.

(** A step that ends future [i]. *)
Lemma kept_ends : forall es e s t s' o i, kept es s t -> nth_error (n_futures s) i <> None ->
  nth_error (n_futures s) i <> Some Over ->
  n_futures s' = update i Over (n_futures s) ->
  called o = [] -> (forall i c r, ~ In (ODid i c r) o) -> ~ In OLost o ->
  results i o <= 1 -> (forall j, j <> i -> results j o = 0) ->
  (forall j, (e = Forget j \/ (exists r, In (OReady j r) o) \/ In (OFuturePanicked j) o) <-> j = i) ->
  kept (es ++ [e]) s' (t ++ o).
Proof.
  intros es e s t s' o i [F S O] N1 N2 H1 Q1 Q2 Q3 Q4 Q5 Q6.
  assert (Li : i < length (n_futures s)) by (apply nth_error_Some; exact N1).
  assert (G : forall j, let_go j (es ++ [e]) (t ++ o) <-> let_go j es t \/ j = i).
  { intro j. rewrite let_go_app, Q6. tauto. }
  assert (I : forall i c r, In (ODid i c r) (t ++ o) <-> In (ODid i c r) t).
  { intros j c r. rewrite in_app_iff. specialize (Q2 j c r). tauto. }
  constructor; rewrite ?H1.
  - intros j c X. rewrite called_app, Q1, app_nil_r in X. destruct (Nat.eq_dec j i) as [->|J].
    + exists Over. split; [apply update_same; exact Li | right; apply G; auto].
    + rewrite update_other by congruence. destruct (F j c X) as (x & X1 & X2). exists x. split; [exact X1|].
      destruct x; simpl in *; rewrite ?G, ?I, ?lost_keeps by exact Q3; try (intuition congruence).
      * destruct X2 as (Z1 & Z2 & Z3 & Z4). split; [exact Z1|]. split; [intuition congruence|]. split; [|exact Z4].
        intros c' r. rewrite I. apply Z3.
      * destruct X2 as (Z1 & Z2 & Z3 & Z4). split; [exact Z1|]. split; [intuition congruence|]. split; [|exact Z4].
        intros c' r. rewrite I. apply Z3.
  - intros j [X|(c & r & X)]; rewrite update_length.
    + apply G in X. destruct X as [X| ->]; [apply S; auto | exact Li].
    + apply S. right. exists c, r. apply I. exact X.
  - intro j. rewrite results_app. destruct (O j) as [O1 O2]. destruct (Nat.eq_dec j i) as [->|J].
    + assert (results i t = 0) by (destruct (results i t) as [|[|]] eqn:Z; [reflexivity | destruct N2; apply O2; reflexivity | lia]).
      split; [lia|]. intros _. apply update_same. exact Li.
    + rewrite (Q5 j J), Nat.add_0_r. split; [exact O1|]. rewrite update_other by congruence. exact O2.
Qed.

Lemma kept_take : forall es s t i c q r fs' o', exec fresh es = Some (s, t) -> kept es s t ->
  n_line s = (i, c) :: q -> o' = [] \/ o' = [OServer] ->
  fs' = (match c with Listen _ | Dial _ => reply i r (n_futures s) | _ => n_futures s end) ->
  forall s', n_futures s' = fs' -> kept (es ++ [Take r]) s' (t ++ ODid i c r :: o').
Proof.
  intros es s t i c q r fs' o' R [F S O] L Q -> s' H1.
  assert (Ic : In (i, c) (called t)).
  { destruct (shape_run _ _ _ R) as [A (rest & B1 & B2 & B3) C D E].
    destruct (n_alive s) eqn:Al; [|rewrite (B3 eq_refl) in L; discriminate].
    rewrite B1, (B2 eq_refl), L. apply in_or_app. simpl. auto. }
  assert (Nd : forall c' r', ~ In (ODid i c' r') t).
  { intros c' r'. apply (did_line es s t i c c' r' R). rewrite L. simpl. auto. }
  assert (G : forall j, let_go j (es ++ [Take r]) (t ++ ODid i c r :: o') <-> let_go j es t).
  { intro j. rewrite let_go_app. destruct Q as [-> | ->]; simpl; split; try tauto;
      intros [K|[K|[[z K]|K]]]; auto; try discriminate; intuition discriminate. }
  assert (I : forall j d r', In (ODid j d r') (t ++ ODid i c r :: o') <-> In (ODid j d r') t \/ (j = i /\ d = c /\ r' = r)).
  { intros j d r'. rewrite in_app_iff. destruct Q as [-> | ->]; simpl; split;
      intros [K|K]; auto; try (right; left; destruct K as (-> & -> & ->); reflexivity);
      repeat (destruct K as [K|K]; [injection K as -> -> ->; auto|]); intuition discriminate. }
  assert (Lo : In OLost (t ++ ODid i c r :: o') <-> In OLost t).
  { apply lost_keeps. destruct Q as [-> | ->]; simpl; intuition discriminate. }
  assert (Len : length (n_futures s') = length (n_futures s)).
  { rewrite H1. destruct c; try apply reply_length; reflexivity. }
  assert (Rs : forall j, results j (t ++ ODid i c r :: o') = results j t).
  { intro j. rewrite results_app. destruct Q as [-> | ->]; simpl; lia. }
  assert (Oth : forall j, j <> i -> nth_error (n_futures s') j = nth_error (n_futures s) j).
  { intros j J. rewrite H1. destruct c; try reflexivity; unfold reply;
      destruct (nth_error (n_futures s) i) as [[]|]; try reflexivity; apply update_other; congruence. }
  constructor.
  - intros j d X. rewrite called_app in X. simpl in X.
    replace (called o') with (@nil (nat * command)) in X by (destruct Q as [-> | ->]; reflexivity).
    rewrite app_nil_r in X. destruct (F j d X) as (x & X1 & X2). destruct (Nat.eq_dec j i) as [->|J].
    + assert (d = c) as -> by exact (one_command _ _ _ _ _ _ R X Ic).
      destruct x; simpl in X2.
      * exists (Answered r). destruct X2 as (Z1 & Z2 & Z3 & Z4). split.
        -- rewrite H1. destruct c; try (destruct Z1); unfold reply; rewrite X1;
             apply update_same; apply nth_error_Some; congruence.
        -- simpl. rewrite G, I. auto 6.
      * destruct X2 as (_ & _ & Z). destruct (Nd _ _ Z).
      * exfalso. destruct X2 as (_ & _ & _ & Z).
        destruct (shape_run _ _ _ R) as [_ (rest & _ & _ & B3) C _ _].
        apply C in Z. rewrite (B3 Z) in L. discriminate.
      * exists Over. split; [rewrite H1; destruct c; try exact X1; unfold reply; rewrite X1; exact X1|].
        simpl. rewrite G. exact X2.
    + exists x. rewrite (Oth j J). split; [exact X1|].
      destruct x; simpl in *; rewrite ?G, ?I, ?Lo; try tauto.
      * destruct X2 as (Z1 & Z2 & Z3 & Z4). repeat split; auto. intros c' r'. rewrite I. intros [K|[K _]]; [exact (Z3 _ _ K) | congruence].
      * destruct X2 as (Z1 & Z2 & Z3 & Z4). repeat split; auto. intros c' r'. rewrite I. intros [K|[K _]]; [exact (Z3 _ _ K) | congruence].
  - intros j X. rewrite Len. destruct X as [X|(d & r' & X)].
    + apply S. left. apply G. exact X.
    + apply I in X. destruct X as [X|[-> _]]; [apply S; right; eauto|].
      destruct (F i c Ic) as (x & X1 & _). apply nth_error_Some. congruence.
  - intro j. rewrite Rs. destruct (O j) as [O1 O2]. split; [exact O1|]. intro K. specialize (O2 K).
    destruct (Nat.eq_dec j i) as [->|J]; [|rewrite (Oth j J); exact O2].
    rewrite H1. destruct c; try exact O2; unfold reply; rewrite O2; exact O2.
Qed.

Lemma kept_run : forall es s t, exec fresh es = Some (s, t) -> kept es s t.
Proof.
  apply run_ind.
  - constructor; simpl.
    + intros i c [].
    + intros i [[[]|[[r []]|[]]]|(c & r & [])].
    + intro i. split; [lia | discriminate].
  - intros es s t e s' o R K H. destruct e as [c|r|l|l|i|i|]; simpl in H.
    + destruct (n_alive s) eqn:Al.
      * injection H as <- <-. destruct K as [F S O].
        assert (G : forall j, let_go j (es ++ [Call c]) (t ++ [OCalled (length (n_futures s)) c]) <-> let_go j es t).
        { intro j. rewrite let_go_app. simpl. split; [intros [K|[K|[[z K]|K]]]; auto; try discriminate; intuition discriminate | auto]. }
        assert (I : forall j d r, In (ODid j d r) (t ++ [OCalled (length (n_futures s)) c]) <-> In (ODid j d r) t).
        { intros j d r. rewrite in_app_iff. simpl. intuition discriminate. }
        assert (Lo : In OLost (t ++ [OCalled (length (n_futures s)) c]) <-> In OLost t).
        { apply lost_keeps. simpl. intuition discriminate. }
        assert (Al' : ~ In OLost t).
        { intro Z. apply (sh_alive _ _ _ (shape_run _ _ _ R)) in Z. congruence. }
        constructor; simpl.
        -- intros j d X. rewrite called_app in X. apply in_app_or in X. simpl in X. destruct X as [X|[X|[]]].
           ++ destruct (F j d X) as (x & X1 & X2). exists x. split.
              ** rewrite nth_error_app1; [exact X1 | apply nth_error_Some; congruence].
              ** destruct x; simpl in *; rewrite ?G, ?I, ?Lo; try exact X2.
                 --- destruct X2 as (Z1 & Z2 & Z3 & Z4). repeat split; auto. intros c' r. rewrite I. apply Z3.
                 --- destruct X2 as (Z1 & Z2 & Z3 & Z4). contradiction.
           ++ injection X as <- <-. exists (future_of c). rewrite nth_error_app2, Nat.sub_diag by lia.
              split; [reflexivity|].
              assert (Y1 : ~ let_go (length (n_futures s)) es t).
              { intro Z. assert (length (n_futures s) < length (n_futures s)) by (apply S; auto). lia. }
              assert (Y2 : forall c' r, ~ In (ODid (length (n_futures s)) c' r) t).
              { intros c' r Z. assert (length (n_futures s) < length (n_futures s)) by (apply S; eauto). lia. }
              destruct c; simpl; rewrite ?G, ?Lo; try (repeat split; auto; intros c' r; rewrite I; apply Y2); left; auto.
        -- intros j X. rewrite app_length. simpl. enough (j < length (n_futures s)) by lia. apply S.
           destruct X as [X|(d & r & X)]; [left; apply G; exact X | right; exists d, r; apply I; exact X].
        -- intro j. rewrite results_app. simpl. rewrite Nat.add_0_r. destruct (O j) as [O1 O2]. split; [exact O1|].
           intro Z. specialize (O2 Z). rewrite nth_error_app1; [exact O2 | apply nth_error_Some; congruence].
      * injection H as <- <-. apply (kept_quiet es (Call c) s t); auto; simpl; try (intuition discriminate).
        intros j [Z|[[z [Z|[]]]|[Z|[]]]]; discriminate.
    + destruct (n_line s) as [|[i c] q] eqn:L; [discriminate|].
      destruct c as [a|a|p a|p]; injection H as <- <-;
        eapply (kept_take es s t i _ q r _ _ R K L); auto; reflexivity.
    + destruct (n_alive s) eqn:Al; [|discriminate]. injection H as <- <-.
      apply (kept_quiet es (Found l) s t); auto.
      * apply quiet_map.
      * intros i a r Z. apply in_map_iff in Z. destruct Z as (? & Z & _). discriminate.
      * intro Z. apply in_map_iff in Z. destruct Z as (? & Z & _). discriminate.
      * intro i. clear. induction l as [|x l IH]; simpl; auto.
      * intros j [Z|[[z Z]|Z]]; [discriminate| |]; apply in_map_iff in Z; destruct Z as (? & Z & _); discriminate.
    + destruct (n_alive s) eqn:Al; [|discriminate]. injection H as <- <-.
      apply (kept_quiet es (Expired l) s t); auto; simpl; try (intuition discriminate).
      intros j [Z|[[z []]|[]]]; discriminate.
    + destruct (nth_error (n_futures s) i) as [[]|] eqn:X; try discriminate; injection H as <- <-.
      * apply (kept_quiet es (Poll i) s t); auto; simpl; try (intuition discriminate).
        intros j [Z|[[z [Z|[]]]|[Z|[]]]]; discriminate.
      * apply (kept_ends es (Poll i) s t _ _ i); auto; simpl; try congruence; try (intuition discriminate).
        -- rewrite Nat.eqb_refl. lia.
        -- intros j J. replace (i =? j) with false by (symmetry; apply Nat.eqb_neq; congruence). reflexivity.
        -- intro j. split; [intros [Z|[[z [Z|[]]]|[Z|[]]]]; congruence | intros ->; right; left; exists r; auto].
      * apply (kept_ends es (Poll i) s t _ _ i); auto; simpl; try congruence; try (intuition discriminate).
        -- rewrite Nat.eqb_refl. lia.
        -- intros j J. replace (i =? j) with false by (symmetry; apply Nat.eqb_neq; congruence). reflexivity.
        -- intro j. split; [intros [Z|[[z [Z|[]]]|[Z|[]]]]; congruence | intros ->; auto].
    + destruct (nth_error (n_futures s) i) as [[]|] eqn:X; try discriminate; injection H as <- <-;
        (apply (kept_ends es (Forget i) s t _ _ i); auto; simpl; try congruence; try (intuition discriminate);
         intro j; split; [intros [Z|[[z []]|[]]]; congruence | intros ->; auto]).
    + destruct (n_alive s) eqn:Al; [|discriminate]. injection H as <- <-. destruct K as [F S O].
      assert (G : forall j, let_go j (es ++ [Lose]) (t ++ [OLost]) <-> let_go j es t).
      { intro j. rewrite let_go_app. simpl. split; [intros [K|[K|[[z K]|K]]]; auto; try discriminate; intuition discriminate | auto]. }
      assert (I : forall j d r, In (ODid j d r) (t ++ [OLost]) <-> In (ODid j d r) t).
      { intros j d r. rewrite in_app_iff. simpl. intuition discriminate. }
      assert (Lo : In OLost (t ++ [OLost])) by (apply in_or_app; simpl; auto).
      assert (Al' : ~ In OLost t).
      { intro Z. apply (sh_alive _ _ _ (shape_run _ _ _ R)) in Z. congruence. }
      constructor; simpl.
      * intros j d X. rewrite called_app in X. simpl in X. rewrite app_nil_r in X.
        destruct (F j d X) as (x & X1 & X2). exists (abandon x). split; [rewrite nth_error_map, X1; reflexivity|].
        destruct x; simpl in *; rewrite ?G, ?I; try exact X2.
        -- destruct X2 as (Z1 & Z2 & Z3 & Z4). repeat split; auto. intros c' r. rewrite I. apply Z3.
        -- destruct X2 as (Z1 & Z2 & Z3 & Z4). contradiction.
      * intros j X. rewrite map_length. apply S.
        destruct X as [X|(d & r & X)]; [left; apply G; exact X | right; exists d, r; apply I; exact X].
      * intro j. rewrite results_app. simpl. rewrite Nat.add_0_r. destruct (O j) as [O1 O2]. split; [exact O1|].
        intro Z. rewrite nth_error_map, (O2 Z). reflexivity.
Qed.

Lemma polled : forall es s t i c, exec fresh es = Some (s, t) -> In (OCalled i c) t -> awaits c -> ~ let_go i es t ->
  exists s' o, step s (Poll i) = Some (s', [o]) /\
    ((exists r, In (ODid i c r) t /\ o = OReady i r)
     \/ ((forall c' r, ~ In (ODid i c' r) t) /\ In OLost t /\ o = OFuturePanicked i)
     \/ ((forall c' r, ~ In (ODid i c' r) t) /\ ~ In OLost t /\ o = OPending i /\ s' = s)).
Proof.
  intros es s t i c R H A N. apply called_in in H.
  destruct (k_fits _ _ _ (kept_run _ _ _ R) i c H) as (x & X1 & X2). simpl. rewrite X1.
  destruct x; simpl in X2.
  - destruct X2 as (_ & _ & Z1 & Z2). eexists _, _. split; [reflexivity|]. auto 6.
  - destruct X2 as (_ & _ & Z1). eexists _, _. split; [reflexivity|]. left. eauto.
  - destruct X2 as (_ & _ & Z1 & Z2). eexists _, _. split; [reflexivity|]. auto.
  - tauto.
Qed.

Lemma result_once : forall es s t i, exec fresh es = Some (s, t) -> results i t <= 1.
Proof. intros es s t i R. apply (k_once _ _ _ (kept_run _ _ _ R) i). Qed.

Lemma later_in : forall (A : Type) (x : A) t o t1 t2, t ++ o = t1 ++ x :: t2 -> ~ In x o ->
  exists t3, t = t1 ++ x :: t3.
Proof.
  intros A x. induction t as [|y t IH]; intros o t1 t2 H N.
  - simpl in H. destruct N. rewrite H. apply in_or_app. simpl. auto.
  - destruct t1 as [|z t1]; simpl in H; injection H as -> H.
    + exists t. reflexivity.
    + destruct (IH _ _ _ H N) as [t3 ->]. exists t3. reflexivity.
Qed.

Lemma last_split : forall (A : Type) (x : A) t t1 t2, t ++ [x] = t1 ++ x :: t2 ->
  (exists t3, t = t1 ++ x :: t3) \/ t1 = t.
Proof.
  intros A x t t1 t2. destruct t2 as [|y t2 _] using rev_ind; intro H.
  - right. apply app_inj_tail in H. destruct H as [-> _]. reflexivity.
  - left. rewrite app_comm_cons, app_assoc in H. apply app_inj_tail in H. destruct H as [-> _]. exists t2. reflexivity.
Qed.

Lemma result_true : forall es s t, exec fresh es = Some (s, t) -> forall i r t1 t2, t = t1 ++ OReady i r :: t2 ->
  exists c, In (OCalled i c) t1 /\ awaits c /\ In (ODid i c r) t1.
Proof.
  apply (run_ind (fun es s t => forall i r t1 t2, t = t1 ++ OReady i r :: t2 ->
    exists c, In (OCalled i c) t1 /\ awaits c /\ In (ODid i c r) t1)).
  - intros i r [|? ?] t2; discriminate.
  - intros es s t e s' o R IH H i r t1 t2 E.
    assert (D : In (OReady i r) o -> o = [OReady i r] /\ nth_error (n_futures s) i = Some (Answered r)).
    { intro X. destruct e as [c|x|l|l|j|j|]; simpl in H;
        repeat match type of H with
        | (if ?b then _ else _) = _ => destruct b
        | match ?l with [] => _ | _ => _ end = _ => destruct l as [|[? []] ?]
        | match nth_error ?l ?k with _ => _ end = _ => destruct (nth_error l k) as [[]|] eqn:?
        end; try discriminate; injection H as <- <-; simpl in X; try (intuition discriminate).
      - apply in_map_iff in X. destruct X as (? & X & _). discriminate.
      - destruct X as [X|[]]. injection X as -> ->. auto. }
    destruct (in_dec (fun a b : obs => ltac:(repeat decide equality) : {a = b} + {a <> b}) (OReady i r) o) as [X|X].
    + destruct (D X) as [-> Y]. destruct (last_split _ _ _ _ _ E) as [[t3 Z]|Z]; [exact (IH _ _ _ _ Z)|]. subst t1.
      destruct (shape_run _ _ _ R) as [A _ _ _ _].
      assert (W : In i (map fst (called t))).
      { rewrite A. apply in_seq. simpl. split; [lia|]. apply nth_error_Some. congruence. }
      apply in_map_iff in W. destruct W as ([j c] & W1 & W2). simpl in W1. subst j.
      destruct (k_fits _ _ _ (kept_run _ _ _ R) i c W2) as (x & X1 & X2). rewrite X1 in Y. injection Y as ->.
      destruct X2 as (Z1 & _ & Z2). exists c. apply called_in in W2. auto.
    + destruct (later_in _ _ _ _ _ _ E X) as [t3 Z]. exact (IH _ _ _ _ Z).
Qed.

Lemma panic_true : forall es s t, exec fresh es = Some (s, t) -> forall i t1 t2, t = t1 ++ OFuturePanicked i :: t2 ->
  exists c, In (OCalled i c) t1 /\ awaits c /\ In OLost t1 /\ (forall c' r, ~ In (ODid i c' r) t1).
Proof.
  apply (run_ind (fun es s t => forall i t1 t2, t = t1 ++ OFuturePanicked i :: t2 ->
    exists c, In (OCalled i c) t1 /\ awaits c /\ In OLost t1 /\ (forall c' r, ~ In (ODid i c' r) t1))).
  - intros i [|? ?] t2; discriminate.
  - intros es s t e s' o R IH H i t1 t2 E.
    assert (D : In (OFuturePanicked i) o -> o = [OFuturePanicked i] /\ nth_error (n_futures s) i = Some Abandoned).
    { intro X. destruct e as [c|x|l|l|j|j|]; simpl in H;
        repeat match type of H with
        | (if ?b then _ else _) = _ => destruct b
        | match ?l with [] => _ | _ => _ end = _ => destruct l as [|[? []] ?]
        | match nth_error ?l ?k with _ => _ end = _ => destruct (nth_error l k) as [[]|] eqn:?
        end; try discriminate; injection H as <- <-; simpl in X; try (intuition discriminate).
      - apply in_map_iff in X. destruct X as (? & X & _). discriminate.
      - destruct X as [X|[]]. injection X as ->. auto. }
    destruct (in_dec (fun a b : obs => ltac:(repeat decide equality) : {a = b} + {a <> b}) (OFuturePanicked i) o) as [X|X].
    + destruct (D X) as [-> Y]. destruct (last_split _ _ _ _ _ E) as [[t3 Z]|Z]; [exact (IH _ _ _ Z)|]. subst t1.
      destruct (shape_run _ _ _ R) as [A _ _ _ _].
      assert (W : In i (map fst (called t))).
      { rewrite A. apply in_seq. simpl. split; [lia|]. apply nth_error_Some. congruence. }
      apply in_map_iff in W. destruct W as ([j c] & W1 & W2). simpl in W1. subst j.
      destruct (k_fits _ _ _ (kept_run _ _ _ R) i c W2) as (x & X1 & X2). rewrite X1 in Y. injection Y as ->.
      destruct X2 as (Z1 & _ & Z2 & Z3). exists c. apply called_in in W2. auto.
    + destruct (later_in _ _ _ _ _ _ E X) as [t3 Z]. exact (IH _ _ _ Z).
Qed.

(** What callers do with their futures is not seen by the network. *)
Definition alike (a b : node) : Prop :=
  n_line a = n_line b /\ length (n_futures a) = length (n_futures b) /\ n_alive a = n_alive b
  /\ n_server a = n_server b /\ n_known a = n_known b.

Lemma filter_learned : forall l : list (nat * nat),
  filter (fun o => negb (seen_by_owner o)) (map (fun x => OLearned (fst x) (snd x)) l)
  = map (fun x => OLearned (fst x) (snd x)) l.
Proof. induction l as [|x l IH]; simpl; [|rewrite IH]; reflexivity. Qed.

Lemma step_alike : forall a b e a' o, alike a b -> step a e = Some (a', o) ->
  if of_futures e then alike a' b /\ filter (fun o => negb (seen_by_owner o)) o = []
  else exists b', step b e = Some (b', filter (fun o => negb (seen_by_owner o)) o) /\ alike a' b'.
Proof.
  intros a b e a' o (L & F & V & S & K) H.
  destruct e as [c|r|l|l|i|i|]; simpl in *.
  - rewrite <- V, <- F, <- L, <- S, <- K. destruct (n_alive a) eqn:X; injection H as <- <-; eexists; split; try reflexivity;
      unfold alike; simpl; rewrite ?app_length, ?F, ?X; auto 6.
  - rewrite <- L. destruct (n_line a) as [|[i c] q]; [discriminate|].
    destruct c; injection H as <- <-; eexists; (split; [reflexivity|]); unfold alike; simpl; rewrite ?reply_length; auto 6.
  - rewrite <- V. destruct (n_alive a) eqn:X; [|discriminate]. injection H as <- <-. rewrite filter_learned.
    eexists. split; [reflexivity|]. unfold alike. simpl. rewrite L, S, K. auto 6.
  - rewrite <- V. destruct (n_alive a) eqn:X; [|discriminate]. injection H as <- <-. exists b. unfold alike. rewrite X. auto 8.
  - destruct (nth_error (n_futures a) i) as [[]|]; try discriminate; injection H as <- <-;
      (split; [unfold alike; simpl; rewrite ?update_length; auto 6 | reflexivity]).
  - destruct (nth_error (n_futures a) i) as [[]|]; try discriminate; injection H as <- <-;
      (split; [unfold alike; simpl; rewrite ?update_length; auto 6 | reflexivity]).
  - rewrite <- V. destruct (n_alive a) eqn:X; [|discriminate]. injection H as <- <-.
    eexists. split; [reflexivity|]. unfold alike. simpl. rewrite !map_length. auto 6.
Qed.

Lemma exec_alike : forall es a b a' t, alike a b -> exec a es = Some (a', t) ->
  exists b', exec b (filter (fun e => negb (of_futures e)) es) = Some (b', filter (fun o => negb (seen_by_owner o)) t)
    /\ alike a' b'.
Proof.
  induction es as [|e es IH]; intros a b a' t A H; simpl in H.
  - injection H as <- <-. exists b. auto.
  - destruct (step a e) as [[a1 o1]|] eqn:E; [|discriminate].
    destruct (exec a1 es) as [[a2 o2]|] eqn:G; [|discriminate]. injection H as <- <-.
    pose proof (step_alike _ _ _ _ _ A E) as X. rewrite filter_app. simpl. destruct (of_futures e); simpl.
    + destruct X as [X1 X2]. rewrite X2. exact (IH _ _ _ _ X1 G).
    + destruct X as (b1 & X1 & X2). rewrite X1. destruct (IH _ _ _ _ X2 G) as (b2 & Y1 & Y2). rewrite Y1. eauto.
Qed.

Lemma unnoticed : forall es s t, exec fresh es = Some (s, t) ->
  exists s', exec fresh (filter (fun e => negb (of_futures e)) es) = Some (s', filter (fun o => negb (seen_by_owner o)) t)
    /\ n_line s' = n_line s /\ n_server s' = n_server s /\ n_known s' = n_known s.
Proof.
  intros es s t R. destruct (exec_alike es fresh fresh s t) as (b & X & A).
  - unfold alike. auto 6.
  - exact R.
  - destruct A as (A1 & A2 & A3 & A4 & A5). exists b. auto.
Qed.

(** After the handler is gone every call panics and nothing is carried out. *)
Lemma after_loss : forall es s t, exec fresh es = Some (s, t) -> forall t1 t2, t = t1 ++ OLost :: t2 ->
  called t2 = [] /\ carried t2 = [] /\ learned t2 = [] /\ forall c, step s (Call c) = Some (s, [OCallPanicked c]).
Proof.
  apply (run_ind (fun es s t => forall t1 t2, t = t1 ++ OLost :: t2 ->
    called t2 = [] /\ carried t2 = [] /\ learned t2 = [] /\ forall c, step s (Call c) = Some (s, [OCallPanicked c]))).
  - intros [|? ?] t2; discriminate.
  - intros es s t e s' o R IH H t1 t2 E.
    destruct (in_dec (fun a b : obs => ltac:(repeat decide equality) : {a = b} + {a <> b}) OLost t) as [X|X].
    + assert (Al : n_alive s = false) by (apply (sh_alive _ _ _ (shape_run _ _ _ R)); exact X).
      assert (L : n_line s = []).
      { destruct (shape_run _ _ _ R) as [_ (rest & _ & _ & B3) _ _ _]. exact (B3 Al). }
      assert (Q : called o = [] /\ carried o = [] /\ learned o = [] /\ ~ In OLost o /\ n_alive s' = false).
      { destruct e as [c|x|l|l|j|j|]; simpl in H; rewrite ?Al, ?L in H; try discriminate.
        - injection H as <- <-. simpl. intuition discriminate.
        - destruct (nth_error (n_futures s) j) as [[]|]; try discriminate; injection H as <- <-; simpl; rewrite ?Al;
            intuition discriminate.
        - destruct (nth_error (n_futures s) j) as [[]|]; try discriminate; injection H as <- <-; simpl; rewrite ?Al;
            intuition discriminate. }
      destruct Q as (Q1 & Q2 & Q3 & Q4 & Q5).
      destruct (later_in _ _ _ _ _ _ E Q4) as [t3 Z]. destruct (IH _ _ Z) as (I1 & I2 & I3 & _).
      rewrite Z in E. rewrite <- app_assoc in E. apply app_inv_head in E. simpl in E. injection E as <-.
      rewrite called_app, carried_app, learned_app, I1, I2, I3, Q1, Q2, Q3. repeat split; auto.
      intro c. simpl. rewrite Q5. reflexivity.
    + assert (Y : e = Lose /\ o = [OLost] /\ n_alive s' = false).
      { assert (Y : In OLost o).
        { assert (Z : In OLost (t ++ o)) by (rewrite E; apply in_or_app; simpl; auto).
          apply in_app_or in Z. tauto. }
        destruct e as [c|x|l|l|j|j|]; simpl in H;
        repeat match type of H with
        | (if ?b then _ else _) = _ => destruct b
        | match ?l with [] => _ | _ => _ end = _ => destruct l as [|[? []] ?]
        | match nth_error ?l ?k with _ => _ end = _ => destruct (nth_error l k) as [[]|] eqn:?
        end; try discriminate; injection H as <- <-; simpl in Y; try (intuition discriminate); auto.
        apply in_map_iff in Y. destruct Y as (? & Y & _). discriminate. }
      destruct Y as (_ & -> & Y). destruct (last_split _ _ _ _ _ E) as [[t3 Z]|Z].
      * destruct X. rewrite Z. apply in_or_app. simpl. auto.
      * subst t1. apply app_inv_head in E. injection E as <-. repeat split; auto. intro c. simpl. rewrite Y. reflexivity.
Qed.
