(** Proofs that calls come back, that actors handle the link deaths they accept and get through
    their end, and of what tells that they are alive. *)
From Coq Require Import List Bool Arith PeanoNat Lia.
From Verif Require Import RemoteLinks RemoteLinks_spec RemoteLinks_proofs.
Import ListNotations.

Section Line.
Variable known : nat -> nat -> bool.

Local Notation step := (step known).
Local Notation exec := (exec known).

Ltac cases H :=
  unfold RemoteLinks.step, poll, find_step, apply_step, find_note, signal_note, at_request, at_point, note_at in H;
  repeat (cbv beta zeta in H; match type of H with
  | context [match ?x with _ => _ end] => destruct x eqn:?
  end; try discriminate H);
  try (injection H as <- <-).

Ltac ids := repeat match goal with |- context [aid_eqb ?u ?v] => destruct (aid_ok u v) as [<-|] end.

Lemma exec_snoc : forall es e w0 w t, exec w0 (es ++ [e]) = Some (w, t) ->
  exists w1 t1 o, exec w0 es = Some (w1, t1) /\ step w1 e = Some (w, o) /\ t = t1 ++ o.
Proof.
  intros es e w0 w t H. rewrite exec_app in H. destruct (exec w0 es) as [[w1 t1]|]; [|discriminate].
  cbn [RemoteLinks.exec] in H. destruct (step w1 e) as [[w2 o]|] eqn:E; [|discriminate].
  injection H as <- <-. rewrite app_nil_r. eauto 6.
Qed.

(** ** Swarms and actors *)

Lemma boot_when : forall es w t n, exec fresh es = Some (w, t) -> w_boot w n = true <-> In (Boot n) es.
Proof.
  intros es. induction es as [|e es IH] using rev_ind; intros w t n H.
  - injection H as <- _. cbn. split; [discriminate|tauto].
  - destruct (exec_snoc _ _ _ _ _ H) as (w1 & t1 & o & H1 & E & _).
    rewrite in_app_iff, <- (IH _ _ n H1). cbn [In]. clear - E. destruct e; cases E; cbn;
      try (split; [auto|intros [X|[X|[]]]; [exact X|discriminate X]]; fail).
    destruct (Nat.eqb_spec n0 n) as [->|Ne]; cbn; split; auto.
    intros [X|[X|[]]]; [exact X|congruence].
Qed.

Lemma alive_step : forall w e w' o x a, step w e = Some (w', o) -> w_actors w x = Some a ->
  exists a', w_actors w' x = Some a'
  /\ (a_phase a' = Alive <-> a_phase a = Alive /\ (forall r, e <> Stop x r) /\ e <> Vanish x).
Proof.
  intros w e w' o x a H Ha. destruct e; cases H; cbn; ids.
  all: try (eexists; split; [eassumption|split; [intros X; split; [exact X|split; congruence]|tauto]]; fail).
  all: eexists; (split; [reflexivity|]); cbn;
    (match goal with H1 : w_actors ?W ?z = Some ?b, H2 : w_actors ?W ?z = Some ?b' |- _ =>
       lazymatch b with b' => fail | _ => assert (b = b') by congruence; subst b' end
     | _ => idtac end);
    (split; [intros X; split; [congruence|split; congruence]|intros (X & Y & Z); try congruence]).
Qed.

Lemma spawned : forall w e w' o x, step w e = Some (w', o) -> w_actors w x = None ->
  (w_actors w' x = None /\ (forall r, e <> Stop x r) /\ e <> Vanish x)
  \/ exists a, w_actors w' x = Some a /\ a_phase a = Alive /\ a_box a = [] /\ exists rid, e = Spawn x rid.
Proof.
  intros w e w' o x H Ha. destruct e; cases H; cbn; ids;
  try (left; split; [assumption|split; congruence]); try congruence; try (right; eauto 8).
Qed.

Lemma alive_when : forall es w t x a, exec fresh es = Some (w, t) -> w_actors w x = Some a ->
  a_phase a = Alive <-> (forall r, ~ In (Stop x r) es) /\ ~ In (Vanish x) es.
Proof.
  intros es w t x.
  assert (G : forall es w t, exec fresh es = Some (w, t) ->
    match w_actors w x with
    | Some a => a_phase a = Alive <-> (forall r, ~ In (Stop x r) es) /\ ~ In (Vanish x) es
    | None => (forall r, ~ In (Stop x r) es) /\ ~ In (Vanish x) es
    end).
  { clear. intros es. induction es as [|e es IH] using rev_ind; intros w t H.
    - injection H as <- _. cbn. split; tauto.
    - destruct (exec_snoc _ _ _ _ _ H) as (w1 & t1 & o & H1 & E & _). specialize (IH _ _ H1).
      destruct (w_actors w1 x) as [a|] eqn:A.
      + destruct (alive_step _ _ _ _ _ _ E A) as (a' & -> & P). rewrite P, IH. split.
        * intros ((S1 & V1) & S2 & V2). split; [intros r I0|intros I0]; apply in_app_or in I0;
            destruct I0 as [I0|[I0|[]]]; firstorder.
        * intros (S1 & V1). split; [split|split].
          -- intros r I0. apply (S1 r), in_or_app. auto.
          -- intros I0. apply V1, in_or_app. auto.
          -- intros r ->. apply (S1 r), in_or_app. right. now left.
          -- intros ->. apply V1, in_or_app. right. now left.
      + destruct IH as (S1 & V1). destruct (spawned _ _ _ _ _ E A) as [(-> & S2 & V2)|(a & -> & P & _ & rid & ->)].
        * split; [intros r I0|intros I0]; apply in_app_or in I0; destruct I0 as [I0|[I0|[]]]; firstorder.
        * split; [intros _|intros _; exact P].
          split; [intros r I0|intros I0]; apply in_app_or in I0; destruct I0 as [I0|[I0|[]]]; try discriminate; firstorder. }
  intros a H A. specialize (G _ _ _ H). rewrite A in G. exact G.
Qed.

(** ** The link deaths an actor has not handled yet *)

Lemma got_app : forall x t1 t2, got x (t1 ++ t2) = got x t1 ++ got x t2.
Proof.
  intros x t1 t2. induction t1 as [|o t1 IH]; [reflexivity|].
  destruct o; cbn; rewrite ?IH; try reflexivity. destruct (aid_eqb x x0); reflexivity.
Qed.

Lemma forgot_app : forall x t1 t2, forgot x (t1 ++ t2) = forgot x t1 ++ forgot x t2.
Proof.
  intros x t1 t2. induction t1 as [|o t1 IH]; [reflexivity|].
  destruct o; cbn; rewrite ?IH; try reflexivity. destruct (aid_eqb x x0); reflexivity.
Qed.

Lemma box_step : forall w e w' o x a, step w e = Some (w', o) -> w_actors w x = Some a ->
  exists a', w_actors w' x = Some a'
  /\ exists pre, a_box a ++ got x o = pre ++ a_box a' /\ map fst pre = forgot x o.
Proof.
  intros w e w' o x a H Ha. destruct e; cases H; cbn.
  all: repeat match goal with
    | |- context [aid_eqb ?u ?u] => rewrite (aid_refl u)
    | |- context [aid_eqb ?u ?v] =>
        let X := fresh in let Y := fresh in
        destruct (aid_ok u v) as [X|X];
        [|assert (Y : aid_eqb v u = false) by (destruct (aid_ok v u); congruence); rewrite ?Y; clear Y];
        try subst; cbn
    end.
  all: eexists; (split; [first [eassumption|reflexivity]|]); cbn;
       try (exists []; rewrite ?app_nil_r; cbn; split; congruence).
  rewrite app_nil_r. match goal with B : a_box _ = ?p :: _ |- _ => exists [p] end. split; [cbn; congruence|reflexivity].
Qed.

Lemma box_when : forall es w t x a, exec fresh es = Some (w, t) -> w_actors w x = Some a ->
  exists pre, got x t = pre ++ a_box a /\ map fst pre = forgot x t.
Proof.
  intros es w t x.
  assert (G : forall es w t, exec fresh es = Some (w, t) ->
    match w_actors w x with
    | Some a => exists pre, got x t = pre ++ a_box a /\ map fst pre = forgot x t
    | None => got x t = [] /\ forgot x t = []
    end).
  { clear. intros es. induction es as [|e es IH] using rev_ind; intros w t H.
    - injection H as <- <-. cbn. split; reflexivity.
    - destruct (exec_snoc _ _ _ _ _ H) as (w1 & t1 & o & H1 & E & ->). specialize (IH _ _ H1).
      rewrite got_app, forgot_app. destruct (w_actors w1 x) as [a|] eqn:A.
      + destruct (box_step _ _ _ _ _ _ E A) as (a' & -> & pre & B1 & B2). destruct IH as (p & -> & <-).
        exists (p ++ pre). rewrite map_app, B2, <- !app_assoc, B1. split; reflexivity.
      + destruct IH as (-> & ->). cbn [app].
        assert (N : got x o = [] /\ forgot x o = []).
        { clear - E A. destruct e; cases E; cbn; try (split; reflexivity);
          repeat match goal with |- context [aid_eqb ?u ?v] => destruct (aid_ok u v); try congruence end;
          split; reflexivity. }
        destruct N as (-> & ->). destruct (spawned _ _ _ _ _ E A) as [(-> & _)|(a & -> & _ & B & _)]; [auto|].
        exists []. rewrite B. split; reflexivity. }
  intros a H A. specialize (G _ _ _ H). rewrite A in G. exact G.
Qed.

Lemma handle_when : forall es w t x a y r, exec fresh es = Some (w, t) -> w_actors w x = Some a -> a_phase a = Alive ->
  nth_error (got x t) (length (forgot x t)) = Some (y, r) ->
  exists w', step w (Handle x) = Some (w', [OForgot x y]).
Proof.
  intros es w t x a y r H A P N. destruct (box_when _ _ _ _ _ H A) as (pre & G & F).
  rewrite G, <- F, map_length, nth_error_app2, Nat.sub_diag in N by lia.
  cbn. rewrite A, P. destruct (a_box a) as [|[y' r'] b]; [discriminate|]. injection N as -> ->. eauto.
Qed.

Lemma handle_only : forall es w t x w' o, exec fresh es = Some (w, t) -> step w (Handle x) = Some (w', o) ->
  exists a y r, w_actors w x = Some a /\ a_phase a = Alive
  /\ nth_error (got x t) (length (forgot x t)) = Some (y, r) /\ o = [OForgot x y].
Proof.
  intros es w t x w' o H E. cbn in E. destruct (w_actors w x) as [a|] eqn:A; [|discriminate].
  destruct (a_phase a) eqn:P; try discriminate. destruct (a_box a) as [|[y r] b] eqn:B; [discriminate|].
  injection E as _ <-. destruct (box_when _ _ _ _ _ H A) as (pre & G & F).
  exists a, y, r. split; [reflexivity|]. split; [exact P|]. split; [|reflexivity].
  rewrite G, <- F, map_length, nth_error_app2, Nat.sub_diag by lia. rewrite B. reflexivity.
Qed.

(** ** What becomes of a notification *)

Lemma noted : forall es w t e w' o k out, exec fresh es = Some (w, t) -> step w e = Some (w', o) ->
  In (ONoted k out) o ->
  exists n, nth_error (w_notes w) k = Some n
  /\ ((e = FindNote k /\ out <> Success /\ refusal known w (n_node n) (n_to n) (n_rid n) out
       /\ o = [ONoted k out])
      \/ (e = Signal k /\ exists a, w_actors w (n_to n) = Some a
          /\ ((a_phase a = Gone /\ out = ActorNotRunning /\ o = [ONoted k out])
              \/ (a_phase a <> Gone /\ out = Success
                  /\ o = [OGot (n_to n) (n_dead n) (n_reason n); ONoted k out])))).
Proof.
  intros es w t e w' o k out _ E I0. destruct e; cbn in E;
  repeat match type of E with
  | context [match ?x with _ => _ end] => destruct x eqn:?; try discriminate E
  end; try (injection E as <- <-; cbn in I0; intuition discriminate).
  - unfold poll in E. cases E; cbn in I0; intuition discriminate.
  - unfold find_step in E. cases E; cbn in I0; intuition discriminate.
  - unfold apply_step in E. cases E; cbn in I0; intuition discriminate.
  - unfold find_note in E. destruct (n_req n) eqn:?; try discriminate.
    destruct (lookup known w (n_node n) (n_to n) (n_rid n)) eqn:L; injection E as <- <-; cbn in I0;
      try (destruct I0; fail); destruct I0 as [[= -> <-]|[]];
      (exists n; split; [assumption|]; left; split; [reflexivity|]; split; [discriminate|]; split; [|reflexivity]);
      (apply (lookup_refusal known); [exact L|discriminate]).
  - unfold signal_note in E. destruct (n_req n) eqn:?; try discriminate.
    destruct (w_actors w (n_to n)) as [a|] eqn:A; [|discriminate].
    destruct (a_phase a) eqn:P; injection E as <- <-; cbn in I0;
      repeat (destruct I0 as [I0|I0]); try discriminate I0; try contradiction I0; injection I0 as -> <-;
      (exists n; split; [assumption|]; right; split; [reflexivity|]; exists a; split; [exact A|]).
    all: try (left; split; [exact P|split; reflexivity]).
    all: right; (split; [congruence|split; reflexivity]).
Qed.

Lemma all_noted : forall es w t k w' o, exec fresh es = Some (w, t) ->
  (step w (FindNote k) = Some (w', o) -> exists n, nth_error (w_notes w) k = Some n
     /\ ((exists out, out <> Success /\ refusal known w (n_node n) (n_to n) (n_rid n) out /\ o = [ONoted k out])
         \/ ((forall out, ~ refusal known w (n_node n) (n_to n) (n_rid n) out) /\ o = [])))
  /\ (step w (Signal k) = Some (w', o) -> exists n a, nth_error (w_notes w) k = Some n /\ w_actors w (n_to n) = Some a
     /\ ((a_phase a = Gone /\ o = [ONoted k ActorNotRunning])
         \/ (a_phase a <> Gone /\ o = [OGot (n_to n) (n_dead n) (n_reason n); ONoted k Success]))).
Proof.
  intros es w t k w' o _. split; intros E; cbn in E; destruct (nth_error (w_notes w) k) as [n|] eqn:N; try discriminate; exists n.
  - split; [reflexivity|]. unfold find_note in E. destruct (n_req n); try discriminate.
    destruct (lookup known w (n_node n) (n_to n) (n_rid n)) eqn:L; injection E as _ <-;
      try (left; eexists; split; [|split; [apply (lookup_refusal known); [exact L|discriminate]|reflexivity]]; discriminate).
    right. split; [|reflexivity]. intros out R. unfold lookup in L. destruct R as [K|K NE|a K H A T D].
    + rewrite K in L. discriminate.
    + rewrite K in L. destruct (w_actors w (n_to n)) as [a|] eqn:A; [|discriminate].
      destruct (home (n_to n) =? n_node n) eqn:HH; [|discriminate]. cbn in L. destruct (a_table a) eqn:T; [|discriminate].
      apply NE. apply Nat.eqb_eq in HH. split; [exact HH|]. exists a. split; [reflexivity|exact T].
    + rewrite K, A, H, Nat.eqb_refl, T in L. cbn in L. destruct (Nat.eqb_spec (a_rid a) (n_rid n)); [contradiction|discriminate].
  - unfold signal_note in E. destruct (n_req n); try discriminate. destruct (w_actors w (n_to n)) as [a|] eqn:A; [|discriminate].
    exists a. split; [reflexivity|]. split; [reflexivity|].
    destruct (a_phase a) eqn:P; injection E as _ <-; [right|right|right|left]; (split; [congruence|reflexivity]).
Qed.

(** ** A call comes back *)

Definition placed (w : world) : Prop := forall i c, nth_error (w_calls w) i = Some c ->
  (c_at c = AtStart \/ c_at c = AtLinks -> exists a, w_actors w (c_from c) = Some a)
  /\ (c_req c = Found -> exists b, w_actors w (c_to c) = Some b)
  /\ (c_at c = Waiting -> c_req c <> Unsent).

Lemma placed_actors : forall w e w' o x, step w e = Some (w', o) ->
  (exists a, w_actors w x = Some a) -> exists a, w_actors w' x = Some a.
Proof. intros w e w' o x H (a & A). destruct (actor_stays known _ _ _ _ _ _ H A) as (a' & A' & _). eauto. Qed.

Lemma placed_run : forall es w t, exec fresh es = Some (w, t) -> placed w.
Proof.
  intros es. induction es as [|e es IH] using rev_ind; intros w t H.
  - injection H as <- _. intros [|i] c N; discriminate N.
  - destruct (exec_snoc _ _ _ _ _ H) as (w1 & t1 & o & H1 & E & _). specialize (IH _ _ H1). clear H H1.
    intros i c N.
    assert (S0 := fun x => placed_actors _ _ _ _ x E).
    assert (D : (exists c0, nth_error (w_calls w1) i = Some c0 /\ c_from c = c_from c0 /\ c_to c = c_to c0
                  /\ (c_at c = AtStart \/ c_at c = AtLinks -> c_at c0 = AtStart \/ c_at c0 = AtLinks)
                  /\ (c_req c = Found -> c_req c0 = Found \/ exists b, w_actors w1 (c_to c) = Some b)
                  /\ (c_at c = Waiting -> c_req c = Unsent -> c_at c0 = Waiting /\ c_req c0 = Unsent))
                \/ (c_req c = Unsent /\ c_at c <> Waiting
                    /\ (c_at c = AtStart -> exists a, w_actors w1 (c_from c) = Some a) /\ c_at c <> AtLinks)).
    { clear - E N. destruct e; cases E; cbn in N;
      try (left; exists c; split; [exact N|]; repeat (split; [reflexivity|]); auto 8; fail);
      try (match goal with N0 : nth_error (w_calls w1) ?j = Some ?d |- _ =>
        destruct (Nat.eq_dec j i) as [->|Ne];
        [erewrite update_same in N by exact N0; injection N as <-; left; exists d; cbn;
         split; [exact N0|]; split; [reflexivity|]; split; [reflexivity|];
         (split; [intros; first [left; congruence|right; congruence|intuition congruence]|]);
         (split; [intros; first [left; congruence|congruence|right]|intros; first [split; congruence|congruence]])
        |rewrite (update_other _ _ _ _ _ Ne) in N; left; exists c; split; [exact N|];
         repeat (split; [reflexivity|]); auto 8]
      end).
      all: try (unfold lookup in *; repeat match goal with H : context [match ?x with _ => _ end] |- _ => destruct x eqn:?; try discriminate H end; eauto; fail).
      all: (destruct (Nat.lt_ge_cases i (length (w_calls w1))) as [L|L];
        [rewrite nth_error_app1 in N by exact L; left; exists c; split; [exact N|]; repeat (split; [reflexivity|]); auto 8
        |rewrite nth_error_app2 in N by exact L; destruct (i - length (w_calls w1)) as [|[|]]; try discriminate N;
         injection N as <-; right; cbn; split; [reflexivity|]; split; [discriminate|]; split; [|discriminate]; eauto; discriminate]). }
    destruct D as [(c0 & N0 & Ef & Et & P1 & P2 & P3)|(Q1 & Q2 & Q3 & Q4)].
    + destruct (IH _ _ N0) as (I1 & I2 & I3). rewrite Ef, Et. rewrite Et in P2. split; [|split].
      * intros X. apply S0, I1, P1, X.
      * intros X. apply S0. destruct (P2 X) as [Y|Y]; auto.
      * intros X Y. destruct (P3 X Y) as (Z1 & Z2). exact (I3 Z1 Z2).
    + split; [|split].
      * intros [X|X]; [|contradiction]. apply S0, Q3, X.
      * intros X. congruence.
      * intros X. contradiction.
Qed.

Lemma over_call : forall es w t i c, exec fresh es = Some (w, t) -> nth_error (w_calls w) i = Some c ->
  (forall r, c_at c = Returned r -> In (OReturned i r) t) /\ (c_at c = Dropped -> In (Drop i) es).
Proof.
  intros es. induction es as [|e es IH] using rev_ind; intros w t i c H N.
  - injection H as <- _. destruct i; discriminate N.
  - destruct (exec_snoc _ _ _ _ _ H) as (w1 & t1 & o & H1 & E & ->). clear H.
    assert (D : (exists c0, nth_error (w_calls w1) i = Some c0
                  /\ (forall r, c_at c = Returned r -> c_at c0 = Returned r \/ In (OReturned i r) o)
                  /\ (c_at c = Dropped -> c_at c0 = Dropped \/ e = Drop i))
                \/ (c_at c <> Dropped /\ forall r, c_at c <> Returned r)).
    { clear - E N. destruct e; cases E; cbn in N;
      try (left; exists c; split; [exact N|]; auto 8; fail);
      try (match goal with N0 : nth_error (w_calls w1) ?j = Some ?d |- _ =>
        destruct (Nat.eq_dec j i) as [->|Ne];
        [erewrite update_same in N by exact N0; injection N as <-; left; exists d; cbn;
         split; [exact N0|]; split; intros;
           first [left; congruence | right; congruence | right; left; congruence | congruence]
        |rewrite (update_other _ _ _ _ _ Ne) in N; left; exists c; split; [exact N|]; auto 8]
      end; fail).
      all: destruct (Nat.lt_ge_cases i (length (w_calls w1))) as [L|L];
        [rewrite nth_error_app1 in N by exact L; left; exists c; split; [exact N|]; auto 8
        |rewrite nth_error_app2 in N by exact L; destruct (i - length (w_calls w1)) as [|[|]]; try discriminate N;
         injection N as <-; right; cbn; split; discriminate]. }
    destruct D as [(c0 & N0 & P1 & P2)|(Q1 & Q2)].
    + destruct (IH _ _ _ _ H1 N0) as (I1 & I2). split.
      * intros r X. apply in_or_app. destruct (P1 r X); auto.
      * intros X. apply in_or_app. destruct (P2 X) as [Y| ->]; auto. right. now left.
    + split; [intros r X; destruct (Q2 r X)|intros X; destruct (Q1 X)].
Qed.

Lemma answered_back : forall w i c r, nth_error (w_calls w) i = Some c -> c_at c = Waiting -> c_req c = Served r ->
  exists w' , step w (Answer i) = Some (w', [OReturned i r]).
Proof. intros w i c r N A Q. cbn. rewrite N, A, Q. eauto. Qed.

Definition comes_back (w : world) (i : nat) : Prop :=
  exists es w' t r, forallb (piece i) es = true /\ exec w es = Some (w', t) /\ In (OReturned i r) t.

Lemma back_step : forall w e w' o i, step w e = Some (w', o) -> piece i e = true ->
  ((exists r, In (OReturned i r) o) \/ comes_back w' i) -> comes_back w i.
Proof.
  intros w e w' o i E P [(r & I0)|(es & w2 & t & r & F & X & I0)].
  - exists [e], w', (o ++ []), r. cbn [forallb RemoteLinks.exec]. rewrite P, E, app_nil_r. auto.
  - exists (e :: es), w2, (o ++ t), r. cbn [forallb RemoteLinks.exec]. rewrite P, F, E, X.
    split; [reflexivity|]. split; [reflexivity|]. apply in_or_app. auto.
Qed.

Lemma piece_self : forall i, (i =? i) = true.
Proof. exact Nat.eqb_refl. Qed.

Lemma back_waiting : forall w i c, placed w -> nth_error (w_calls w) i = Some c -> c_at c = Waiting -> comes_back w i.
Proof.
  intros w i c P N A. destruct (P _ _ N) as (_ & P2 & P3). specialize (P3 A).
  assert (S3 : forall w c r, nth_error (w_calls w) i = Some c -> c_at c = Waiting -> c_req c = Served r -> comes_back w i).
  { clear. intros w c r N A Q. destruct (answered_back _ _ _ _ N A Q) as (w' & E).
    apply (back_step _ _ _ _ _ E (piece_self i)). left. exists r. now left. }
  assert (S2 : forall w c, nth_error (w_calls w) i = Some c -> c_at c = Waiting -> c_req c = Found ->
    (exists b, w_actors w (c_to c) = Some b) -> comes_back w i).
  { intros w0 c0 N0 A0 Q (b & B).
    destruct (step w0 (Apply i)) as [[w' o]|] eqn:E.
    - apply (back_step _ _ _ _ _ E (piece_self i)). right.
      cbn in E. rewrite N0 in E. unfold apply_step in E. rewrite Q, B in E.
      apply (S3 w' (at_request (Served Success) c0) Success).
      + destruct (c_op c0); injection E as <- _; cbn; exact (update_same _ _ _ _ _ N0).
      + exact A0.
      + reflexivity.
    - cbn in E. rewrite N0 in E. unfold apply_step in E. rewrite Q, B in E. destruct (c_op c0); discriminate. }
  destruct (c_req c) eqn:Q.
  - congruence.
  - destruct (step w (Find i)) as [[w' o]|] eqn:E.
    + apply (back_step _ _ _ _ _ E (piece_self i)). right. cbn in E. rewrite N in E. unfold find_step in E. rewrite Q in E.
      destruct (lookup known w (c_node c) (c_to c) (c_rid c)) eqn:L; injection E as <- _.
      1: { apply (S2 _ (at_request Found c)); [exact (update_same _ _ _ _ _ N)|exact A|reflexivity|].
           cbn. unfold lookup in L. destruct (known _ _); [|discriminate].
           destruct (w_actors w (c_to c)); [eauto|discriminate]. }
      all: eapply S3; [exact (update_same _ _ _ _ _ N)|exact A|reflexivity].
    + cbn in E. rewrite N in E. unfold find_step in E. rewrite Q in E. destruct (lookup known _ _ _ _); discriminate.
  - exact (S2 _ _ N A Q (P2 eq_refl)).
  - exact (S3 _ _ _ N A Q).
Qed.

Lemma back_swarm : forall es w t i c, exec fresh es = Some (w, t) -> nth_error (w_calls w) i = Some c ->
  c_at c = AtSwarm -> comes_back w i.
Proof.
  intros es w t i c H N A. destruct (step w (Poll i false)) as [[w' o]|] eqn:E.
  - apply (back_step _ _ _ _ _ E (piece_self i)).
    assert (H' : exec fresh (es ++ [Poll i false]) = Some (w', t ++ o)).
    { rewrite exec_app, H. cbn [RemoteLinks.exec]. rewrite E, app_nil_r. reflexivity. }
    cbn in E. rewrite N in E. unfold poll in E. rewrite A in E.
    destruct (w_boot w (c_me c)).
    + right. eapply back_waiting; [exact (placed_run _ _ _ H')| |].
      * injection E as <- _. exact (update_same _ _ _ _ _ N).
      * reflexivity.
    + injection E as _ <-. left. eexists. left. reflexivity.
  - cbn in E. rewrite N in E. unfold poll in E. rewrite A in E. destruct (w_boot _ _); discriminate.
Qed.

Lemma returns : forall es w t i, exec fresh es = Some (w, t) -> i < length (w_calls w) ->
  (forall r, ~ In (OReturned i r) t) -> ~ In (Drop i) es -> comes_back w i.
Proof.
  intros es w t i H L Nr Nd. destruct (nth_error (w_calls w) i) as [c|] eqn:N.
  2: { apply nth_error_None in N. lia. }
  destruct (over_call _ _ _ _ _ H N) as (O1 & O2).
  assert (K : forall e w' o, step w e = Some (w', o) -> exec fresh (es ++ [e]) = Some (w', t ++ o)).
  { intros e w' o E. rewrite exec_app, H. cbn [RemoteLinks.exec]. rewrite E, app_nil_r. reflexivity. }
  assert (KL : forall es w t c, exec fresh es = Some (w, t) -> nth_error (w_calls w) i = Some c ->
    c_at c = AtLinks -> comes_back w i).
  { clear. intros es w t c H N A. destruct (placed_run _ _ _ H _ _ N) as (P1 & _).
    destruct (P1 (or_intror A)) as (a & Ea).
    destruct (step w (Poll i false)) as [[w' o]|] eqn:E.
    - apply (back_step _ _ _ _ _ E (piece_self i)). right.
      assert (H' : exec fresh (es ++ [Poll i false]) = Some (w', t ++ o)).
      { rewrite exec_app, H. cbn [RemoteLinks.exec]. rewrite E, app_nil_r. reflexivity. }
      eapply (back_swarm _ _ _ _ _ H').
      + cbn in E. rewrite N in E. unfold poll in E. rewrite A, Ea in E. injection E as <- _.
        exact (update_same _ _ _ _ _ N).
      + reflexivity.
    - cbn in E. rewrite N in E. unfold poll in E. rewrite A, Ea in E. discriminate. }
  destruct (c_at c) eqn:A.
  - destruct (placed_run _ _ _ H _ _ N) as (P1 & _). destruct (P1 (or_introl A)) as (a & Ea).
    destruct (step w (Poll i false)) as [[w' o]|] eqn:E.
    + apply (back_step _ _ _ _ _ E (piece_self i)).
      pose proof (K _ _ _ E) as H'. cbn in E. rewrite N in E. unfold poll in E. rewrite A, Ea in E.
      destruct (aid_eqb (c_from c) (c_to c)).
      * injection E as _ <-. left. eexists. left. reflexivity.
      * right. destruct (c_op c).
        -- injection E as <- _. eapply (KL _ _ _ _ H'); [exact (update_same _ _ _ _ _ N)|reflexivity].
        -- injection E as <- _. eapply (back_swarm _ _ _ _ _ H'); [exact (update_same _ _ _ _ _ N)|reflexivity].
    + cbn in E. rewrite N in E. unfold poll in E. rewrite A, Ea in E.
      destruct (aid_eqb _ _); [discriminate|]. destruct (c_op c); discriminate.
  - exact (KL _ _ _ _ H N A).
  - exact (back_swarm _ _ _ _ _ H N A).
  - exact (back_waiting _ _ _ (placed_run _ _ _ H) N A).
  - destruct (Nr _ (O1 _ eq_refl)).
  - destruct (Nd (O2 eq_refl)).
Qed.

Lemma self_call : forall w o x rid a alone, w_actors w x = Some a ->
  exists w', exec w [Call o x x rid; Poll (length (w_calls w)) alone] = Some (w', [OReturned (length (w_calls w)) Success])
  /\ w_actors w' = w_actors w.
Proof.
  intros w o x rid a alone A. cbn [RemoteLinks.exec RemoteLinks.step]. rewrite A. cbn [w_calls].
  rewrite nth_error_app2, Nat.sub_diag by lia. cbn [nth_error]. unfold poll. cbn [c_at c_from c_to w_actors].
  rewrite A, aid_refl. eexists. split; reflexivity.
Qed.

(** ** An actor gets through its end *)

Lemma notes_over : forall x m w, m <= length (w_notes w) ->
  exists es w' t, (forall e, In e es -> winds_up w x e) /\ exec w es = Some (w', t)
  /\ w_actors w' = w_actors w /\ length (w_notes w') = length (w_notes w)
  /\ (forall k n', nth_error (w_notes w') k = Some n' -> exists n, nth_error (w_notes w) k = Some n /\ n_dead n' = n_dead n)
  /\ (forall k n', k < m -> nth_error (w_notes w') k = Some n' -> n_dead n' = x -> n_over n' = true).
Proof.
  intros x m. induction m as [|m IH]; intros w L.
  - exists [], w, []. split; [intros e []|]. split; [reflexivity|]. split; [reflexivity|]. split; [reflexivity|].
    split; [eauto|]. intros k n' K. lia.
  - destruct (IH w ltac:(lia)) as (es & w1 & t & W & X & A & Ln & D & O).
    destruct (nth_error (w_notes w1) m) as [n|] eqn:N.
    2: { apply nth_error_None in N. lia. }
    destruct (D _ _ N) as (n0 & N0 & D0).
    assert (V : n_dead n = x -> notifies w m (n_to n0) x (n_reason n0)).
    { intros Y. exists n0. repeat split; [exact N0|congruence]. }
    assert (Fin : forall es2 w2 t2, (forall e, In e es2 -> winds_up w x e) -> exec w1 es2 = Some (w2, t2) ->
      w_actors w2 = w_actors w1 ->
      (exists n2, n_dead n2 = n_dead n /\ (n_dead n2 = x -> n_over n2 = true) /\ w_notes w2 = update m n2 (w_notes w1)) ->
      exists es w' t, (forall e, In e es -> winds_up w x e) /\ exec w es = Some (w', t)
      /\ w_actors w' = w_actors w /\ length (w_notes w') = length (w_notes w)
      /\ (forall k n', nth_error (w_notes w') k = Some n' -> exists n, nth_error (w_notes w) k = Some n /\ n_dead n' = n_dead n)
      /\ (forall k n', k < S m -> nth_error (w_notes w') k = Some n' -> n_dead n' = x -> n_over n' = true)).
    { intros es2 w2 t2 W2 X2 A2 (n2 & B1 & B2 & B3). exists (es ++ es2), w2, (t ++ t2).
      split; [intros e I0; apply in_app_or in I0; destruct I0; auto|].
      split; [rewrite exec_app, X, X2; reflexivity|]. split; [congruence|].
      split; [rewrite B3, update_length; exact Ln|]. rewrite B3. split.
      - intros k n' K. destruct (Nat.eq_dec m k) as [<-|Ne].
        + rewrite (update_same _ _ _ _ _ N) in K. injection K as <-. exists n0. split; [exact N0|congruence].
        + rewrite (update_other _ _ _ _ _ Ne) in K. eauto.
      - intros k n' Lk K Dk. destruct (Nat.eq_dec m k) as [<-|Ne].
        + rewrite (update_same _ _ _ _ _ N) in K. injection K as <-. auto.
        + rewrite (update_other _ _ _ _ _ Ne) in K. apply (O k); [lia|exact K|exact Dk]. }
    assert (Id : forall (l : list note) k y, nth_error l k = Some y -> update k y l = l).
    { clear. induction l as [|z l IHl]; intros [|k] y Q; cbn in *; try discriminate; [congruence|]. f_equal. auto. }
    destruct (aid_ok x (n_dead n)) as [Y|Y].
    + destruct (n_over n) eqn:Ov.
      * apply (Fin [] w1 []); [intros e []|reflexivity|reflexivity|].
        exists n. split; [reflexivity|]. split; [auto|]. symmetry. apply Id, N.
      * symmetry in Y.
        assert (G : forall w2 n2, w_actors w2 = w_actors w1 -> nth_error (w_notes w2) m = Some n2 ->
          n_dead n2 = n_dead n -> n_req n2 <> Unsent ->
          exists w3, step w2 (Over m) = Some (w3, []) /\ w_actors w3 = w_actors w2
          /\ exists n3, n_dead n3 = n_dead n /\ n_over n3 = true /\ w_notes w3 = update m n3 (w_notes w2)).
        { clear. intros w2 n2 _ N2 D2 Q2. cbn. rewrite N2. destruct (n_req n2); try congruence;
          (eexists; split; [reflexivity|]; split; [reflexivity|]); eexists; (split; [|split; [|reflexivity]]; [exact D2|reflexivity]). }
        destruct (n_req n) eqn:Q.
        1: { destruct (step w1 (Send m false)) as [[w2 o2]|] eqn:E.
             2: { cbn in E. rewrite N, Q, Ov in E. discriminate. }
             pose proof E as E0. cbn in E0. rewrite N, Q, Ov in E0. injection E0 as E2 E3.
             set (n2 := mk_note (n_dead n) (n_to n) (n_rid n) (n_reason n) Sent
                          (served_by (home (n_dead n)) (n_to n) false) false) in *.
             destruct (G w2 n2) as (w3 & S3 & A3 & n3 & F1 & F2 & F3).
             - rewrite <- E2. reflexivity.
             - rewrite <- E2. exact (update_same _ _ _ _ _ N).
             - reflexivity.
             - discriminate.
             - apply (Fin [Send m false; Over m] w3 []).
               + intros e [<-|[<-|[]]]; econstructor; eauto.
               + cbn [RemoteLinks.exec]. rewrite E, S3. rewrite <- E3. reflexivity.
               + rewrite A3, <- E2. reflexivity.
               + exists n3. split; [exact F1|]. split; [auto|]. rewrite F3, <- E2. cbn.
                 clear. revert m. generalize (w_notes w1). induction l as [|z l IHl]; intros [|m]; cbn; f_equal; auto. }
        all: (destruct (G w1 n eq_refl N eq_refl ltac:(congruence)) as (w3 & S3 & A3 & n3 & F1 & F2 & F3);
          apply (Fin [Over m] w3 []);
          [intros e [<-|[]]; econstructor; eauto
          |cbn [RemoteLinks.exec]; rewrite S3; reflexivity|exact A3|exists n3; auto]).
    + apply (Fin [] w1 []); [intros e []|reflexivity|reflexivity|].
      exists n. split; [reflexivity|]. split; [congruence|]. symmetry. apply Id, N.
Qed.

Lemma ends : forall w x a, w_actors w x = Some a -> a_phase a = Drained ->
  exists es w' t a', (forall e, In e es -> winds_up w x e) /\ exec w es = Some (w', t)
  /\ w_actors w' x = Some a' /\ a_phase a' = Gone /\ In (OLeft x) t.
Proof.
  intros w x a A P. destruct (notes_over x (length (w_notes w)) w (le_n _)) as (es & w1 & t & W & X & A1 & L & D & O).
  assert (V : all_over x (w_notes w1) = true).
  { unfold all_over. apply forallb_forall. intros n I0. destruct (aid_ok x (n_dead n)) as [Y|Y]; [|reflexivity].
    apply In_nth_error in I0. destruct I0 as (k & N). cbn. apply (O k n).
    - rewrite <- L. apply nth_error_Some. congruence.
    - exact N.
    - congruence. }
  exists (es ++ [Leave x; Exit x]). rewrite exec_app, X. cbn [RemoteLinks.exec RemoteLinks.step].
  rewrite A1, A, P, V. cbn [w_actors set_actor]. rewrite aid_refl. cbn [a_phase set_table set_phase].
  eexists. exists (t ++ [OLeft x]). eexists. split.
  { intros e I0. apply in_app_or in I0. destruct I0 as [I0|[<-|[<-|[]]]]; [auto|constructor|constructor]. }
  split; [reflexivity|]. cbn. rewrite aid_refl. split; [reflexivity|]. split; [reflexivity|].
  apply in_or_app. right. now left.
Qed.

(** ** A call that nothing stands against succeeds *)

Lemma succeeds : forall o w x a y b rid, w_actors w x = Some a -> x <> y -> w_boot w (home x) = true ->
  w_actors w y = Some b -> a_table b = true -> a_rid b = rid -> known (home y) rid = true ->
  exists es w' t, forallb (piece (length (w_calls w))) es = true
  /\ exec w (Call o x y rid :: es) = Some (w', t) /\ In (OReturned (length (w_calls w)) Success) t.
Proof.
  intros o w x a y b rid A Ne Bo B T R K. set (i := length (w_calls w)).
  exists (match o with OpLink => [Poll i false; Poll i false; Poll i false; Find i; Apply i; Answer i]
                     | OpUnlink => [Poll i false; Poll i false; Find i; Apply i; Answer i] end).
  assert (N : forall c, nth_error (w_calls w ++ [c]) i = Some c).
  { intros c. unfold i. rewrite nth_error_app2, Nat.sub_diag by lia. reflexivity. }
  assert (U : forall c c', update i c' (w_calls w ++ [c]) = w_calls w ++ [c']).
  { intros c c'. unfold i. clear. induction (w_calls w) as [|z l IH]; cbn; congruence. }
  assert (Nxy : aid_eqb x y = false) by (destruct (aid_ok x y); congruence).
  assert (Nyx : aid_eqb y x = false) by (destruct (aid_ok y x); congruence).
  destruct o.
  - eexists. eexists. split; [cbn; rewrite !Nat.eqb_refl; reflexivity|].
    cbn [RemoteLinks.exec RemoteLinks.step]. rewrite A. cbn [w_calls]. rewrite N. unfold poll at 1. cbn [c_at c_from c_to c_op w_actors].
    rewrite A, Nxy. unfold set_call, at_point. cbn [w_calls w_actors w_boot w_notes set_actor c_op c_half c_me c_from c_own c_to c_rid c_req c_node].
    rewrite U, N. unfold poll at 1. cbn [c_at c_from c_to c_op w_actors]. rewrite aid_refl.
    unfold set_call, at_point. cbn [w_calls w_actors w_boot w_notes set_actor c_op c_half c_me c_from c_own c_to c_rid c_req c_node].
    rewrite U, N. unfold poll at 1. cbn [c_at c_me w_boot]. rewrite Bo.
    unfold set_call. cbn [w_calls w_actors w_boot w_notes set_actor c_op c_half c_me c_from c_own c_to c_rid c_req c_node].
    rewrite U, N. unfold find_step at 1. cbn [c_req c_node c_to c_rid]. unfold served_by, lookup at 1. cbn [w_actors].
    rewrite K, Nxy, B, Nat.eqb_refl, T, R, Nat.eqb_refl. cbn [andb].
    unfold set_call, at_request. cbn [w_calls w_actors w_boot w_notes set_actor c_op c_half c_me c_from c_own c_to c_rid c_req c_node c_at].
    rewrite U, N. unfold apply_step at 1. cbn [c_req c_to w_actors c_op]. rewrite Nxy, B.
    unfold set_call, at_request. cbn [w_calls w_actors w_boot w_notes set_actor c_op c_half c_me c_from c_own c_to c_rid c_req c_node c_at].
    rewrite U, N. cbn [c_at c_req]. split; [reflexivity|]. cbn. auto 10.
  - eexists. eexists. split; [cbn; rewrite !Nat.eqb_refl; reflexivity|].
    cbn [RemoteLinks.exec RemoteLinks.step]. rewrite A. cbn [w_calls]. rewrite N. unfold poll at 1. cbn [c_at c_from c_to c_op w_actors].
    rewrite A, Nxy. unfold set_call, at_point. cbn [w_calls w_actors w_boot w_notes set_actor c_op c_half c_me c_from c_own c_to c_rid c_req c_node].
    rewrite U, N. unfold poll at 1. cbn [c_at c_me w_boot]. rewrite Bo.
    unfold set_call. cbn [w_calls w_actors w_boot w_notes set_actor c_op c_half c_me c_from c_own c_to c_rid c_req c_node].
    rewrite U, N. unfold find_step at 1. cbn [c_req c_node c_to c_rid]. unfold served_by, lookup at 1. cbn [w_actors].
    rewrite K, Nxy, B, Nat.eqb_refl, T, R, Nat.eqb_refl. cbn [andb].
    unfold set_call, at_request. cbn [w_calls w_actors w_boot w_notes set_actor c_op c_half c_me c_from c_own c_to c_rid c_req c_node c_at].
    rewrite U, N. unfold apply_step at 1. cbn [c_req c_to w_actors c_op]. rewrite Nxy, B.
    unfold set_call, at_request. cbn [w_calls w_actors w_boot w_notes set_actor c_op c_half c_me c_from c_own c_to c_rid c_req c_node c_at].
    rewrite U, N. cbn [c_at c_req]. split; [reflexivity|]. cbn. auto 10.
Qed.

End Line.
