(** Proofs about how panic errors are read (C69). *)
From Coq Require Import Ascii String List Bool PeanoNat Lia.
From Verif Require Import Errors Dyn Errors_proofs PanicLock PanicLock_spec.
Import ListNotations.

Section Proofs.
Variable user : nat -> Type.
Local Notation event := (event user).
Local Notation out := (out user).
Local Notation world := (world user).
Local Notation view := (view user).
Local Notation used := (used user).
Local Notation step := (step user).
Local Notation seen := (seen user).
Local Notation see := (see user).
Local Notation allowed := (allowed user).
Local Notation possible := (possible user).

(** * What is read *)
Lemma read_fits : forall u e g, read user u e = Some g <-> fits user u e g.
Proof.
  intros u e g. split.
  - destruct u as [| |t]; cbn.
    + intros [= <-]. constructor.
    + unfold pe_str, pe_downcast. destruct e as [a|a]; [|discriminate].
      destruct (unbox TStr a) as [s|] eqn:E1.
      * apply unbox_inv in E1. subst a. intros [= <-]. constructor.
      * destruct (unbox TString a) as [s|] eqn:E2; [|discriminate].
        apply unbox_inv in E2. subst a. intros [= <-]. constructor.
    + unfold pe_downcast. destruct e as [a|a]; [|discriminate].
      destruct (unbox t a) as [v|] eqn:E; [|discriminate].
      apply unbox_inv in E. subst a. intros [= <-]. constructor.
  - intros F. destruct F; cbn; unfold pe_str, pe_downcast; try reflexivity.
    now rewrite unbox_box.
Qed.

Lemma arms_read : forall u r, arms user u r = read user u (match r with Ok e => e | Err e => e end).
Proof. intros u [e|e]; reflexivity. Qed.

(** * The cells and threads are what the history says *)
Record agrees (v : view) (w : world) : Prop := {
  g_made : map (c_err user) (cells user w) = made v;
  g_refers : handles user w = refers v;
  g_in : forall t, t_in (threads user w t) = inside v t;
  g_wait : forall t, t_wait (threads user w t) = awaits v t;
  g_ref_ok : forall h e, nth_error (refers v) h = Some e -> e < List.length (made v);
  g_wait_ok : forall t e u, awaits v t = Some (e, u) -> e < List.length (made v);
  g_in_ok : forall t e, In e (inside v t) -> e < List.length (made v);
  g_lock : forall e c, nth_error (cells user w) e = Some c ->
    c_locked user c = true <-> exists t, In e (inside v t);
  g_nodup : forall t, NoDup (inside v t);
  g_one : forall e t1 t2, In e (inside v t1) -> In e (inside v t2) -> t1 = t2 }.

Lemma at_same : forall T t (x : T) f, at_thread t x f t = x.
Proof. intros. unfold at_thread. now rewrite Nat.eqb_refl. Qed.
Lemma at_other : forall T t (x : T) f t', t' <> t -> at_thread t x f t' = f t'.
Proof. intros T t x f t' N. unfold at_thread. destruct (Nat.eqb_spec t' t); [contradiction|reflexivity]. Qed.
Lemma set_same : forall t x f, set_thread t x f t = x.
Proof. intros. unfold set_thread. now rewrite Nat.eqb_refl. Qed.
Lemma set_other : forall t x f t', t' <> t -> set_thread t x f t' = f t'.
Proof. intros t x f t' N. unfold set_thread. destruct (Nat.eqb_spec t' t); [contradiction|reflexivity]. Qed.

Lemma set_cell_nth : forall l e c e', e < List.length l ->
  nth_error (set_cell user e c l) e' = if Nat.eqb e' e then Some c else nth_error l e'.
Proof.
  induction l as [|x l IH]; intros e c e' L; cbn in L; [lia|].
  destruct e as [|e], e' as [|e']; cbn; try reflexivity. apply IH. lia.
Qed.
Lemma set_cell_map : forall l e c x, nth_error l e = Some x -> c_err user c = c_err user x ->
  map (c_err user) (set_cell user e c l) = map (c_err user) l.
Proof.
  induction l as [|y l IH]; intros e c x N E; destruct e as [|e]; cbn in *; try discriminate.
  - injection N as ->. now rewrite E.
  - f_equal. eapply IH; eassumption.
Qed.

Lemma cells_length : forall v w, agrees v w -> List.length (cells user w) = List.length (made v).
Proof. intros v w A. rewrite <- (g_made _ _ A). now rewrite map_length. Qed.

Lemma cell_there : forall v w e, agrees v w -> e < List.length (made v) ->
  exists c, nth_error (cells user w) e = Some c /\ nth_error (made v) e = Some (c_err user c).
Proof.
  intros v w e A L. destruct (nth_error (cells user w) e) as [c|] eqn:N.
  - exists c. split; [reflexivity|]. rewrite <- (g_made _ _ A). now apply map_nth_error.
  - apply nth_error_None in N. rewrite (cells_length _ _ A) in N. lia.
Qed.

Lemma start_agrees : agrees (seen []) (start user).
Proof.
  constructor; cbn; try reflexivity; try tauto; try discriminate.
  - intros [|h] e; discriminate.
  - intros [|e] c; discriminate.
  - constructor.
Qed.

Lemma free_iff : forall v w e c, agrees v w -> nth_error (cells user w) e = Some c ->
  c_locked user c = false <-> forall t, ~ In e (inside v t).
Proof.
  intros v w e c A N. pose proof (g_lock _ _ A _ _ N) as L. split.
  - intros F t I. assert (c_locked user c = true) by (apply L; eauto). congruence.
  - intros F. destruct (c_locked user c); [|reflexivity].
    destruct (proj1 L eq_refl) as (t & I). destruct (F _ I).
Qed.

Lemma leave_agrees : forall v w t m o w', agrees v w -> leave user t m w = Some (o, w') ->
  (awaits v t = None /\ inside v t <> [] /\ o = OOver) /\
  agrees (mkView user (made v) (refers v) (at_thread t (tl (inside v t)) (inside v)) (awaits v)) w'.
Proof.
  intros v w t m o w' A S. unfold leave in S.
  pose proof (g_in _ _ A t) as GI. pose proof (g_wait _ _ A t) as GW.
  destruct (threads user w t) as [i q] eqn:T. cbn in GI, GW. subst i q.
  destruct (inside v t) as [|e es] eqn:I; [discriminate|].
  destruct (awaits v t) as [|] eqn:W; [discriminate|].
  destruct (nth_error (cells user w) e) as [c|] eqn:N; [|discriminate].
  injection S as <- <-. split; [repeat split; discriminate|].
  assert (L : e < List.length (cells user w)) by (apply nth_error_Some; congruence).
  pose proof (g_nodup _ _ A t) as ND. rewrite I in ND. inversion ND as [|? ? ND1 ND2]; subst.
  constructor; cbn [made refers inside awaits cells handles threads tl].
  - rewrite (set_cell_map _ _ _ _ N) by reflexivity. apply (g_made _ _ A).
  - apply (g_refers _ _ A).
  - intros t'. destruct (Nat.eq_dec t' t) as [->|D];
      [rewrite set_same, at_same; reflexivity|rewrite set_other, at_other by exact D; apply (g_in _ _ A)].
  - intros t'. destruct (Nat.eq_dec t' t) as [->|D];
      [rewrite set_same, W; reflexivity|rewrite set_other by exact D; apply (g_wait _ _ A)].
  - apply (g_ref_ok _ _ A).
  - apply (g_wait_ok _ _ A).
  - intros t' e'. destruct (Nat.eq_dec t' t) as [->|D];
      [rewrite at_same|rewrite at_other by exact D; apply (g_in_ok _ _ A)].
    intros X. apply (g_in_ok _ _ A t). rewrite I. now right.
  - intros e' c'. rewrite set_cell_nth by exact L. destruct (Nat.eqb_spec e' e) as [->|D].
    + intros [= <-]. cbn. split; [discriminate|]. intros (t' & X). exfalso.
      destruct (Nat.eq_dec t' t) as [->|D]; [rewrite at_same in X; contradiction|].
      rewrite at_other in X by exact D. apply D. apply (g_one _ _ A e); [exact X|rewrite I; now left].
    + intros N'. rewrite (g_lock _ _ A _ _ N'). split; intros (t' & X); exists t';
        destruct (Nat.eq_dec t' t) as [->|DT]; rewrite ?at_same, ?(at_other _ _ _ _ _ DT) in *; try exact X.
      * rewrite I in X. destruct X as [->|X]; [contradiction|exact X].
      * rewrite I. now right.
  - intros t'. destruct (Nat.eq_dec t' t) as [->|D];
      [rewrite at_same; exact ND2|rewrite at_other by exact D; apply (g_nodup _ _ A)].
  - intros e' t1 t2 X1 X2. apply (g_one _ _ A e').
    + destruct (Nat.eq_dec t1 t) as [->|D]; [rewrite at_same in X1; rewrite I; now right|].
      now rewrite at_other in X1 by exact D.
    + destruct (Nat.eq_dec t2 t) as [->|D]; [rewrite at_same in X2; rewrite I; now right|].
      now rewrite at_other in X2 by exact D.
Qed.

Lemma nth_of : forall h e (l : list nat), nth_error l h = Some e -> nth h l 0 = e.
Proof. intros h e l N. exact (nth_error_nth _ _ 0 N). Qed.

Lemma step_agrees : forall v w x o w', agrees v w -> step x w = Some (o, w') ->
  allowed v x o /\ agrees (see v (x, o)) w'.
Proof.
  intros v w x o w' A S. destruct x as [e|h|t h u|t|t|t m]; cbn [PanicLock.step] in S.
  - injection S as <- <-. cbn. rewrite <- (g_refers _ _ A). split; [reflexivity|].
    rewrite <- (cells_length _ _ A). constructor; cbn [made refers inside awaits cells handles threads].
    + rewrite map_app, (g_made _ _ A). reflexivity.
    + rewrite (g_refers _ _ A). reflexivity.
    + apply (g_in _ _ A).
    + apply (g_wait _ _ A).
    + intros h e' N. rewrite app_length. cbn.
      destruct (Nat.lt_ge_cases h (List.length (handles user w))) as [L|L].
      * rewrite nth_error_app1 in N by exact L. rewrite (g_refers _ _ A) in N.
        pose proof (g_ref_ok _ _ A _ _ N). lia.
      * rewrite nth_error_app2 in N by exact L. rewrite (cells_length _ _ A) in N.
        destruct (h - List.length (handles user w)) as [|n]; cbn in N; [injection N as <-; lia|].
        destruct n; discriminate.
    + intros t e' u W. rewrite app_length. pose proof (g_wait_ok _ _ A _ _ _ W). lia.
    + intros t e' I. rewrite app_length. pose proof (g_in_ok _ _ A _ _ I). lia.
    + intros e' c N. destruct (Nat.lt_ge_cases e' (List.length (cells user w))) as [L|L].
      * rewrite nth_error_app1 in N by exact L. apply (g_lock _ _ A _ _ N).
      * rewrite nth_error_app2 in N by exact L.
        destruct (e' - List.length (cells user w)) as [|n]; cbn in N; [|destruct n; discriminate].
        injection N as <-. cbn. split; [discriminate|]. intros (t & I).
        pose proof (g_in_ok _ _ A _ _ I). rewrite (cells_length _ _ A) in L. lia.
    + apply (g_nodup _ _ A).
    + apply (g_one _ _ A).
  - destruct (nth_error (handles user w) h) as [e|] eqn:N; [|discriminate]. injection S as <- <-.
    cbn. rewrite (g_refers _ _ A) in *. split.
    + split; [apply nth_error_Some; congruence|reflexivity].
    + rewrite (nth_of _ _ _ N). pose proof (g_ref_ok _ _ A _ _ N) as L.
      destruct A as [A1 A2 A3 A4 A5 A6 A7 A8 A9 A10].
      constructor; cbn [made refers inside awaits cells handles threads]; try assumption; try reflexivity.
      intros h' e' N'. destruct (Nat.lt_ge_cases h' (List.length (refers v))) as [L'|L'].
      * rewrite nth_error_app1 in N' by exact L'. eauto.
      * rewrite nth_error_app2 in N' by exact L'.
        destruct (h' - List.length (refers v)) as [|n]; cbn in N'; [injection N' as <-; exact L|].
        destruct n; discriminate.
  - rewrite (g_wait _ _ A), (g_refers _ _ A) in S. destruct (awaits v t) eqn:W; [discriminate|].
    destruct (nth_error (refers v) h) as [e|] eqn:N; [|discriminate]. injection S as <- <-.
    cbn. split.
    + split; [exact W|]. split; [apply nth_error_Some; congruence|reflexivity].
    + rewrite (nth_of _ _ _ N). pose proof (g_ref_ok _ _ A _ _ N) as L.
      destruct A as [A1 A2 A3 A4 A5 A6 A7 A8 A9 A10].
      constructor; cbn [made refers inside awaits cells handles threads]; try assumption; try reflexivity.
      * intros t'. destruct (Nat.eq_dec t' t) as [->|D]; [rewrite set_same; apply A3|].
        rewrite set_other by exact D. apply A3.
      * intros t'. destruct (Nat.eq_dec t' t) as [->|D]; [rewrite set_same, at_same; reflexivity|].
        rewrite set_other, at_other by exact D. apply A4.
      * intros t' e' u'. destruct (Nat.eq_dec t' t) as [->|D]; [rewrite at_same; intros [= <- <-]; exact L|].
        rewrite at_other by exact D. apply A6.
  - rewrite (g_wait _ _ A) in S. destruct (awaits v t) as [[e u]|] eqn:W; [|discriminate].
    destruct (nth_error (cells user w) e) as [c|] eqn:N; [|discriminate].
    unfold lock in S. destruct (c_locked user c) eqn:LK; [discriminate|].
    rewrite arms_read in S.
    replace (match (if c_poisoned user c then Err (c_err user c) else Ok (c_err user c)) with
             | Ok e0 => e0 | Err e0 => e0 end) with (c_err user c) in S
      by (destruct (c_poisoned user c); reflexivity).
    pose proof (proj1 (free_iff _ _ _ _ A N) LK) as FR.
    assert (M : nth_error (made v) e = Some (c_err user c))
      by (rewrite <- (g_made _ _ A); now apply map_nth_error).
    assert (L : e < List.length (cells user w)) by (apply nth_error_Some; congruence).
    destruct (read user u (c_err user c)) as [g|] eqn:R; injection S as <- <-.
    + split.
      * cbn. exists e, u, (c_err user c). repeat (split; [assumption|]). now apply read_fits.
      * cbn. rewrite W. destruct A as [A1 A2 A3 A4 A5 A6 A7 A8 A9 A10].
        constructor; cbn [made refers inside awaits cells handles threads]; try assumption; try reflexivity.
        -- rewrite (set_cell_map _ _ _ _ N) by reflexivity. exact A1.
        -- intros t'. destruct (Nat.eq_dec t' t) as [->|D]; [rewrite set_same, at_same; cbn; now rewrite A3|].
           rewrite set_other, at_other by exact D. apply A3.
        -- intros t'. destruct (Nat.eq_dec t' t) as [->|D]; [rewrite set_same, at_same; reflexivity|].
           rewrite set_other, at_other by exact D. apply A4.
        -- intros t' e' u'. destruct (Nat.eq_dec t' t) as [->|D]; [rewrite at_same; discriminate|].
           rewrite at_other by exact D. apply A6.
        -- intros t' e'. destruct (Nat.eq_dec t' t) as [->|D];
             [rewrite at_same; intros [<-|X]; [eauto|eauto]|rewrite at_other by exact D; apply A7].
        -- intros e' c'. rewrite set_cell_nth by exact L. destruct (Nat.eqb_spec e' e) as [->|D].
           ++ intros [= <-]. cbn. split; [intros _; exists t; rewrite at_same; now left|reflexivity].
           ++ intros N'. rewrite (A8 _ _ N'). split; intros (t' & X); exists t';
                destruct (Nat.eq_dec t' t) as [->|DT]; rewrite ?at_same, ?(at_other _ _ _ _ _ DT) in *;
                try exact X; [now right|destruct X as [->|X]; [contradiction|exact X]].
        -- intros t'. destruct (Nat.eq_dec t' t) as [->|D]; [rewrite at_same|rewrite at_other by exact D; apply A9].
           constructor; [apply FR|apply A9].
        -- intros e' t1 t2 X1 X2.
           destruct (Nat.eq_dec t1 t) as [->|D1]; rewrite ?at_same, ?(at_other _ _ _ _ _ D1) in X1;
           destruct (Nat.eq_dec t2 t) as [->|D2]; rewrite ?at_same, ?(at_other _ _ _ _ _ D2) in X2;
             try reflexivity.
           ++ destruct X1 as [<-|X1]; [destruct (FR _ X2)|]. eapply A10; eassumption.
           ++ destruct X2 as [<-|X2]; [destruct (FR _ X1)|]. eapply A10; eassumption.
           ++ eapply A10; eassumption.
    + split.
      * cbn. exists e, u, (c_err user c). repeat (split; [assumption|]).
        intros g F. apply read_fits in F. congruence.
      * cbn. destruct A as [A1 A2 A3 A4 A5 A6 A7 A8 A9 A10].
        constructor; cbn [made refers inside awaits cells handles threads]; try assumption; try reflexivity.
        -- intros t'. destruct (Nat.eq_dec t' t) as [->|D]; [rewrite set_same; apply A3|].
           rewrite set_other by exact D. apply A3.
        -- intros t'. destruct (Nat.eq_dec t' t) as [->|D]; [rewrite set_same, at_same; reflexivity|].
           rewrite set_other, at_other by exact D. apply A4.
        -- intros t' e' u'. destruct (Nat.eq_dec t' t) as [->|D]; [rewrite at_same; discriminate|].
           rewrite at_other by exact D. apply A6.
  - apply (leave_agrees _ _ _ _ _ _ A S).
  - apply (leave_agrees _ _ _ _ _ _ A S).
Qed.

Lemma leave_some : forall v w t m, agrees v w -> awaits v t = None -> inside v t <> [] ->
  leave user t m w <> None.
Proof.
  intros v w t m A W I. unfold leave. pose proof (g_in _ _ A t) as GI. pose proof (g_wait _ _ A t) as GW.
  destruct (threads user w t) as [i q]. cbn in GI, GW. subst i q. rewrite W.
  destruct (inside v t) as [|e es] eqn:E; [contradiction|].
  destruct (cell_there v w e A) as (c & -> & _); [|discriminate].
  apply (g_in_ok _ _ A t). rewrite E. now left.
Qed.

Lemma step_some : forall v w x o, agrees v w -> allowed v x o -> step x w <> None.
Proof.
  intros v w x o A P. destruct x as [e|h|t h u|t|t|t m]; cbn in *.
  - discriminate.
  - destruct P as (L & _). rewrite (g_refers _ _ A). apply nth_error_Some in L.
    destruct (nth_error (refers v) h); [discriminate|contradiction].
  - destruct P as (W & L & _). rewrite (g_wait _ _ A), (g_refers _ _ A), W. apply nth_error_Some in L.
    destruct (nth_error (refers v) h); [discriminate|contradiction].
  - destruct P as (e & u & x & W & M & F & _). rewrite (g_wait _ _ A), W.
    assert (L : e < List.length (made v)) by (apply nth_error_Some; congruence).
    destruct (cell_there _ _ _ A L) as (c & N & _). rewrite N. unfold lock.
    rewrite (proj2 (free_iff _ _ _ _ A N) F). destruct (arms user u _); discriminate.
  - destruct P as (W & I & _). now apply (leave_some v).
  - destruct P as (W & I & _). now apply (leave_some v).
Qed.

Lemma fits_det : forall u x g g', fits user u x g -> fits user u x g' -> g = g'.
Proof. intros u x g g' F F'. apply read_fits in F, F'. congruence. Qed.

Lemma allowed_det : forall v x o o', allowed v x o -> allowed v x o' -> o = o'.
Proof.
  intros v x o o' P P'. destruct x as [e|h|t h u|t|t|t m]; cbn in P, P'; try intuition congruence.
  destruct P as (e & u & x & W & M & _ & P), P' as (e' & u' & x' & W' & M' & _ & P').
  rewrite W in W'. injection W' as <- <-. rewrite M in M'. injection M' as <-.
  destruct o, o'; try contradiction; try reflexivity.
  - f_equal. eapply fits_det; eassumption.
  - destruct (P' _ P).
  - destruct (P _ P').
Qed.

Lemma seen_snoc : forall h e, seen (h ++ [e]) = see (seen h) e.
Proof. intros. unfold PanicLock_spec.seen. now rewrite fold_left_app. Qed.

Lemma used_agrees : forall h w, used h w -> agrees (seen h) w.
Proof.
  induction 1 as [|h w x o w' U IH S]; [exact start_agrees|]. rewrite seen_snoc.
  apply (step_agrees _ _ _ _ _ IH S).
Qed.

Lemma used_snoc : forall h x o w, used (h ++ [(x, o)]) w -> exists w0, used h w0 /\ step x w0 = Some (o, w).
Proof.
  intros h x o w U. inversion U as [E|h' w0 x' o' w' U' S E]; [now destruct h|].
  apply app_inj_tail in E. destruct E as (-> & E). injection E as <- <-. subst. eauto.
Qed.

Lemma read_exact : forall h x o,
  possible (h ++ [(x, o)]) <-> possible h /\ allowed (seen h) x o.
Proof.
  intros h x o. split.
  - intros (w & U). destruct (used_snoc _ _ _ _ U) as (w0 & U0 & S). split; [now exists w0|].
    apply (step_agrees _ _ _ _ _ (used_agrees _ _ U0) S).
  - intros ((w & U) & P). pose proof (used_agrees _ _ U) as A.
    destruct (step x w) as [[o' w']|] eqn:S; [|destruct (step_some _ _ _ _ A P S)].
    pose proof (proj1 (step_agrees _ _ _ _ _ A S)) as P'.
    rewrite (allowed_det _ _ _ _ P P'). exists w'. now apply (PanicLock.used_step user _ w).
Qed.

Lemma possible_prefix : forall h' h, possible (h ++ h') -> possible h.
Proof.
  induction h' as [|[x o] h' IH] using rev_ind; intros h P; [now rewrite app_nil_r in P|].
  rewrite app_assoc in P. apply read_exact in P. now apply IH.
Qed.

Lemma read_exclusive : forall h, possible h ->
  (forall t, NoDup (inside (seen h) t)) /\
  (forall e t1 t2, In e (inside (seen h) t1) -> In e (inside (seen h) t2) -> t1 = t2).
Proof.
  intros h (w & U). pose proof (used_agrees _ _ U) as A. split; [apply (g_nodup _ _ A)|apply (g_one _ _ A)].
Qed.

(** A panic is like a return to everybody else *)
Lemma read_again : forall h t m h',
  possible (h ++ (EPanic t m, OOver) :: h') <-> possible (h ++ (EReturn t, OOver) :: h').
Proof.
  intros h t m h'. induction h' as [|[x o] h' IH] using rev_ind.
  - rewrite !read_exact. reflexivity.
  - change (h ++ (EPanic t m, OOver) :: h' ++ [(x, o)]) with (h ++ ((EPanic t m, OOver) :: h') ++ [(x, o)]).
    change (h ++ (EReturn t, OOver) :: h' ++ [(x, o)]) with (h ++ ((EReturn t, OOver) :: h') ++ [(x, o)]).
    rewrite !app_assoc, !read_exact, IH.
    assert (E : seen (h ++ (EPanic t m, OOver) :: h') = seen (h ++ (EReturn t, OOver) :: h'))
      by (unfold PanicLock_spec.seen; rewrite !fold_left_app; reflexivity).
    now rewrite E.
Qed.

(** Threads that wait for each other do so for ever *)
Lemma entangled_step : forall v x o ts, entangled user v ts -> allowed v x o ->
  entangled user (see v (x, o)) ts /\ (forall t, ts t -> awaits (see v (x, o)) t = awaits v t).
Proof.
  intros v x o ts E P.
  assert (B : forall t, ts t -> awaits v t <> None).
  { intros t T. destruct (E t T) as (e & u & t' & W & _). congruence. }
  assert (K : (forall t, ts t -> awaits (see v (x, o)) t = awaits v t) /\
              (forall t, ts t -> inside (see v (x, o)) t = inside v t)).
  { destruct x as [e|h|t h u|t|t|t m]; cbn in P; split; intros t0 T0; cbn; try reflexivity.
    - rewrite at_other; [reflexivity|]. intros ->. destruct P as (W & _). now apply B in W.
    - assert (D : t0 <> t).
      { intros ->. destruct P as (e & u & y & W & M & F & _).
        destruct (E t T0) as (e' & u' & t' & W' & _ & I). rewrite W in W'. injection W' as <- <-.
        destruct (F _ I). }
      destruct o; cbn; rewrite at_other by exact D; reflexivity.
    - assert (D : t0 <> t).
      { intros ->. destruct P as (e & u & y & W & M & F & _).
        destruct (E t T0) as (e' & u' & t' & W' & _ & I). rewrite W in W'. injection W' as <- <-.
        destruct (F _ I). }
      destruct o; cbn; rewrite ?at_other by exact D; reflexivity.
    - rewrite at_other; [reflexivity|]. intros ->. destruct P as (W & _). now apply B in W.
    - rewrite at_other; [reflexivity|]. intros ->. destruct P as (W & _). now apply B in W. }
  destruct K as (K1 & K2). split; [|exact K1].
  intros t T. destruct (E t T) as (e & u & t' & W & T' & I). exists e, u, t'.
  rewrite (K1 t T), (K2 t' T'). auto.
Qed.

Lemma read_never : forall h ts, entangled user (seen h) ts -> forall h', possible (h ++ h') ->
  forall t, ts t -> awaits (seen (h ++ h')) t = awaits (seen h) t /\
  forall o, ~ In (EGet t, o) h'.
Proof.
  intros h ts E h' P.
  enough (entangled user (seen (h ++ h')) ts /\
          (forall t, ts t -> awaits (seen (h ++ h')) t = awaits (seen h) t /\ forall o, ~ In (EGet t, o) h'))
    by tauto.
  induction h' as [|[x o] h' IH] using rev_ind.
  - rewrite app_nil_r. split; [exact E|]. intros t T. split; [reflexivity|]. intros o [].
  - rewrite app_assoc in *. apply read_exact in P. destruct P as (P & Q).
    destruct (IH P) as (E' & W'). rewrite seen_snoc.
    destruct (entangled_step _ _ _ _ E' Q) as (E2 & W2). split; [exact E2|].
    intros t T. destruct (W' t T) as (W3 & N). split; [now rewrite W2|].
    intros o' I. apply in_app_or in I. destruct I as [I|[I|[]]]; [exact (N _ I)|].
    injection I as -> ->. cbn in Q. destruct Q as (e & u & y & W & _ & F & _).
    destruct (E' t T) as (e' & u' & t' & W'' & _ & I). rewrite W in W''. injection W'' as <- <-.
    exact (F _ I).
Qed.

(** With an order of the errors somebody can always go on *)
Lemma ordered_prefix : forall rank h h', ordered user rank (h ++ h') -> ordered user rank h.
Proof.
  intros rank h h' O a t hd u b E. apply (O a t hd u (b ++ h')). rewrite E, <- app_assoc. reflexivity.
Qed.

Lemma ordered_waits : forall rank h, possible h -> ordered user rank h ->
  forall t e u, awaits (seen h) t = Some (e, u) -> forall e', In e' (inside (seen h) t) -> rank e' < rank e.
Proof.
  intros rank h. induction h as [|[x o] h IH] using rev_ind; intros P O; [discriminate|].
  apply read_exact in P. destruct P as (P & Q). specialize (IH P (ordered_prefix _ _ _ O)).
  rewrite seen_snoc. intros t e u W e' I. destruct x as [e0|hd|t0 hd u0|t0|t0|t0 m]; cbn in W, I, Q.
  - eapply IH; eassumption.
  - eapply IH; eassumption.
  - destruct (Nat.eq_dec t t0) as [->|D]; rewrite ?at_same, ?(at_other _ _ _ _ _ D) in W;
      [|eapply IH; eassumption].
    injection W as <- <-. destruct Q as (_ & _ & ->). apply (O h t0 hd u0 []); [reflexivity|exact I].
  - destruct o; cbn in W, I; destruct (Nat.eq_dec t t0) as [->|D];
      rewrite ?at_same, ?(at_other _ _ _ _ _ D) in W; try discriminate;
      rewrite ?(at_other _ _ _ _ _ D) in I; eapply IH; eassumption.
  - destruct (Nat.eq_dec t t0) as [->|D]; [|rewrite (at_other _ _ _ _ _ D) in I; eapply IH; eassumption].
    destruct Q as (Q & _). congruence.
  - destruct (Nat.eq_dec t t0) as [->|D]; [|rewrite (at_other _ _ _ _ _ D) in I; eapply IH; eassumption].
    destruct Q as (Q & _). congruence.
Qed.

Lemma get_possible : forall h t e u, possible h -> awaits (seen h) t = Some (e, u) ->
  (forall t', ~ In e (inside (seen h) t')) -> exists o, possible (h ++ [(EGet t, o)]).
Proof.
  intros h t e u P W F. destruct P as (w & U). pose proof (used_agrees _ _ U) as A.
  destruct (cell_there _ _ _ A (g_wait_ok _ _ A _ _ _ W)) as (c & N & M).
  destruct (read user u (c_err user c)) as [g|] eqn:R.
  - exists (OGiven g). apply read_exact. split; [now exists w|]. cbn. exists e, u, (c_err user c).
    repeat (split; [assumption|]). now apply read_fits.
  - exists ONone. apply read_exact. split; [now exists w|]. cbn. exists e, u, (c_err user c).
    repeat (split; [assumption|]). intros g X. apply read_fits in X. congruence.
Qed.

Fixpoint top (rank : nat -> nat) (n : nat) : nat :=
  match n with 0 => 0 | S n => Nat.max (rank n) (top rank n) end.
Lemma top_above : forall rank n e, e < n -> rank e <= top rank n.
Proof.
  induction n as [|n IH]; intros e L; [lia|]. cbn.
  destruct (Nat.eq_dec e n) as [->|D]; [lia|]. specialize (IH e ltac:(lia)). lia.
Qed.

Definition busy_or_free (h : list (event * out)) : Prop :=
  (exists t o, possible (h ++ [(EGet t, o)])) \/
  (exists t, inside (seen h) t <> [] /\ possible (h ++ [(EReturn t, OOver)])).

Lemma someone : forall rank h, possible h -> ordered user rank h ->
  forall n t e u, awaits (seen h) t = Some (e, u) ->
  top rank (List.length (made (seen h))) - rank e < n -> busy_or_free h.
Proof.
  intros rank h P O. pose proof P as (w & U). pose proof (used_agrees _ _ U) as A.
  assert (LK : forall e, e < List.length (made (seen h)) ->
    (forall t', ~ In e (inside (seen h) t')) \/ exists t', In e (inside (seen h) t')).
  { intros e L. destruct (cell_there _ _ _ A L) as (c & N & _).
    destruct (c_locked user c) eqn:K; [right; now apply (g_lock _ _ A _ _ N)|left].
    now apply (free_iff _ _ _ _ A N). }
  induction n as [|n IH]; intros t e u W B; [lia|].
  pose proof (g_wait_ok _ _ A _ _ _ W) as L.
  destruct (LK e L) as [F|(t' & I)].
  - left. exists t. now apply (get_possible _ _ _ _ P W).
  - destruct (awaits (seen h) t') as [[e' u']|] eqn:W'.
    + pose proof (ordered_waits _ _ P O _ _ _ W' _ I) as R.
      pose proof (g_wait_ok _ _ A _ _ _ W') as L'.
      pose proof (top_above rank _ _ L'). pose proof (top_above rank _ _ L).
      apply (IH t' e' u' W'). lia.
    + right. exists t'. assert (inside (seen h) t' <> []) by (intros X; rewrite X in I; contradiction).
      split; [assumption|]. apply read_exact. split; [assumption|]. cbn. auto.
Qed.

Lemma read_progress : forall rank h t e u, possible h -> ordered user rank h ->
  awaits (seen h) t = Some (e, u) ->
  (exists t o, possible (h ++ [(EGet t, o)])) \/
  (exists t, inside (seen h) t <> [] /\ possible (h ++ [(EReturn t, OOver)])).
Proof. intros rank h t e u P O W. exact (someone rank h P O _ t e u W (Nat.lt_succ_diag_r _)). Qed.

Lemma read_inside : forall h t hd u h', possible (h ++ (ECall t hd u, OCalled) :: h') ->
  In (nth hd (refers (seen h)) 0) (inside (seen h) t) -> forall o, ~ In (EGet t, o) h'.
Proof.
  intros h t hd u h' P I o.
  replace (h ++ (ECall t hd u, OCalled) :: h') with ((h ++ [(ECall t hd u, OCalled)]) ++ h') in P
    by now rewrite <- app_assoc.
  refine (proj2 (read_never _ (eq t) _ _ P t eq_refl) o).
  intros t' <-. rewrite seen_snoc. exists (nth hd (refers (seen h)) 0), u, t. cbn. rewrite at_same. auto.
Qed.
End Proofs.
