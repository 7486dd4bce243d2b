(** Proofs about the actor error hook. *)
From Coq Require Import List Bool PeanoNat Lia.
From Verif Require Import Lifecycle Lifecycle_spec Lifecycle_proofs ErrorHook ErrorHook_spec.
Import ListNotations.

(** ** Runs *)

Lemma hexec_app : forall es1 es2 p,
  hexec p (es1 ++ es2) =
  match hexec p es1 with
  | None => None
  | Some (p1, o1) => match hexec p1 es2 with None => None | Some (p2, o2) => Some (p2, o1 ++ o2) end
  end.
Proof.
  induction es1 as [|e es1 IH]; intros es2 p; cbn [hexec app].
  - destruct (hexec p es2) as [[p2 o2]|]; reflexivity.
  - destruct (hstep p e) as [[p1 o1]|]; [|reflexivity].
    rewrite IH. destruct (hexec p1 es1) as [[p2 o2]|]; [|reflexivity].
    destruct (hexec p2 es2) as [[p3 o3]|]; [|reflexivity].
    rewrite app_assoc. reflexivity.
Qed.

Lemma hexec_snoc : forall es e p p2 t, hexec p (es ++ [e]) = Some (p2, t) ->
  exists p1 t1 o, hexec p es = Some (p1, t1) /\ hstep p1 e = Some (p2, o) /\ t = t1 ++ o.
Proof.
  intros es e p p2 t H. rewrite hexec_app in H.
  destruct (hexec p es) as [[p1 t1]|]; [|discriminate].
  cbn [hexec] in H. destruct (hstep p1 e) as [[p3 o3]|] eqn:E; [|discriminate].
  inversion H; subst. exists p1, t1, o3. rewrite app_nil_r. auto.
Qed.

Lemma hexec_cons : forall e es p p2 t, hexec p (e :: es) = Some (p2, t) ->
  exists p1 o t1, hstep p e = Some (p1, o) /\ hexec p1 es = Some (p2, t1) /\ t = o ++ t1.
Proof.
  intros e es p p2 t H. cbn in H. destruct (hstep p e) as [[p1 o]|] eqn:E; [|discriminate].
  destruct (hexec p1 es) as [[p3 t1]|] eqn:E1; [|discriminate]. injection H as <- <-.
  exists p1, o, t1. auto.
Qed.

(** ** Lists of members *)

Lemma put_same : forall l i m m0, nth_error l i = Some m0 -> nth_error (put l i m) i = Some m.
Proof. induction l as [|x l IH]; intros [|i] m m0 H; cbn in *; try discriminate; eauto. Qed.
Lemma put_other : forall l i j m, i <> j -> nth_error (put l i m) j = nth_error l j.
Proof. induction l as [|x l IH]; intros [|i] [|j] m H; cbn; auto; congruence. Qed.
Lemma put_length : forall l i m, length (put l i m) = length l.
Proof. induction l as [|x l IH]; intros [|i] m; cbn; auto. Qed.

(** ** Traces *)

Lemma failures_app : forall i t1 t2, failures i (t1 ++ t2) = failures i t1 ++ failures i t2.
Proof.
  induction t1 as [|o t1 IH]; intro t2; cbn; [reflexivity|].
  destruct o as [h|j o|h j f]; auto. destruct o; auto.
  - destruct res; auto. destruct (j =? i); cbn; rewrite IH; reflexivity.
  - destruct res as [|[e|e]]; auto. destruct (j =? i); cbn; rewrite IH; reflexivity.
Qed.
Lemma reported_app : forall i t1 t2, reported i (t1 ++ t2) = reported i t1 ++ reported i t2.
Proof.
  induction t1 as [|o t1 IH]; intro t2; cbn; [reflexivity|].
  destruct o as [h|j o|h j f]; auto. destruct (j =? i); cbn; rewrite IH; reflexivity.
Qed.
Lemma shown_app : forall i t1 t2, shown i (t1 ++ t2) = shown i t1 ++ shown i t2.
Proof.
  induction t1 as [|o t1 IH]; intro t2; cbn; [reflexivity|].
  destruct o as [h|j o|h j f]; auto. destruct (j =? i); cbn; rewrite IH; reflexivity.
Qed.
Lemma events_of_app : forall i t1 t2, events_of i (t1 ++ t2) = events_of i t1 ++ events_of i t2.
Proof.
  induction t1 as [|o t1 IH]; intro t2; cbn; [reflexivity|].
  destruct o as [h|c|j o|j|j b]; auto. destruct (j =? i); cbn; rewrite IH; reflexivity.
Qed.
Lemma spawns_app : forall t1 t2, spawns (t1 ++ t2) = spawns t1 ++ spawns t2.
Proof.
  induction t1 as [|o t1 IH]; intro t2; cbn; [reflexivity|].
  destruct o as [h|c|j o|j|j b]; auto. cbn. rewrite IH; reflexivity.
Qed.
Lemma current_snoc_life : forall t j o, current (t ++ map (OLife j) o) = current t.
Proof.
  intros t j o. unfold current. rewrite fold_left_app. generalize (fold_left
    (fun h o => match o with OSet h' => h' | _ => h end) t 0). induction o as [|x o IH]; intro n; cbn; auto.
Qed.

(** The failures among observations of one actor. *)
Definition fails (o : list obs) : list failure := failures 0 (map (OLife 0) o).

Lemma failures_self : forall i o, failures i (map (OLife i) o) = fails o.
Proof.
  intros i o. unfold fails. induction o as [|x o IH]; cbn; [reflexivity|].
  destruct x; auto.
  - destruct res; auto. now rewrite !Nat.eqb_refl, IH.
  - destruct res as [|[e|e]]; auto. now rewrite !Nat.eqb_refl, IH.
Qed.
Lemma failures_other : forall i j o, i <> j -> failures i (map (OLife j) o) = [].
Proof.
  intros i j o D. apply Nat.eqb_neq in D. rewrite Nat.eqb_sym in D.
  induction o as [|x o IH]; cbn; [reflexivity|].
  destruct x; auto.
  - destruct res; auto. now rewrite D.
  - destruct res as [|[e|e]]; auto. now rewrite D.
Qed.
Lemma reported_life : forall i j o, reported i (map (OLife j) o) = [].
Proof. intros i j o. induction o; cbn; auto. Qed.
Lemma shown_self : forall i o, shown i (map (OLife i) o) = o.
Proof. intros i o. induction o as [|x o IH]; cbn; [reflexivity|]. now rewrite Nat.eqb_refl, IH. Qed.
Lemma shown_other : forall i j o, i <> j -> shown i (map (OLife j) o) = [].
Proof.
  intros i j o D. apply Nat.eqb_neq in D. rewrite Nat.eqb_sym in D.
  induction o as [|x o IH]; cbn; [reflexivity|]. now rewrite D.
Qed.

(** ** One lifecycle step *)

(** The failure a task has still to report. *)
Definition pend (p : phase) : list failure :=
  match p with
  | PStarted (HookFail f) | PFailSet _ (HookFail f) | PSet _ (HookFail f)
  | PNotify _ (HookFail f) _ | PRegRemove _ (HookFail f) => [f]
  | _ => []
  end.

Definition early (p : phase) : bool :=
  match p with PInit | PStarting | PStarted _ | PSignal _ | PDowngrade _ _ => true | _ => false end.
Definition done (p : phase) : option reason := match p with PDone r => Some r | _ => None end.
Definition crashed (p : phase) : bool := match p with PCrashed => true | _ => false end.
Definition returns_in (o : list obs) : bool :=
  existsb (fun x => match x with OReturn _ => true | _ => false end) o.

Lemma fails_app : forall o1 o2, fails (o1 ++ o2) = fails o1 ++ fails o2.
Proof. intros. unfold fails. now rewrite map_app, failures_app. Qed.
Lemma fails_cons : forall x o, fails (x :: o) = fails [x] ++ fails o.
Proof. intros x o. exact (fails_app [x] o). Qed.
Lemma discard_fails : forall ms, fails (discard ms) = [].
Proof.
  induction ms as [|m ms IH]; [reflexivity|]. unfold discard in *. cbn [flat_map].
  rewrite fails_app, IH. unfold drop_reply. now destruct (ask m).
Qed.
Lemma returns_app : forall o1 o2, returns_in (o1 ++ o2) = returns_in o1 || returns_in o2.
Proof. intros. unfold returns_in. now rewrite existsb_app. Qed.
Lemma returns_cons : forall x o, returns_in (x :: o) = returns_in [x] || returns_in o.
Proof. intros x o. exact (returns_app [x] o). Qed.
Lemma discard_returns : forall ms, returns_in (discard ms) = false.
Proof.
  induction ms as [|m ms IH]; [reflexivity|]. unfold discard in *. cbn [flat_map].
  rewrite returns_app, IH. unfold drop_reply. now destruct (ask m).
Qed.

Ltac fx := repeat first [rewrite fails_app | rewrite discard_fails
  | match goal with |- context [fails (?x :: ?y :: ?o)] => rewrite (fails_cons x (y :: o)) end
  | match goal with |- context [fails (?x :: ?a ++ ?o)] => rewrite (fails_cons x (a ++ o)) end
  | match goal with |- context [fails (?x :: discard ?o)] => rewrite (fails_cons x (discard o)) end].

Lemma step_pend : forall s e s' o, step s e = Some (s', o) -> is_store e = false ->
  pend (ph s') = pend (ph s) ++ fails o.
Proof.
  intros s e s' o H N. destruct e; try discriminate N; step_cases H;
    repeat match goal with E : ph s = _ |- _ => rewrite E end; fx; cbn; try reflexivity.
  all: repeat match goal with |- context [if ?b then _ else _] => destruct b end; cbn; try reflexivity.
  all: try (now destruct res as [|[]]).
  all: try (now rewrite app_nil_r).
  all: destruct pc; fx; try reflexivity; destruct owned; reflexivity.
Qed.

Lemma step_store : forall s e s' o, step s e = Some (s', o) -> is_store e = true ->
  pend (ph s') = [] /\ fails o = [] /\ (forall f, pend (ph s) = [f] -> at_hook (ph s) = Some f).
Proof.
  intros s e s' o H N. destruct e; try discriminate N; step_cases H;
    repeat match goal with E : ph s = _ |- _ => rewrite E end; fx; cbn; repeat split;
    first [reflexivity | apply discard_fails | (intros f0 E0; destruct res; [discriminate|injection E0 as <-; reflexivity]) | discriminate].
Qed.

(** While the error waits for the hook, or after a crash, only a store changes the task. *)
Lemma step_held : forall s e s' o, step s e = Some (s', o) -> is_store e = false ->
  (at_hook (ph s) <> None \/ ph s = PCrashed) -> ph s' = ph s.
Proof.
  intros s e s' o H N A. destruct e; try discriminate N; step_cases H;
    repeat match goal with E : ph s = _ |- _ => rewrite E in * end; cbn in *;
    first [reflexivity | (destruct A; congruence)].
Qed.

Lemma step_errs : forall s e s' o f, step s e = Some (s', o) ->
  (startup_err s' = Some (Some f) ->
     startup_err s = Some (Some f) \/ (is_store e = true /\ at_hook (ph s) = Some f))
  /\ (shutdown_err s' = Some (Some f) ->
     shutdown_err s = Some (Some f) \/ (is_store e = true /\ at_hook (ph s) = Some f)).
Proof.
  intros s e s' o f H. destruct e; step_cases H; (split; [intro A|intro A]);
    first [left; assumption | left; congruence
          | right; (split; [reflexivity|]);
            repeat match goal with E : ph s = _ |- _ => rewrite E end;
            destruct res; cbn in *; congruence].
Qed.

Lemma step_permits : forall s e s' o, step s e = Some (s', o) ->
  (early (ph s) = true -> permit_adds s = 0) -> early (ph s') = true -> permit_adds s' = 0.
Proof.
  intros s e s' o H A B. destruct e; step_cases H;
    repeat match goal with E : ph s = _ |- _ => rewrite E in * end; cbn in *; auto; discriminate.
Qed.

Ltac rx := repeat first [rewrite returns_app | rewrite discard_returns
  | match goal with |- context [returns_in (?x :: ?y :: ?o)] => rewrite (returns_cons x (y :: o)) end
  | match goal with |- context [returns_in (?x :: ?a ++ ?o)] => rewrite (returns_cons x (a ++ o)) end
  | match goal with |- context [returns_in (?x :: discard ?o)] => rewrite (returns_cons x (discard o)) end].

Lemma step_returns : forall s e s' o, step s e = Some (s', o) ->
  (returns_in o = true -> done (ph s') <> None) /\ (done (ph s) <> None -> done (ph s') <> None).
Proof.
  intros s e s' o H. destruct e; step_cases H;
    repeat match goal with E : ph s = _ |- _ => rewrite E in * end; (split; [rx|]);
    cbn; try discriminate; try congruence;
    repeat match goal with |- context [if ?b then _ else _] => destruct b end; cbn; try discriminate; try congruence.
  all: destruct pc; rx; cbn; try discriminate; destruct owned; discriminate.
Qed.

(** ** One step, as one actor sees it *)

Definition quiet (i : nat) (o : list hobs) : Prop :=
  failures i o = [] /\ reported i o = [] /\ shown i o = [].

Inductive sees (i : nat) (p : process) : hevent -> option member -> option member -> list hobs -> Prop :=
| sees_new : forall c, sees i p (Spawned c) None (Some (mk_member (init c) Idle)) []
| sees_quiet : forall e m o, quiet i o -> (forall e1, e <> Life i e1) -> (forall b, e <> Call i b) ->
    (forall c, e = Spawned c -> m <> None \/ i <> length (p_actors p)) ->
    sees i p e m m o
| sees_life : forall e m s o, allowed m e = true -> step (m_life m) e = Some (s, o) ->
    sees i p (Life i e) (Some m) (Some (mk_member s (if is_store e then Idle else m_stage m))) (map (OLife i) o)
| sees_load : forall m f, at_hook (ph (m_life m)) = Some f -> m_stage m = Idle ->
    sees i p (Load i) (Some m) (Some (mk_member (m_life m) (Loaded (p_hook p)))) []
| sees_call : forall m f h, at_hook (ph (m_life m)) = Some f -> m_stage m = Loaded h ->
    sees i p (Call i true) (Some m) (Some (mk_member (m_life m) Called)) [OHook h i f]
| sees_panic : forall m f h, at_hook (ph (m_life m)) = Some f -> m_stage m = Loaded h ->
    sees i p (Call i false) (Some m) (Some (mk_member (fst (crash (m_life m))) Called))
      (OHook h i f :: map (OLife i) (snd (crash (m_life m)))).

Lemma quiet_other : forall i j o, i <> j -> quiet i (map (OLife j) o).
Proof.
  intros i j o D. split; [now apply failures_other|split; [apply reported_life|now apply shown_other]].
Qed.
Lemma quiet_hook : forall i j h f o, i <> j -> quiet i (OHook h j f :: map (OLife j) o).
Proof.
  intros i j h f o D. destruct (quiet_other i j o D) as (A & B & C).
  split; [exact A|split; [cbn|exact C]].
  destruct (Nat.eqb_spec j i); [congruence|exact B].
Qed.
Lemma quiet_nil : forall i, quiet i [].
Proof. intro i. repeat split. Qed.

Lemma step_sees : forall p e p' o i, hstep p e = Some (p', o) ->
  sees i p e (nth_error (p_actors p) i) (nth_error (p_actors p') i) o.
Proof.
  intros p e p' o i H. destruct e as [h|c|j e|j|j b]; cbn [hstep] in H.
  - injection H as <- <-. cbn [p_actors]. apply sees_quiet; try discriminate. repeat split.
  - injection H as <- <-. cbn [p_actors].
    destruct (Nat.eq_dec i (length (p_actors p))) as [->|D].
    + rewrite nth_error_app2, Nat.sub_diag by lia. cbn [nth_error].
      replace (nth_error (p_actors p) (length (p_actors p))) with (@None member)
        by (symmetry; apply nth_error_None; lia). apply sees_new.
    + replace (nth_error (p_actors p ++ [mk_member (init c) Idle]) i) with (nth_error (p_actors p) i).
      * apply sees_quiet; try discriminate; [apply quiet_nil|]. intros c0 _. now right.
      * destruct (Nat.lt_ge_cases i (length (p_actors p))).
        { now rewrite nth_error_app1. }
        { transitivity (@None member); [apply nth_error_None; lia|].
          symmetry. apply nth_error_None. rewrite app_length. cbn. lia. }
  - destruct (nth_error (p_actors p) j) as [m|] eqn:N; [|discriminate].
    destruct (allowed m e) eqn:A; [|discriminate].
    destruct (step (m_life m) e) as [[s o1]|] eqn:E; [|discriminate]. injection H as <- <-. cbn [p_actors].
    destruct (Nat.eq_dec j i) as [->|D].
    + rewrite N. rewrite (put_same _ _ _ _ N). now apply sees_life.
    + rewrite put_other by exact D. apply sees_quiet; [apply quiet_other; congruence|congruence|discriminate|discriminate].
  - destruct (nth_error (p_actors p) j) as [m|] eqn:N; [|discriminate].
    destruct (at_hook (ph (m_life m))) as [f|] eqn:A; [|discriminate].
    destruct (m_stage m) eqn:St; try discriminate. injection H as <- <-. cbn [p_actors].
    destruct (Nat.eq_dec j i) as [->|D].
    + rewrite N. rewrite (put_same _ _ _ _ N). now apply sees_load with f.
    + rewrite put_other by exact D. apply sees_quiet; try discriminate. apply quiet_nil.
  - destruct (nth_error (p_actors p) j) as [m|] eqn:N; [|discriminate].
    destruct (at_hook (ph (m_life m))) as [f|] eqn:A; [|discriminate].
    destruct (m_stage m) as [|h|] eqn:St; try discriminate.
    destruct (crash (m_life m)) as [s o1] eqn:C.
    destruct b; injection H as <- <-; cbn [p_actors];
      (destruct (Nat.eq_dec j i) as [->|D];
       [rewrite N, (put_same _ _ _ _ N)
       |rewrite put_other by exact D; apply sees_quiet;
        [first [exact (quiet_hook i j h f [] (not_eq_sym D)) | exact (quiet_hook i j h f o1 (not_eq_sym D))]
        |discriminate|congruence|discriminate]]).
    + now apply sees_call.
    + replace s with (fst (crash (m_life m))) by now rewrite C.
      replace o1 with (snd (crash (m_life m))) by now rewrite C. now apply sees_panic.
Qed.

(** ** The invariant *)

Definition owed (m : member) : list failure :=
  match m_stage m with Called => [] | _ => pend (ph (m_life m)) end.

Definition member_ok (i : nat) (m : member) (t : list hobs) : Prop :=
  failures i t = reported i t ++ owed m
  /\ (m_stage m <> Idle -> at_hook (ph (m_life m)) <> None \/ ph (m_life m) = PCrashed)
  /\ (m_stage m = Called -> forall f, at_hook (ph (m_life m)) = Some f -> In f (reported i t))
  /\ (forall f, startup_err (m_life m) = Some (Some f) \/ shutdown_err (m_life m) = Some (Some f) ->
        In f (reported i t))
  /\ (forall h f, m_stage m = Loaded h -> at_hook (ph (m_life m)) = Some f ->
        exists t1 t2, t = t1 ++ t2 /\ current t1 = h /\ failures i t1 = reported i t ++ [f]).

Definition all_ok (p : process) (t : list hobs) : Prop :=
  p_hook p = current t /\
  forall i, match nth_error (p_actors p) i with
            | Some m => member_ok i m t
            | None => quiet i t
            end.

Lemma pend_at : forall p f, at_hook p = Some f -> pend p = [f].
Proof. intros p f H. destruct p; try discriminate; destruct res; try discriminate; now injection H as <-. Qed.
Lemma pend_crash : forall s, pend (ph (fst (crash s))) = [] /\ ph (fst (crash s)) = PCrashed.
Proof. intro s. split; reflexivity. Qed.
Lemma fails_crash : forall s, fails (snd (crash s)) = [].
Proof. intro s. unfold crash, close_mailbox. cbn [fst snd]. fx. reflexivity. Qed.
Lemma errs_crash : forall s, startup_err (fst (crash s)) = startup_err s /\ shutdown_err (fst (crash s)) = shutdown_err s.
Proof. intro s. split; reflexivity. Qed.

Lemma quiet_app : forall i t o, quiet i t -> quiet i o -> quiet i (t ++ o).
Proof.
  intros i t o (A & B & C) (A' & B' & C').
  repeat split; [rewrite failures_app, A, A'|rewrite reported_app, B, B'|rewrite shown_app, C, C']; reflexivity.
Qed.

Lemma member_quiet : forall i m t o, member_ok i m t -> quiet i o -> member_ok i m (t ++ o).
Proof.
  intros i m t o (A & B & C & D & F) (Q1 & Q2 & Q3).
  unfold member_ok. rewrite failures_app, reported_app, Q1, Q2, !app_nil_r.
  split; [exact A|]. split; [exact B|]. split; [exact C|]. split; [exact D|].
  intros h f E1 E2. destruct (F h f E1 E2) as (t1 & t2 & -> & X & Y).
  exists t1, (t2 ++ o). rewrite app_assoc. auto.
Qed.

Lemma hook_step : forall p e p' o t, p_hook p = current t -> hstep p e = Some (p', o) -> p_hook p' = current (t ++ o).
Proof.
  intros p e p' o t K H. destruct e as [h|c|j e|j|j b]; cbn [hstep] in H.
  - injection H as <- <-. cbn. unfold current. rewrite fold_left_app. reflexivity.
  - injection H as <- <-. now rewrite app_nil_r.
  - destruct (nth_error (p_actors p) j); [|discriminate]. destruct (allowed m e); [|discriminate].
    destruct (step (m_life m) e) as [[s o1]|]; [|discriminate]. injection H as <- <-. now rewrite current_snoc_life.
  - destruct (nth_error (p_actors p) j); [|discriminate]. destruct (at_hook (ph (m_life m))); [|discriminate].
    destruct (m_stage m); try discriminate. injection H as <- <-. now rewrite app_nil_r.
  - destruct (nth_error (p_actors p) j); [|discriminate]. destruct (at_hook (ph (m_life m))); [|discriminate].
    destruct (m_stage m); try discriminate. destruct (crash (m_life m)) as [s o1].
    assert (X : forall l, current (t ++ OHook h j f :: map (OLife j) l) = current t).
    { intro l. change (OHook h j f :: map (OLife j) l) with ([OHook h j f] ++ map (OLife j) l).
      rewrite app_assoc, current_snoc_life. unfold current. rewrite fold_left_app. reflexivity. }
    destruct b; injection H as <- <-; symmetry; cbn [p_hook]; rewrite K; [apply (X [])|apply X].
Qed.

Lemma ok_step : forall p t e p' o, all_ok p t -> hstep p e = Some (p', o) -> all_ok p' (t ++ o).
Proof.
  intros p t e p' o [K M] H. split; [eapply hook_step; eauto|]. intro i. specialize (M i).
  pose proof (step_sees p e p' o i H) as Sx.
  remember (nth_error (p_actors p) i) as a eqn:Ea. remember (nth_error (p_actors p') i) as b eqn:Eb.
  clear Ea Eb. destruct Sx as [c|e m o Q _ _ _|e m s o A E|m f A St|m f h A St|m f h A St].
  - rewrite app_nil_r. destruct M as (Q1 & Q2 & Q3). unfold member_ok. rewrite Q1, Q2.
    split; [reflexivity|]. split; [now intros []|]. split; [discriminate|].
    split; [intros f [X|X]; discriminate X|]. discriminate.
  - destruct m as [m|]; [now apply member_quiet|now apply quiet_app].
  - destruct M as (A1 & B & C & D & F). unfold member_ok.
    rewrite failures_app, reported_app, failures_self, reported_life, app_nil_r.
    destruct (is_store e) eqn:S0.
    + destruct (step_store _ _ _ _ E S0) as (P1 & P2 & P3). unfold owed in *. cbn [m_stage m_life].
      rewrite P1, P2, !app_nil_r.
      assert (X : failures i t = reported i t).
      { rewrite A1. unfold allowed in A. rewrite S0 in A. unfold owed.
        destruct (at_hook (ph (m_life m))) as [f|] eqn:H0.
        - destruct (m_stage m); try discriminate. now rewrite app_nil_r.
        - destruct (pend (ph (m_life m))) as [|f l] eqn:Pe; [destruct (m_stage m); now rewrite app_nil_r|].
          assert (l = []) as -> by (destruct (ph (m_life m)); try discriminate; destruct res; try discriminate;
            now injection Pe as _ <-). specialize (P3 f eq_refl). congruence. }
      split; [exact X|]. split; [now intros []|]. split; [discriminate|]. split; [|discriminate].
      intros f Y. destruct (step_errs _ _ _ _ f E) as [E1 E2].
      assert (Z : (startup_err (m_life m) = Some (Some f) \/ shutdown_err (m_life m) = Some (Some f))
                  \/ at_hook (ph (m_life m)) = Some f) by tauto.
      destruct Z as [Z|Z]; [now apply D|]. apply C; [|exact Z].
      unfold allowed in A. rewrite S0, Z in A. now destruct (m_stage m).
    + pose proof (step_pend _ _ _ _ E S0) as P1. pose proof (step_held _ _ _ _ E S0) as P2.
      unfold owed in *. cbn [m_stage m_life].
      assert (Nf : m_stage m <> Idle -> fails o = [] /\ ph s = ph (m_life m)).
      { intro X. specialize (P2 (B X)). split; [|exact P2]. rewrite P2 in P1.
        destruct (pend (ph (m_life m))); [symmetry; exact P1|]. injection P1 as P1.
        destruct l; [symmetry; exact P1|]. apply (f_equal (@length _)) in P1. cbn in P1. rewrite app_length in P1.
        destruct (fails o); [reflexivity|cbn in P1; lia]. }
      split.
      { destruct (m_stage m) eqn:Sm; [rewrite A1, P1, app_assoc; reflexivity|..];
          (destruct (Nf ltac:(discriminate)) as [Z1 Z2]; rewrite Z1, ?Z2, A1, ?app_nil_r; reflexivity). }
      split; [intro X; rewrite (proj2 (Nf X)); now apply B|].
      split; [intro X; rewrite (proj2 (Nf ltac:(congruence))); now apply C|].
      split.
      { intros f Y. destruct (step_errs _ _ _ _ f E) as [E1 E2]. rewrite S0 in E1, E2. apply D.
        destruct Y as [Y|Y]; [destruct (E1 Y) as [|[]]|destruct (E2 Y) as [|[]]]; auto; discriminate. }
      intros h f X Y. rewrite (proj2 (Nf ltac:(congruence))) in Y.
      destruct (F h f X Y) as (t1 & t2 & -> & X1 & X2). exists t1, (t2 ++ map (OLife i) o).
      rewrite app_assoc. auto.
  - rewrite app_nil_r. destruct M as (A1 & B & C & D & F). unfold member_ok, owed in *. cbn [m_stage m_life].
    rewrite St in *. split; [exact A1|]. split; [intros _; left; congruence|]. split; [discriminate|].
    split; [exact D|]. intros h f0 X Y. injection X as <-. exists t, []. rewrite app_nil_r.
    split; [reflexivity|]. split; [now symmetry|]. rewrite A1. now rewrite (pend_at _ _ Y).
  - destruct M as (A1 & B & C & D & F). unfold member_ok, owed in *. cbn [m_stage m_life].
    rewrite St in *. rewrite failures_app, reported_app. cbn [failures reported]. rewrite Nat.eqb_refl.
    rewrite !app_nil_r, A1, (pend_at _ _ A).
    split; [reflexivity|]. split; [intros _; left; congruence|].
    split; [intros _ f0 Y; rewrite A in Y; injection Y as <-; apply in_or_app; right; now left|].
    split; [intros f0 Y; apply in_or_app; left; now apply D|]. discriminate.
  - destruct M as (A1 & B & C & D & F). unfold member_ok, owed in *. cbn [m_stage m_life].
    rewrite St in *. destruct (pend_crash (m_life m)) as [_ Cr]. rewrite Cr.
    destruct (errs_crash (m_life m)) as [-> ->].
    rewrite failures_app, reported_app. cbn [failures reported]. rewrite Nat.eqb_refl, reported_life, failures_self.
    rewrite fails_crash, !app_nil_r, A1, (pend_at _ _ A).
    split; [reflexivity|]. split; [now right|]. split; [discriminate|].
    split; [intros f0 Y; apply in_or_app; left; now apply D|]. discriminate.
Qed.

Lemma ok_run : forall es p t, hexec boot es = Some (p, t) -> all_ok p t.
Proof.
  intro es. induction es as [|e es IH] using rev_ind; intros p t H.
  - injection H as <- <-. split; [reflexivity|]. intros [|i]; apply quiet_nil.
  - apply hexec_snoc in H. destruct H as (p1 & t1 & o & H1 & H2 & ->). eapply ok_step; eauto.
Qed.

(** ** Each failure is reported once *)

Lemma owed_short : forall m, length (owed m) <= 1.
Proof.
  intro m. unfold owed. destruct (m_stage m); cbn; try lia;
    (destruct (ph (m_life m)); cbn; try lia; destruct res; cbn; lia).
Qed.

Lemma reported_each : forall es p t i, hexec boot es = Some (p, t) ->
  exists rest, failures i t = reported i t ++ rest /\ length rest <= 1.
Proof.
  intros es p t i H. destruct (ok_run _ _ _ H) as [_ M]. specialize (M i).
  destruct (nth_error (p_actors p) i) as [m|].
  - exists (owed m). split; [apply M|apply owed_short].
  - destruct M as (-> & -> & _). exists []. split; [reflexivity|cbn; lia].
Qed.

(** ** Returned tasks *)

Definition returned_ok (p : process) (t : list hobs) : Prop :=
  forall i, returns_in (shown i t) = true ->
    match nth_error (p_actors p) i with Some m => done (ph (m_life m)) <> None | None => False end.

Lemma returned_step : forall p t e p' o, returned_ok p t -> hstep p e = Some (p', o) -> returned_ok p' (t ++ o).
Proof.
  intros p t e p' o M H i. specialize (M i). rewrite shown_app, returns_app.
  pose proof (step_sees p e p' o i H) as Sx.
  remember (nth_error (p_actors p) i) as a eqn:Ea. remember (nth_error (p_actors p') i) as b eqn:Eb.
  clear Ea Eb. intro R. apply orb_true_iff in R.
  destruct Sx as [c|e m o Q _ _ _|e m s o A E|m f A St|m f h A St|m f h A St].
  - destruct R as [R|R]; [destruct (M R)|discriminate].
  - destruct Q as (_ & _ & Q). rewrite Q in R. destruct R as [R|R]; [now apply M|discriminate].
  - rewrite shown_self in R. destruct (step_returns _ _ _ _ E) as [X Y]. cbn [m_life].
    destruct R as [R|R]; [apply Y, M, R|apply X, R].
  - destruct R as [R|R]; [now apply M|discriminate].
  - destruct R as [R|R]; [now apply M|discriminate].
  - cbn [shown] in R. rewrite shown_self in R. destruct R as [R|R].
    + specialize (M R). destruct (ph (m_life m)); discriminate || now destruct M.
    + exfalso. revert R. unfold crash, close_mailbox. cbn [fst snd]. rx. discriminate.
Qed.

Lemma returned_run : forall es p t, hexec boot es = Some (p, t) -> returned_ok p t.
Proof.
  intro es. induction es as [|e es IH] using rev_ind; intros p t H.
  - injection H as <- <-. intros i R. discriminate.
  - apply hexec_snoc in H. destruct H as (p1 & t1 & o & H1 & H2 & ->). eapply returned_step; eauto.
Qed.

Lemma in_shown : forall i o t, In (OLife i o) t -> In o (shown i t).
Proof.
  intros i o t. induction t as [|x t IH]; [intros []|]. intros [->|H]; cbn.
  - rewrite Nat.eqb_refl. now left.
  - destruct x; auto. destruct (i0 =? i); [right|]; auto.
Qed.
Lemma shown_in : forall i o t, In o (shown i t) -> In (OLife i o) t.
Proof.
  intros i o t. induction t as [|x t IH]; [intros []|]. cbn. destruct x; auto.
  destruct (Nat.eqb_spec i0 i) as [->|]; auto. intros [->|H]; auto.
Qed.

Lemma reported_all : forall es p t i r, hexec boot es = Some (p, t) ->
  In (OLife i (OReturn r)) t -> failures i t = reported i t.
Proof.
  intros es p t i r H I0. destruct (ok_run _ _ _ H) as [_ M]. specialize (M i).
  pose proof (returned_run _ _ _ H i) as R.
  assert (X : returns_in (shown i t) = true).
  { apply existsb_exists. exists (OReturn r). split; [now apply in_shown|reflexivity]. }
  specialize (R X). destruct (nth_error (p_actors p) i) as [m|]; [|destruct R].
  destruct M as (A & _). rewrite A. unfold owed.
  replace (pend (ph (m_life m))) with (@nil failure); [destruct (m_stage m); apply app_nil_r|].
  destruct (ph (m_life m)); cbn in R; congruence || reflexivity.
Qed.

(** ** Splitting runs at an observation *)

Lemma hexec_at : forall es p0 p t t1 x t2, hexec p0 es = Some (p, t) -> t = t1 ++ x :: t2 ->
  exists es1 e es2 p1 o1 p2 o a b, es = es1 ++ e :: es2 /\ hexec p0 es1 = Some (p1, o1)
    /\ hstep p1 e = Some (p2, o) /\ o = a ++ x :: b /\ t1 = o1 ++ a.
Proof.
  intro es. induction es as [|e es IH] using rev_ind; intros p0 p t t1 x t2 H E.
  - injection H as <- <-. now destruct t1.
  - apply hexec_snoc in H. destruct H as (p1 & o1 & o & H1 & H2 & ->).
    assert (D : (exists t3, o1 = t1 ++ x :: t3) \/ (exists a b, o = a ++ x :: b /\ t1 = o1 ++ a)).
    { clear - E. revert t1 E. induction o1 as [|y o1 IHo]; intros t1 E; cbn in E.
      - right. exists t1, t2. auto.
      - destruct t1 as [|z t1]; cbn in E; injection E as -> E.
        + left. exists o1. reflexivity.
        + destruct (IHo _ E) as [[t3 ->]|(a & b & -> & ->)]; [left; now exists t3|right; now exists a, b]. }
    destruct D as [[t3 D]|(a & b & Da & Db)].
    + destruct (IH _ _ _ _ _ _ H1 D) as (es1 & e' & es2 & q1 & r1 & q2 & r & a & b & -> & X).
      exists es1, e', (es2 ++ [e]), q1, r1, q2, r, a, b. split; [now rewrite <- app_assoc|exact X].
    + exists es, e, [], p1, o1, p, o, a, b. auto.
Qed.

(** ** Waiters *)

Lemma waits_alone : forall s e s' o, step s e = Some (s', o) ->
  (forall v, In (OSawStartup v) o -> o = [OSawStartup v] /\ v = startup_err s /\ 0 < permit_adds s)
  /\ (forall v, In (OSawShutdown v) o -> o = [OSawShutdown v] /\ v = shutdown_err s).
Proof.
  intros s e s' o H.
  assert (Dn : forall ms x, In x (discard ms) -> match x with OSawStartup _ | OSawShutdown _ => False | _ => True end).
  { intros ms x I0. unfold discard in I0. apply in_flat_map in I0. destruct I0 as (m & _ & I0).
    unfold drop_reply in I0. destruct (ask m); repeat (destruct I0 as [<-|I0]; [exact I|]); destruct I0. }
  assert (Main : forall x, In x o ->
    match x with
    | OSawStartup v => o = [x] /\ v = startup_err s /\ 0 < permit_adds s
    | OSawShutdown v => o = [x] /\ v = shutdown_err s
    | _ => True end).
  { destruct e; step_cases H; intros x I0;
      repeat (first
        [ destruct I0 as [<-|I0]; [exact I|]
        | apply in_app_or in I0; destruct I0 as [I0|I0]
        | (specialize (Dn _ _ I0); destruct x; auto; destruct Dn)
        | destruct I0
        | match type of I0 with context [if ?b then _ else _] => destruct b end
        | match type of I0 with context [match ?b with _ => _ end] => destruct b end ]).
    - subst x. apply andb_true_iff in Heqb. destruct Heqb as [_ Hp]. apply Nat.ltb_lt in Hp. auto.
    - destruct H.
    - subst x. auto.
    - destruct H. }
  split; intros v I0; exact (Main _ I0).
Qed.

Lemma in_map_life : forall i j x o, In (OLife i x) (map (OLife j) o) -> i = j /\ In x o.
Proof.
  intros i j x o H. apply in_map_iff in H. destruct H as (y & E & I0). injection E as -> ->. auto.
Qed.

(** An observation of an actor's lifecycle comes from a lifecycle event, except that of a
    crash. *)
Lemma life_obs : forall p e p' o i x, hstep p e = Some (p', o) -> In (OLife i x) o ->
  match x with OSawStartup _ | OSawShutdown _ => True | _ => False end ->
  exists m e1 s o1, e = Life i e1 /\ nth_error (p_actors p) i = Some m /\ step (m_life m) e1 = Some (s, o1)
    /\ o = map (OLife i) o1 /\ In x o1.
Proof.
  intros p e p' o i x H I0 K. pose proof (step_sees p e p' o i H) as Sx.
  remember (nth_error (p_actors p) i) as a eqn:Ea. remember (nth_error (p_actors p') i) as b eqn:Eb. clear Ea Eb.
  destruct Sx as [c|e m o (_ & _ & Q) _ _ _|e m s o A E|m f A St|m f h A St|m f h A St].
  - destruct I0.
  - apply in_shown in I0. rewrite Q in I0. destruct I0.
  - exists m, e, s, o. apply in_map_life in I0. destruct I0 as [_ I0]. auto.
  - destruct I0.
  - destruct I0 as [I0|[]]. discriminate.
  - exfalso. destruct I0 as [I0|I0]; [discriminate|]. apply in_map_life in I0. destruct I0 as [_ I0].
    assert (Dn : forall ms y, In y (discard ms) -> match y with OSawStartup _ | OSawShutdown _ => False | _ => True end).
    { intros ms y I1. unfold discard in I1. apply in_flat_map in I1. destruct I1 as (m0 & _ & I1).
      unfold drop_reply in I1. destruct (ask m0); repeat (destruct I1 as [<-|I1]; [exact I|]); destruct I1. }
    unfold crash, close_mailbox in I0. cbn [fst snd] in I0.
    destruct I0 as [<-|I0]; [destruct K|]. apply in_app_or in I0. destruct I0 as [I0|I0].
    + specialize (Dn _ _ I0). destruct x; auto.
    + destruct I0 as [<-|I0]; [destruct K|]. specialize (Dn _ _ I0). destruct x; auto.
Qed.

Lemma saw_after : forall es p t i f t1 t2 x, hexec boot es = Some (p, t) -> t = t1 ++ OLife i x :: t2 ->
  x = OSawStartup (Some (Some f)) \/ x = OSawShutdown (Some (Some f)) -> In f (reported i t1).
Proof.
  intros es p t i f t1 t2 x H E X.
  destruct (hexec_at _ _ _ _ _ _ _ H E) as (es1 & e & es2 & p1 & o1 & p2 & o & a & b & -> & H1 & H2 & Eo & ->).
  destruct (life_obs _ _ _ _ i x H2) as (m & e1 & s & o2 & -> & N & St & Em & I0).
  - rewrite Eo. apply in_or_app. right. now left.
  - destruct X; subst x; exact I.
  - destruct (ok_run _ _ _ H1) as [_ M]. specialize (M i). rewrite N in M. destruct M as (_ & _ & _ & D & _).
    rewrite reported_app. apply in_or_app. left. apply D.
    destruct (waits_alone _ _ _ _ St) as [W1 W2].
    destruct X; subst x; [left; destruct (W1 _ I0) as (_ & V & _)|right; destruct (W2 _ I0) as (_ & V)]; auto.
Qed.

(** ** Which hook *)

Lemma hook_obs : forall p e p' o i h f a b, hstep p e = Some (p', o) -> o = a ++ OHook h i f :: b ->
  a = [] /\ exists m, nth_error (p_actors p) i = Some m /\ at_hook (ph (m_life m)) = Some f /\ m_stage m = Loaded h.
Proof.
  intros p e p' o i h f a b H Eo. pose proof (step_sees p e p' o i H) as Sx.
  assert (I0 : In (OHook h i f) o) by (rewrite Eo; apply in_or_app; right; now left).
  assert (Rep : forall t, In (OHook h i f) t -> reported i t <> []).
  { induction t as [|y t IH]; [intros []|]. intros [->|I1]; cbn; [rewrite Nat.eqb_refl; discriminate|].
    destruct y; auto. destruct (i0 =? i); [discriminate|auto]. }
  remember (nth_error (p_actors p) i) as c eqn:Ec. remember (nth_error (p_actors p') i) as d eqn:Ed. clear Ec Ed.
  destruct Sx as [c|e m o (_ & Q & _) _ _ _|e m s o A E|m f0 A St|m f0 h0 A St|m f0 h0 A St].
  - destruct I0.
  - destruct (Rep _ I0 Q).
  - apply in_map_iff in I0. destruct I0 as (y & Y & _). discriminate.
  - destruct I0.
  - destruct a as [|y a]; [|destruct a; discriminate]. injection Eo as -> -> _. split; [reflexivity|]. now exists m.
  - remember (map (OLife i) (snd (crash (m_life m)))) as rest eqn:Er. destruct a as [|y a]; cbn [app] in Eo.
    + injection Eo as -> -> _. split; [reflexivity|]. now exists m.
    + injection Eo as Y Eo. exfalso. assert (I1 : In (OHook h i f) rest).
      { rewrite Eo. apply in_or_app. right. now left. }
      rewrite Er in I1. apply in_map_iff in I1. destruct I1 as (z & Z & _). discriminate.
Qed.

Lemma which_hook : forall es p t i h f t0 t3, hexec boot es = Some (p, t) -> t = t0 ++ OHook h i f :: t3 ->
  exists t1 t2, t0 = t1 ++ t2 /\ current t1 = h /\ failures i t1 = reported i t0 ++ [f].
Proof.
  intros es p t i h f t0 t3 H E.
  destruct (hexec_at _ _ _ _ _ _ _ H E) as (es1 & e & es2 & p1 & o1 & p2 & o & a & b & -> & H1 & H2 & Eo & ->).
  destruct (hook_obs _ _ _ _ _ _ _ _ _ H2 Eo) as (-> & m & N & A & St).
  destruct (ok_run _ _ _ H1) as [_ M]. specialize (M i). rewrite N in M. destruct M as (_ & _ & _ & _ & F).
  rewrite app_nil_r. exact (F h f St A).
Qed.

(** ** The lifecycles are unchanged *)

Definition no_panic (e : hevent) : Prop := forall i, e <> Call i false.

Lemma nth_snoc : forall (l : list config) c i d, nth_error (l ++ [c]) i = Some d ->
  nth_error l i = Some d \/ (i = length l /\ d = c).
Proof.
  intros l c i d H. destruct (Nat.lt_ge_cases i (length l)).
  - left. now rewrite nth_error_app1 in H.
  - right. rewrite nth_error_app2 in H by lia. destruct (i - length l) as [|[]] eqn:E; cbn in H; try discriminate.
    injection H as <-. split; [lia|reflexivity].
Qed.

Lemma spawned_count : forall es p t, hexec boot es = Some (p, t) -> length (p_actors p) = length (spawns es).
Proof.
  intro es. induction es as [|e es IH] using rev_ind; intros p t H.
  - injection H as <- <-. reflexivity.
  - apply hexec_snoc in H. destruct H as (p1 & t1 & o & H1 & H2 & ->). specialize (IH _ _ H1).
    rewrite spawns_app, app_length, <- IH.
    destruct e as [h|c|j e|j|j b]; cbn [hstep] in H2.
    + injection H2 as <- <-. cbn. lia.
    + injection H2 as <- <-. cbn. now rewrite app_length.
    + destruct (nth_error (p_actors p1) j); [|discriminate]. destruct (allowed m e); [|discriminate].
      destruct (step (m_life m) e) as [[s o1]|]; [|discriminate]. injection H2 as <- <-. cbn. rewrite put_length. lia.
    + destruct (nth_error (p_actors p1) j); [|discriminate]. destruct (at_hook (ph (m_life m))); [|discriminate].
      destruct (m_stage m); try discriminate. injection H2 as <- <-. cbn. rewrite put_length. lia.
    + destruct (nth_error (p_actors p1) j); [|discriminate]. destruct (at_hook (ph (m_life m))); [|discriminate].
      destruct (m_stage m); try discriminate. destruct (crash (m_life m)) as [s o1].
      destruct b; injection H2 as <- <-; cbn; rewrite put_length; lia.
Qed.

Lemma lives : forall es p t i m, hexec boot es = Some (p, t) -> (forall j, ~ In (Call j false) es) ->
  nth_error (p_actors p) i = Some m ->
  exists c, nth_error (spawns es) i = Some c /\ exec (init c) (events_of i es) = Some (m_life m, shown i t).
Proof.
  intro es. induction es as [|e es IH] using rev_ind; intros p t i m H P N.
  - injection H as <- <-. destruct i; discriminate.
  - apply hexec_snoc in H. destruct H as (p1 & t1 & o & H1 & H2 & ->).
    assert (P1 : forall j, ~ In (Call j false) es) by (intros j X; apply (P j), in_or_app; now left).
    assert (Pe : forall j, e <> Call j false) by (intros j ->; apply (P j), in_or_app; right; now left).
    rewrite spawns_app, events_of_app, shown_app.
    assert (Old : forall m0, nth_error (p_actors p1) i = Some m0 -> exists c, nth_error (spawns es ++ spawns [e]) i = Some c
              /\ exec (init c) (events_of i es) = Some (m_life m0, shown i t1)).
    { intros m0 N0. destruct (IH _ _ _ _ H1 P1 N0) as (c & X & Y). exists c. split; [|exact Y].
      rewrite nth_error_app1; [exact X|]. apply nth_error_Some. congruence. }
    pose proof (spawned_count _ _ _ H1) as L. pose proof (ok_run _ _ _ H1) as [_ M]. specialize (M i).
    pose proof (step_sees p1 e p o i H2) as Sx. rewrite N in Sx.
    remember (nth_error (p_actors p1) i) as a eqn:Ea. remember (Some m) as b eqn:Eb.
    destruct Sx as [c|e m0 o (_ & _ & Q) E1 _ _|e m0 s o A E|m0 f A St|m0 f h A St|m0 f h A St].
    + injection Eb as <-. exists c. cbn [spawns events_of m_life]. rewrite !app_nil_r.
      assert (L1 : length (spawns es) <= i) by (rewrite <- L; apply nth_error_None; congruence).
      assert (i = length (spawns es)) as ->.
      { cbn [hstep] in H2. injection H2 as <-. cbn [p_actors] in N.
        destruct (Nat.eq_dec i (length (spawns es))) as [->|D]; [reflexivity|].
        assert (nth_error (p_actors p1 ++ [mk_member (init c) Idle]) i = None)
          by (apply nth_error_None; rewrite app_length; cbn; lia). congruence. }
      split; [rewrite nth_error_app2, Nat.sub_diag by lia; reflexivity|].
      assert (Ev : events_of (length (spawns es)) es = [] /\ shown (length (spawns es)) t1 = []).
      { split; [|apply M]. clear - H1 L Ea. rewrite <- L in *. clear L. revert Ea.
        enough (G : forall es p0 p1 t1 i, hexec p0 es = Some (p1, t1) -> nth_error (p_actors p1) i = None ->
                  events_of i es = []) by (intro Ea; eapply G; eauto).
        clear. intro es. induction es as [|e es IH] using rev_ind; intros p0 p1 t1 i H Ea; [reflexivity|].
        apply hexec_snoc in H. destruct H as (p2 & t2 & o & H1 & H2 & ->).
        rewrite events_of_app. pose proof (step_sees _ _ _ _ i H2) as Sx.
        remember (nth_error (p_actors p2) i) as a eqn:E2. rewrite Ea in Sx. remember (@None member) as b.
        destruct Sx as [c|e m0 o _ E1 _ _|e m0 s o A E|m0 f A St|m0 f h A St|m0 f h A St]; try discriminate.
        subst m0. rewrite (IH _ _ _ _ H1 (eq_sym E2)). destruct e; try reflexivity. cbn.
        destruct (Nat.eqb_spec i0 i) as [->|]; [|reflexivity]. destruct (E1 e eq_refl). }
      destruct Ev as [-> ->]. reflexivity.
    + subst m0. rewrite Q, app_nil_r. destruct (Old _ eq_refl) as (c & X & Y). exists c.
      split; [exact X|]. replace (events_of i [e]) with (@nil event); [now rewrite app_nil_r|].
      destruct e; try reflexivity. cbn. destruct (Nat.eqb_spec i0 i) as [->|]; [|reflexivity].
      destruct (E1 e eq_refl).
    + injection Eb as <-. destruct (Old _ eq_refl) as (c & X & Y). exists c. split; [exact X|].
      cbn [events_of]. rewrite Nat.eqb_refl, shown_self. rewrite exec_app, Y. cbn [exec m_life]. rewrite E.
      now rewrite app_nil_r.
    + injection Eb as <-. destruct (Old _ eq_refl) as (c & X & Y). exists c. cbn [m_life events_of shown].
      rewrite !app_nil_r in *. auto.
    + injection Eb as <-. destruct (Old _ eq_refl) as (c & X & Y). exists c. cbn [m_life events_of shown].
      rewrite !app_nil_r in *. auto.
    + destruct (Pe i eq_refl).
Qed.

(** Every run of a lifecycle is one with the calls of the hook added. *)
Lemma harmless : forall es c s o, exec (init c) es = Some (s, o) ->
  exists hes p t, hexec boot (Spawned c :: hes) = Some (p, t) /\ events_of 0 hes = es
    /\ (forall j, ~ In (Call j false) hes) /\ shown 0 t = o
    /\ exists st, p = mk_process 0 [mk_member s st] /\ (st <> Called -> st = Idle).
Proof.
  intro es. induction es as [|e es IH] using rev_ind; intros c s o H.
  - injection H as <- <-. exists [], (mk_process 0 [mk_member (init c) Idle]), []. cbn.
    split; [reflexivity|]. split; [reflexivity|]. split; [tauto|]. split; [reflexivity|]. exists Idle. auto.
  - apply exec_snoc in H. destruct H as (s1 & o1 & o2 & H1 & H2 & ->).
    destruct (IH _ _ _ H1) as (hes & p & t & E & Ev & Np & Sh & st & -> & Id).
    assert (Go : forall hes p t st, hexec boot (Spawned c :: hes) = Some (p, t) -> events_of 0 hes = es ->
      (forall j, ~ In (Call j false) hes) -> shown 0 t = o1 -> p = mk_process 0 [mk_member s1 st] ->
      (st <> Called -> st = Idle) ->
      allowed (mk_member s1 st) e = true ->
      exists hes p t, hexec boot (Spawned c :: hes) = Some (p, t) /\ events_of 0 hes = es ++ [e]
    /\ (forall j, ~ In (Call j false) hes) /\ shown 0 t = o1 ++ o2
    /\ exists st, p = mk_process 0 [mk_member s st] /\ (st <> Called -> st = Idle)).
    { clear hes t E Ev Np Sh st Id. intros hes p t st E Ev Np Sh -> Id Al.
      exists (hes ++ [Life 0 e]), (mk_process 0 [mk_member s (if is_store e then Idle else st)]), (t ++ map (OLife 0) o2).
      split.
      { change (Spawned c :: hes ++ [Life 0 e]) with ((Spawned c :: hes) ++ [Life 0 e]).
        rewrite hexec_app, E. cbn [hexec hstep p_actors nth_error]. rewrite Al. cbn [m_life]. rewrite H2.
        now rewrite app_nil_r. }
      split; [now rewrite events_of_app, Ev|].
      split; [intros j X; apply in_app_or in X; destruct X as [X|[X|[]]]; [now apply (Np j)|discriminate]|].
      split; [now rewrite shown_app, Sh, shown_self|].
      exists (if is_store e then Idle else st). split; [reflexivity|]. destruct (is_store e); auto. }
    destruct (allowed (mk_member s1 st) e) eqn:Al.
    + exact (Go hes _ t st E Ev Np Sh eq_refl Id Al).
    + unfold allowed in Al. cbn [m_life m_stage] in Al. destruct (is_store e) eqn:S0; [|discriminate].
      destruct (at_hook (ph s1)) as [f|] eqn:A; [|discriminate].
      assert (st = Idle) as -> by (apply Id; intros ->; discriminate).
      apply (Go (hes ++ [Load 0; Call 0 true]) (mk_process 0 [mk_member s1 Called]) (t ++ [OHook 0 0 f]) Called).
      * change (Spawned c :: hes ++ [Load 0; Call 0 true]) with ((Spawned c :: hes) ++ [Load 0; Call 0 true]).
        rewrite hexec_app, E. cbn [hexec hstep p_actors nth_error m_life m_stage]. rewrite A.
        cbn [hexec hstep p_actors nth_error m_life m_stage put]. rewrite A. reflexivity.
      * now rewrite events_of_app, Ev, app_nil_r.
      * intros j X. apply in_app_or in X. destruct X as [X|[X|[X|[]]]]; [now apply (Np j)|discriminate|discriminate].
      * now rewrite shown_app, Sh, app_nil_r.
      * reflexivity.
      * congruence.
      * unfold allowed. cbn [m_life m_stage]. now rewrite S0, A.
Qed.

(** ** When the hook is not called *)

(** An on_stop error is not reported before all links have been told. *)
Lemma waits_for_links : forall es i p m id r f pend0 p2 t2,
  nth_error (p_actors p) i = Some m -> ph (m_life m) = PNotify r (HookFail f) pend0 -> In id pend0 ->
  m_stage m = Idle ->
  hexec p es = Some (p2, t2) -> (forall d, ~ In (Life i (ANotify id d)) es) -> reported i t2 = [].
Proof.
  intro es. induction es as [|e es IH]; intros i p m id r f pend0 p2 t2 N P Ip St H No.
  - injection H as <- <-. reflexivity.
  - apply hexec_cons in H. destruct H as (p1 & o & t1 & H1 & H2 & ->).
    assert (No1 : forall d, ~ In (Life i (ANotify id d)) es) by (intros d X; apply (No d); now right).
    rewrite reported_app. pose proof (step_sees _ _ _ _ i H1) as Sx. rewrite N in Sx.
    remember (Some m) as a eqn:Ea. remember (nth_error (p_actors p1) i) as b eqn:Eb.
    destruct Sx as [c|e m0 o (_ & Q & _) _ _ _|e m0 s o A E|m0 f0 A St0|m0 f0 h A St0|m0 f0 h A St0]; try discriminate Ea.
    + rewrite Q. subst m0. exact (IH i p1 m id r f pend0 p2 t1 (eq_sym Eb) P Ip St H2 No1).
    + rewrite reported_life. injection Ea as ->.
      assert (X : exists pend1, ph s = PNotify r (HookFail f) pend1 /\ In id pend1).
      { assert (Ne : forall d, e <> ANotify id d) by (intros d ->; apply (No d); now left).
        clear - P Ip E Ne. destruct e; step_cases E;
          first [ congruence | (exists pend0; split; [congruence|exact Ip]) | idtac ].
        - injection P as -> -> ->. eexists. split; [reflexivity|].
          apply in_in_remove; [intros <-; now destruct (Ne delivered)|exact Ip].
        - exfalso. injection P as _ _ <-. destruct Ip. }
      destruct X as (pend1 & X1 & X2). apply (IH i p1 _ id r f pend1 p2 t1 (eq_sym Eb) X1 X2); auto.
      cbn. rewrite St. now destruct (is_store e).
    + injection Ea as ->. rewrite P in A. discriminate.
    + injection Ea as ->. rewrite P in A. discriminate.
    + injection Ea as ->. rewrite P in A. discriminate.
Qed.

(** ** Hooks that panic *)

Definition doomed (s : actor) : Prop := ph s = PCrashed.

Lemma step_doomed : forall s e s' o, step s e = Some (s', o) -> doomed s ->
  doomed s' /\ permit_adds s' = permit_adds s /\ shutdown_err s' = shutdown_err s.
Proof.
  unfold doomed. intros s e s' o H D. destruct e; step_cases H; first [congruence | auto].
Qed.

Lemma doomed_run : forall es i p m p2 t2,
  nth_error (p_actors p) i = Some m -> doomed (m_life m) -> hexec p es = Some (p2, t2) ->
  (permit_adds (m_life m) = 0 -> forall v, ~ In (OLife i (OSawStartup v)) t2)
  /\ (forall v, In (OLife i (OSawShutdown v)) t2 -> v = shutdown_err (m_life m))
  /\ reported i t2 = [].
Proof.
  intro es. induction es as [|e es IH]; intros i p m p2 t2 N D H.
  - injection H as <- <-. split; [intros _ v []|split; [intros v []|reflexivity]].
  - apply hexec_cons in H. destruct H as (p1 & o & t1 & H1 & H2 & ->).
    pose proof (step_sees _ _ _ _ i H1) as Sx. rewrite N in Sx.
    remember (Some m) as a eqn:Ea. remember (nth_error (p_actors p1) i) as b eqn:Eb.
    destruct Sx as [c|e m0 o (_ & Q1 & Q2) _ _ _|e m0 s o A E|m0 f0 A St0|m0 f0 h A St0|m0 f0 h A St0]; try discriminate Ea;
      try (injection Ea as ->; rewrite D in A; discriminate).
    + subst m0. destruct (IH i p1 m p2 t1 (eq_sym Eb) D H2) as (X & Y & Z).
      split; [intros K v I0|split; [intros v I0|rewrite reported_app, Q1, Z; reflexivity]];
        apply in_app_or in I0; (destruct I0 as [I0|I0]; [apply in_shown in I0; rewrite Q2 in I0; destruct I0|]).
      * exact (X K v I0).
      * exact (Y v I0).
    + injection Ea as ->. destruct (step_doomed _ _ _ _ E D) as (D1 & D2 & D3).
      destruct (IH i p1 _ p2 t1 (eq_sym Eb) D1 H2) as (X & Y & Z). cbn [m_life] in X, Y. rewrite D2, D3 in *.
      destruct (waits_alone _ _ _ _ E) as [W1 W2].
      split; [intros K v I0|split; [intros v I0|rewrite reported_app, reported_life, Z; reflexivity]];
        apply in_app_or in I0; (destruct I0 as [I0|I0]; [apply in_map_life in I0; destruct I0 as [_ I0]|]).
      * destruct (W1 _ I0) as (_ & _ & W). lia.
      * exact (X K v I0).
      * apply (W2 _ I0).
      * exact (Y v I0).
Qed.

(** No permits, nobody has been let through. *)
Definition gate_ok (p : process) (t : list hobs) : Prop :=
  forall i, match nth_error (p_actors p) i with
    | Some m => (early (ph (m_life m)) = true -> permit_adds (m_life m) = 0)
                /\ (permit_adds (m_life m) = 0 -> forall v, ~ In (OSawStartup v) (shown i t))
                /\ (ph (m_life m) = PCrashed \/ shutdown_err (m_life m) = None
                    \/ match ph (m_life m) with PClosing _ | PDone _ => True | _ => False end)
    | None => True end.

Lemma step_gate : forall s e s' o, step s e = Some (s', o) ->
  (permit_adds s' = 0 -> permit_adds s = 0 /\ forall v, ~ In (OSawStartup v) o)
  /\ (ph s = PCrashed \/ shutdown_err s = None \/ match ph s with PClosing _ | PDone _ => True | _ => False end ->
      ph s' = PCrashed \/ shutdown_err s' = None \/ match ph s' with PClosing _ | PDone _ => True | _ => False end).
Proof.
  intros s e s' o H. split.
  - intro Z. assert (permit_adds s = 0) as Z0.
    { destruct e; step_cases H; first [assumption | discriminate Z]. }
    split; [exact Z0|]. intros v I0. destruct (proj1 (waits_alone _ _ _ _ H) _ I0) as (_ & _ & W). lia.
  - destruct e; step_cases H; repeat match goal with E : ph s = _ |- _ => rewrite E in * end; cbn;
      intros [A|[A|A]]; auto; try discriminate A; try destruct A.
Qed.

Lemma gate_run : forall es p t, hexec boot es = Some (p, t) -> gate_ok p t.
Proof.
  intro es. induction es as [|e es IH] using rev_ind; intros p t H.
  - injection H as <- <-. intros [|i]; exact I.
  - apply hexec_snoc in H. destruct H as (p1 & t1 & o & H1 & H2 & ->). pose proof (IH _ _ H1) as G.
    pose proof (ok_run _ _ _ H1) as [_ M]. intro i. specialize (G i). specialize (M i).
    pose proof (step_sees _ _ _ _ i H2) as Sx. rewrite shown_app.
    remember (nth_error (p_actors p1) i) as a eqn:Ea. remember (nth_error (p_actors p) i) as b eqn:Eb. clear Ea Eb.
    destruct Sx as [c|e m0 o (_ & _ & Q) _ _ _|e m0 s o A E|m0 f A St|m0 f h A St|m0 f h A St].
    + destruct M as (_ & _ & Q). rewrite Q. cbn. auto.
    + destruct m0 as [m|]; [|exact I]. now rewrite Q, app_nil_r.
    + destruct G as (G1 & G2 & G3). destruct (step_gate _ _ _ _ E) as [X Y]. cbn [m_life]. rewrite shown_self.
      split; [exact (step_permits _ _ _ _ E G1)|]. split; [|exact (Y G3)].
      intros Z v I0. destruct (X Z) as [X1 X2]. apply in_app_or in I0.
      destruct I0 as [I0|I0]; [exact (G2 X1 v I0)|exact (X2 v I0)].
    + cbn. rewrite app_nil_r. exact G.
    + cbn. rewrite app_nil_r. exact G.
    + destruct G as (G1 & G2 & G3). cbn [m_life shown]. rewrite shown_self.
      split; [discriminate|]. split; [|now left].
      intros Z v I0. apply in_app_or in I0. destruct I0 as [I0|I0]; [exact (G2 Z v I0)|].
      revert I0. unfold crash, close_mailbox. cbn [fst snd].
      assert (Dn : forall ms y, In y (discard ms) -> match y with OSawStartup _ => False | _ => True end).
      { intros ms y I1. unfold discard in I1. apply in_flat_map in I1. destruct I1 as (m1 & _ & I1).
        unfold drop_reply in I1. destruct (ask m1); repeat (destruct I1 as [<-|I1]; [exact I|]); destruct I1. }
      intros [I0|I0]; [discriminate|]. apply in_app_or in I0. destruct I0 as [I0|[I0|I0]];
        [exact (Dn _ _ I0)|discriminate|exact (Dn _ _ I0)].
Qed.

(** A hook that panics over a failed on_start: nobody is ever let through. *)
Lemma panic_on_start : forall es1 p1 t1 i m res p2 o es2 p3 t3, hexec boot es1 = Some (p1, t1) ->
  nth_error (p_actors p1) i = Some m -> ph (m_life m) = PStarted res ->
  hstep p1 (Call i false) = Some (p2, o) -> hexec p2 es2 = Some (p3, t3) ->
  forall v, ~ In (OLife i (OSawStartup v)) (t1 ++ o ++ t3).
Proof.
  intros es1 p1 t1 i m res p2 o es2 p3 t3 H1 N P H2 H3 v I0.
  assert (H12 : hexec boot (es1 ++ [Call i false]) = Some (p2, t1 ++ o)).
  { rewrite hexec_app, H1. cbn [hexec]. rewrite H2. now rewrite app_nil_r. }
  pose proof (gate_run _ _ _ H1 i) as G1. rewrite N in G1. destruct G1 as (G1 & _).
  pose proof (gate_run _ _ _ H12 i) as G2.
  pose proof (step_sees _ _ _ _ i H2) as Sx. rewrite N in Sx.
  remember (nth_error (p_actors p2) i) as b eqn:Eb. remember (Some m) as a eqn:Ea. remember (Call i false) as e eqn:Ee.
  destruct Sx as [c|e m0 o _ _ E1 _|e m0 s o A E|m0 f A St|m0 f h A St|m0 f h A St]; try discriminate Ea; try discriminate Ee.
  - subst e. now destruct (E1 false).
  - injection Ea as ->. destruct G2 as (_ & G2 & _). cbn [m_life] in G2.
    assert (Z : permit_adds (fst (crash (m_life m))) = 0) by (apply G1; now rewrite P).
    rewrite app_assoc in I0. apply in_app_or in I0. destruct I0 as [I0|I0].
    + apply in_shown in I0. exact (G2 Z v I0).
    + destruct (doomed_run es2 i p2 _ p3 t3 (eq_sym Eb) eq_refl H3) as (X & _). exact (X Z v I0).
Qed.

(** A hook that panics over an error of on_stop: those that wait for the end find no
    result. *)
Lemma panic_on_stop : forall es1 p1 t1 i m p2 o es2 p3 t3, hexec boot es1 = Some (p1, t1) ->
  nth_error (p_actors p1) i = Some m ->
  hstep p1 (Call i false) = Some (p2, o) -> hexec p2 es2 = Some (p3, t3) ->
  forall v, In (OLife i (OSawShutdown v)) t3 -> v = None.
Proof.
  intros es1 p1 t1 i m p2 o es2 p3 t3 H1 N H2 H3 v I0.
  pose proof (gate_run _ _ _ H1 i) as G1. rewrite N in G1. destruct G1 as (_ & _ & G1).
  pose proof (step_sees _ _ _ _ i H2) as Sx. rewrite N in Sx.
  remember (nth_error (p_actors p2) i) as b eqn:Eb. remember (Some m) as a eqn:Ea. remember (Call i false) as e eqn:Ee.
  destruct Sx as [c|e m0 o _ _ E1 _|e m0 s o A E|m0 f A St|m0 f h A St|m0 f h A St]; try discriminate Ea; try discriminate Ee.
  - subst e. now destruct (E1 false).
  - injection Ea as ->. destruct (doomed_run es2 i p2 _ p3 t3 (eq_sym Eb) eq_refl H3) as (_ & X & _).
    rewrite (X v I0). cbn. destruct G1 as [G1|[G1|G1]]; [rewrite G1 in A; discriminate|exact G1|].
    destruct (ph (m_life m)); first [discriminate A | destruct G1].
Qed.

(** An on_stop that panics is never reported. *)
Lemma stop_panic_silent : forall p i m res p2 o es2 p3 t3,
  nth_error (p_actors p) i = Some m -> (exists v, res = HookFail (FPanic v)) ->
  hstep p (Life i (AStopDone res)) = Some (p2, o) -> hexec p2 es2 = Some (p3, t3) -> reported i (o ++ t3) = [].
Proof.
  intros p i m res p2 o es2 p3 t3 N [v ->] H2 H3.
  pose proof (step_sees _ _ _ _ i H2) as Sx. rewrite N in Sx.
  remember (nth_error (p_actors p2) i) as b eqn:Eb. remember (Some m) as a eqn:Ea.
  remember (Life i (AStopDone (HookFail (FPanic v)))) as e eqn:Ee.
  destruct Sx as [c|e m0 o _ E1 _ _|e m0 s o A E|m0 f A St|m0 f h A St|m0 f h A St]; try discriminate Ea; try discriminate Ee.
  - now destruct (E1 _ Ee).
  - injection Ea as ->. injection Ee as ->. rewrite reported_app, reported_life.
    assert (D : doomed s) by (unfold doomed; step_cases E; reflexivity).
    apply (doomed_run es2 i p2 _ p3 t3 (eq_sym Eb) D H3).
Qed.
