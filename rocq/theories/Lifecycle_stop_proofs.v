(** Stopping: graceful stop over whole runs, reference exhaustion, kill. *)
From Coq Require Import List Bool PeanoNat Permutation Lia.
Import ListNotations.
From Verif Require Import Lifecycle Lifecycle_spec Lifecycle_proofs Lifecycle_order_proofs
  Lifecycle_fifo_proofs.

(** ** Whole runs without failures *)

Definition failed_start (p : phase) : bool :=
  match p with PFailPanic _ | PFailStop _ | PFailSet _ _ => true | _ => false end.

(** The actor is carrying out a stop signal: draining its startup buffer. *)
Definition stopping_now (p : phase) : bool :=
  match p with PLoop (LHandle _ _ _ ToStop) => true | _ => false end.

Definition in_panic (p : phase) : bool :=
  match p with PLoop (LPanic _) => true | _ => false end.

Lemma no_failure_l : forall a b, no_failure (a ++ b) -> no_failure a.
Proof. intros a b H f K. apply (H f). apply in_or_app. auto. Qed.

(** One step before the loop is left, without a failure. *)
Definition running_phase (p : phase) : bool :=
  negb (past_loop p || failed_start p || in_panic p).

Lemma whole_step : forall s e s' o,
  wf s -> running_phase (ph s) = true -> step s e = Some (s', o) -> no_failure o ->
  (running_phase (ph s') = true /\ (forall r, ~ In (OExit r) o)
   /\ (exists c, queue s ++ accepted_signals o
                 = c ++ (if stopping_now (ph s') && negb (stopping_now (ph s)) then [SStop] else []) ++ queue s'
             /\ existsb is_stop_signal c = false
             /\ Permutation (handled o ++ rest_of (ph s') ++ buf s') (rest_of (ph s) ++ buf s ++ msgs_of c))
   /\ (stopping_now (ph s) = true -> stopping_now (ph s') = true)
   /\ (link_noted s' o \/ ph s' = ph s))
  \/ (past_loop (ph s') = true /\ accepted_signals o = []
      /\ (In (OExit Normal) o ->
           (handled o = [] /\ rest_of (ph s) = [] /\ buf s = []
            /\ (stopping_now (ph s) = true
                \/ (stopping_now (ph s) = false
                    /\ ((exists q, queue s = SStop :: q) \/ (queue s = [] /\ strong s' = 0)))))
           \/ (exists id, ph s = PLoop (LLinkRm id (FlowOk (Break Normal)))))).
Proof.
  intros s e s' o W R H NF. destruct W as [[_ Wp Wf _] _ _]. unfold at_phase in Wp.
  destruct e; step_cases H; bool_hyps; step_rewrite; try discriminate R; cbn in Wp; split_ands;
    try congruence.
  (* leaving the loop, or an on_panic call *)
  all: try (exfalso; eapply NF; cbn; rewrite ?in_app_iff; cbn; eauto 10; fail).
  all: try (exfalso; unfold strong in *; cbn in *;
            repeat match goal with E : ph ?s = _ |- _ => rewrite E in * end; cbn in *; lia).
  all: try (right; split; [reflexivity|]; cbn; split_vars; norm_trace; sig_simpl;
     (split; [reflexivity|]);
     let K := fresh "K" in intro K; in_obs K; try discriminate K; try (injection K as K; subst);
     solve [ left; repeat (split; [first [reflexivity|assumption
               |apply Wf; match goal with X : _ <> ToRecv -> _ |- _ => apply X; discriminate end]|]); auto
           | left; repeat (split; [first [reflexivity|assumption|auto]|]);
             right; split; [reflexivity|]; first [left; eexists; reflexivity
               | right; split; [reflexivity|]; unfold strong in *; cbn in *; 
             repeat match goal with E : ph ?s = _ |- _ => rewrite E in * end; cbn in *; lia]
           | right; eexists; reflexivity ]).
  all: try match goal with |- context [if ?b then LEntry else LRecv] => destruct b end.
  all: left.
  all: split; [cbn; repeat match goal with E : ph ?s = _ |- _ => rewrite E end;
         try (reflexivity || assumption)|].
  all: split; [intros ? K; cbn in K; in_obs K; discriminate K|].
  all: split; [| split; [ cbn; 
                 repeat match goal with E : ph ?s = _ |- _ => rewrite E end; cbn; auto; try discriminate
    | unfold link_noted; cbn;
                 repeat match goal with E : ph ?s = _ |- _ => rewrite E end; cbn; auto ]].
  all: rewrite ?andb_negb_r;
       repeat match goal with E : queue ?s = _ |- _ => rewrite E end;
       repeat match goal with E : buf ?s = _ |- _ => rewrite E end;
       cbn; split_vars; norm_trace; sig_simpl.
  all: first [ exists []; cbn; rewrite ?app_nil_r; repeat (split; [reflexivity|]); reflexivity
             | eexists [_]; cbn; rewrite ?app_nil_r; repeat (split; [reflexivity|]); reflexivity
             | eexists [_]; cbn; rewrite ?app_nil_r; repeat (split; [reflexivity|]); perm_count
             | idtac ].
  - exfalso. unfold strong in *. cbn in *.
    repeat match goal with E : buf ?s = _ |- _ => rewrite E in * end. cbn in *. lia.
  - exists [SStartup]. cbn. rewrite app_nil_r. repeat (split; [reflexivity|]). reflexivity.
  - exists [SMsg m]. cbn. repeat (split; [reflexivity|]). apply Permutation_cons_append.
  - exists [SLinkDied id r]. cbn. rewrite app_nil_r. repeat (split; [reflexivity|]). reflexivity.
Qed.

(** Invariant of runs: accepted signals split into those consumed and the rest. *)
Definition whole (s : actor) (tr : list obs) : Prop :=
  no_failure tr ->
  failed_start (ph s) = false /\ in_panic (ph s) = false /\ exists c rest, accepted_signals tr = c ++ rest /\ existsb is_stop_signal c = false
    /\ ((running_phase (ph s) = true /\ (forall r, ~ In (OExit r) tr) /\ link_noted s tr
         /\ Permutation (handled tr ++ rest_of (ph s) ++ buf s) (msgs_of c)
         /\ rest = (if stopping_now (ph s) then [SStop] else []) ++ queue s)
        \/ (past_loop (ph s) = true
            /\ (In (OExit Normal) tr -> no_hook_stop tr ->
                 Permutation (handled tr) (msgs_of c)
                 /\ ((exists q, rest = SStop :: q) \/ (rest = [] /\ strong s = 0))))).

Lemma past_excl : forall p, past_loop p = true -> failed_start p = false /\ in_panic p = false.
Proof. destruct p as [| | | | | | | |[]| | | | | | | |]; cbn; intro H; auto; discriminate. Qed.

Lemma running_excl : forall p, running_phase p = true -> failed_start p = false /\ in_panic p = false.
Proof.
  intros p H. unfold running_phase in H. apply negb_true_iff in H.
  apply orb_false_iff in H. destruct H as [H H2]. apply orb_false_iff in H. tauto.
Qed.

Lemma link_noted_app : forall s s' tr o,
  link_noted s tr -> (link_noted s' o \/ ph s' = ph s) -> link_noted s' (tr ++ o).
Proof.
  intros s s' tr o L [L'|E]; unfold link_noted in *.
  - destruct (ph s') as [| | | | | | | |[]| | | | | | | |]; auto. apply in_or_app. right. exact L'.
  - rewrite E. destruct (ph s) as [| | | | | | | |[]| | | | | | | |]; auto. apply in_or_app. left. exact L.
Qed.

Lemma whole_exec : forall c es s tr, exec (init c) es = Some (s, tr) -> whole s tr.
Proof.
  intros c es s tr. apply (exec_invariant_wf whole).
  - apply wf_init.
  - intros _. cbn. split; [reflexivity|]. split; [reflexivity|].
    exists [], []. cbn. split; [reflexivity|]. split; [reflexivity|].
    left. split; [reflexivity|]. split; [intros r []|]. auto.
  - clear es s tr. intros s tr e s' o W IH H NF.
    destruct (IH (no_failure_l _ _ NF)) as (F1 & F2 & c1 & rest & E1 & E2 & D). clear IH.
    assert (NFo : no_failure o) by (intros f K; apply (NF f); apply in_or_app; auto).
    rewrite accepted_signals_app, E1, handled_app.
    destruct D as [(R & NE & LN & Pm & ->)|(P & Q)].
    + destruct (whole_step _ _ _ _ W R H NFo)
        as [(R' & NE' & (c' & G1 & G2 & G3) & G4 & LN')|(P' & G1 & Q)].
      * destruct (running_excl _ R') as [K1 K2]. split; [exact K1|]. split; [exact K2|].
        destruct (stopping_now (ph s)) eqn:Es; cbn [negb andb] in G1.
        -- (* already stopping: nothing more is consumed *)
           rewrite (G4 eq_refl) in *. cbn [andb negb app] in G1.
           assert (c' = []) as ->.
           { clear - H Es G1 W R.
             unfold stopping_now in Es.
             destruct (ph s) as [| | | | | | | |[| |m ow rest k| | |]| | | | | | | |] eqn:Ep; try discriminate Es.
             destruct k; try discriminate Es.
             assert (L : length (queue s') = length (queue s) + length (accepted_signals o)).
             { destruct (is_env e) eqn:He.
               - destruct (env_frame _ _ _ _ He H) as (_&_&_&_&_&_&_&_&_&_&(q&Hq&_&Ha&_)&_).
                 rewrite Hq, Ha, app_length. lia.
               - destruct e; try discriminate He; step_cases H; try discriminate; cbn;
                   try (repeat match goal with E : ph ?s = _ |- _ => rewrite E in * end; discriminate).
                 all: try (injection Ep as <- <- <- <-); split_vars; sig_simpl; try lia.
                 all: try (match goal with |- context [accepted_signals ?x] => idtac end).
                 all: try congruence. }
             apply (f_equal (@length _)) in G1. rewrite !app_length in G1.
             destruct c'; [reflexivity|]. cbn in G1. lia. }
           cbn in G1. exists c1, ([SStop] ++ queue s'). cbn [app].
           rewrite <- app_assoc. cbn [app]. rewrite G1. split; [reflexivity|]. split; [exact E2|].
           left. split; [exact R'|]. split.
           { intros r K. apply in_app_or in K. destruct K as [K|K]; [apply (NE _ K)|apply (NE' _ K)]. }
           split; [eapply link_noted_app; eauto|]. split; [|reflexivity].
           cbn in G3. rewrite app_nil_r in G3. rewrite <- app_assoc, G3. exact Pm.
        -- exists (c1 ++ c'), ((if stopping_now (ph s') then [SStop] else []) ++ queue s').
           cbn [app] in *. rewrite andb_true_r in G1.
           rewrite <- app_assoc, G1, <- app_assoc. split; [reflexivity|].
           rewrite existsb_app, E2, G2. split; [reflexivity|].
           left. split; [exact R'|]. split.
           { intros r K. apply in_app_or in K. destruct K as [K|K]; [apply (NE _ K)|apply (NE' _ K)]. }
           split; [eapply link_noted_app; eauto|]. split; [|reflexivity].
           rewrite <- app_assoc, G3, msgs_of_app, <- Pm, <- !app_assoc. reflexivity.
      * destruct (past_excl _ P') as [K1 K2]. split; [exact K1|]. split; [exact K2|].
        exists c1, ((if stopping_now (ph s) then [SStop] else []) ++ queue s).
        rewrite G1, app_nil_r. split; [reflexivity|]. split; [exact E2|]. right. split; [exact P'|].
        intros K NH. apply in_app_or in K. destruct K as [K|K]; [destruct (NE _ K)|].
        destruct (Q K) as [(H1 & H2 & H3 & H4)|(id & Hp)].
        -- rewrite H1, app_nil_r. rewrite H2, H3 in Pm. cbn in Pm. rewrite app_nil_r in Pm.
           split; [exact Pm|]. destruct H4 as [->|(-> & [(q & ->)|(-> & Hs)])]; cbn; eauto.
        -- destruct NH as [_ NH]. destruct NH. apply in_or_app. left.
           unfold link_noted in LN. rewrite Hp in LN. exact LN.
    + destruct (past_loop_step _ _ _ _ P H) as (P' & G2 & G3).
      destruct (past_excl _ P') as [K1 K2]. split; [exact K1|]. split; [exact K2|].
      exists c1, (rest ++ accepted_signals o). rewrite G2, app_nil_r, app_assoc.
      split; [reflexivity|]. split; [exact E2|]. right. split; [exact P'|].
      intros K NH. apply in_app_or in K. destruct K as [K|K]; [|discriminate (G3 _ K)].
      destruct (Q K (no_hook_stop_l _ _ NH)) as (Pm & [(q & ->)|[-> Hs]]); split; auto.
      * left. cbn. eauto.
      * right. destruct (dead_stays_dead_step _ _ _ _ H Hs (past_not_init _ P)) as [H1 H2].
        rewrite H2. auto.
Qed.

(** A normal stop without failures: exactly the messages ahead of the first stop
    signal were handled; without a stop signal, no strong reference was left. *)
Lemma normal_stop : forall c es s tr,
  exec (init c) es = Some (s, tr) ->
  In (OExit Normal) tr -> no_failure tr -> no_hook_stop tr ->
  Permutation (handled tr) (msgs_of (before is_stop_signal (accepted_signals tr)))
  /\ (existsb is_stop_signal (accepted_signals tr) = false -> strong s = 0).
Proof.
  intros c es s tr H Ex NF NH.
  destruct (whole_exec _ _ _ _ H NF) as (_ & _ & c1 & rest & E1 & E2 & [(_ & NE & _)|(_ & Q)]).
  - destruct (NE _ Ex).
  - destruct (Q Ex NH) as (Pm & [(q & ->)|(-> & Hs)]); rewrite E1.
    + rewrite before_split by auto. split; [exact Pm|].
      rewrite existsb_app. cbn. rewrite orb_true_r. discriminate.
    + rewrite app_nil_r, before_none by auto. auto.
Qed.

(** ** Normal stops in general *)

Definition normal_reason (s : actor) (tr : list obs) : Prop :=
  (In SStop (queue s) \/ stopping_now (ph s) = true -> In (OAccept SStop) tr)
  /\ link_noted s tr
  /\ (In (OExit Normal) tr -> no_hook_stop tr ->
        In (OAccept SStop) tr \/ (strong s = 0 /\ threaded s = false /\ ph s <> PInit)).

Lemma accept_signal_in : forall sg tr, In sg (accepted_signals tr) <-> In (OAccept sg) tr.
Proof.
  intros sg tr. unfold accepted_signals. rewrite in_flat_map. split.
  - intros (o & H1 & H2). destruct o; try destruct H2 as []. subst. exact H1. contradiction.
  - intro H. exists (OAccept sg). split; [exact H|left; reflexivity].
Qed.

Lemma threaded_const : forall s e s' o, step s e = Some (s', o) -> threaded s' = threaded s.
Proof. intros s e s' o H. destruct e; step_cases H; reflexivity. Qed.

Lemma normal_step : forall s e s' o,
  wf s -> step s e = Some (s', o) ->
  (In SStop (queue s') -> In SStop (queue s) \/ In (OAccept SStop) o)
  /\ (stopping_now (ph s') = true -> stopping_now (ph s) = true \/ In SStop (queue s))
  /\ (link_noted s' o \/ ph s' = ph s)
  /\ (In (OExit Normal) o ->
        stopping_now (ph s) = true \/ In SStop (queue s)
        \/ (strong s' = 0 /\ threaded s' = false /\ ph s' <> PInit)
        \/ In (OPanicHookEnd (FlowOk (Break Normal))) o
        \/ (exists id, ph s = PLoop (LLinkRm id (FlowOk (Break Normal))))).
Proof.
  intros s e s' o W H. destruct W as [[_ Wp _ _] _ _]. unfold at_phase in Wp.
  destruct e; step_cases H; bool_hyps; step_rewrite; try congruence; cbn in Wp; split_ands; try congruence.
  all: split; [cbn; repeat match goal with E : queue ?s = _ |- _ => rewrite E end;
       let K := fresh in intro K; rewrite ?in_app_iff in *; cbn in *; try tauto; intuition discriminate|].
  all: split; [cbn; repeat match goal with E : ph ?s = _ |- _ => rewrite E end;
       try (match goal with |- context [if ?b then LEntry else LRecv] => destruct b end); cbn;
       try discriminate;
       try (let K := fresh in intro K; cbn in *; solve [left; exact K|auto])|].
  all: try (unfold strong in *; cbn in *;
            repeat match goal with E : ph ?s = _ |- _ => rewrite E in * end;
            repeat match goal with E : buf ?s = _ |- _ => rewrite E in * end; cbn in *; lia).
  all: split; [unfold link_noted; cbn;
       repeat match goal with E : ph ?s = _ |- _ => rewrite E end; cbn; auto;
       try (match goal with |- context [if ?b then LEntry else LRecv] => destruct b end); auto|].
  all: cbn; split_vars; cbn; let K := fresh "K" in intro K; in_obs K; try discriminate K;
       try (injection K as K; subst); auto.
  all: try (right; left; cbn; auto; fail).
  all: try (right; right; right; left; cbn; auto; fail).
  all: try (right; right; right; right; eexists; reflexivity).
  right; right; left. unfold strong in *. cbn in *.
  repeat match goal with E : ph ?s = _ |- _ => rewrite E in * end. cbn in *.
  split; [lia|]. split; [|discriminate]. destruct (threaded s); [|reflexivity]. cbn in *. lia.
Qed.

Lemma normal_reason_exec : forall c es s tr, exec (init c) es = Some (s, tr) -> normal_reason s tr.
Proof.
  intros c es s tr. apply (exec_invariant_wf normal_reason).
  - apply wf_init.
  - split; [intros [[]|K]; discriminate K|]. split; [exact I|intros []].
  - clear es s tr. intros s tr e s' o W (H1 & H2 & H3) H.
    destruct (normal_step _ _ _ _ W H) as (G1 & G2 & G3 & G4).
    split; [|split].
    + intros [K|K].
      * apply in_or_app. destruct (G1 K); auto.
      * apply in_or_app. destruct (G2 K); auto.
    + eapply link_noted_app; eauto.
    + intros K NH. apply in_app_or in K. destruct K as [K|K].
      * destruct (H3 K (no_hook_stop_l _ _ NH)) as [A|(A & B & C)].
        -- left. apply in_or_app. auto.
        -- right. destruct (dead_stays_dead_step _ _ _ _ H A C) as [A' _].
           rewrite (threaded_const _ _ _ _ H). split; [exact A'|]. split; [exact B|].
           clear - H C. intro D. destruct e; step_cases H; congruence.
      * destruct (G4 K) as [A|[A|[A|[A|(id & A)]]]].
        -- left. apply in_or_app. auto.
        -- left. apply in_or_app. auto.
        -- right. exact A.
        -- destruct NH as [NH _]. destruct NH. apply in_or_app. auto.
        -- destruct NH as [_ NH]. destruct NH. apply in_or_app. left.
           unfold link_noted in H2. rewrite A in H2. exact H2.
Qed.

(** ** kill *)

(** The kill flag is up and the loop is not being polled. *)
Definition doomed (s : actor) : Prop :=
  aborted s = true
  /\ (starting (ph s) = true \/ (exists pc, ph s = PLoop pc /\ polling s = false)).

Lemma find_app : forall A (p : A -> bool) l1 l2,
  find p (l1 ++ l2) = match find p l1 with Some x => Some x | None => find p l2 end.
Proof. induction l1 as [|x l1 IH]; intro l2; cbn; [reflexivity|]. destruct (p x); auto. Qed.

Lemma find_discard : forall p ms,
  (forall m, p (ODiscard m) = false) -> (forall id, p (OReplyDropped id) = false) ->
  find p (discard ms) = None.
Proof.
  intros p ms H1 H2. induction ms as [|m ms IH]; [reflexivity|].
  change (discard (m :: ms)) with ((ODiscard m :: drop_reply m) ++ discard ms).
  rewrite find_app. cbn. rewrite H1. unfold drop_reply. destruct (ask m); cbn; rewrite ?H2; exact IH.
Qed.

(** While doomed nothing of the loop happens, except leaving it with Killed. *)
Lemma doomed_step : forall s e s' o,
  doomed s -> step s e = Some (s', o) ->
  (find loop_acts o = None /\ (doomed s' \/ failed_start (ph s') = true \/ ph s' = PCrashed))
  \/ (find loop_acts o = Some (OExit Killed) /\ ph s' = PDrainLinks Killed).
Proof.
  intros s e s' o (Ha & D) H.
  destruct e; step_cases H; bool_hyps; step_rewrite; try congruence; cbn.
  all: destruct D as [D|(pc' & D & Dp)]; try discriminate D; try congruence.
  all: try (left; split; [reflexivity|]; left; split; [reflexivity || assumption|];
            cbn; repeat match goal with E : ph ?s = _ |- _ => rewrite E end;
            first [left; solve [reflexivity|assumption]
            | right; eexists; split; [reflexivity|]; solve [reflexivity|assumption]]).
  all: try (left; split; [reflexivity|]; cbn; auto; fail).
  all: try (left; split; [cbn; rewrite ?find_app, ?find_discard by reflexivity; cbn;
              rewrite ?find_discard by reflexivity; reflexivity|]; cbn; auto; fail).
  all: right; split; [|reflexivity].
  all: split_vars; cbn; rewrite ?find_app; cbn; rewrite ?find_discard by reflexivity; reflexivity.
Qed.

Definition over (p : phase) : bool := past_loop p || failed_start p.

Lemma over_step : forall s e s' o,
  over (ph s) = true -> step s e = Some (s', o) ->
  over (ph s') = true /\ find loop_acts o = None.
Proof.
  intros s e s' o P H.
  destruct e; step_cases H; bool_hyps; step_rewrite; try discriminate P.
  all: cbn; repeat match goal with E : ph ?s = _ |- _ => rewrite E in * end; cbn.
  all: split; [reflexivity || assumption|].
  all: try reflexivity.
  all: rewrite ?find_app; cbn; rewrite ?find_app, ?find_discard by reflexivity; cbn;
       rewrite ?find_discard by reflexivity; reflexivity.
Qed.

Lemma killed_run : forall es s0 s o,
  doomed s0 -> exec s0 es = Some (s, o) ->
  find loop_acts o = None \/ find loop_acts o = Some (OExit Killed).
Proof.
  intros es s0 s o D H.
  assert (G : (find loop_acts o = None /\ doomed s)
           \/ ((find loop_acts o = None \/ find loop_acts o = Some (OExit Killed)) /\ over (ph s) = true)).
  { revert H. apply (exec_invariant (fun s o => (find loop_acts o = None /\ doomed s)
       \/ ((find loop_acts o = None \/ find loop_acts o = Some (OExit Killed)) /\ over (ph s) = true))).
    - left. auto.
    - clear. intros s tr e s' o [[F D]|[F O]] H; rewrite find_app.
      + rewrite F. destruct (doomed_step _ _ _ _ D H) as [[F' [D'|[O'|O']]]|[F' O']].
        * left. auto.
        * right. split; [auto|]. unfold over. rewrite O'. apply orb_true_r.
        * right. split; [auto|]. rewrite O'. reflexivity.
        * right. split; [auto|]. rewrite O'. reflexivity.
      + right. destruct (over_step _ _ _ _ O H) as [O' F']. split; [|exact O'].
        destruct F as [F|F]; rewrite F; [rewrite F'|]; auto. }
  destruct G as [[F _]|[F _]]; auto.
Qed.

(** In the loop not even on_panic is called any more. *)
Lemma killed_loop_run : forall es s0 s o pc,
  aborted s0 = true -> ph s0 = PLoop pc -> polling s0 = false -> exec s0 es = Some (s, o) ->
  (find loop_acts_or_panics o = None /\ ph s = PLoop pc /\ polling s = false)
  \/ (find loop_acts_or_panics o = Some (OExit Killed) /\ past_loop (ph s) = true).
Proof.
  intros es s0 s o pc Ha Hp Hpo H.
  assert (G : (find loop_acts_or_panics o = None /\ ph s = PLoop pc /\ polling s = false /\ aborted s = true)
     \/ (find loop_acts_or_panics o = Some (OExit Killed) /\ past_loop (ph s) = true)).
  { revert H. apply (exec_invariant (fun s o =>
     (find loop_acts_or_panics o = None /\ ph s = PLoop pc /\ polling s = false /\ aborted s = true)
     \/ (find loop_acts_or_panics o = Some (OExit Killed) /\ past_loop (ph s) = true))).
    - left. auto.
    - clear. intros s tr e s' o [(F & A & B & C)|[F P]] H; rewrite find_app, F.
      + destruct e; step_cases H; bool_hyps; step_rewrite; try congruence; cbn; auto.
        right. split; [|reflexivity]. injection A as ->.
        split_vars; cbn; rewrite ?find_app; cbn; rewrite ?find_discard by reflexivity; reflexivity.
      + right. split; [reflexivity|]. apply (past_loop_step _ _ _ _ P H). }
  destruct G as [(F & A & B & _)|G]; auto.
Qed.

(** Killed is reported only after a kill, or when a hook asked for it. *)
Definition killed_reason (s : actor) (tr : list obs) : Prop :=
  (aborted s = true -> In OKill tr) /\ link_noted s tr
  /\ (In (OExit Killed) tr ->
       In OKill tr \/ In (OPanicHookEnd (FlowOk (Break Killed))) tr
       \/ In (OLinkHookEnd (FlowOk (Break Killed))) tr).

Lemma killed_step : forall s e s' o,
  step s e = Some (s', o) ->
  (aborted s' = true -> aborted s = true \/ In OKill o)
  /\ (In (OExit Killed) o ->
        aborted s = true \/ In (OPanicHookEnd (FlowOk (Break Killed))) o
        \/ (exists id, ph s = PLoop (LLinkRm id (FlowOk (Break Killed))))).
Proof.
  intros s e s' o H.
  destruct e; step_cases H; bool_hyps; step_rewrite; try congruence.
  all: split; [cbn; auto|].
  all: cbn; split_vars; cbn; let K := fresh "K" in intro K; in_obs K; try discriminate K;
       try (injection K as K; subst); auto.
  all: try (right; left; cbn; auto; fail).
  all: try (right; right; eexists; reflexivity).
all: congruence.
Qed.

Lemma killed_reason_exec : forall c es s tr, exec (init c) es = Some (s, tr) -> killed_reason s tr.
Proof.
  intros c es s tr. apply (exec_invariant_wf killed_reason).
  - apply wf_init.
  - split; [discriminate|]. split; [exact I|intros []].
  - clear es s tr. intros s tr e s' o W (H1 & H2 & H3) H.
    destruct (killed_step _ _ _ _ H) as (G1 & G2).
    destruct (normal_step _ _ _ _ W H) as (_ & _ & G3 & _).
    split; [|split].
    + intro K. apply in_or_app. destruct (G1 K); auto.
    + eapply link_noted_app; eauto.
    + rewrite !in_app_iff. intro K. destruct K as [K|K].
      * destruct (H3 K) as [A|[A|A]]; auto.
      * destruct (G2 K) as [A|[A|(id & A)]]; auto.
        right. right. left. unfold link_noted in H2. rewrite A in H2. exact H2.
Qed.
