(** Exact order after startup, graceful stop and reference exhaustion. *)
From Coq Require Import List Bool PeanoNat Permutation Lia.
Import ListNotations.
From Verif Require Import Lifecycle Lifecycle_spec Lifecycle_proofs Lifecycle_order_proofs.

(** ** Lists *)

Lemma before_split : forall A (p : A -> bool) l1 x l2,
  existsb p l1 = false -> p x = true -> before p (l1 ++ x :: l2) = l1.
Proof.
  induction l1 as [|y l1 IH]; intros x l2 H Hx; cbn.
  - rewrite Hx. reflexivity.
  - cbn in H. apply orb_false_iff in H. destruct H as [H1 H2]. rewrite H1. f_equal. auto.
Qed.

Lemma before_none : forall A (p : A -> bool) l, existsb p l = false -> before p l = l.
Proof.
  induction l as [|y l IH]; intro H; cbn in *; [reflexivity|].
  apply orb_false_iff in H. destruct H as [H1 H2]. rewrite H1. f_equal. auto.
Qed.

Lemma before_prefix : forall A (p : A -> bool) l1 l2,
  existsb p l1 = false -> prefix l1 (before p (l1 ++ l2)).
Proof.
  induction l1 as [|y l1 IH]; intros l2 H; cbn in *.
  - exists (before p l2). reflexivity.
  - apply orb_false_iff in H. destruct H as [H1 H2]. rewrite H1.
    destruct (IH l2 H2) as (l3 & E). exists l3. cbn. rewrite E. reflexivity.
Qed.

Lemma prefix_msgs : forall a b, prefix a b -> prefix (msgs_of a) (msgs_of b).
Proof. intros a b [c ->]. exists (msgs_of c). apply msgs_of_app. Qed.

(** ** Program points *)

(** In the loop, with no startup buffer being drained. *)
Definition steady_pc (pc : loop_pc) : Prop :=
  match pc with
  | LEntry => False
  | LHandle _ _ rest k => rest = [] /\ k = ToRecv
  | _ => True
  end.
Definition steady (s : actor) : Prop :=
  finished s = true /\ buf s = [] /\ exists pc, ph s = PLoop pc /\ steady_pc pc.

(** What is remembered of on_link_died between its end and the effect of its verdict. *)
Definition link_noted (s : actor) (tr : list obs) : Prop :=
  match ph s with PLoop (LLinkRm _ res) => In (OLinkHookEnd res) tr | _ => True end.

Lemma in_discard : forall o ms, In o (discard ms) ->
  (exists m, o = ODiscard m) \/ (exists id, o = OReplyDropped id).
Proof.
  intros o ms H. unfold discard in H. apply in_flat_map in H. destruct H as (m & _ & [<-|H]); eauto.
  unfold drop_reply in H. destruct (ask m); [|destruct H]. destruct H as [<-|[]]. eauto.
Qed.

(** Decide whether an observation occurs in the observations of a step. *)
Ltac in_obs H :=
  repeat match type of H with
    | In _ (_ ++ _) => apply in_app_or in H; destruct H as [H|H]
    | In _ (_ :: _) => destruct H as [H|H]
    | In _ [] => destruct H
    | _ \/ _ => destruct H as [H|H]
    | False => destruct H
    | In _ (discard _) => apply in_discard in H; destruct H as [[? H]|[? H]]
    | In _ (if ?b then _ else _) => destruct b
    | In _ (match ?b with _ => _ end) => destruct b
    end.

Ltac sig_simpl :=
  cbn; rewrite ?accepted_signals_app, ?accepted_signals_discard; cbn;
  rewrite ?accepted_signals_app, ?accepted_signals_discard, ?app_nil_r; cbn.

Lemma dead_stays_dead_step : forall s e s' o,
  step s e = Some (s', o) -> strong s = 0 -> ph s <> PInit ->
  strong s' = 0 /\ accepted_signals o = [].
Proof.
  intros s e s' o H S0 Hp.
  unfold strong in S0.
  destruct e; step_cases H; bool_hyps; step_rewrite; try congruence.
  all: try (unfold strong in *; cbn in *; lia).
  all: unfold strong; cbn; split_vars;
     repeat match goal with E : ph ?s = _ |- _ => rewrite E in * end; cbn in *;
     sig_simpl;
     repeat match goal with E : queue ?s = _ |- _ => rewrite E in * end; cbn in *;
     repeat match goal with E : buf ?s = _ |- _ => rewrite E in * end; cbn in *;
     try (split; [lia|reflexivity]).
  all: destruct (threaded s); cbn in *; try (split; [lia|reflexivity]); try lia.
  all: try (split; [|sig_simpl; reflexivity]).
  all: try lia.
Qed.

Lemma past_loop_step : forall s e s' o,
  past_loop (ph s) = true -> step s e = Some (s', o) ->
  past_loop (ph s') = true /\ handled o = []
  /\ (forall x, In x o -> is_loop_obs x = false).
Proof.
  intros s e s' o P H.
  destruct e; step_cases H; bool_hyps; step_rewrite; try discriminate P.
  all: cbn; repeat match goal with E : ph ?s = _ |- _ => rewrite E in * end; cbn.
  all: split; [reflexivity || assumption|].
  all: split; [norm_trace; reflexivity|].
  all: intros x Hx; in_obs Hx; subst; reflexivity.
Qed.

(** One step of an actor past its startup. *)
Lemma steady_step : forall s e s' o,
  steady s -> step s e = Some (s', o) ->
  (steady s' /\ no_exit o /\ discarded o = []
   /\ (exists c, queue s ++ accepted_signals o = c ++ queue s' /\ handled o = msgs_of c
             /\ existsb is_stop_signal c = false)
   /\ (link_noted s' o \/ ph s' = ph s))
  \/ (past_loop (ph s') = true /\ handled o = [] /\ accepted_signals o = []
      /\ (In (OExit Normal) o ->
            (exists q, queue s = SStop :: q)
         \/ (queue s = [] /\ strong s' = 0)
         \/ In (OPanicHookEnd (FlowOk (Break Normal))) o
         \/ (exists id, ph s = PLoop (LLinkRm id (FlowOk (Break Normal)))))).
Proof.
  intros s e s' o (Hf & Hb & pc0 & Hp & Hpc) H.
  destruct e; step_cases H; bool_hyps; step_rewrite; try discriminate;
    try (injection Hp as <-); cbn in Hpc; try contradiction; split_ands; subst; try congruence.
  (* leaving the loop *)
  all: try (right; split; [reflexivity|]; cbn; split_vars; norm_trace; sig_simpl;
     (split; [reflexivity|]); (split; [reflexivity|]);
     let K := fresh "K" in intro K; in_obs K; try discriminate K; try (injection K as K; subst);
     solve [ left; eexists; reflexivity
           | right; left; split; [reflexivity|]; unfold strong in *; cbn in *; 
             repeat match goal with E : ph ?s = _ |- _ => rewrite E in * end; cbn in *; lia
           | right; right; left; cbn; auto
           | right; right; right; eexists; reflexivity ]).
  (* staying *)
  all: left.
  all: split; [unfold steady, steady_pc; cbn;
         repeat match goal with E : ph ?s = _ |- _ => rewrite E end; cbn;
         (split; [try first [assumption|reflexivity]|]);
         (split; [try first [assumption|reflexivity]|]);
         try (eexists; (split; [reflexivity|]); cbn; auto; fail)|].
  all: split; [split; [intros ? K|intro K]; in_obs K; discriminate K|].
  all: split; [cbn; split_vars; norm_trace; reflexivity|].
  all: split; [| unfold link_noted; cbn;
                 repeat match goal with E : ph ?s = _ |- _ => rewrite E end; cbn; auto ].
  all: repeat match goal with E : queue ?s = _ |- _ => rewrite E end; sig_simpl; split_vars; cbn.
  all: first [ exists []; cbn; rewrite ?app_nil_r; repeat split; reflexivity
             | eexists [_]; cbn; rewrite ?app_nil_r; repeat split; reflexivity | idtac ].
Qed.

(** ** Runs of a started actor *)

Definition fifo (q0 : list signal) (s : actor) (o : list obs) : Prop :=
  exists c rest, q0 ++ accepted_signals o = c ++ rest /\ handled o = msgs_of c
    /\ existsb is_stop_signal c = false
    /\ ((steady s /\ rest = queue s /\ no_exit o /\ discarded o = [] /\ link_noted s o)
        \/ (past_loop (ph s) = true
            /\ (In (OExit Normal) o -> no_hook_stop o ->
                 (exists q, rest = SStop :: q) \/ (rest = [] /\ strong s = 0)))).

Lemma no_exit_app : forall a b, no_exit a -> no_exit b -> no_exit (a ++ b).
Proof.
  intros a b [A1 A2] [B1 B2]. split; [intros r K|intro K]; apply in_app_or in K; destruct K as [K|K];
    [eapply A1|eapply B1|apply A2|apply B2]; eauto.
Qed.

Lemma no_hook_stop_l : forall a b, no_hook_stop (a ++ b) -> no_hook_stop a.
Proof. intros a b [H1 H2]. split; intro K; [apply H1|apply H2]; apply in_or_app; auto. Qed.

Lemma past_not_init : forall p, past_loop p = true -> p <> PInit.
Proof. intros p H ->. discriminate H. Qed.

Lemma fifo_exec : forall es s0 s o,
  steady s0 -> link_noted s0 [] -> exec s0 es = Some (s, o) -> fifo (queue s0) s o.
Proof.
  intros es s0 s o S0 L0. apply (exec_invariant (fifo (queue s0))).
  - exists [], (queue s0). cbn. rewrite app_nil_r. repeat (split; [reflexivity|]).
    left. split; [exact S0|]. repeat (split; [reflexivity|]).
    split; [split; [intros r []|intros []]|]. split; [reflexivity|exact L0].
  - clear es s o. intros s tr e s' o (c & rest & E1 & E2 & E3 & D) H. unfold fifo.
    rewrite accepted_signals_app, app_assoc, E1, handled_app, E2.
    destruct D as [(St & -> & NE & Di & LN)|(P & Q)].
    + destruct (steady_step _ _ _ _ St H)
        as [(St' & NE' & Di' & (c' & F1 & F2 & F3) & LN')|(P' & F2 & F1 & Q)].
      * exists (c ++ c'), (queue s'). rewrite <- app_assoc, F1, app_assoc.
        rewrite F2, msgs_of_app, existsb_app, E3, F3. repeat (split; [reflexivity|]).
        left. split; [exact St'|]. split; [reflexivity|]. split; [auto using no_exit_app|].
        split. { rewrite discarded_app, Di, Di'. reflexivity. }
        destruct LN' as [LN'|LN'].
        -- unfold link_noted in *. destruct (ph s') as [| | | | | | | |[]| | | | | | | |]; auto.
           apply in_or_app. right. exact LN'.
        -- unfold link_noted in *. rewrite LN'. destruct (ph s) as [| | | | | | | |[]| | | | | | | |]; auto.
           apply in_or_app. left. exact LN.
      * exists c, (queue s). rewrite F1, F2, !app_nil_r. repeat (split; [reflexivity|]).
        split; [exact E3|]. right. split; [exact P'|]. intros K NH.
        apply in_app_or in K. destruct K as [K|K]; [destruct NE as [NE _]; destruct (NE _ K)|].
        destruct (Q K) as [(q & Hq)|[[Hq Hs]|[K2|(id & Hp)]]].
        -- left. eauto.
        -- right. auto.
        -- destruct NH as [NH _]. destruct NH. apply in_or_app. auto.
        -- destruct NH as [_ NH]. destruct NH. apply in_or_app. left.
           unfold link_noted in LN. rewrite Hp in LN. exact LN.
    + destruct (past_loop_step _ _ _ _ P H) as (P' & F2 & F3).
      exists c, (rest ++ accepted_signals o). rewrite F2, app_nil_r, app_assoc.
      repeat (split; [reflexivity|]). split; [exact E3|]. right. split; [exact P'|].
      intros K NH. apply in_app_or in K. destruct K as [K|K]; [|discriminate (F3 _ K)].
      destruct (Q K (no_hook_stop_l _ _ NH)) as [(q & ->)|[-> Hs]].
      * left. cbn. eauto.
      * right. destruct (dead_stays_dead_step _ _ _ _ H Hs (past_not_init _ P)) as [H1 H2].
        rewrite H2. auto.
Qed.

Lemma loop_left : forall s e s' o pc,
  ph s = PLoop pc -> past_loop (ph s') = true -> step s e = Some (s', o) ->
  (exists r, In (OExit r) o) \/ In OCrash o.
Proof.
  intros s e s' o pc Hp P H.
  destruct e; step_cases H; bool_hyps;
    repeat match goal with E : ph ?s = _ |- _ => rewrite E in * end; try discriminate; cbn in P;
    try discriminate P.
  all: first [ right; cbn; auto; fail | left; eexists; rewrite ?in_app_iff; cbn; rewrite ?in_app_iff; cbn; eauto 10; fail | idtac].
Qed.

(** Exactly the accepted messages, in order, as long as the loop goes on. *)
Lemma fifo_exact : forall es s0 s o,
  steady s0 -> link_noted s0 [] -> exec s0 es = Some (s, o) -> no_exit o ->
  past_loop (ph s) = false /\ discarded o = [] /\ msgs_of (queue s0) ++ accepted o = handled o ++ msgs_of (queue s).
Proof.
  intros es s0 s o S0 L0 H NE.
  assert (K : past_loop (ph s) = false).
  { assert (G : no_exit o -> steady s).
    { revert H. apply (exec_invariant (fun s o => no_exit o -> steady s)).
      - auto.
      - clear. intros s tr e s' o IH H NE.
        assert (S : steady s).
        { apply IH. destruct NE as [N1 N2]. split; [intros r K; apply (N1 r)|intro K; apply N2]; apply in_or_app; auto. }
        clear IH. destruct (steady_step _ _ _ _ S H) as [(S' & _)|(P & _ & _ & _)]; [exact S'|].
        exfalso. destruct S as (_ & _ & pc & Hp & _).
        destruct NE as [N1 N2].
        destruct (loop_left _ _ _ _ _ Hp P H) as [[r K]|K];
          [apply (N1 r)|apply N2]; apply in_or_app; auto. }
    destruct (G NE) as (_ & _ & pc & Hp & _). rewrite Hp. reflexivity. }
  split; [exact K|].
  destruct (fifo_exec _ _ _ _ S0 L0 H) as (c & rest & E1 & E2 & _ & [(_ & -> & _ & Di & _)|(P & _)]).
  - split; [exact Di|]. rewrite accepted_of_signals, <- msgs_of_app, E1, msgs_of_app, E2. reflexivity.
  - congruence.
Qed.

(** What is handled is always an initial part of what was ahead of the first stop. *)
Lemma fifo_prefix : forall es s0 s o,
  steady s0 -> link_noted s0 [] -> exec s0 es = Some (s, o) ->
  prefix (handled o) (msgs_of (before is_stop_signal (queue s0 ++ accepted_signals o))).
Proof.
  intros es s0 s o S0 L0 H.
  destruct (fifo_exec _ _ _ _ S0 L0 H) as (c & rest & E1 & E2 & E3 & _).
  rewrite E1, E2. apply prefix_msgs, before_prefix, E3.
Qed.

(** ... and all of it if the actor stopped normally. *)
Lemma fifo_stop : forall es s0 s o,
  steady s0 -> link_noted s0 [] -> exec s0 es = Some (s, o) ->
  In (OExit Normal) o -> no_hook_stop o ->
  handled o = msgs_of (before is_stop_signal (queue s0 ++ accepted_signals o))
  /\ (existsb is_stop_signal (queue s0 ++ accepted_signals o) = false -> strong s = 0).
Proof.
  intros es s0 s o S0 L0 H Ex NH.
  destruct (fifo_exec _ _ _ _ S0 L0 H) as (c & rest & E1 & E2 & E3 & [(_ & _ & NE & _)|(P & Q)]).
  - destruct NE as [NE _]. destruct (NE _ Ex).
  - destruct (Q Ex NH) as [(q & ->)|[-> Hs]]; rewrite E1, E2.
    + rewrite before_split by auto. split; [reflexivity|].
      rewrite existsb_app. cbn. rewrite orb_true_r. discriminate.
    + rewrite app_nil_r, before_none by auto. auto.
Qed.
