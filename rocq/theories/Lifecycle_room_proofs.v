(** Proofs about the room of a mailbox (C15). *)
From Coq Require Import List Bool PeanoNat Lia.
Import ListNotations.
From Verif Require Import Lifecycle Lifecycle_spec Lifecycle_room_spec Lifecycle_proofs
  Lifecycle_order_proofs Lifecycle_fifo_proofs Lifecycle_wait_proofs Lifecycle_final_proofs.

Lemma reserved_step : forall s e s' o, step s e = Some (s', o) ->
  reserved s' + permits_back [e] = reserved s + permits_given [e].
Proof.
  intros s e s' o H. destruct e; step_cases H; bool_hyps; cbn; try lia.
Qed.

Lemma permits_app : forall es e,
  permits_given (es ++ [e]) = permits_given es + permits_given [e]
  /\ permits_back (es ++ [e]) = permits_back es + permits_back [e].
Proof.
  intros es e. unfold permits_given, permits_back. rewrite !filter_app, !app_length. auto.
Qed.

Lemma run_reserved : forall c es s tr, exec (init c) es = Some (s, tr) ->
  reserved s + permits_back es = permits_given es.
Proof.
  intros c es. induction es as [|e es IH] using rev_ind; intros s tr H.
  - cbn in H. inversion H; subst. reflexivity.
  - apply exec_snoc in H. destruct H as (s1 & o1 & o2 & H1 & H2 & ->).
    specialize (IH _ _ H1). pose proof (reserved_step _ _ _ _ H2).
    destruct (permits_app es e) as [-> ->]. lia.
Qed.

Lemma run_capacity_const : forall c es s tr, exec (init c) es = Some (s, tr) -> cap s = c_cap c.
Proof.
  intros c es s tr. apply (exec_invariant (fun s _ => cap s = c_cap c)); [reflexivity|].
  intros s1 t e s' o IH Hs. rewrite (cap_const _ _ _ _ Hs). exact IH.
Qed.

Lemma closed_step : forall s e s' o,
  step s e = Some (s', o) -> In OClosed o \/ rx_open s = false -> rx_open s' = false.
Proof.
  intros s e s' o H K.
  destruct e; step_cases H; bool_hyps; phs; split_vars.
  all: destruct K as [K|K]; [try reflexivity|try exact K; try reflexivity; try congruence].
  all: try (in_obs K; discriminate K).
Qed.

Lemma run_open : forall c es s tr, exec (init c) es = Some (s, tr) ->
  (rx_open s = true <-> ~ In OClosed tr).
Proof.
  intros c es s tr H. split.
  - intros R K. enough (rx_open s = false) by congruence. revert K. clear R. revert H.
    apply (exec_invariant (fun s tr => In OClosed tr -> rx_open s = false)); [intros []|].
    intros s1 t e s' o IH Hs K. apply in_app_or in K.
    apply (closed_step _ _ _ _ Hs). destruct K as [K|K]; auto.
  - intro K. destruct (rx_open s) eqn:R; [reflexivity|]. destruct (K (run_closed _ _ _ _ H R)).
Qed.

Lemma room_iff : forall c es s tr, exec (init c) es = Some (s, tr) ->
  (has_room s = true <-> takes_one_more (c_cap c) (length (queue s)) es).
Proof.
  intros c es s tr H. unfold has_room, takes_one_more. rewrite (run_capacity_const _ _ _ _ H).
  pose proof (run_reserved _ _ _ _ H). destruct (c_cap c); [|tauto].
  rewrite Nat.ltb_lt. lia.
Qed.

Lemma if_can : forall {A : Type} (b : bool) (x : A) (P : Prop), (b = true <-> P) ->
  ((exists y, (if b then Some x else None) = Some y) <-> P).
Proof.
  intros A b x P H. rewrite <- H. destruct b; split; try intros [y K]; eauto; discriminate.
Qed.

Lemma can_pair : forall s e, can_happen s e <-> exists y, step s e = Some y.
Proof. intros s e. split; [intros (s' & o & K); eauto|intros [[s' o] K]; exists s', o; exact K]. Qed.

Lemma run_accepts_at : forall c es s tr, exec (init c) es = Some (s, tr) ->
  (forall is_ask, can_happen s (ESend false is_ask) <->
     0 < ext s /\ ~ In OClosed tr /\ takes_one_more (c_cap c) (length (queue s)) es)
  /\ (forall is_ask, can_happen s (ESend true is_ask) <->
     0 < ext s /\ ~ In OClosed tr /\ takes_one_more (c_cap c) (length (queue s)) es
     /\ user_code_runs s = true)
  /\ (can_happen s EStop <->
     0 < ext s /\ ~ In OClosed tr /\ takes_one_more (c_cap c) (length (queue s)) es)
  /\ (forall id r, can_happen s (ELinkSignal id r) <->
     0 < strong s /\ ~ In OClosed tr /\ takes_one_more (c_cap c) (length (queue s)) es)
  /\ (can_happen s EReserve <->
     ~ In OClosed tr /\ c_cap c <> None /\ takes_one_more (c_cap c) (length (queue s)) es).
Proof.
  intros c es s tr H. pose proof (run_open _ _ _ _ H) as O. pose proof (room_iff _ _ _ _ H) as R.
  pose proof (run_capacity_const _ _ _ _ H) as C.
  repeat split_ands. split; [intro a|split; [intro a|split; [|split; [intros id r|]]]].
  all: rewrite can_pair; cbn [step]; apply if_can;
    rewrite ?andb_true_iff, ?Nat.ltb_lt, ?O, ?R; cbn [negb orb]; try tauto.
  unfold is_bounded. rewrite C. destruct (c_cap c); split; intros K; split_ands;
    repeat split; auto; try discriminate; congruence.
Qed.

Lemma nothing_discarded_accepted : forall l,
  flat_map (fun o => match o with OAccept sg => [sg] | _ => [] end) (discard l) = [].
Proof. exact accepted_signals_discard. Qed.

Lemma waiting_step : forall s e s' o, step s e = Some (s', o) -> rx_open s' = true ->
  exists t, queue s ++ accepted_signals o = t ++ queue s'.
Proof.
  intros s e s' o H K.
  destruct e; step_cases H; bool_hyps; phs; split_vars; try discriminate K.
  all: repeat match goal with E : queue ?s = _ |- _ => rewrite E end.
  all: sig_simpl; rewrite ?flat_map_app, ?nothing_discarded_accepted; cbn; rewrite ?app_nil_r.
  all: try (exists []; reflexivity).
  all: try (eexists [_]; cbn; rewrite ?app_nil_r; reflexivity).
Qed.

(** The signals waiting are the last ones accepted. *)
Lemma run_waiting : forall c es s tr, exec (init c) es = Some (s, tr) ->
  (~ In OClosed tr -> exists taken, accepted_signals tr = taken ++ queue s)
  /\ (In OClosed tr -> queue s = []).
Proof.
  intros c es s tr H. rewrite <- (run_open _ _ _ _ H). split.
  - revert H. apply (exec_invariant (fun s tr => rx_open s = true ->
      exists taken, accepted_signals tr = taken ++ queue s)); [exists []; reflexivity|].
    intros s1 t e s' o IH Hs K.
    destruct (rx_open s1) eqn:R.
    + destruct (IH eq_refl) as [t1 E1]. destruct (waiting_step _ _ _ _ Hs K) as [t2 E2].
      exists (t1 ++ t2). rewrite accepted_signals_app, E1, <- !app_assoc, E2. reflexivity.
    + rewrite (closed_step _ _ _ _ Hs) in K by auto. discriminate K.
  - intro K. assert (R : rx_open s = false).
    { destruct (rx_open s) eqn:R; [|reflexivity]. apply (run_open _ _ _ _ H) in R. contradiction. }
    revert R. clear K. revert H.
    apply (exec_invariant (fun s tr => rx_open s = false -> queue s = [])); [discriminate|].
    intros s1 t e s' o IH Hs K.
    destruct (rx_open s1) eqn:R.
    + clear IH. destruct e; step_cases Hs; bool_hyps; phs; split_vars; try reflexivity; congruence.
    + specialize (IH eq_refl). clear K.
      destruct e; step_cases Hs; bool_hyps; phs; split_vars; try reflexivity; try assumption;
        try congruence.
Qed.

(** * When the user's code runs *)

Definition code_at (p : phase) : option user_code :=
  match p with
  | PStarting => Some UStart
  | PLoop (LHandle _ _ _ _) => Some UHandler
  | PLoop (LLink _ _) => Some ULink
  | PLoop (LPanic _) | PFailPanic _ => Some UPanic
  | PStop _ _ | PFailStop _ => Some UStop
  | _ => None
  end.

Lemma seen_discard : forall ms u, fold_left user_code_seen (discard ms) u = u.
Proof.
  induction ms as [|m ms IH]; intros u; [reflexivity|]. unfold discard in *. cbn. rewrite fold_left_app.
  unfold drop_reply. destruct (ask m); cbn; apply IH.
Qed.

Lemma code_step : forall s e s' o, step s e = Some (s', o) ->
  fold_left user_code_seen o (code_at (ph s)) = code_at (ph s').
Proof.
  intros s e s' o H. destruct e; step_cases H; phs; cbn; rewrite ?fold_left_app, ?seen_discard; cbn; try reflexivity.
  all: repeat match goal with
    | |- context [match ?pc with LEntry => _ | _ => _ end] => is_var pc; destruct pc
    | b : bool |- _ => destruct b
    end.
  all: cbn; repeat (rewrite ?fold_left_app, ?seen_discard; cbn); reflexivity.
Qed.

Lemma run_code : forall c es s tr, exec (init c) es = Some (s, tr) -> entered tr = code_at (ph s).
Proof.
  intros c es s tr. apply (exec_invariant (fun s tr => entered tr = code_at (ph s))); [reflexivity|].
  intros s1 t e s' o IH Hs. unfold entered in *. rewrite fold_left_app, IH. exact (code_step _ _ _ _ Hs).
Qed.

Lemma polled_step : forall s e s' o b, step s e = Some (s', o) ->
  (forall pc, ph s = PLoop pc -> polling s = b) -> (ph s = PInit \/ starting (ph s) = true -> b = false) ->
  (forall pc, ph s' = PLoop pc -> polling s' = match e with APoll => true | AYield => false | _ => b end)
  /\ (ph s' = PInit \/ starting (ph s') = true -> match e with APoll => true | AYield => false | _ => b end = false).
Proof.
  intros s e s' o b H P I. destruct e; step_cases H; phs; cbn in *.
  all: split; [intros ?pc Q; try discriminate Q|intros Q].
  all: try (apply I; exact Q).
  all: try (destruct Q as [Q|Q]; discriminate Q).
  all: try reflexivity.
  all: try (eapply P; try reflexivity; eassumption).
  all: try (symmetry; apply I; right; reflexivity).
  all: try (apply I; right; reflexivity).
  all: match goal with E : polling _ = _ |- _ => rewrite E end; eapply P; reflexivity.
Qed.

Lemma run_polled : forall c es s tr, exec (init c) es = Some (s, tr) ->
  (forall pc, ph s = PLoop pc -> polling s = polled es)
  /\ (ph s = PInit \/ starting (ph s) = true -> polled es = false).
Proof.
  intros c es. induction es as [|e es IH] using rev_ind; intros s tr H.
  - cbn in H. inversion H; subst. split; [intros pc Q; discriminate Q|reflexivity].
  - apply exec_snoc in H. destruct H as (s1 & o1 & o2 & H1 & H2 & ->).
    destruct (IH _ _ H1) as (P & I). unfold polled in *. rewrite fold_left_app. cbn [fold_left].
    exact (polled_step _ _ _ _ _ H2 P I).
Qed.

Lemma run_user_code : forall c es s tr, exec (init c) es = Some (s, tr) ->
  (user_code_runs s = true <-> runs_now tr es).
Proof.
  intros c es s tr H. destruct (run_polled _ _ _ _ H) as (P & _).
  pose proof (si_known _ _ (startup_exec _ _ _ _ H)) as K. unfold start_known in K.
  unfold runs_now, user_code_runs. rewrite (run_code _ _ _ _ H).
  destruct (ph s) as [| | | | | | | |pc| | | | | | | |]; cbn [code_at]; try (split; [discriminate|tauto]); try tauto.
  specialize (P _ eq_refl). rewrite <- P. destruct pc; cbn [code_at]; try (split; [discriminate|tauto]); try tauto.
  split; [auto|]. intros [Q|(g & Q)]; [exact Q|]. destruct K as (_ & K). destruct (K _ Q).
Qed.

Lemma run_accepts : forall c es s tr, exec (init c) es = Some (s, tr) ->
  (forall is_ask, can_happen s (ESend false is_ask) <->
     0 < ext s /\ ~ In OClosed tr /\ takes_one_more (c_cap c) (length (queue s)) es)
  /\ (forall is_ask, can_happen s (ESend true is_ask) <->
     0 < ext s /\ ~ In OClosed tr /\ takes_one_more (c_cap c) (length (queue s)) es
     /\ runs_now tr es)
  /\ (can_happen s EStop <->
     0 < ext s /\ ~ In OClosed tr /\ takes_one_more (c_cap c) (length (queue s)) es)
  /\ (forall id r, can_happen s (ELinkSignal id r) <->
     0 < strong s /\ ~ In OClosed tr /\ takes_one_more (c_cap c) (length (queue s)) es)
  /\ (can_happen s EReserve <->
     ~ In OClosed tr /\ c_cap c <> None /\ takes_one_more (c_cap c) (length (queue s)) es).
Proof.
  intros c es s tr H. destruct (run_accepts_at _ _ _ _ H) as (A & B & R).
  split; [exact A|]. split; [|exact R]. intros a. rewrite (B a), (run_user_code _ _ _ _ H). reflexivity.
Qed.
