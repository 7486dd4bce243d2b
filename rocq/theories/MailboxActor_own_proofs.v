(** The actor's own steps as calls on its mailbox. *)
From Coq Require Import List Bool PeanoNat Lia.
Import ListNotations.
From Verif Require Import Lifecycle Lifecycle_spec Lifecycle_proofs MailboxActor_spec MailboxActor_proofs.
From Verif Require Mailbox Mailbox_spec Mailbox_proofs.

(** What a step of the actor does to what its mailbox sees. *)
Inductive effect (s : actor) (e : event) (s' : actor) : Prop :=
| ef_plain : queue s' = queue s -> rx_open s' = rx_open s -> ext s' = ext s -> inner s' <= inner s ->
    own_kind s e = KDrops -> effect s e s'
| ef_more : queue s' = queue s -> rx_open s' = rx_open s -> ext s <= ext s' -> ext s' + inner s' <= S (ext s + inner s) ->
    ext s + inner s <= ext s' + inner s' -> 0 < ext s \/ 0 < inner s ->
    own_kind s e = KClones -> effect s e s'
| ef_take : forall sg, queue s = sg :: queue s' -> rx_open s' = rx_open s -> ext s' = ext s ->
    inner s' <= inner s + length (msgs_of [sg]) -> own_kind s e = KTakes -> effect s e s'
| ef_over : queue s = [] -> strong s = 0 -> queue s' = [] -> rx_open s' = rx_open s -> ext s' = ext s -> inner s' <= inner s ->
    own_kind s e = KTakes -> effect s e s'
| ef_put : rx_open s = true -> has_room s = true -> queue s' = queue s ++ [SStartup] -> rx_open s' = rx_open s -> ext s' = ext s -> inner s' = inner s ->
    0 < inner s -> own_kind s e = KStartup -> effect s e s'
| ef_full : rx_open s = true -> has_room s = false -> queue s' = queue s -> rx_open s' = rx_open s -> ext s' = ext s -> inner s' = inner s ->
    0 < inner s -> own_kind s e = KStartup -> effect s e s'
| ef_close : rx_open s = true -> rx_open s' = false -> queue s' = [] -> ext s' = ext s -> inner s' <= inner s ->
    own_kind s e = KDrops -> effect s e s'.

Ltac settle := try reflexivity; try assumption; unfold inner, own_kind in *; simp_fields;
    repeat match goal with E : ph _ = _ |- _ => rewrite E in * end;
    repeat match goal with E : buf _ = _ |- _ => rewrite E in * end;
    rewrite ?app_length; try assumption;
    repeat match goal with |- context [threaded ?s] => destruct (threaded s) end; cbn; try reflexivity; try assumption;
    repeat match goal with |- context [if ?b then _ else _] => destruct b end; cbn; lia.

Lemma own_effect : forall s e s' o, wf s -> outside_event e = false -> step s e = Some (s', o) -> effect s e s'.
Proof.
  intros s e s' o W O H. pose proof (wc_rx _ (wf_c _ W)) as RX.
  destruct e; try discriminate O; clear O.
  all: step_cases H.
  all: bool_hyps.
  all: try (apply ef_plain; settle).
  all: try (apply ef_more; settle).
  all: try (apply ef_close; settle).
  all: try (eapply ef_take; [eassumption|..]; settle).
  all: try (apply ef_over; settle).
  all: try (apply ef_put; settle).
  all: match goal with E : _ && _ = false |- _ =>
    repeat match goal with E' : ph _ = _ |- _ => rewrite E' in RX end; cbn in RX; rewrite RX in E; cbn in E end.
  all: apply ef_full; settle.
Qed.

Lemma own_reserved : forall s e s' o, outside_event e = false -> step s e = Some (s', o) -> reserved s' = reserved s.
Proof.
  intros s e s' o O H. destruct e; try discriminate O; clear O; step_cases H; reflexivity.
Qed.

(** * Dropping what is left over *)

Record nearly (s : actor) (m : Mailbox.mailbox) (k : nat) : Prop := mk_nearly {
  ne_queue : Forall2 same_signal (queue s) (Mailbox.queue m);
  ne_strong : strong s + k = Mailbox.strong m;
  ne_open : rx_open s = Mailbox.receiver m;
  ne_closed : Mailbox.rx_closed m = negb (Mailbox.receiver m);
  ne_reserved : reserved s = placed m;
  ne_lent : waiting m <> [] -> lent m < ext s;
  ne_sum : Mailbox.strong m = Mailbox.loose m + Mailbox.held (Mailbox.queue m) + lent m
}.

Lemma drop_rest : forall k s m, nearly s m k -> exists l m', calls m l m' /\ only_drops l /\ mirrors s m'.
Proof.
  induction k as [|k IH]; intros s m N.
  - exists [], m. split; [constructor|]. split; [constructor|]. destruct N. constructor; auto. lia.
  - assert (L : Mailbox.loose m + lent m = ext s + inner s + S k).
    { destruct N. rewrite strong_inner, (same_held _ _ ne_queue0) in ne_strong0. lia. }
    assert (D : Mailbox.step Mailbox.ODrop m = Some (Mailbox.RDone,
      Mailbox.with_counts (Mailbox.strong m - 1) (Mailbox.loose m - 1) (Mailbox.weak m) m)).
    { cbn [Mailbox.step]. destruct N. unfold lent, waiting in *.
      destruct (Mailbox.waits_of (Mailbox.sem m)) as [|w ws] eqn:W.
      - cbn in L. destruct (Mailbox.loose m) as [|n]; [lia|]. cbn. rewrite Nat.sub_0_r. destruct n; reflexivity.
      - specialize (ne_lent0 ltac:(discriminate)). destruct (Mailbox.loose m) as [|[|n]]; [lia|lia|]. reflexivity. }
    destruct (IH s (Mailbox.with_counts (Mailbox.strong m - 1) (Mailbox.loose m - 1) (Mailbox.weak m) m)) as (l & m' & C & O & M).
    { destruct N. constructor; unfold placed, lent, waiting in *; cbn; try assumption; try lia.
      assert (0 < Mailbox.loose m).
      { destruct (Mailbox.waits_of (Mailbox.sem m)) as [|w ws] eqn:W; [cbn in L; lia|].
        specialize (ne_lent0 ltac:(discriminate)). lia. }
      lia. }
    exists ((Mailbox.ODrop, Mailbox.RDone) :: l), m'. split; [econstructor; eauto|]. split; [constructor; auto|exact M].
Qed.

Lemma lent_ext : forall s m, mirrors s m -> lent m <= ext s.
Proof.
  intros s m R. pose proof (mi_lent _ _ R) as L. unfold lent, waiting in *.
  destruct (Mailbox.waits_of (Mailbox.sem m)); [cbn; lia|]. specialize (L ltac:(discriminate)). lia.
Qed.

Lemma some_loose : forall k s m, shape k m -> mirrors s m -> 0 < ext s \/ 0 < inner s -> 0 < Mailbox.loose m.
Proof.
  intros k s m S R P. pose proof (loose_eq _ _ _ S R) as L. pose proof (mi_lent _ _ R) as LE.
  unfold lent, waiting in *. destruct (Mailbox.waits_of (Mailbox.sem m)); [cbn in L; lia|].
  specialize (LE ltac:(discriminate)). lia.
Qed.

(** * Receiving *)

Lemma shift_nearly : forall s m x q sg q' s', mirrors s m -> shape (kind_of (cap s)) m ->
  rx_open s = true -> queue s = sg :: q' -> Mailbox.queue m = x :: q ->
  queue s' = q' -> rx_open s' = rx_open s -> ext s' = ext s -> cap s' = cap s -> reserved s' = reserved s ->
  inner s' <= inner s + length (msgs_of [sg]) ->
  exists s'' k, (s'' = s' \/ step s' EReserve = Some (s'', [])) /\ nearly s'' (Mailbox.shift x q m) k.
Proof.
  intros s m x q sg q' s' R S O Q QM Q' O' E' C' R' I.
  pose proof (sh_strong _ _ S) as ST. destruct R. rewrite Q, QM in mi_queue. inversion mi_queue as [|? ? ? ? SX SQ]; subst.
  assert (RC : Mailbox.receiver m = true) by congruence.
  rewrite RC in mi_closed. cbn in mi_closed.
  assert (HX : length (msgs_of [sg]) = Mailbox.holds x) by (destruct sg, x; cbn in *; try contradiction; reflexivity).
  assert (ADD : exists s'', (s'' = s' \/ step s' EReserve = Some (s'', []))
    /\ reserved s'' = placed (Mailbox.shift x q m) /\ queue s'' = queue s' /\ rx_open s'' = rx_open s' /\ ext s'' = ext s'
    /\ inner s'' = inner s' /\ lent (Mailbox.shift x q m) = lent m
    /\ (waiting (Mailbox.shift x q m) <> [] -> waiting m <> [])).
  { unfold placed, lent, waiting in *. pose proof (sh_sem _ _ S) as X. unfold Mailbox.shift. cbn [Mailbox.sem].
    destruct (cap s) as [c|] eqn:CP; cbn [kind_of] in X.
    - destruct X as (f & ws & X & SUM & ND & LINE). rewrite mi_closed in X. rewrite X in *. cbn [Mailbox.add_permit Mailbox.waits_of] in *.
      destruct (Mailbox.grant ws) as [ws'|] eqn:G.
      + destruct (LINE mi_closed) as (IL & _).
        destruct (Mailbox_proofs.grant_some _ _ G IL) as (_ & MI & GG & _). unfold Mailbox_proofs.granted in *.
        exists (set_reserved (Datatypes.S (reserved s')) s'). split; [right|].
        * cbn [step]. unfold has_room, is_bounded. rewrite O', O, C'.
          rewrite R', mi_reserved, (same_length _ _ SQ). rewrite QM in SUM. cbn in SUM.
          destruct (Nat.ltb_spec (length q + length (filter Mailbox.w_granted ws)) c); [reflexivity|lia].
        * cbn. rewrite R', mi_reserved, GG. repeat split; try reflexivity.
          -- f_equal. apply (grant_held _ _ G).
          -- intros _ ->. discriminate G.
      + exists s'. split; [now left|]. cbn. rewrite R', mi_reserved. repeat split; auto.
    - rewrite X in *. cbn in *. exists s'. split; [now left|]. repeat split; auto; congruence. }
  destruct ADD as (s'' & ST' & PL & Q2 & O2 & E2 & I2 & LE & WA).
  exists s'', (inner s + length (msgs_of [sg]) - inner s'). split; [exact ST'|].
  rewrite strong_inner in mi_strong. rewrite Q in mi_strong.
  assert (MQ : length (msgs_of (sg :: queue s')) = length (msgs_of [sg]) + length (msgs_of (queue s'))) by (destruct sg; reflexivity).
  constructor.
  - rewrite Q2. exact SQ.
  - rewrite strong_inner, Q2, E2, I2, E'. cbn [Mailbox.strong Mailbox.shift]. lia.
  - rewrite O2, O'. cbn. congruence.
  - cbn. rewrite mi_closed, RC. reflexivity.
  - exact PL.
  - intros W. rewrite LE, E2, E'. auto.
  - rewrite LE. cbn. rewrite QM in ST. cbn in ST. lia.
Qed.

(** * The receiver dropped *)

Lemma close_nearly : forall s m s', mirrors s m -> shape (kind_of (cap s)) m -> rx_open s = true ->
  queue s' = [] -> rx_open s' = false -> ext s' = ext s -> reserved s' = reserved s -> inner s' <= inner s ->
  exists k, nearly s' (Mailbox.drop_receiver m) k.
Proof.
  intros s m s' R S O Q' O' E' R' I.
  pose proof (sh_strong _ _ S) as ST. destruct R.
  assert (W : waiting (Mailbox.drop_receiver m) = waiting m).
  { unfold waiting, Mailbox.drop_receiver, Mailbox.close. cbn. destruct (Mailbox.sem m) as [b f c ws|n c]; cbn.
    - rewrite Mailbox_proofs.add_permits_closed. reflexivity.
    - rewrite Mailbox_proofs.add_permits_unbounded. reflexivity. }
  exists (inner s - inner s'). rewrite strong_inner, (same_held _ _ mi_queue) in mi_strong. constructor.
  - rewrite Q'. constructor.
  - rewrite strong_inner, Q', E'. cbn. lia.
  - rewrite O'. reflexivity.
  - reflexivity.
  - unfold placed. rewrite W, R', mi_reserved. reflexivity.
  - unfold lent. rewrite W, E'. exact mi_lent.
  - unfold lent. rewrite W. unfold lent in ST. cbn. lia.
Qed.

Lemma simulate_own : forall s m h e s' o,
  Mailbox.used (kind_of (cap s)) h m -> wf s -> mirrors s m -> outside_event e = false ->
  step s e = Some (s', o) ->
  exists l m' s'', calls m l m' /\ own_calls s e s' l
    /\ (s'' = s' \/ own_kind s e = KTakes /\ step s' EReserve = Some (s'', [])) /\ mirrors s'' m'.
Proof.
  intros s m h e s' o U W R O T. pose proof (used_shape _ _ _ U) as S. clear U h.
  pose proof (own_effect _ _ _ _ W O T) as E. pose proof (own_reserved _ _ _ _ O T) as RV.
  pose proof (cap_const _ _ _ _ T) as CP. pose proof (sh_strong _ _ S) as ST.
  unfold own_calls.
  destruct E as [Q RX EX IN K|Q RX EX UP LO POS K|sg Q RX EX IN K|Q Z Q' RX EX IN K|OP RM Q RX EX IN POS K|OP RM Q RX EX IN POS K|OP RX Q EX IN K];
    rewrite K.
  - (* references dropped *)
    rewrite RX. replace (rx_open s && negb (rx_open s)) with false by (destruct (rx_open s); reflexivity).
    destruct (drop_rest (inner s - inner s') s' m) as (l & m' & C & D & M).
    { destruct R. constructor; try congruence; try (rewrite Q; assumption).
      - rewrite strong_inner, Q, EX. rewrite strong_inner in mi_strong. lia.
      - rewrite EX. assumption. }
    exists l, m', s'. auto.
  - (* references made *)
    destruct (Nat.eq_dec (ext s' + inner s') (ext s + inner s)) as [SAME|MORE].
    + exists [], m, s'. split; [constructor|]. split; [split; [constructor|cbn; lia]|]. split; [auto|].
      destruct R. constructor; try congruence; try (rewrite Q; assumption).
      * rewrite strong_inner, Q. rewrite strong_inner in mi_strong. lia.
      * intros WT. specialize (mi_lent WT). lia.
    + pose proof (some_loose _ _ _ S R POS) as L.
      exists [(Mailbox.OClone, Mailbox.RDone)], (Mailbox.with_counts (Datatypes.S (Mailbox.strong m)) (Datatypes.S (Mailbox.loose m)) (Mailbox.weak m) m), s'.
      split. { econstructor; [|constructor]. cbn [Mailbox.step]. unfold Mailbox.has.
        destruct (Nat.ltb_spec 0 (Mailbox.loose m)); [reflexivity|lia]. }
      split; [split; [repeat constructor|cbn; lia]|]. split; [auto|].
      destruct R. constructor; unfold placed, lent, waiting in *; cbn [Mailbox.with_counts Mailbox.queue Mailbox.strong Mailbox.receiver Mailbox.rx_closed Mailbox.sem]; try congruence; try (rewrite Q; assumption).
      * rewrite strong_inner, Q. rewrite strong_inner in mi_strong. lia.
      * intros WT. specialize (mi_lent WT). lia.
  - (* a signal taken *)
    rewrite Q. pose proof (mi_queue _ _ R) as F. rewrite Q in F. inversion F as [|? x ? q SX SQ A B]; subst. symmetry in B.
    assert (OP : rx_open s = true).
    { rewrite (mi_open _ _ R). destruct (Mailbox.receiver m) eqn:RC; [reflexivity|].
      rewrite (sh_gone _ _ S RC) in B. discriminate. }
    destruct (shift_nearly s m x q sg (queue s') s') as (s'' & k & RS & N); auto.
    destruct (drop_rest _ _ _ N) as (l & m' & C & D & M).
    exists ((Mailbox.ORecv, Mailbox.RGot x) :: l), m', s''.
    split. { econstructor; [|exact C]. cbn [Mailbox.step]. rewrite <- (mi_open _ _ R), OP. unfold Mailbox.recv. rewrite B. reflexivity. }
    split. { exists (Mailbox.RGot x), l. repeat split; auto. exists x. auto. }
    split; [|exact M]. destruct RS; auto.
  - (* nobody left *)
    rewrite Q. pose proof (mi_queue _ _ R) as F. rewrite Q in F. inversion F as [A B|]. symmetry in B.
    rewrite (mi_strong _ _ R) in Z. 
    assert (WT : waiting m = []).
    { destruct (waiting m) eqn:WT; [reflexivity|]. pose proof (sh_borrow _ _ S) as BO. rewrite WT in BO. specialize (BO ltac:(discriminate)). lia. }
    assert (OP : Mailbox.receiver m = true).
    { rewrite <- (mi_open _ _ R). rewrite (wc_rx _ (wf_c _ W)). unfold own_kind in K.
      destruct e; try discriminate K. destruct (ph s); try discriminate K. reflexivity. }
    assert (ID : Mailbox.sem_idle (Mailbox.sem m) = true).
    { pose proof (sh_sem _ _ S) as X. unfold waiting in WT. destruct (kind_of (cap s)).
      - destruct X as (f & ws & X & SUM & _). rewrite X in *. cbn in *. subst ws. rewrite B in SUM. cbn in SUM.
        apply Nat.eqb_eq. lia.
      - rewrite X, B. reflexivity. }
    destruct (drop_rest (inner s - inner s') s' m) as (l & m' & C & D & M).
    { destruct R. constructor; try congruence; try (rewrite Q', B; constructor).
      - rewrite strong_inner, Q', EX. rewrite strong_inner, Q in mi_strong. cbn in *. lia. }
    exists ((Mailbox.ORecv, Mailbox.ROver) :: l), m', s'.
    split. { econstructor; [|exact C]. cbn [Mailbox.step]. rewrite OP. unfold Mailbox.recv. rewrite B, Z, ID. reflexivity. }
    split. { exists Mailbox.ROver, l. auto. }
    auto.
  - (* the startup signal *)
    rewrite RM. pose proof (some_loose _ _ _ S R (or_intror POS)) as L.
    pose proof (room_free _ _ S R) as FR. rewrite RM in FR.
    assert (CL : Mailbox.rx_closed m = false) by (rewrite (mi_closed _ _ R), <- (mi_open _ _ R), OP; reflexivity).
    pose proof (sh_sem _ _ S) as X.
    assert (P : exists m', Mailbox.step (Mailbox.OTrySend Mailbox.StartupFinished) m = Some (Mailbox.RDone, m')
      /\ Mailbox.queue m' = Mailbox.queue m ++ [Mailbox.StartupFinished] /\ Mailbox.strong m' = Mailbox.strong m
      /\ Mailbox.receiver m' = Mailbox.receiver m /\ Mailbox.rx_closed m' = Mailbox.rx_closed m /\ waiting m' = waiting m).
    { cbn [Mailbox.step Mailbox.holds]. destruct (Nat.ltb_spec 0 (Mailbox.loose m)); [|lia]. unfold Mailbox.try_send, waiting.
      destruct (kind_of (cap s)).
      - destruct X as (f & ws & X & _). rewrite X, CL in *. destruct f as [|f]; [discriminate|].
        eexists. split; [reflexivity|]. cbn. auto.
      - rewrite X, CL. eexists. split; [reflexivity|]. cbn. auto. }
    destruct P as (m' & P & PQ & PS & PR & PC & PW).
    exists [(Mailbox.OTrySend Mailbox.StartupFinished, Mailbox.RDone)], m', s'.
    split; [econstructor; [exact P|constructor]|]. split; [reflexivity|]. split; [auto|].
    destruct R. unfold placed, lent in *. constructor; unfold placed, lent; rewrite ?PW; try congruence.
    + rewrite Q, PQ. apply Forall2_app; [assumption|]. repeat constructor.
    + rewrite PS, <- mi_strong, !strong_inner, Q, EX, IN, msgs_app, app_length. cbn. lia.
    + rewrite EX. exact mi_lent.
  - rewrite RM. pose proof (some_loose _ _ _ S R (or_intror POS)) as L.
    pose proof (room_free _ _ S R) as FR. rewrite RM in FR.
    assert (CL : Mailbox.rx_closed m = false) by (rewrite (mi_closed _ _ R), <- (mi_open _ _ R), OP; reflexivity).
    pose proof (sh_sem _ _ S) as X.
    exists [(Mailbox.OTrySend Mailbox.StartupFinished, Mailbox.RFull Mailbox.StartupFinished)], m, s'.
    split. { econstructor; [|constructor]. cbn [Mailbox.step Mailbox.holds].
      destruct (Nat.ltb_spec 0 (Mailbox.loose m)); [|lia]. unfold Mailbox.try_send.
      destruct (kind_of (cap s)).
      - destruct X as (f & ws & X & _). rewrite X, CL in *. destruct f as [|f]; [reflexivity|discriminate].
      - rewrite X in FR. discriminate. }
    split; [reflexivity|]. split; [auto|].
    destruct R. constructor; try congruence; try (rewrite Q; assumption).
    + rewrite <- mi_strong, !strong_inner, Q, EX, IN. reflexivity.
    + rewrite EX. exact mi_lent.
  - (* the receiver dropped *)
    rewrite OP, RX. cbn [andb negb].
    destruct (close_nearly s m s') as (k & N); auto.
    destruct (drop_rest _ _ _ N) as (l & m' & C & D & M).
    exists ((Mailbox.ODropReceiver, Mailbox.RDropped (Mailbox.queue m)) :: l), m', s'.
    split. { econstructor; [|exact C]. cbn [Mailbox.step]. rewrite <- (mi_open _ _ R), OP. reflexivity. }
    split. { exists (Mailbox.queue m), l. split; [reflexivity|]. split; [exact D|]. exact (mi_queue _ _ R). }
    auto.
Qed.

(** * Nothing to receive *)

Lemma simulate_pending : forall s m h,
  Mailbox.used (kind_of (cap s)) h m -> wf s -> mirrors s m ->
  ph s = PLoop LRecv -> polling s = true ->
  (step s ARecv = None <-> Mailbox.step Mailbox.ORecv m = Some (Mailbox.RPending, m)).
Proof.
  intros s m h U W R P L. cbn [step Mailbox.step]. rewrite P, L.
  pose proof (wc_rx _ (wf_c _ W)) as RX. rewrite P in RX. cbn in RX.
  rewrite <- (mi_open _ _ R), RX. unfold Mailbox.recv.
  pose proof (mi_queue _ _ R) as F. rewrite (mi_closed _ _ R), <- (mi_open _ _ R), RX. rewrite (mi_strong _ _ R).
  inversion F; cbn [negb andb].
  - destruct (Nat.eqb_spec (Mailbox.strong m) 0).
    + destruct (Mailbox.sem_idle _); split; discriminate.
    + split; reflexivity.
  - split; discriminate.
Qed.

(** * The start *)

Lemma clones_up : forall n m, 0 < Mailbox.loose m -> exists l, only_clones l
  /\ calls m l (Mailbox.with_counts (n + Mailbox.strong m) (n + Mailbox.loose m) (Mailbox.weak m) m).
Proof.
  induction n as [|n IH]; intros m L.
  - exists []. split; [constructor|]. destruct m. constructor.
  - destruct (IH (Mailbox.with_counts (S (Mailbox.strong m)) (S (Mailbox.loose m)) (Mailbox.weak m) m)) as (l & O & C); [cbn; lia|].
    cbn [Mailbox.with_counts Mailbox.strong Mailbox.loose Mailbox.weak] in C.
    exists ((Mailbox.OClone, Mailbox.RDone) :: l). split; [constructor; auto|].
    econstructor.
    + cbn [Mailbox.step]. unfold Mailbox.has. destruct (Nat.ltb_spec 0 (Mailbox.loose m)); [reflexivity|lia].
    + replace (S n + Mailbox.strong m) with (n + S (Mailbox.strong m)) by lia.
      replace (S n + Mailbox.loose m) with (n + S (Mailbox.loose m)) by lia. exact C.
Qed.

Lemma simulate_init : forall c, c_cap c <> Some 0 ->
  exists m l m', Mailbox.create (kind_of (c_cap c)) = Some m /\ calls m l m' /\ only_clones l /\ mirrors (init c) m'.
Proof.
  intros c N.
  assert (M : exists m, Mailbox.create (kind_of (c_cap c)) = Some m /\ Mailbox.queue m = [] /\ Mailbox.strong m = 1
    /\ Mailbox.loose m = 1 /\ Mailbox.receiver m = true /\ Mailbox.rx_closed m = false /\ waiting m = []).
  { destruct (c_cap c) as [[|n]|]; [congruence| |]; eexists; (split; [reflexivity|]); repeat split. }
  destruct M as (m & C & Q & ST & LO & RC & CL & WT).
  destruct (clones_up (pred (strong (init c))) m) as (l & O & K); [lia|].
  exists m, l. eexists. split; [exact C|]. split; [exact K|]. split; [exact O|].
  assert (P : 0 < strong (init c)) by (unfold strong; cbn; lia).
  constructor; unfold placed, lent, waiting in *; cbn [Mailbox.with_counts Mailbox.queue Mailbox.strong Mailbox.receiver Mailbox.rx_closed Mailbox.sem];
    rewrite ?Q, ?ST, ?RC, ?CL, ?WT; try reflexivity; try congruence.
  - constructor.
  - lia.
Qed.

Lemma simulate_own_run : forall c es s tr m h e s' o, exec (init c) es = Some (s, tr) ->
  Mailbox.used (kind_of (cap s)) h m -> mirrors s m -> outside_event e = false ->
  step s e = Some (s', o) ->
  exists l m' s'', calls m l m' /\ own_calls s e s' l
    /\ (s'' = s' \/ own_kind s e = KTakes /\ step s' EReserve = Some (s'', [])) /\ mirrors s'' m'.
Proof. intros. eapply simulate_own; eauto. eapply wf_exec; eauto. apply wf_init. Qed.

Lemma simulate_pending_run : forall c es s tr m h, exec (init c) es = Some (s, tr) ->
  Mailbox.used (kind_of (cap s)) h m -> mirrors s m ->
  ph s = PLoop LRecv -> polling s = true ->
  (step s ARecv = None <-> Mailbox.step Mailbox.ORecv m = Some (Mailbox.RPending, m)).
Proof. intros. eapply simulate_pending; eauto. eapply wf_exec; eauto. apply wf_init. Qed.
