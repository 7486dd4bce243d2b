(** Proofs that a run with the default [next] is a run of the task (C65). *)
From Coq Require Import List Bool PeanoNat Lia.
From Verif Require Import Lifecycle Loop LoopDefault_spec.
From Verif Require Loop_spec.
Import ListNotations.

Definition named (got : list (option signal)) (k : nat) (m : msg) : Prop :=
  nth_error got k = Some (Some (SMsg m)).

Lemma named_app : forall got x k m, named got k m -> named (got ++ x) k m.
Proof.
  intros got x k m N. unfold named in *. rewrite nth_error_app1; [exact N|].
  apply nth_error_Some. congruence.
Qed.
Lemma all_named_app : forall got x ks ms, Forall2 (named got) ks ms -> Forall2 (named (got ++ x)) ks ms.
Proof. intros got x ks ms F. induction F; constructor; [now apply named_app|assumption]. Qed.

(** Where the task is when the actor is at [p]. *)
Definition sits (got : list (option signal)) (p : phase) (q : place) : Prop :=
  match p with
  | PInit | PStarting | PStarted _ | PSignal _ | PDowngrade _ _ => q = QStart
  | PFailPanic f => q = QPanic f true
  | PFailStop r => q = QStop r false
  | PLoop LEntry => q = QEntry
  | PLoop LRecv => q = QNext
  | PLoop (LHandle m _ rest k) =>
      exists km ks, q = QHandle km ks (match k with ToStop => true | _ => false end) /\ k <> ToEntry /\
        named got km m /\ Forall2 (named got) ks rest
  | PLoop (LLink id r) => q = QLink id r
  | PLoop (LLinkRm _ res) => q = QForget res
  | PLoop (LPanic f) => q = QPanic f false
  | PDrainLinks r | PStop r _ => q = QStop r true
  | PFailSet _ _ | PNotify _ _ _ | PRegRemove _ _ | PSet _ _ | PClosing _ | PDone _ | PCrashed => q = QOver
  end.

(** What the task has shown and the actor has not yet, and the other way round. *)
Definition ahead (p : phase) : list mark :=
  match p with
  | PInit => [MStart]
  | PDrainLinks r => [MStop r]
  | PFailSet r _ | PNotify r _ _ | PRegRemove r _ | PSet r _ | PClosing r => [MReturned r]
  | _ => []
  end.
Definition behind (p : phase) : list mark :=
  match p with
  | PStarted res | PSignal res | PDowngrade res _ => [MStarted res]
  | _ => []
  end.

Definition early (p : phase) : Prop :=
  match p with
  | PInit | PStarting | PStarted _ | PSignal _ | PDowngrade _ _ | PLoop LEntry => True
  | _ => False
  end.

(** What of the actor's state the step needs. *)
Record well (s : actor) : Prop := {
  w_open : ended (ph s) = false -> rx_open s = true;
  w_shut : ended (ph s) = true -> rx_open s = false;
  w_start : match ph s with PInit | PStarting | PStarted _ => startup_err s = None | _ => True end;
  w_stop : match ph s with PClosing _ | PDone _ | PCrashed => True | _ => shutdown_err s = None end;
  w_early : early (ph s) -> buf s = [] /\ finished s = false }.

Definition same_finish (s : actor) (t : task) : Prop :=
  match ph s with
  | PLoop LEntry => t_finished t = true
  | PInit | PStarting | PStarted _ | PSignal _ | PDowngrade _ _ | PLoop _ => t_finished t = finished s
  | _ => True
  end.

Record sim (s : actor) (tr : list obs) (got : list (option signal)) (t : task) (h : list sight) : Prop := {
  m_sits : sits got (ph s) (t_place t);
  m_buf : Forall2 (named got) (t_buffer t) (buf s);
  m_fin : same_finish s t;
  m_count : t_count t = length got;
  m_gave : Loop_spec.gaves h = map answer got;
  m_marks : forall x, task_marks (got ++ x) h ++ behind (ph s) = life_marks tr ++ ahead (ph s);
  m_mail : exists rest, accepted tr = signals got ++ rest /\ (rx_open s = true -> rest = queue s) }.

Lemma marks_app : forall got a b, task_marks got (a ++ b) = task_marks got a ++ task_marks got b.
Proof. intros. apply flat_map_app. Qed.
Lemma life_app : forall a b, life_marks (a ++ b) = life_marks a ++ life_marks b.
Proof. intros. apply flat_map_app. Qed.
Lemma accepted_app : forall a b, accepted (a ++ b) = accepted a ++ accepted b.
Proof. intros. apply flat_map_app. Qed.
Lemma signals_app : forall a b, signals (a ++ b) = signals a ++ signals b.
Proof. intros. apply flat_map_app. Qed.
Lemma gaves_app : forall a b, Loop_spec.gaves (a ++ b) = Loop_spec.gaves a ++ Loop_spec.gaves b.
Proof. intros. apply flat_map_app. Qed.

Lemma marks_dropped : forall got ks, task_marks got (map Dropped ks) = [].
Proof. induction ks; [reflexivity|exact IHks]. Qed.
Lemma gaves_dropped : forall ks, Loop_spec.gaves (map Dropped ks) = [].
Proof. induction ks; [reflexivity|exact IHks]. Qed.
Lemma life_discard : forall ms, life_marks (discard ms) = [].
Proof.
  induction ms as [|m ms IH]; [reflexivity|]. unfold discard in *. cbn. rewrite life_app, IH.
  unfold drop_reply. destruct (ask m); reflexivity.
Qed.
Lemma accepted_discard : forall ms, accepted (discard ms) = [].
Proof.
  induction ms as [|m ms IH]; [reflexivity|]. unfold discard in *. cbn. rewrite accepted_app, IH.
  unfold drop_reply. destruct (ask m); reflexivity.
Qed.

(** One step of the actor and the moves of the task that go with it. *)
Lemma sim_go : forall s s' tr o got g t t' h hh,
  sim s tr got t h ->
  sits (got ++ g) (ph s') (t_place t') ->
  Forall2 (named (got ++ g)) (t_buffer t') (buf s') ->
  same_finish s' t' ->
  t_count t' = t_count t + length g ->
  Loop_spec.gaves hh = map answer g ->
  (forall x,
     (behind (ph s) = [] /\
      ahead (ph s) ++ task_marks ((got ++ g) ++ x) hh ++ behind (ph s') = life_marks o ++ ahead (ph s')) \/
     (ahead (ph s) = [] /\
      task_marks ((got ++ g) ++ x) hh ++ behind (ph s') = behind (ph s) ++ life_marks o ++ ahead (ph s'))) ->
  (rx_open s' = false /\ g = [] /\ accepted o = []) \/
  (rx_open s = true /\ signals g ++ queue s' = queue s ++ accepted o) ->
  sim s' (tr ++ o) (got ++ g) t' (h ++ hh).
Proof.
  intros s s' tr o got g t t' h hh S A B C D E F M. destruct S as [S1 S2 S3 S4 S5 S6 S7].
  constructor; try assumption.
  - rewrite app_length. lia.
  - rewrite gaves_app, map_app, S5, E. reflexivity.
  - intros x. rewrite marks_app, life_app. specialize (S6 (g ++ x)). rewrite app_assoc in S6.
    specialize (F x). set (hm := task_marks ((got ++ g) ++ x) hh) in *. clearbody hm.
    set (tm := task_marks ((got ++ g) ++ x) h) in *. clearbody tm.
    destruct F as [[b e] | [a e]].
    + rewrite b, app_nil_r in S6. rewrite S6, <- !app_assoc. f_equal. rewrite <- e. reflexivity.
    + rewrite a, app_nil_r in S6. rewrite <- S6, <- !app_assoc. f_equal. exact e.
  - destruct S7 as (rest & R1 & R2). rewrite accepted_app, signals_app, R1.
    destruct M as [(M1 & -> & ->) | (M1 & M2)].
    + exists rest. cbn. rewrite !app_nil_r. split; [reflexivity|congruence].
    + exists (queue s'). rewrite (R2 M1), <- !app_assoc, M2. split; [reflexivity|reflexivity].
Qed.

(** The loop is over. *)
Definition past (p : phase) : bool :=
  match p with
  | PDrainLinks _ | PStop _ _ | PNotify _ _ _ | PRegRemove _ _ | PSet _ _ | PClosing _ | PDone _ | PCrashed => true
  | _ => false
  end.

(** [next] gives none only when nothing can come any more, and then it is not called again. *)
Definition last_call (s s' : actor) (g : list (option signal)) : Prop :=
  (g = [] \/ ph s = PLoop LRecv) /\
  (In None g -> g = [None] /\ ph s = PLoop LRecv /\ queue s = [] /\ strong s = 0 /\ strong s' = 0 /\ past (ph s') = true /\
   queue s' = [] /\ rx_open s' = rx_open s).
Lemma no_call : forall s s', last_call s s' [].
Proof. intros. split; [auto|intros []]. Qed.
Lemma some_call : forall s s' sg, ph s = PLoop LRecv -> last_call s s' [Some sg].
Proof. intros. split; [auto|intros [Bad | []]; discriminate Bad]. Qed.

Definition calm (ms : list move) : Prop := forall e, In e ms -> e <> DNextPanic.

Definition follows (s : actor) (tr : list obs) (got : list (option signal)) (t : task) (h : list sight)
    (s' : actor) (o : list obs) : Prop :=
  exists ms g t' hh, advances t ms = Some (t', hh) /\ calm ms /\ last_call s s' g /\ sim s' (tr ++ o) (got ++ g) t' (h ++ hh).

Lemma no_moves : calm [].
Proof. intros e []. Qed.

(** No move of the task. *)
Lemma stays : forall s s' tr o got t h,
  sim s tr got t h ->
  sits got (ph s') (t_place t) ->
  buf s' = buf s ->
  same_finish s' t ->
  (behind (ph s) = [] /\ ahead (ph s) ++ behind (ph s') = life_marks o ++ ahead (ph s')) \/
  (ahead (ph s) = [] /\ behind (ph s') = behind (ph s) ++ life_marks o ++ ahead (ph s')) ->
  (rx_open s' = false /\ accepted o = []) \/ (rx_open s = true /\ queue s' = queue s ++ accepted o) ->
  follows s tr got t h s' o.
Proof.
  intros s s' tr o got t h S A B C D E. exists [], [], t, []. split; [reflexivity|]. split; [apply no_moves|].
  split; [apply no_call|].
  apply (sim_go s s' tr o got [] t t h []); auto.
  - rewrite app_nil_r. exact A.
  - rewrite app_nil_r, B. exact (m_buf _ _ _ _ _ S).
  - destruct E as [[E1 E2] | [E1 E2]]; [left|right]; auto.
Qed.

(** One move. *)
Lemma moves : forall e g s s' tr o got t t' h hh,
  sim s tr got t h ->
  advance t e = Some (t', hh) -> e <> DNextPanic ->
  sits (got ++ g) (ph s') (t_place t') ->
  Forall2 (named (got ++ g)) (t_buffer t') (buf s') ->
  same_finish s' t' ->
  t_count t' = t_count t + length g ->
  Loop_spec.gaves hh = map answer g ->
  (forall x,
     (behind (ph s) = [] /\
      ahead (ph s) ++ task_marks ((got ++ g) ++ x) hh ++ behind (ph s') = life_marks o ++ ahead (ph s')) \/
     (ahead (ph s) = [] /\
      task_marks ((got ++ g) ++ x) hh ++ behind (ph s') = behind (ph s) ++ life_marks o ++ ahead (ph s'))) ->
  (rx_open s' = false /\ g = [] /\ accepted o = []) \/
  (rx_open s = true /\ signals g ++ queue s' = queue s ++ accepted o) ->
  last_call s s' g ->
  follows s tr got t h s' o.
Proof.
  intros e g s s' tr o got t t' h hh S A N B C D E F G H L. exists [e], g, t', hh. split; [|split; [|split]].
  - cbn. rewrite A, app_nil_r. reflexivity.
  - intros x [<- | []]. exact N.
  - exact L.
  - now apply (sim_go s s' tr o got g t t' h hh).
Qed.

Lemma marks_cons : forall got x l, task_marks got (x :: l) = task_mark got x ++ task_marks got l.
Proof. reflexivity. Qed.
Lemma marks_nil : forall got, task_marks got [] = [].
Proof. reflexivity. Qed.
Lemma life_cons : forall x l, life_marks (x :: l) = life_mark x ++ life_marks l.
Proof. reflexivity. Qed.
Lemma life_nil : life_marks [] = [].
Proof. reflexivity. Qed.
Definition accepted1 (o : obs) : list signal := match o with OAccept sg => [sg] | _ => [] end.
Lemma accepted_cons : forall x l, accepted (x :: l) = accepted1 x ++ accepted l.
Proof. reflexivity. Qed.
Lemma accepted_nil : accepted [] = [].
Proof. reflexivity. Qed.
Definition gave1 (x : sight) : list gave := match x with Gave g => [g] | _ => [] end.
Lemma gaves_cons : forall x l, Loop_spec.gaves (x :: l) = gave1 x ++ Loop_spec.gaves l.
Proof. reflexivity. Qed.
Lemma gaves_nil : Loop_spec.gaves [] = [].
Proof. reflexivity. Qed.
Lemma signals_one : forall a, signals [a] = match a with Some sg => [sg] | None => [] end.
Proof. intros [a|]; reflexivity. Qed.
Lemma signals_nil : signals [] = [].
Proof. reflexivity. Qed.
Lemma life_reply : forall b i v, life_marks (if b : bool then [OReply i v] else []) = [].
Proof. intros []; reflexivity. Qed.
Lemma life_reply_dropped : forall b i, life_marks (if b : bool then [OReplyDropped i] else []) = [].
Proof. intros []; reflexivity. Qed.
Lemma accepted_reply : forall b i v, accepted (if b : bool then [OReply i v] else []) = [].
Proof. intros []; reflexivity. Qed.
Lemma accepted_reply_dropped : forall b i, accepted (if b : bool then [OReplyDropped i] else []) = [].
Proof. intros []; reflexivity. Qed.

#[local] Hint Rewrite marks_app life_app accepted_app gaves_app marks_dropped gaves_dropped life_discard
  accepted_discard marks_cons marks_nil life_cons life_nil accepted_cons accepted_nil gaves_cons gaves_nil
  signals_one signals_nil life_reply life_reply_dropped accepted_reply accepted_reply_dropped app_nil_r : marks.
#[local] Arguments life_marks : simpl never.
#[local] Arguments task_marks : simpl never.
#[local] Arguments accepted : simpl never.
#[local] Arguments signals : simpl never.
#[local] Arguments discard : simpl never.
#[local] Arguments Loop_spec.gaves : simpl never.

Ltac actor_case s := destruct s as [cp sc th q rs ro ex ir ab po p fi bu pa se sh li gi nm]; cbn [ph] in *.

Ltac open_step H :=
  unfold abort_loop, panic_done, link_done, handler_done, handler_failed, on_signal, startup_finished, drain,
    begin_handle, shutdown_with, exit_loop, crash, close_mailbox in H; cbn in H.
Ltac cases_of H :=
  repeat match type of H with
  | context [match ?x with _ => _ end] =>
      lazymatch x with
      | context [match _ with _ => _ end] => fail
      | _ => destruct x eqn:?; try discriminate H; cbn in H
      end
  end.

Lemma step_well : forall s e s' o, well s -> step s e = Some (s', o) -> well s'.
Proof.
  intros s e s' o W H. destruct W as [W1 W2 W3 W4 W5].
  actor_case s.
  destruct e; cbn in H; open_step H; cases_of H;
    injection H as <- <-; cbn in *;
    (constructor; cbn in *; try (intros; congruence); try (intros; discriminate); try (intros []; fail); try tauto; auto).
Qed.

Ltac norm := autorewrite with marks; cbn.
Ltac by_named :=
  repeat match goal with
  | N : named ?g ?k ?m |- context [nth_error (?g ++ ?x) ?k] =>
      rewrite (named_app g x k m N : nth_error (g ++ x) k = Some (Some (SMsg m)))
  end; cbn.

Lemma quiet : forall s s' tr o got t h,
  sim s tr got t h -> ph s' = ph s -> buf s' = buf s -> finished s' = finished s -> life_marks o = [] ->
  (rx_open s' = rx_open s /\ queue s' = queue s /\ accepted o = []) \/
  (rx_open s = true /\ queue s' = queue s ++ accepted o) ->
  follows s tr got t h s' o.
Proof.
  intros s s' tr o got t h S A B C D E. apply stays; auto.
  - rewrite A. exact (m_sits _ _ _ _ _ S).
  - pose proof (m_fin _ _ _ _ _ S) as F. unfold same_finish in *. rewrite A, C. exact F.
  - rewrite A, D. cbn. destruct (ph s); cbn; rewrite ?app_nil_r; auto.
  - destruct E as [(E1 & E2 & E3) | E]; [|right; exact E].
    destruct (rx_open s') eqn:R; [right|left; auto]. rewrite E3, app_nil_r. auto.
Qed.

Lemma env_sim : forall s e s' o tr got t h,
  match e with
  | AStart | AStartDone _ | ASetStartup | ASignal | ADowngrade | APoll | AYield | ARecv | ATakeReply | AReplyNow _
  | AHandleDone _ | ALinkDone _ | ALinkRm | APanicDone _ | ADrainLinks | AStopDone _ | ANotify _ _ | ANotifyEnd
  | ARegRemove | ASetShutdown | AClose => False
  | _ => True
  end ->
  sim s tr got t h -> step s e = Some (s', o) -> follows s tr got t h s' o.
Proof.
  intros s e s' o tr got t h N S H. destruct e; try contradiction; cbn in H;
    try (destruct (rx_open s) eqn:R; [|rewrite ?andb_false_r in H; cbn in H; try discriminate H]);
    cases_of H; injection H as <- <-;
    (apply quiet; [exact S|reflexivity|reflexivity|reflexivity|reflexivity|]);
    try (left; repeat split; cbn; auto; fail);
    right; (split; [exact R|reflexivity]).
Qed.

Ltac start_case W S s t W1 W2 W3 W4 W5 P B F C :=
  pose proof (m_sits _ _ _ _ _ S) as P; pose proof (m_buf _ _ _ _ _ S) as B;
  pose proof (m_fin _ _ _ _ _ S) as F; pose proof (m_count _ _ _ _ _ S) as C;
  destruct W as [W1 W2 W3 W4 W5]; unfold same_finish in F;
  let tc := fresh "tc" in
  destruct t as [pl tf tb tc]; cbn in P, B, F, C; subst tc;
  actor_case s.

Ltac settle := cbn; norm; auto; try reflexivity; try discriminate; try (unfold same_finish; cbn; auto; fail);
  try (intros; norm; auto; fail); try (apply no_call); try (apply some_call; reflexivity).

Lemma start_sim : forall s e s' o tr got t h,
  match e with AStart | AStartDone _ | ASetStartup | ASignal | ADowngrade => True | _ => False end ->
  well s -> sim s tr got t h -> step s e = Some (s', o) -> follows s tr got t h s' o.
Proof.
  intros s e s' o tr got t h N W S H. start_case W S s t W1 W2 W3 W4 W5 P B F C.
  destruct e; try contradiction; clear N; cbn in H; destruct p; try discriminate H; cbn in *;
    specialize (W1 eq_refl); destruct (W5 I) as [-> ->]; subst; inversion B; subst.
  - injection H as <- <-. apply stays; [exact S|..]; settle.
  - injection H as <- <-. apply stays; [exact S|..]; settle.
  - injection H as <- <-. apply stays; [exact S|..]; settle.
  - cases_of H; injection H as <- <-; (apply stays; [exact S|..]; settle).
  - destruct res.
    + injection H as <- <-. destruct sf.
      * eapply (moves (DStart HookOk false) []); [exact S|reflexivity|..]; settle.
      * exists [DStart HookOk true; DOn], [], (mk_task QNext false [] (length got)), [Started HookOk; Began HNext].
        split; [reflexivity|]. split; [intros e [<- | [<- | []]]; discriminate|]. split; [apply no_call|].
        eapply sim_go; [exact S|..]; settle.
    + injection H as <- <-. eapply (moves (DStart (HookFail f) true) []); [exact S|reflexivity|..]; settle.
Qed.

Lemma forall2_nil : forall got (ks : list nat), Forall2 (named got) ks [] -> ks = [].
Proof. intros got ks H. inversion H. reflexivity. Qed.

Lemma poll_sim : forall s e s' o tr got t h,
  match e with APoll | AYield => True | _ => False end ->
  well s -> sim s tr got t h -> step s e = Some (s', o) -> follows s tr got t h s' o.
Proof.
  intros s e s' o tr got t h N W S H.
  assert (K : (exists pc, ph s = PLoop pc /\ Some (abort_loop pc s) = Some (s', o)) \/
              (exists b, s' = set_polling b s /\ o = [])).
  { destruct e; try contradiction; cbn in H; destruct (ph s); try discriminate H;
      destruct (polling s); try discriminate H; destruct (aborted s); try (left; eauto; fail);
      injection H as <- <-; eauto. }
  destruct K as [(pc & E & K) | (b & -> & ->)].
  2: { apply quiet; [exact S|..]; auto. }
  clear H N. start_case W S s t W1 W2 W3 W4 W5 P B F C. subst p. cbn in *. specialize (W1 eq_refl). subst.
  injection K as <- <-.
  destruct pc; cbn in P, F; [| |destruct P as (km & ks & -> & P & N & FF)| | |]; subst;
    (eapply (moves DKill []); [exact S|reflexivity|..]); settle.
  all: try (intros x; left; split; [reflexivity|]; norm; by_named; reflexivity).
Qed.

Lemma end_sim : forall s e s' o tr got t h,
  match e with ADrainLinks | AStopDone _ | ANotify _ _ | ANotifyEnd | ARegRemove | ASetShutdown | AClose => True
  | _ => False end ->
  well s -> sim s tr got t h -> step s e = Some (s', o) -> follows s tr got t h s' o.
Proof.
  intros s e s' o tr got t h N W S H. start_case W S s t W1 W2 W3 W4 W5 P B F C.
  destruct e; try contradiction; clear N; cbn in H; destruct p; try discriminate H; cbn in *;
    specialize (W1 eq_refl); subst; open_step H.
  - injection H as <- <-. apply stays; [exact S|..]; settle.
  - destruct res as [|[c|c]]; injection H as <- <-.
    + eapply (moves (DStop HookOk) []); [exact S|reflexivity|..]; settle.
    + eapply (moves (DStop (HookFail (FErr c))) []); [exact S|reflexivity|..]; settle.
    + eapply (moves (DStop (HookFail (FPanic c))) []); [exact S|reflexivity|..]; settle.
  - destruct res as [|[c|c]]; injection H as <- <-.
    + eapply (moves (DStop HookOk) []); [exact S|reflexivity|..]; settle.
    + eapply (moves (DStop (HookFail (FErr c))) []); [exact S|reflexivity|..]; settle.
    + eapply (moves (DStop (HookFail (FPanic c))) []); [exact S|reflexivity|..]; settle.
  - cases_of H; injection H as <- <-; (apply stays; [exact S|..]; settle).
  - cases_of H; injection H as <- <-; (apply stays; [exact S|..]; settle).
  - cases_of H; injection H as <- <-; (apply stays; [exact S|..]; settle).
  - cases_of H; injection H as <- <-; (apply stays; [exact S|..]; settle).
  - cases_of H; injection H as <- <-; (apply stays; [exact S|..]; settle).
  - injection H as <- <-. apply stays; [exact S|..]; settle.
Qed.

Lemma hook_sim : forall s e s' o tr got t h,
  match e with ALinkDone _ | ALinkRm | APanicDone _ => True | _ => False end ->
  well s -> sim s tr got t h -> step s e = Some (s', o) -> follows s tr got t h s' o.
Proof.
  intros s e s' o tr got t h N W S H. start_case W S s t W1 W2 W3 W4 W5 P B F C.
  destruct e; try contradiction; clear N; cbn in H; destruct p as [| | | | | | | |pc| | | | | | | |]; try discriminate H; cbn in *;
    specialize (W1 eq_refl); subst; open_step H; try (destruct pc; try discriminate H; subst; destruct po; try discriminate H).
  - injection H as <- <-. eapply (moves (DLink res) []); [exact S|reflexivity|..]; settle.
  - destruct res as [[|[| |f'|? ?|]]|f']; cbn in H; injection H as <- <-;
      (eapply (moves DOn []); [exact S|reflexivity|..]; settle).
  - destruct res as [[|r']|[c|c]]; cbn in H; injection H as <- <-.
    + eapply (moves (DPanic (FlowOk Continue)) []); [exact S|reflexivity|..]; settle.
    + eapply (moves (DPanic (FlowOk (Break r'))) []); [exact S|reflexivity|..]; settle.
    + eapply (moves (DPanic (FlowFail (FErr c))) []); [exact S|reflexivity|..]; settle.
    + eapply (moves (DPanic (FlowFail (FPanic c))) []); [exact S|reflexivity|..]; settle.
  - destruct res as [[|r']|[c|c]]; cbn in H; injection H as <- <-.
    + eapply (moves (DPanic (FlowOk Continue)) []); [exact S|reflexivity|..]; settle.
    + eapply (moves (DPanic (FlowOk (Break r'))) []); [exact S|reflexivity|..]; settle.
    + eapply (moves (DPanic (FlowFail (FErr c))) []); [exact S|reflexivity|..]; settle.
    + eapply (moves (DPanic (FlowFail (FPanic c))) []); [exact S|reflexivity|..]; settle.
Qed.

Lemma all_named : forall got ks ms, Forall2 (named got) ks ms -> forall x, Forall2 (named (got ++ x)) ks ms.
Proof. intros. now apply all_named_app. Qed.

Lemma handle_sim : forall s e s' o tr got t h,
  match e with ATakeReply | AReplyNow _ | AHandleDone _ => True | _ => False end ->
  well s -> sim s tr got t h -> step s e = Some (s', o) -> follows s tr got t h s' o.
Proof.
  intros s e s' o tr got t h N W S H. start_case W S s t W1 W2 W3 W4 W5 P B F C.
  destruct e; try contradiction; clear N; cbn in H;
    (destruct p as [| | | | | | | |[| |m owned rest k| | |]| | | | | | | |]; try discriminate H);
    cbn in *; specialize (W1 eq_refl); subst; destruct P as (km & ks & -> & K & N & FF).
  - destruct owned; [|discriminate H]. destruct po; [|discriminate H]. injection H as <- <-.
    apply stays; [exact S|..]; settle. exists km, ks. auto.
  - destruct owned; [|discriminate H]. destruct po; [|discriminate H]. injection H as <- <-.
    apply stays; [exact S|..]; settle. exists km, ks. auto.
  - destruct po; [|discriminate H].
    destruct out as [v|e|c].
    + destruct FF as [|k1 m1 ks rest N1 FF].
      * destruct k; [| |congruence]; cbn in H; injection H as <- <-;
          (eapply (moves (DHandled HookOk) []); [exact S|reflexivity|..]; settle;
           intros x; left; split; [reflexivity|]; norm; by_named; reflexivity).
      * cbn in H. injection H as <- <-.
        (eapply (moves (DHandled HookOk) []); [exact S|reflexivity|..]; settle).
        { exists k1, ks. auto. }
        { intros x; left; split; [reflexivity|]; norm; by_named; reflexivity. }
    + destruct owned.
      * destruct FF as [|k1 m1 ks rest N1 FF].
        { destruct k; [| |congruence]; cbn in H; injection H as <- <-;
            (eapply (moves (DHandled HookOk) []); [exact S|reflexivity|..]; settle;
             intros x; left; split; [reflexivity|]; norm; by_named; reflexivity). }
        cbn in H. injection H as <- <-.
        (eapply (moves (DHandled HookOk) []); [exact S|reflexivity|..]; settle).
        { exists k1, ks. auto. }
        { intros x; left; split; [reflexivity|]; norm; by_named; reflexivity. }
      * destruct k; [| |congruence]; cbn in H; injection H as <- <-;
          (eapply (moves (DHandled (HookFail (FErr e))) []); [exact S|reflexivity|..]; settle;
           intros x; left; split; [reflexivity|]; norm; by_named; reflexivity).
    + destruct k; [| |congruence]; cbn in H; injection H as <- <-;
        (eapply (moves (DHandled (HookFail (FPanic c))) []); [exact S|reflexivity|..]; settle;
         intros x; left; split; [reflexivity|]; norm; by_named; reflexivity).
Qed.

Lemma named_last : forall got m, named (got ++ [Some (SMsg m)]) (length got) m.
Proof. intros. unfold named. rewrite nth_error_app2, Nat.sub_diag by lia. reflexivity. Qed.

(** [next] gives the first signal of the mailbox, or none. *)
Lemma open_sim : forall g s tr got t h (stop : bool) q',
  t_place t = QNext -> ph s = PLoop LRecv -> well s -> sim s tr got t h ->
  answer g = (if stop then GStop else GStartup) \/ (stop = true /\ answer g = GNone) ->
  signals [g] ++ q' = queue s ->
  forall s' o adds,
  startup_finished (if stop then ToStop else ToRecv) (set_permit_adds adds (set_queue q' s)) = (s', o) ->
  last_call s s' [g] ->
  follows s tr got t h s' o.
Proof.
  intros g s tr got t h stop q' Q E W S G M s' o adds H L.
  start_case W S s t W1 W2 W3 W4 W5 P B F C. subst p. cbn in *. subst. specialize (W1 eq_refl). subst.
  open_step H.
  assert (A : forall t' hh, open_up stop (mk_task QNext fi tb (Datatypes.S (length got))) = (t', hh) ->
              advance (mk_task QNext fi tb (length got)) (DNext (answer g)) =
                Some (t', Gave (answer g) :: (if stop then hh else Ready :: hh))).
  { intros t' hh O. unfold advance. cbn. destruct stop.
    - destruct G as [-> | [_ ->]]; cbn; unfold open_up in *; cbn in *; rewrite O; reflexivity.
    - destruct G as [-> | [? _]]; [|discriminate]. cbn; unfold open_up in *; cbn in *; rewrite O; reflexivity. }
  destruct B as [|k1 m1 ks rest N1 FF].
  - destruct stop; cbn in H; injection H as <- <-;
      (eapply (moves (DNext (answer g)) [g]); [exact S|apply A; reflexivity|..]; settle; try (cbn; lia); try exact L; try (destruct g; exact L)).
  - cbn in H. injection H as <- <-.
    (eapply (moves (DNext (answer g)) [g]); [exact S|apply A; reflexivity|..]); settle; try (cbn; lia); try exact L; try (destruct g; exact L).
    + exists k1, ks. split; [destruct stop; reflexivity|]. split; [destruct stop; discriminate|].
      split; [now apply named_app|now apply all_named_app].
    + destruct stop; settle.
    + intros x. left. split; [reflexivity|]. pose proof (named_app _ [g] _ _ N1) as N2.
      destruct stop; norm; by_named; reflexivity.
Qed.

Lemma no_more : forall s s' o,
  queue s = [] -> strong s = 0 -> ph s = PLoop LRecv -> startup_finished ToStop s = (s', o) ->
  strong s' = 0 /\ past (ph s') = true /\ queue s' = [] /\ rx_open s' = rx_open s.
Proof.
  intros s s' o Q Z E H. actor_case s. unfold strong in Z. subst p. cbn in Q, Z. subst q.
  assert (bu = []) by (destruct bu; [reflexivity|cbn in Z; lia]). subst bu. open_step H. injection H as <- <-.
  unfold strong. cbn in *. split; [lia|auto].
Qed.

Lemma recv_sim : forall s s' o tr got t h,
  well s -> sim s tr got t h -> step s ARecv = Some (s', o) -> follows s tr got t h s' o.
Proof.
  intros s s' o tr got t h W S H. cbn in H.
  destruct (ph s) as [| | | | | | | |[| | | | |]| | | | | | | |] eqn:E; try discriminate H;
    destruct (polling s) eqn:PO; try discriminate H.
  - start_case W S s t W1 W2 W3 W4 W5 P B F C. subst p. cbn in *. subst. specialize (W1 eq_refl).
    destruct (W5 I) as [-> ->]. subst. apply forall2_nil in B. subst. open_step H. injection H as <- <-.
    eapply (moves DOn []); [exact S|reflexivity|..]; settle.
  - pose proof (m_sits _ _ _ _ _ S) as Q. rewrite E in Q. cbn in Q.
    destruct (queue s) as [|sg q'] eqn:QE.
    + destruct (strong s =? 0) eqn:Z; [|discriminate H]. apply Nat.eqb_eq in Z.
      assert (H1 : startup_finished ToStop (set_permit_adds (permit_adds s) (set_queue [] s)) = (s', o)).
      { injection H as <-. actor_case s. cbn in QE. subst. reflexivity. }
      apply (open_sim None s tr got t h true []) with (adds := permit_adds s); auto.
      split; [auto|]. intros _. injection H as H. destruct (no_more _ _ _ QE Z E H) as (Z1 & Z2 & Z3 & Z4). auto 10.
    + destruct sg as [|m|id r|]; cbn in H.
      * apply (open_sim (Some SStartup) s tr got t h false q') with (adds := Datatypes.S (permit_adds s)); auto.
        { injection H as <-. reflexivity. }
        now apply some_call.
      * start_case W S s t W1 W2 W3 W4 W5 P B F C. subst p. cbn in *. subst. specialize (W1 eq_refl). subst.
        destruct (negb (inside m) && negb fi) eqn:IN; cbn in H; injection H as <- <-.
        { eapply (moves (DNext (answer (Some (SMsg m)))) [Some (SMsg m)]);
            [exact S|unfold advance; cbn; rewrite IN; reflexivity|..]; settle.
          - apply Forall2_app; [now apply all_named_app|]. repeat constructor. apply named_last.
          - unfold same_finish. cbn. destruct fi; [rewrite andb_false_r in IN; discriminate|reflexivity].
          - lia. }
        { eapply (moves (DNext (answer (Some (SMsg m)))) [Some (SMsg m)]);
            [exact S|unfold advance; cbn; rewrite IN; reflexivity|..]; settle.
          - exists (length got), []. split; [reflexivity|]. split; [discriminate|]. split; [apply named_last|constructor].
          - now apply all_named_app.
          - lia.
          - intros x. left. split; [reflexivity|]. pose proof (named_last got m) as N2. norm. by_named. reflexivity. }
      * start_case W S s t W1 W2 W3 W4 W5 P B F C. subst p. cbn in *. subst. specialize (W1 eq_refl). subst.
        injection H as <- <-.
        eapply (moves (DNext (answer (Some (SLinkDied id r)))) [Some (SLinkDied id r)]); [exact S|reflexivity|..]; settle.
        { now apply all_named_app. }
        { lia. }
      * apply (open_sim (Some SStop) s tr got t h true q') with (adds := permit_adds s); auto.
        { injection H as <-. actor_case s. reflexivity. }
        now apply some_call.
Qed.

Lemma step_sim : forall s e s' o tr got t h,
  well s -> sim s tr got t h -> step s e = Some (s', o) -> follows s tr got t h s' o.
Proof.
  intros s e s' o tr got t h W S H. destruct e;
    first [ exact (recv_sim _ _ _ _ _ _ _ W S H)
          | eapply env_sim; [|exact S|exact H]; exact I
          | eapply start_sim; [|exact W|exact S|exact H]; exact I
          | eapply poll_sim; [|exact W|exact S|exact H]; exact I
          | eapply handle_sim; [|exact W|exact S|exact H]; exact I
          | eapply hook_sim; [|exact W|exact S|exact H]; exact I
          | eapply end_sim; [|exact W|exact S|exact H]; exact I ].
Qed.

Lemma advances_app : forall ms1 ms2 t t1 t2 h1 h2,
  advances t ms1 = Some (t1, h1) -> advances t1 ms2 = Some (t2, h2) -> advances t (ms1 ++ ms2) = Some (t2, h1 ++ h2).
Proof.
  induction ms1 as [|e ms1 IH]; cbn; intros ms2 t t1 t2 h1 h2 A B.
  - injection A as <- <-. exact B.
  - destruct (advance t e) as [[u o]|]; [|discriminate]. destruct (advances u ms1) as [[u2 o2]|] eqn:E; [|discriminate].
    injection A as <- <-. rewrite (IH _ _ _ _ _ _ E B), app_assoc. reflexivity.
Qed.

(** Once nobody holds a reference and the loop is over, nothing is taken in. *)
Lemma dead_step : forall s e s' o, strong s = 0 -> past (ph s) = true -> step s e = Some (s', o) ->
  strong s' = 0 /\ past (ph s') = true /\ accepted o = [].
Proof.
  intros s e s' o Z P H. actor_case s. unfold strong in Z. cbn in Z.
  assert (ex = 0) by lia. subst ex. destruct ir; [lia|].
  destruct e; cbn in H; open_step H; try discriminate H;
    try (destruct p; try discriminate P; try discriminate H; cbn in Z);
    cases_of H; injection H as <- <-; unfold strong in *; cbn in *;
    repeat match goal with X : (0 <? _) = true |- _ => apply Nat.ltb_lt in X end;
    norm; destruct th; cbn in *; rewrite ?app_length, ?Nat.add_0_r in *; try (exfalso; lia); (split; [lia|auto]).
Qed.

(** What [next] gave so far: nothing but signals, or a last none with an empty mailbox. *)
Definition got_ok (s : actor) (tr : list obs) (got : list (option signal)) : Prop :=
  (exists l, got = map Some l) \/
  (exists l, got = map Some l ++ [None] /\ strong s = 0 /\ past (ph s) = true /\ accepted tr = l).

Lemma somes : forall g : list (option signal), ~ In None g -> exists l, g = map Some l.
Proof.
  induction g as [|[a|] g IH]; intros N.
  - exists []. reflexivity.
  - destruct IH as [l ->]; [intros I; apply N; now right|]. exists (a :: l). reflexivity.
  - elim N. now left.
Qed.

Lemma signals_somes : forall l, signals (map Some l) = l.
Proof. induction l as [|a l IH]; [reflexivity|]. unfold signals in *. cbn. now rewrite IH. Qed.

Lemma got_step : forall s s' e o tr got g t h t' h', well s -> sim s tr got t h -> sim s' (tr ++ o) (got ++ g) t' h' ->
  got_ok s tr got -> last_call s s' g -> step s e = Some (s', o) ->
  got_ok s' (tr ++ o) (got ++ g).
Proof.
  intros s s' e o tr got g t h t' h' W S S' [[l ->] | (l & -> & Z & P & A)] [L0 L] H.
  - destruct (in_dec (fun a b : option signal => ltac:(repeat decide equality)) None g) as [I | I].
    + destruct (L I) as (-> & E & Q & _ & Z & P & Q' & R). right. exists l.
      destruct (m_mail _ _ _ _ _ S') as (rest & M1 & M2). rewrite M1, R in *.
      rewrite M2, Q', signals_app, signals_somes, !app_nil_r; auto.
      apply (w_open _ W). rewrite E. reflexivity.
    + destruct (somes g I) as [l' ->]. left. exists (l ++ l'). now rewrite map_app.
  - assert (g = []) as -> by (destruct L0 as [L0 | L0]; [exact L0|rewrite L0 in P; discriminate P]).
    rewrite app_nil_r. destruct (dead_step _ _ _ _ Z P H) as (Z1 & P1 & A1). right. exists l.
    rewrite accepted_app, A1, app_nil_r. auto.
Qed.

Lemma exec_sim : forall es s s' o tr got t h,
  well s -> sim s tr got t h -> got_ok s tr got -> exec s es = Some (s', o) ->
  well s' /\ exists ms g t' hh, advances t ms = Some (t', hh) /\ calm ms /\ got_ok s' (tr ++ o) (got ++ g) /\
    sim s' (tr ++ o) (got ++ g) t' (h ++ hh).
Proof.
  induction es as [|e es IH]; cbn; intros s s' o tr got t h W S O H.
  - injection H as <- <-. split; [exact W|]. exists [], [], t, []. split; [reflexivity|]. split; [apply no_moves|].
    rewrite !app_nil_r. auto.
  - destruct (step s e) as [[s1 o1]|] eqn:E; [|discriminate].
    destruct (exec s1 es) as [[s2 o2]|] eqn:X; [|discriminate]. injection H as <- <-.
    pose proof (step_well _ _ _ _ W E) as W1.
    destruct (step_sim _ _ _ _ _ _ _ _ W S E) as (ms1 & g1 & t1 & h1 & A1 & C1 & L1 & S1).
    pose proof (got_step _ _ _ _ _ _ _ _ _ _ _ W S S1 O L1 E) as O1.
    destruct (IH _ _ _ _ _ _ _ W1 S1 O1 X) as (W2 & ms2 & g2 & t2 & h2 & A2 & C2 & O2 & S2).
    split; [exact W2|]. exists (ms1 ++ ms2), (g1 ++ g2), t2, (h1 ++ h2). split; [|split; [|split]].
    + eapply advances_app; eassumption.
    + intros x I. apply in_app_or in I. destruct I; auto.
    + rewrite !app_assoc. exact O2.
    + rewrite !app_assoc. exact S2.
Qed.

Lemma init_well : forall c, well (init c).
Proof. intros c. constructor; cbn; auto; discriminate. Qed.
Lemma init_sim : forall c, sim (init c) [] [] task_new first_sights.
Proof.
  intros c. constructor; try reflexivity; try (intros x; reflexivity); try constructor.
  exists []. split; [reflexivity|auto].
Qed.

Lemma default_next : forall c es s tr,
  exec (init c) es = Some (s, tr) ->
  exists ms t h got rest,
    run_task ms = Some (t, h) /\ calm ms /\
    Loop_spec.gaves h = map answer got /\
    accepted tr = signals got ++ rest /\
    ((exists l, got = map Some l) \/ (got = map Some (accepted tr) ++ [None] /\ strong s = 0)) /\
    (rx_open s = true -> queue s = rest) /\
    (exists more, task_marks got h = life_marks tr ++ more) /\
    (ended (ph s) = true -> t_place t = QOver /\ task_marks got h = life_marks tr).
Proof.
  intros c es s tr X.
  assert (init_got : got_ok (init c) [] []) by (left; exists []; reflexivity).
  destruct (exec_sim _ _ _ _ _ _ _ _ (init_well c) (init_sim c) init_got X)
    as (W & ms & got & t & h & A & C & O & S).
  cbn [app] in S, O.
  assert (O1 : (exists l, got = map Some l) \/ (got = map Some (accepted tr) ++ [None] /\ strong s = 0))
    by (destruct O as [O | (l & O & Z & _ & ->)]; eauto).
  pose proof (m_marks _ _ _ _ _ S []) as M. rewrite app_nil_r in M.
  destruct (m_mail _ _ _ _ _ S) as (rest & R1 & R2).
  pose proof (m_gave _ _ _ _ _ S) as G.
  assert (RT : run_task ms = Some (t, first_sights ++ h)) by (unfold run_task; rewrite A; reflexivity).
  destruct (behind (ph s)) as [|b l] eqn:BE.
  - rewrite app_nil_r in M. exists ms, t, (first_sights ++ h), got, rest.
    repeat split; auto.
    + intros R. symmetry. auto.
    + eexists. exact M.
    + pose proof (m_sits _ _ _ _ _ S) as P. destruct (ph s); try discriminate H; exact P.
    + destruct (ph s); try discriminate H; (etransitivity; [exact M|apply app_nil_r]).
  - assert (exists res, b :: l = [MStarted res] /\ ahead (ph s) = [] /\ t_place t = QStart /\ ended (ph s) = false) as (res & BL & AH & TP & EN).
    { pose proof (m_sits _ _ _ _ _ S) as P. destruct (ph s); try discriminate BE; cbn in BE, P; rewrite <- BE; eauto. }
    rewrite BL in *.
    assert (exists t' hh, advance t (DStart res true) = Some (t', hh) /\
              Loop_spec.gaves hh = [] /\ exists more, task_marks got hh = [MStarted res] ++ more) as (t' & hh & A1 & A2 & more & A3).
    { unfold advance. rewrite TP. destruct res; cbn;
        (eexists; eexists; split; [reflexivity|]; split; [reflexivity|]; eexists; reflexivity). }
    exists (ms ++ [DStart res true]), t', (first_sights ++ h ++ hh), got, rest.
    split; [|split; [|split; [|split; [|split; [|split; [|split]]]]]]; auto.
    + unfold run_task. rewrite (advances_app ms [DStart res true] _ t t' h hh A); [reflexivity|].
      cbn [advances]. rewrite A1, app_nil_r. reflexivity.
    + intros x I. apply in_app_or in I. destruct I as [I | [<- | []]]; [auto|discriminate].
    + rewrite app_assoc, gaves_app, A2, app_nil_r. exact G.
    + intros R. symmetry. auto.
    + exists more. rewrite app_assoc, marks_app, A3. rewrite AH, app_nil_r in M. rewrite <- M, <- app_assoc. reflexivity.
    + congruence.
Qed.
