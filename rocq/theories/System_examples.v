(** Runs used in the examples of P_System.v, and the witnesses of what does not hold. *)
From Coq Require Import List Bool PeanoNat Relation_Operators.
From Verif Require Import System System_spec System_proofs System_link_proofs.
Import ListNotations.

(** [n] actors with capacity [c], linked in a chain, all started. *)
Definition boot (c : option nat) (a : nat) : list sevent :=
  [ECreate a c true; ERun a; EStarted a true; EHandle a VContinue].

(** 1 is killed; 0 hears of it and 2, linked to 0, too. *)
Definition ex_chain : list sevent :=
  boot None 0 ++ boot None 1 ++ boot None 2 ++
  [ELink 0 1; ELink 2 0; EKill 1 false; EDrain 1; EOnStop 1 true; ENotify 1 0; EFinish 1;
   EHandle 0 (VLeave (RLinkDied 1 RKilled)); EDrain 0; EOnStop 0 true; ENotify 0 2; EFinish 0;
   EHandle 2 (VLeave (RLinkDied 0 (RLinkDied 1 RKilled))); EDrain 2; EOnStop 2 true; EFinish 2].
(** The same, but 0 panics in [on_stop]. *)
Definition ex_chain_panic : list sevent :=
  boot None 0 ++ boot None 1 ++ boot None 2 ++
  [ELink 0 1; ELink 2 0; EKill 1 false; EDrain 1; EOnStop 1 true; ENotify 1 0; EFinish 1;
   EHandle 0 (VLeave (RLinkDied 1 RKilled)); EDrain 0; EOnStop 0 false].
(** 0 is stopped before 1 is killed. *)
Definition ex_chain_normal : list sevent :=
  boot None 0 ++ boot None 1 ++ boot None 2 ++
  [ELink 0 1; ELink 2 0; ESend 0 SStop; EHandle 0 (VLeave RNormal); EDrain 0; EOnStop 0 true;
   ENotify 0 1; ENotify 0 2; EFinish 0; EHandle 1 VContinue; EHandle 2 VContinue;
   EKill 1 false; EDrain 1; EOnStop 1 true; EFinish 1].
(** The first until 1 has ended. *)
Definition ex_told : list sevent :=
  boot None 0 ++ boot None 1 ++ boot None 2 ++
  [ELink 0 1; ELink 2 0; EKill 1 false; EDrain 1; EOnStop 1 true; ENotify 1 0; EFinish 1].

(** 1 ends when 0, which nobody refers to any more, runs on_start. *)
Definition ex_told_starting : list sevent :=
  boot None 1 ++ [ECreate 0 None true; ERun 0; ELink 1 0; ELose 0; EKill 1 false; EDrain 1; EOnStop 1 true;
                  ENotify 1 0; EFinish 1].

(** Links made and taken down. *)
Definition ex_links : list sevent :=
  boot None 0 ++ boot (Some 3) 1 ++ boot None 2 ++
  [ELink 0 1; ELink 1 0; ELink 2 0; EUnlink 1 0; EUnlink 0 2; ELink 1 0; ELink 0 0].

(** 0 unlinks 1 when the report is in its mailbox already. *)
Definition ex_unlinked_late : list sevent :=
  boot None 0 ++ boot None 1 ++
  [ELink 0 1; EKill 1 false; EDrain 1; EOnStop 1 true; ENotify 1 0; EFinish 1; EUnlink 0 1;
   EHandle 0 (VLeave (RLinkDied 1 RKilled))].

(** 0 links to 1 after 1 has taken down its links. *)
Definition ex_late : list sevent :=
  boot None 0 ++ boot None 1 ++
  [EKill 1 false; EDrain 1; ELink 0 1; EOnStop 1 true; EFinish 1].

(** [on_start] of the child fails. *)
Definition ex_failed : list sevent :=
  boot None 0 ++ spawn_link 0 1 None true ++ [EStarted 1 false; EFailDone 1 (Some RPanicked)].

(** Two linked actors with full mailboxes are killed. *)
Definition ex_deadlock : list sevent :=
  boot (Some 1) 0 ++ boot (Some 1) 1 ++
  [ELink 0 1; ESend 0 (SMsg 7); ESend 1 (SMsg 8); EKill 0 false; EKill 1 false; EDrain 0; EDrain 1;
   EOnStop 0 true; EOnStop 1 true; ENotify 0 1; ENotify 1 0].

(** [spawn_link], then the child is killed at once. *)
Definition ex_spawn_pre : list sevent := boot None 0 ++ [ECreate 1 None true].
Definition ex_spawn_post : list sevent :=
  [ERun 1; EStarted 1 true; EKill 1 false; EDrain 1; EOnStop 1 true; ENotify 1 0; EFinish 1].

(** 1, linked to two others, is in [on_stop]. *)
Definition ex_onstop : list sevent :=
  boot None 0 ++ boot (Some 3) 1 ++ boot None 2 ++ [ELink 1 2; ELink 0 1; EKill 1 false; EDrain 1].
Definition ex_ending : list sevent :=
  [EOnStop 1 true; ESend 0 (SMsg 3); ENotify 1 2; ELink 2 1; ENotify 1 0; EFinish 1; EHandle 0 VContinue].

(** Enough for a state to be [settled]. *)
Definition quiet (x : actor) : bool :=
  match ph x with
  | Absent | Prepared | Starting | Done _ | Crashed => true
  | Running => match queue x with [] => strong x | _ => false end
  | _ => false
  end.
Lemma quiet_settled : forall s, (forall a, quiet (s a) = true) -> settled s.
Proof.
  intros s Q. unfold settled, quiet in *. repeat split; intros; specialize (Q a); cbn [sstep];
    destruct (ph (s a)); try reflexivity; try discriminate.
  destruct (queue (s a)); [|discriminate]. rewrite Q. reflexivity.
Qed.

(** Running a concrete list of events. *)
Definition trace_of (es : list sevent) : list sobs :=
  match srun sinit es with Some (_, t) => t | None => [] end.
Lemma run_ok : forall es t (P : sys -> Prop),
  match srun sinit es with Some (s, t') => t' = t /\ P s | None => False end ->
  exists s, srun sinit es = Some (s, t) /\ P s.
Proof.
  intros es t P H. destruct (srun sinit es) as [[s t']|]; [|contradiction].
  destruct H as [-> H]. exists s. auto.
Qed.

Definition tr_chain : list sobs := Eval vm_compute in trace_of ex_chain.
Definition tr_chain_panic : list sobs := Eval vm_compute in trace_of ex_chain_panic.
Definition tr_chain_normal : list sobs := Eval vm_compute in trace_of ex_chain_normal.
Definition tr_told : list sobs := Eval vm_compute in trace_of ex_told.
Definition tr_told_starting : list sobs := Eval vm_compute in trace_of ex_told_starting.
Definition tr_links : list sobs := Eval vm_compute in trace_of ex_links.
Definition tr_unlinked_late : list sobs := Eval vm_compute in trace_of ex_unlinked_late.
Definition tr_late : list sobs := Eval vm_compute in trace_of ex_late.
Definition tr_failed : list sobs := Eval vm_compute in trace_of ex_failed.
Definition tr_deadlock : list sobs := Eval vm_compute in trace_of ex_deadlock.
Definition tr_onstop : list sobs := Eval vm_compute in trace_of ex_onstop.
Definition tr_spawn : list sobs :=
  Eval vm_compute in trace_of (ex_spawn_pre ++ ELink 1 0 :: ex_spawn_post).

Ltac not_there :=
  intros; let I := fresh in intro I; vm_compute in I;
  repeat (destruct I as [I|I]; [discriminate|]); contradiction.

(** Actors that were not created are as they were. *)
Lemma untouched : forall es s s' t a, srun s es = Some (s', t) ->
  existsb (fun e => match e with ECreate x _ _ => x =? a | _ => false end) es = false ->
  ph (s a) = Absent -> ph (s' a) = Absent /\ cap (s' a) = cap (s a).
Proof.
  induction es as [|e es IH]; cbn [srun existsb]; intros s s' t a H N P; [inversion H; subst; auto|].
  destruct (sstep s e) as [[s1 o1]|] eqn:S1; [|discriminate].
  destruct (srun s1 es) as [[s2 o2]|] eqn:S2; [|discriminate]. inversion H; subst.
  apply orb_false_iff in N. destruct N as [N1 N2].
  assert (K : ph (s1 a) = Absent /\ cap (s1 a) = cap (s a)).
  { clear - S1 N1 P. destruct e; cbn [sstep] in S1; repeat (break_match_in S1; try discriminate S1);
      inversion S1; subst; clear S1; unfold upd;
      repeat match goal with |- context [a =? ?z] => destruct (Nat.eqb_spec a z); subst end;
      auto; try congruence; try (rewrite Nat.eqb_refl in N1; discriminate);
      try (destruct (_ =? _); auto; fail); cbn; auto.
    all: try (unfold is_absent in *; rewrite P in *; discriminate).
    1-2: match goal with |- context [if ?u then _ else _] => destruct u end; auto.
    all: match goal with H : notify _ _ _ _ = Some _ |- _ => unfold notify in H;
           repeat (break_match_in H; try discriminate H); inversion H; subst; cbn; auto end. }
  destruct K as [K1 K2]. destruct (IH _ _ _ a S2 N2 K1) as [L1 L2]. split; congruence.
Qed.

Lemma report_not_recalled : exists es s t t1 t2,
  srun sinit es = Some (s, t) /\ t = t1 ++ OUnlink 0 1 :: t2
  /\ In (OHandled 0 (SLinkDied 1 RKilled) (VLeave (RLinkDied 1 RKilled))) t2
  /\ ~ In (OLink 0 1) t2 /\ ~ In (OLink 1 0) t2.
Proof.
  destruct (run_ok ex_unlinked_late tr_unlinked_late (fun _ => True)) as (s & H & _);
    [vm_compute; auto|].
  exists ex_unlinked_late, s, tr_unlinked_late.
  exists [OStarted 0 true; OPush 0 SStartup; OHandled 0 SStartup VContinue;
          OStarted 1 true; OPush 1 SStartup; OHandled 1 SStartup VContinue;
          OLink 0 1; OLeft 1 RKilled; ODrained 1 RKilled [0]; OPush 0 (SLinkDied 1 RKilled); OClosed 1].
  eexists. split; [exact H|]. split; [reflexivity|]. split; [left; reflexivity|].
  split; intro I; cbn in I; repeat (destruct I as [I|I]; [discriminate|]); contradiction.
Qed.

Lemma late_link_forever : exists es s t,
  srun sinit es = Some (s, t) /\ In 1 (links (s 0)) /\ In (OLeft 1 RKilled) t /\ ph (s 1) = Done RKilled
  /\ ph (s 0) = Running /\ refd (s 0) = true
  /\ forall es' s' t' q, srun s es' = Some (s', t') -> ~ In (OPush 0 (SLinkDied 1 q)) (t ++ t').
Proof.
  destruct (run_ok ex_late tr_late (fun s => In 1 (links (s 0)) /\ ph (s 1) = Done RKilled
    /\ ph (s 0) = Running /\ refd (s 0) = true)) as (s & H & A & B & C & D); [vm_compute; auto 10|].
  exists ex_late, s, tr_late. split; [exact H|]. split; [exact A|]. split; [cbn; tauto|].
  repeat (split; [assumption|]).
  intros es' s' t' q H'. apply (late_link (ex_late ++ es') s' _ 1 0 RKilled []).
  - rewrite srun_app, H, H'. reflexivity.
  - apply in_or_app. left. cbn. tauto.
  - intros [].
Qed.

Lemma deadlock_reached : exists es s t, srun sinit es = Some (s, t)
  /\ In (OLeft 0 RKilled) t /\ In (OLeft 1 RKilled) t
  /\ forall es' s' t', srun s es' = Some (s', t') ->
     ~ In (OClosed 0) (t ++ t') /\ ~ In (OClosed 1) (t ++ t').
Proof.
  destruct (run_ok ex_deadlock tr_deadlock stuck_pair) as (s & H & K); [vm_compute; auto|].
  exists ex_deadlock, s, tr_deadlock. split; [exact H|]. split; [cbn; tauto|]. split; [cbn; tauto|].
  exact (stuck_forever _ _ _ H K).
Qed.

Lemma deadlock_settled : exists s, srun sinit ex_deadlock = Some (s, tr_deadlock) /\ settled s
  /\ ph (s 0) = Notifying RKilled [(1, true)].
Proof.
  destruct (run_ok ex_deadlock tr_deadlock stuck_pair) as (s & H & P0 & P1 & R0 & R1); [vm_compute; auto|].
  assert (U : forall a, ph (s (S (S a))) = Absent)
    by (intro a; apply (untouched _ _ _ _ (S (S a)) H); reflexivity).
  exists s. split; [exact H|]. split; [|exact P0].
  assert (O0 : open (s 0) = true) by (unfold open; rewrite P0; reflexivity).
  assert (O1 : open (s 1) = true) by (unfold open; rewrite P1; reflexivity).
  unfold settled. repeat split; intros; destruct a as [|[|a]]; cbn [sstep]; rewrite ?P0, ?P1, ?U; try reflexivity;
    cbn [find_pend].
  - destruct (Nat.eqb_spec 1 b); [subst; unfold notify; rewrite O1, R1|]; reflexivity.
  - destruct (Nat.eqb_spec 0 b); [subst; unfold notify; rewrite O0, R0|]; reflexivity.
Qed.

(** Three actors linked in a chain, all with the default reaction, of which the first is killed; the last
    goes on for ever. *)
Definition boots : list sobs :=
  [OStarted 0 true; OPush 0 SStartup; OHandled 0 SStartup VContinue;
   OStarted 1 true; OPush 1 SStartup; OHandled 1 SStartup VContinue;
   OStarted 2 true; OPush 2 SStartup; OHandled 2 SStartup VContinue].
Lemma chain_linked : forall t, (forall a b, ~ In (OUnlink a b) t) ->
  connected (boots ++ OLink 0 1 :: OLink 2 0 :: t) 1 2.
Proof.
  intros t U. apply Relation_Operators.rt1n_trans with (y := 0); [|apply Relation_Operators.rt1n_trans with (y := 2); [|apply rt1n_refl]].
  - exists boots, (OLink 0 1), (OLink 2 0 :: t). split; [reflexivity|]. split; [right; reflexivity|].
    do 2 (split; [not_there|]). split; (intros [E|I]; [discriminate E|exact (U _ _ I)]).
  - exists (boots ++ [OLink 0 1]), (OLink 2 0), t. split; [reflexivity|]. split; [right; reflexivity|].
    do 2 (split; [not_there|]). split; apply U.
Qed.

Ltac three x L := assert (X : x = 0 \/ x = 1 \/ x = 2) by
  (clear - L; do 3 (destruct x; [auto|]); exfalso; do 3 apply Nat.succ_lt_mono in L; inversion L);
  destruct X as [ -> | [ -> | -> ] ].

Lemma chain_panic : exists es s t, srun sinit es = Some (s, t) /\ settled s /\ connected t 1 2
  /\ (forall x, x < 3 -> dflt (s x) = true /\ In (OStarted x true) t)
  /\ (forall a b, In (OLink a b) t -> a < 3 /\ b < 3) /\ (forall x, ~ In (OLeft x RNormal) t)
  /\ In (OLeft 1 RKilled) t /\ ph (s 0) = Crashed /\ ph (s 2) = Running /\ forall r, ~ In (OLeft 2 r) t.
Proof.
  destruct (run_ok ex_chain_panic tr_chain_panic (fun s =>
      (quiet (s 0) = true /\ quiet (s 1) = true /\ quiet (s 2) = true)
      /\ (dflt (s 0) = true /\ dflt (s 1) = true /\ dflt (s 2) = true)
      /\ ph (s 0) = Crashed /\ ph (s 2) = Running))
    as (s & H & (Q0 & Q1 & Q2) & (D0 & D1 & D2) & P0 & P2); [vm_compute; auto 10|].
  exists ex_chain_panic, s, tr_chain_panic. split; [exact H|]. split.
  { apply quiet_settled. intro a. do 3 (destruct a; [assumption|]).
    destruct (untouched _ _ _ _ (S (S (S a))) H) as [U _]; [reflexivity|reflexivity|].
    unfold quiet. rewrite U. reflexivity. }
  split; [apply (chain_linked (skipn 11 tr_chain_panic)); not_there|].
  split; [intros x L; three x L; (split; [assumption|cbn; tauto])|].
  split; [intros a b I; vm_compute in I; repeat (destruct I as [I|I]; [try discriminate I; injection I as <- <-; auto|]); contradiction|].
  split; [not_there|]. split; [cbn; tauto|]. split; [exact P0|]. split; [exact P2|]. not_there.
Qed.

Lemma chain_normal : exists es s t, srun sinit es = Some (s, t) /\ settled s /\ connected t 1 2
  /\ (forall x, x < 3 -> dflt (s x) = true /\ In (OStarted x true) t /\ ph (s x) <> Crashed)
  /\ (forall a b, In (OLink a b) t -> a < 3 /\ b < 3)
  /\ In (OLeft 1 RKilled) t /\ ph (s 0) = Done RNormal /\ ph (s 2) = Running /\ forall r, ~ In (OLeft 2 r) t.
Proof.
  destruct (run_ok ex_chain_normal tr_chain_normal (fun s =>
      (quiet (s 0) = true /\ quiet (s 1) = true /\ quiet (s 2) = true)
      /\ (dflt (s 0) = true /\ dflt (s 1) = true /\ dflt (s 2) = true)
      /\ ph (s 0) = Done RNormal /\ ph (s 1) = Done RKilled /\ ph (s 2) = Running))
    as (s & H & (Q0 & Q1 & Q2) & (D0 & D1 & D2) & P0 & P1 & P2); [vm_compute; auto 10|].
  exists ex_chain_normal, s, tr_chain_normal. split; [exact H|]. split.
  { apply quiet_settled. intro a. do 3 (destruct a; [assumption|]).
    destruct (untouched _ _ _ _ (S (S (S a))) H) as [U _]; [reflexivity|reflexivity|].
    unfold quiet. rewrite U. reflexivity. }
  split; [apply (chain_linked (skipn 11 tr_chain_normal)); not_there|].
  split; [intros x L; three x L; (split; [assumption|split; [cbn; tauto|congruence]])|].
  split; [intros a b I; vm_compute in I; repeat (destruct I as [I|I]; [try discriminate I; injection I as <- <-; auto|]); contradiction|].
  split; [cbn; tauto|]. split; [exact P0|]. split; [exact P2|]. not_there.
Qed.
