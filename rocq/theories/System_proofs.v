(** Proofs about linked actors. *)
From Coq Require Import List Bool PeanoNat Lia Relations Compare_dec.
From Verif Require Import System System_spec.
Import ListNotations.

(** ** Runs *)
Inductive reach : sys -> list sobs -> Prop :=
| reach0 : reach sinit []
| reach1 : forall s t e s' o, reach s t -> sstep s e = Some (s', o) -> reach s' (t ++ o).

Lemma srun_app : forall es1 es2 s,
  srun s (es1 ++ es2) =
  match srun s es1 with
  | None => None
  | Some (s1, o1) =>
      match srun s1 es2 with None => None | Some (s2, o2) => Some (s2, o1 ++ o2) end
  end.
Proof.
  induction es1 as [|e es1 IH]; intros; cbn [srun app].
  - destruct (srun s es2) as [[? ?]|]; reflexivity.
  - destruct (sstep s e) as [[s1 o1]|]; [|reflexivity].
    rewrite IH. destruct (srun s1 es1) as [[s2 o2]|]; [|reflexivity].
    destruct (srun s2 es2) as [[s3 o3]|]; [|reflexivity]. rewrite app_assoc. reflexivity.
Qed.

Lemma reach_more : forall es s t s' t', reach s t -> srun s es = Some (s', t') -> reach s' (t ++ t').
Proof.
  induction es as [|e es IH]; cbn [srun]; intros s t s' t' R H.
  - inversion H; subst. rewrite app_nil_r. exact R.
  - destruct (sstep s e) as [[s1 o1]|] eqn:E; [|discriminate].
    destruct (srun s1 es) as [[s2 o2]|] eqn:E2; [|discriminate].
    inversion H; subst. rewrite app_assoc. eapply IH; eauto. econstructor; eauto.
Qed.

Lemma srun_reach : forall es s t, srun sinit es = Some (s, t) -> reach s t.
Proof. intros. change t with ([] ++ t). eapply reach_more; eauto. constructor. Qed.

(** ** Helpers on maps *)
Lemma upd_same : forall s a f, upd s a f a = f (s a).
Proof. intros. unfold upd. rewrite Nat.eqb_refl. reflexivity. Qed.
Lemma upd_other : forall s a f b, b <> a -> upd s a f b = s b.
Proof. intros. unfold upd. destruct (Nat.eqb_spec b a); congruence. Qed.

Definition mem (b : nat) (l : list nat) : bool := existsb (Nat.eqb b) l.

Arguments mem : simpl never.
Arguments add_link : simpl never.
Arguments del_link : simpl never.

Lemma mem_In : forall b l, mem b l = true <-> In b l.
Proof.
  intros. unfold mem. rewrite existsb_exists. split.
  - intros (x & Hx & E). apply Nat.eqb_eq in E. subst. exact Hx.
  - intros H. exists b. split; [exact H|apply Nat.eqb_refl].
Qed.

Lemma mem_add : forall b c l, mem b (add_link c l) = (b =? c) || mem b l.
Proof.
  intros. unfold add_link. fold (mem c l). destruct (mem c l) eqn:E.
  - destruct (Nat.eqb_spec b c); [subst; rewrite E|]; reflexivity.
  - reflexivity.
Qed.

Lemma mem_del : forall b c l, mem b (del_link c l) = negb (b =? c) && mem b l.
Proof.
  intros. apply eq_true_iff_eq. rewrite mem_In. unfold del_link.
  rewrite filter_In, andb_true_iff, mem_In, !negb_true_iff. tauto.
Qed.

Lemma nodup_add : forall b l, NoDup l -> NoDup (add_link b l).
Proof.
  intros. unfold add_link. fold (mem b l). destruct (mem b l) eqn:E; [assumption|].
  constructor; [|assumption]. intro I. apply mem_In in I. congruence.
Qed.
Lemma nodup_del : forall b l, NoDup l -> NoDup (del_link b l).
Proof. intros. apply NoDup_filter. assumption. Qed.
Lemma in_add : forall b c l, In b (add_link c l) <-> b = c \/ In b l.
Proof.
  intros. rewrite <- !mem_In, mem_add, orb_true_iff, Nat.eqb_eq. reflexivity.
Qed.
Lemma in_del : forall b c l, In b (del_link c l) <-> b <> c /\ In b l.
Proof.
  intros. rewrite <- !mem_In, mem_del, andb_true_iff, negb_true_iff, Nat.eqb_neq. reflexivity.
Qed.

Lemma reason_eqb_eq : forall x y, reason_eqb x y = true <-> x = y.
Proof.
  induction x; destruct y; cbn; try (split; intro; congruence).
  rewrite andb_true_iff, Nat.eqb_eq, IHx. split; [intros [-> ->]; reflexivity|].
  intro H; inversion H; auto.
Qed.
Lemma sverdict_eqb_eq : forall x y, sverdict_eqb x y = true <-> x = y.
Proof.
  destruct x, y; cbn; try (split; intro; congruence).
  rewrite reason_eqb_eq. split; congruence.
Qed.

(** ** Case analysis of a step *)
Ltac break_match_in H :=
  match type of H with
  | context [match ?x with _ => _ end] =>
      match x with
      | context [match _ with _ => _ end] => fail 1
      | _ => destruct x eqn:?
      end
  end.

Ltac at_actor :=
  repeat match goal with
  | |- context [upd _ ?a _ ?b] =>
      first [ rewrite (upd_same _ a) | rewrite (upd_other _ a _ b) by congruence
            | destruct (Nat.eq_dec b a); [subst|] ]
  end.
Ltac at_actor_in H :=
  repeat match type of H with
  | context [upd _ ?a _ ?b] =>
      first [ rewrite (upd_same _ a) in H | rewrite (upd_other _ a _ b) in H by congruence
            | destruct (Nat.eq_dec b a); [subst|] ]
  end.

(** The steps, one constructor per way a step can go. *)
Inductive sstepR (s : sys) : sys -> list sobs -> Prop :=
| R_create : forall a c d, ph (s a) = Absent -> c <> Some 0 ->
    sstepR s (upd s a (fun _ => mk_actor Prepared [] c [] true 0 d)) []
| R_run : forall a, ph (s a) = Prepared -> sstepR s (upd s a (set_ph Starting)) []
| R_started : forall a (ok : bool), ph (s a) = Starting -> has_room (s a) = true ->
    sstepR s (upd s a (fun x => set_ph (if ok then Running else FailStop)
                                  (set_queue (queue x ++ [SStartup]) x)))
           [OStarted a ok; OPush a SStartup]
| R_started_full : forall a (ok : bool), ph (s a) = Starting -> has_room (s a) = false ->
    sstepR s (upd s a (set_ph (if ok then Running else FailStop))) [OStarted a ok]
| R_nop : sstepR s s []
| R_link : forall a b, ph (s a) <> Absent -> ph (s b) <> Absent -> a <> b ->
    sstepR s (upd (upd s a (fun x => set_links (add_link b (links x)) x))
                  b (fun x => set_links (add_link a (links x)) x)) [OLink a b]
| R_unlink : forall a b, ph (s a) <> Absent -> ph (s b) <> Absent -> a <> b ->
    sstepR s (upd (upd s a (fun x => set_links (del_link b (links x)) x))
                  b (fun x => set_links (del_link a (links x)) x)) [OUnlink a b]
| R_send : forall a g, (g = SStop \/ exists n, g = SMsg n) -> open (s a) = true ->
    strong (s a) = true -> has_room (s a) = true ->
    sstepR s (upd s a (fun x => set_queue (queue x ++ [g]) x)) [OPush a g]
| R_refs : forall a f, ph (s a) <> Absent -> (f = true -> strong (s a) = true) ->
    sstepR s (upd s a (set_refd f)) []
| R_kill : forall a, ph (s a) = Running ->
    sstepR s (upd s a (set_ph (Leaving RKilled))) [OLeft a RKilled]
| R_kill_in : forall a g q, ph (s a) = Running -> queue (s a) = g :: q ->
    sstepR s (upd s a (fun x => set_ph (Leaving RKilled) (set_queue q x)))
           [OTaken a g; OLeft a RKilled]
| R_none : forall a v, ph (s a) = Running -> queue (s a) = [] -> strong (s a) = false ->
    sstepR s (upd s a (after v)) (after_obs a v)
| R_link_died : forall a id r q v, ph (s a) = Running -> queue (s a) = SLinkDied id r :: q ->
    (dflt (s a) = true -> v = default_link_died id r) ->
    sstepR s (upd s a (fun x => after v (set_links (del_link id (links x)) (set_queue q x))))
           (OHandled a (SLinkDied id r) v :: after_obs a v)
| R_signal : forall a g q v, ph (s a) = Running -> queue (s a) = g :: q ->
    (forall id r, g <> SLinkDied id r) ->
    sstepR s (upd s a (fun x => after v (set_queue q x))) (OHandled a g v :: after_obs a v)
| R_drain : forall a r, ph (s a) = Leaving r ->
    sstepR s (upd s a (fun x => set_ph (OnStop r (links x)) (set_links [] x)))
           [ODrained a r (links (s a))]
| R_on_stop : forall a r l, ph (s a) = OnStop r l ->
    sstepR s (upd s a (set_ph (Notifying r (map (fun b => (b, false)) l)))) []
| R_on_stop_crash : forall a r l, ph (s a) = OnStop r l ->
    sstepR s (upd s a (close Crashed)) [OClosed a]
| R_deliver : forall a r l b (up : bool), ph (s a) = Notifying r l -> find_pend b l = Some up ->
    open (s b) = true -> has_room (s b) = true -> (up = false -> strong (s b) = true) ->
    sstepR s (upd (upd s b (fun x => set_holds (if up then pred (holds x) else holds x)
                                       (set_queue (queue x ++ [SLinkDied a r]) x)))
                  a (set_ph (Notifying r (drop_pend b l)))) [OPush b (SLinkDied a r)]
| R_skip : forall a r l b (up : bool), ph (s a) = Notifying r l -> find_pend b l = Some up ->
    (open (s b) = false \/ (up = false /\ strong (s b) = false)) ->
    sstepR s (upd (upd s b (fun x => set_holds (if up then pred (holds x) else holds x) x))
                  a (set_ph (Notifying r (drop_pend b l)))) []
| R_hold : forall a r l b, ph (s a) = Notifying r l -> find_pend b l = Some false ->
    open (s b) = true -> has_room (s b) = false -> strong (s b) = true ->
    sstepR s (upd (upd s b (fun x => set_holds (S (holds x)) x))
                  a (set_ph (Notifying r (mark_pend b l)))) []
| R_finish : forall a r, ph (s a) = Notifying r [] ->
    sstepR s (upd s a (close (Done r))) [OClosed a]
| R_fail : forall a r, ph (s a) = FailStop ->
    sstepR s (upd s a (close (match r with Some r => Done r | None => Crashed end))) [OClosed a].

(** States are compared actor by actor (they are functions). *)
Definition same_sys (s s' : sys) : Prop := forall a, s a = s' a.

Lemma not_absent : forall x, is_absent x = false <-> ph x <> Absent.
Proof. intros. unfold is_absent. destruct (ph x); split; congruence. Qed.

Lemma set_holds_same : forall x, set_holds (holds x) x = x.
Proof. destruct x; reflexivity. Qed.

Lemma sstep_R : forall s e s' o, sstep s e = Some (s', o) ->
  exists s'', sstepR s s'' o /\ same_sys s' s''.
Proof.
  intros s e s' o H. unfold sstep in H.
  destruct e.
  - destruct (is_absent (s a) && match c with Some 0 => false | _ => true end) eqn:E; inversion H; subst.
    apply andb_true_iff in E. destruct E as [E C].
    eexists; split; [apply (R_create s a c d)|intro; reflexivity].
    + unfold is_absent in E. destruct (ph (s a)); congruence.
    + intros ->. discriminate.
  - destruct (ph (s a)) eqn:E; inversion H; subst. eexists; split; [apply R_run; eauto|intro; reflexivity].
  - destruct (ph (s a)) eqn:E; try discriminate. destruct (has_room (s a)) eqn:R; inversion H; subst.
    + eexists; split; [apply R_started; eauto|intro; reflexivity].
    + eexists; split; [apply R_started_full; eauto|intro; reflexivity].
  - destruct (is_absent (s a) || is_absent (s b)) eqn:E; [discriminate|].
    apply orb_false_iff in E. rewrite !not_absent in E.
    destruct (Nat.eqb_spec a b); inversion H; subst.
    + eexists; split; [apply R_nop|intro; reflexivity].
    + eexists; split; [apply (R_link s a b); tauto|intro; reflexivity].
  - destruct (is_absent (s a) || is_absent (s b)) eqn:E; [discriminate|].
    apply orb_false_iff in E. rewrite !not_absent in E.
    destruct (Nat.eqb_spec a b); inversion H; subst.
    + eexists; split; [apply R_nop|intro; reflexivity].
    + eexists; split; [apply (R_unlink s a b); tauto|intro; reflexivity].
  - destruct g; try discriminate; destruct (open (s a) && strong (s a) && has_room (s a)) eqn:E; inversion H; subst;
      rewrite !andb_true_iff in E; (eexists; split; [apply (R_send s a); [eauto|tauto..]|intro; reflexivity]).
  - destruct (is_absent (s a)) eqn:E; inversion H; subst. rewrite not_absent in E.
    eexists; split; [apply (R_refs s a false); [assumption|discriminate]|intro; reflexivity].
  - destruct (negb (is_absent (s a)) && strong (s a)) eqn:E; inversion H; subst.
    rewrite andb_true_iff, negb_true_iff, not_absent in E.
    eexists; split; [apply (R_refs s a true); tauto|intro; reflexivity].
  - destruct (ph (s a)) eqn:E; try discriminate. destruct (queue (s a)) eqn:Q; destruct taken; inversion H; subst.
    + eexists; split; [apply R_kill; eauto|intro; reflexivity].
    + eexists; split; [eapply R_kill_in; eauto|intro; reflexivity].
    + eexists; split; [apply R_kill; eauto|intro; reflexivity].
  - destruct (ph (s a)) eqn:E; try discriminate. destruct (queue (s a)) as [|g q] eqn:Q.
    + destruct (strong (s a)) eqn:S; inversion H; subst.
      eexists; split; [apply R_none; eauto|intro; reflexivity].
    + destruct g; try (inversion H; subst; eexists; split; [eapply R_signal; eauto; intros; discriminate|intro; reflexivity]).
      destruct (negb (dflt (s a)) || sverdict_eqb v (default_link_died id r)) eqn:D; inversion H; subst.
      eexists; split; [eapply R_link_died; eauto|intro; reflexivity].
      intro F. rewrite F in D. apply sverdict_eqb_eq in D. exact D.
  - destruct (ph (s a)) eqn:E; inversion H; subst. eexists; split; [apply R_drain; eauto|intro; reflexivity].
  - destruct (ph (s a)) eqn:E; try discriminate. destruct ok; inversion H; subst.
    + eexists; split; [apply R_on_stop; eauto|intro; reflexivity].
    + eexists; split; [eapply R_on_stop_crash; eauto|intro; reflexivity].
  - destruct (ph (s a)) eqn:E; try discriminate. destruct (find_pend b pend) as [up|] eqn:F; [|discriminate].
    unfold notify in H. destruct up.
    + destruct (open (s b)) eqn:O.
      * destruct (has_room (s b)) eqn:R; inversion H; subst.
        eexists; split; [eapply (R_deliver _ _ _ _ b true); eauto; discriminate|].
        intro x. unfold upd. destruct (Nat.eqb_spec x b) as [->|]; reflexivity.
      * inversion H; subst. eexists; split; [eapply (R_skip _ _ _ _ b true); eauto|].
        intro x. unfold upd. destruct (Nat.eqb_spec x b) as [->|]; reflexivity.
    + destruct (strong (s b)) eqn:S.
      * destruct (open (s b)) eqn:O.
        -- destruct (has_room (s b)) eqn:R; inversion H; subst.
           ++ eexists; split; [eapply (R_deliver _ _ _ _ b false); eauto|].
              intro x. unfold upd. destruct (Nat.eqb_spec x b) as [->|]; reflexivity.
           ++ eexists; split; [eapply (R_hold _ _ _ _ b); eauto|].
              intro x. unfold upd. destruct (Nat.eqb_spec x b) as [->|]; reflexivity.
        -- inversion H; subst. eexists; split; [eapply (R_skip _ _ _ _ b false); eauto|].
           intro x. unfold upd. destruct (Nat.eqb_spec x b) as [->|]; [rewrite set_holds_same|]; reflexivity.
      * inversion H; subst. eexists; split; [eapply (R_skip _ _ _ _ b false); eauto|].
        intro x. unfold upd. destruct (Nat.eqb_spec x b) as [->|]; [rewrite set_holds_same|]; reflexivity.
  - destruct (ph (s a)) eqn:E; try discriminate. destruct pend; inversion H; subst.
    eexists; split; [apply R_finish; eauto|intro; reflexivity].
  - destruct (ph (s a)) eqn:E; try discriminate. inversion H; subst.
    eexists; split; [apply R_fail; eauto|intro; reflexivity].
Qed.

(** ** The links are what the last call made them (C31) *)
Definition lstep (a b : nat) (cur : bool) (o : sobs) : bool :=
  match o with
  | OLink x y => ((x =? a) && (y =? b)) || ((x =? b) && (y =? a)) || cur
  | OUnlink x y => negb (((x =? a) && (y =? b)) || ((x =? b) && (y =? a))) && cur
  | ODrained x _ _ => negb (x =? a) && cur
  | OHandled x (SLinkDied y _) _ => negb ((x =? a) && (y =? b)) && cur
  | _ => cur
  end.
Definition lfold (a b : nat) (t : list sobs) : bool := fold_left (lstep a b) t false.

Lemma lstep_cases : forall a b cur o,
  lstep a b cur o = true <->
  ((o = OLink a b \/ o = OLink b a) \/ (cur = true /\ ~ unlinks a b o)).
Proof.
  intros. destruct o as [x ok|x y|x y|x g|x g v|x g|x r|x r l|x]; cbn [lstep].
  1,4,6,7,9: split; [intros; right; split; [assumption|intro U; inversion U]
                    |intros [[E|E]|[E _]]; [discriminate|discriminate|exact E]].
  - rewrite !orb_true_iff, !andb_true_iff, !Nat.eqb_eq. split.
    + intros [[[-> ->]|[-> ->]]|C]; auto. right. split; [assumption|intro U; inversion U].
    + intros [[E|E]|[C _]]; [inversion E; subst|inversion E; subst|]; auto.
  - rewrite andb_true_iff, negb_true_iff, orb_false_iff, !andb_false_iff, !Nat.eqb_neq. split.
    + intros [[N1 N2] C]. right. split; [assumption|]. intro U; inversion U; subst; tauto.
    + intros [[E|E]|[C U]]; [discriminate|discriminate|]. split; [|assumption].
      split.
      * destruct (Nat.eq_dec x a); [|auto]. destruct (Nat.eq_dec y b); [|auto]. subst. exfalso. apply U. constructor.
      * destruct (Nat.eq_dec x b); [|auto]. destruct (Nat.eq_dec y a); [|auto]. subst. exfalso. apply U. constructor.
  - destruct g as [n| | |y r].
    1-3: split; [intros; right; split; [assumption|intro U; inversion U]
                    |intros [[E|E]|[E _]]; [discriminate|discriminate|exact E]].
    rewrite andb_true_iff, negb_true_iff, andb_false_iff, !Nat.eqb_neq. split.
    + intros [N C]. right. split; [assumption|]. intro U; inversion U; subst; tauto.
    + intros [[E|E]|[C U]]; [discriminate|discriminate|]. split; [|assumption].
      destruct (Nat.eq_dec x a); [|auto]. destruct (Nat.eq_dec y b); [|auto]. subst. exfalso. apply U. constructor.
  - rewrite andb_true_iff, negb_true_iff, Nat.eqb_neq. split.
    + intros [N C]. right. split; [assumption|]. intro U; inversion U; subst; tauto.
    + intros [[E|E]|[C U]]; [discriminate|discriminate|]. split; [|assumption].
      intros ->. apply U. constructor.
Qed.

Lemma linked_after_snoc : forall t o a b,
  linked_after (t ++ [o]) a b <->
  ((o = OLink a b \/ o = OLink b a) \/ (linked_after t a b /\ ~ unlinks a b o)).
Proof.
  intros. split.
  - intros (t1 & x & t2 & E & L & N). destruct t2 as [|y t2] using rev_ind.
    + apply app_inj_tail in E. destruct E as [-> ->]. left. exact L.
    + rewrite app_comm_cons, app_assoc in E. apply app_inj_tail in E. destruct E as [-> ->].
      right. split.
      * exists t1, x, t2. repeat split; auto. intros o' I. apply N. apply in_or_app. auto.
      * apply N. apply in_or_app. right. left. reflexivity.
  - intros [L|[(t1 & x & t2 & -> & L & N) U]].
    + exists t, o, []. repeat split; auto.
    + exists t1, x, (t2 ++ [o]). split; [rewrite <- app_assoc; reflexivity|]. split; [exact L|].
      intros o' I. apply in_app_or in I. destruct I as [I|[<-|[]]]; auto.
Qed.

Lemma lfold_spec : forall a b t, lfold a b t = true <-> linked_after t a b.
Proof.
  intros. induction t as [|o t IH] using rev_ind.
  - cbn. split; [discriminate|]. intros (t1 & x & t2 & E & _). destruct t1; discriminate.
  - unfold lfold. rewrite fold_left_app. cbn [fold_left]. fold (lfold a b t).
    rewrite lstep_cases, linked_after_snoc, IH. reflexivity.
Qed.


Lemma reach_inv : forall (P : sys -> list sobs -> Prop),
  P sinit [] ->
  (forall s s' t, same_sys s s' -> P s t -> P s' t) ->
  (forall s t s' o, reach s t -> P s t -> sstepR s s' o -> P s' (t ++ o)) ->
  forall s t, reach s t -> P s t.
Proof.
  intros P H0 HS H1 s t R. induction R as [|s t e s' o R IH E]; [assumption|].
  destruct (sstep_R _ _ _ _ E) as (s'' & SR & SS).
  apply (HS s''); [|eapply H1; eauto]. intro x. symmetry. apply SS.
Qed.

(** Look at one actor after a step. *)
Ltac look x :=
  unfold upd;
  repeat match goal with
  | |- context [?y =? ?y] => rewrite (Nat.eqb_refl y)
  | |- context [if ?y =? ?a then _ else _] =>
      destruct (Nat.eqb_spec y a) as [->|]; try congruence
  end.

Lemma after_ph : forall v x, ph x = Running ->
  ph (after v x) = match v with VContinue => Running | VLeave r => Leaving r | VCrash => Crashed end.
Proof. intros v x H. destruct v; cbn; auto. Qed.
Lemma after_links : forall v x, links (after v x) = links x.
Proof. intros [| |] x; reflexivity. Qed.

Lemma stays_created : forall s s' o a, sstepR s s' o -> ph (s a) <> Absent -> ph (s' a) <> Absent.
Proof.
  intros s s' o a H N. destruct H; look a; cbn; try assumption; try discriminate;
    try (rewrite after_ph by (cbn; assumption); destruct v; discriminate).
  all: try (destruct ok; discriminate). 
  all: try (destruct r; discriminate).
Qed.

Definition links_ok (s : sys) (t : list sobs) : Prop :=
  forall a, NoDup (links (s a)) /\ ~ In a (links (s a))
    /\ (ph (s a) = Absent -> links (s a) = [])
    /\ (forall b, In b (links (s a)) -> ph (s b) <> Absent)
    /\ (forall b, mem b (links (s a)) = lfold a b t).

Lemma lfold_app : forall a b t o, lfold a b (t ++ o) = fold_left (lstep a b) o (lfold a b t).
Proof. intros. unfold lfold. apply fold_left_app. Qed.

Lemma links_change : forall s s' o a, sstepR s s' o ->
  links (s' a) = links (s a)
  \/ (ph (s a) = Absent /\ links (s' a) = [])
  \/ (exists b, b <> a /\ ph (s b) <> Absent /\ ph (s a) <> Absent /\ links (s' a) = add_link b (links (s a)))
  \/ (exists b, links (s' a) = del_link b (links (s a)))
  \/ links (s' a) = [].
Proof.
  intros s s' o a H. destruct H; look a; cbn; rewrite ?after_links; auto 6.
  all: right; right; first [left; eexists; repeat split; eauto; congruence | right; left; eexists; reflexivity].
Qed.

Ltac cases_R H :=
  destruct H as
    [x c d A C|x A|x ok A R|x ok A R| |x y A1 A2 NE|x y A1 A2 NE|x g G O S R|x f A F|x A|x g q A Q
    |x v A Q S|x id r q v A Q D|x g q v A Q G|x r A|x r l A|x r l A
    |x r l y up A F O R S|x r l y up A F OS|x r l y A F O R S|x r A|x r A].

Lemma fold_after : forall a b x v m, fold_left (lstep a b) (after_obs x v) m = m.
Proof. intros. destruct v; reflexivity. Qed.

Lemma links_fold : forall s s' o a b, sstepR s s' o -> (ph (s a) = Absent -> links (s a) = []) ->
  mem b (links (s' a)) = fold_left (lstep a b) o (mem b (links (s a))).
Proof.
  intros s s' o a b H HA.
  cases_R H; cbn [fold_left lstep]; rewrite ?fold_after.
  6:{ look a; cbn; rewrite ?mem_add.
      - rewrite ?Nat.eqb_refl, ?andb_true_r. destruct (Nat.eqb_spec x y); [congruence|]. cbn.
        rewrite Nat.eqb_sym. reflexivity.
      - rewrite ?Nat.eqb_refl. destruct (Nat.eqb_spec y x); [congruence|].
        cbn. rewrite andb_false_r, orb_false_r, Nat.eqb_sym. reflexivity.
      - destruct (Nat.eqb_spec x a), (Nat.eqb_spec y a); try congruence. cbn.
        rewrite andb_false_r. reflexivity. }
  6:{ look a; cbn; rewrite ?mem_del.
      - rewrite ?Nat.eqb_refl, ?andb_true_r. destruct (Nat.eqb_spec x y); [congruence|]. cbn.
        rewrite Nat.eqb_sym. reflexivity.
      - rewrite ?Nat.eqb_refl. destruct (Nat.eqb_spec y x); [congruence|].
        cbn. rewrite andb_false_r, orb_false_r, Nat.eqb_sym. reflexivity.
      - destruct (Nat.eqb_spec x a), (Nat.eqb_spec y a); try congruence. cbn.
        rewrite andb_false_r. reflexivity. }
  1:{ look a; cbn; rewrite ?HA by assumption; reflexivity. }
  all: look a; cbn; rewrite ?after_links; cbn; try reflexivity.
  - rewrite mem_del, ?Nat.eqb_refl, (Nat.eqb_sym id b). reflexivity.
  - destruct (Nat.eqb_spec x a); [congruence|reflexivity].
  - destruct g; cbn; rewrite ?fold_after; try reflexivity. edestruct G; reflexivity.
  - destruct g; cbn; rewrite ?fold_after; try reflexivity. edestruct G; reflexivity.
  - destruct (Nat.eqb_spec x a); [congruence|reflexivity].
Qed.

Lemma links_inv : forall s t, reach s t -> links_ok s t.
Proof.
  apply reach_inv.
  - intro a. cbn. repeat split; auto using NoDup_nil.
  - intros s s' t S H a. rewrite <- (S a). destruct (H a) as (H1 & H2 & H3 & H4 & H5).
    repeat split; auto. intros b I. rewrite <- (S b). auto.
  - intros s t s' o _ H ST a. destruct (H a) as (H1 & H2 & H3 & H4 & H5).
    assert (M : forall b, mem b (links (s' a)) = lfold a b (t ++ o)).
    { intros b. rewrite lfold_app, <- H5. apply links_fold; assumption. }
    assert (K : ph (s a) <> Absent -> ph (s' a) <> Absent) by (eapply stays_created; eauto).
    destruct (links_change _ _ _ a ST) as [E|[[A E]|[(b & N & B & A & E)|[(b & E)|E]]]];
      rewrite E; rewrite E in M.
    + repeat split; auto.
      * intro A'. apply H3. destruct (ph (s a)) eqn:P; try reflexivity; exfalso; apply K; congruence.
      * intros b I. eapply stays_created; eauto.
    + repeat split; auto using NoDup_nil.
    + repeat split; auto using nodup_add.
      * rewrite in_add. intros [|]; auto.
      * intro A'. exfalso. exact (K A A').
      * intros c I. apply in_add in I. eapply stays_created; eauto. destruct I; [subst; auto|auto].
    + repeat split; auto using nodup_del.
      * rewrite in_del. tauto.
      * intro A'. rewrite H3; [reflexivity|]. destruct (ph (s a)) eqn:P; try reflexivity; exfalso; apply K; congruence.
      * intros c I. apply in_del in I. eapply stays_created; eauto. apply H4. tauto.
    + repeat split; auto using NoDup_nil.
Qed.

(** C31 *)
Lemma links_exact : forall es s t a b, srun sinit es = Some (s, t) ->
  In b (links (s a)) <-> linked_after t a b.
Proof.
  intros es s t a b H. apply srun_reach, links_inv in H. destruct (H a) as (_ & _ & _ & _ & M).
  rewrite <- mem_In, M, lfold_spec. reflexivity.
Qed.

(** ** Who is told of a death (C32, C33) *)
Fixpoint drains (a : nat) (t : list sobs) : list (reason * list nat) :=
  match t with
  | [] => []
  | ODrained x r l :: t' => if x =? a then (r, l) :: drains a t' else drains a t'
  | _ :: t' => drains a t'
  end.
Fixpoint lefts (a : nat) (t : list sobs) : list reason :=
  match t with
  | [] => []
  | OLeft x r :: t' => if x =? a then r :: lefts a t' else lefts a t'
  | _ :: t' => lefts a t'
  end.
Fixpoint fails (a : nat) (t : list sobs) : bool :=
  match t with
  | [] => false
  | OStarted x ok :: t' => ((x =? a) && negb ok) || fails a t'
  | _ :: t' => fails a t'
  end.

Lemma drains_app : forall a t u, drains a (t ++ u) = drains a t ++ drains a u.
Proof.
  induction t as [|o t IH]; intro u; [reflexivity|].
  destruct o; cbn; rewrite ?IH; try reflexivity. destruct (a0 =? a); reflexivity.
Qed.
Lemma lefts_app : forall a t u, lefts a (t ++ u) = lefts a t ++ lefts a u.
Proof.
  induction t as [|o t IH]; intro u; [reflexivity|].
  destruct o; cbn; rewrite ?IH; try reflexivity. destruct (a0 =? a); reflexivity.
Qed.
Lemma fails_app : forall a t u, fails a (t ++ u) = fails a t || fails a u.
Proof.
  induction t as [|o t IH]; intro u; [reflexivity|].
  destruct o; cbn; rewrite ?IH; try reflexivity. rewrite orb_assoc. reflexivity.
Qed.
Lemma reports_app : forall a b t u, reports a b (t ++ u) = reports a b t ++ reports a b u.
Proof.
  induction t as [|o t IH]; intro u; [reflexivity|].
  destruct o as [| | |c g| | | | |]; cbn; rewrite ?IH; try reflexivity.
  destruct g; cbn; rewrite ?IH; try reflexivity.
  destruct (c =? b); [destruct (id =? a)|]; cbn; rewrite ?IH; reflexivity.
Qed.
Lemma pushed_app : forall b t u, pushed b (t ++ u) = pushed b t ++ pushed b u.
Proof.
  induction t as [|o t IH]; intro u; [reflexivity|].
  destruct o; cbn; rewrite ?IH; try reflexivity. destruct (b0 =? b); reflexivity.
Qed.
Lemma taken_app : forall b t u, taken b (t ++ u) = taken b t ++ taken b u.
Proof.
  induction t as [|o t IH]; intro u; [reflexivity|].
  destruct o; cbn; rewrite ?IH; try reflexivity; destruct (a =? b); reflexivity.
Qed.

Lemma in_drains : forall a r l t, In (r, l) (drains a t) <-> In (ODrained a r l) t.
Proof.
  induction t as [|o t IH]; [reflexivity|].
  destruct o as [| | | | | | |x q m|]; cbn [drains In]; try (rewrite IH; split; [auto|intros [E|]; [discriminate|auto]]).
  destruct (Nat.eqb_spec x a) as [->|N]; cbn [In]; rewrite IH; split.
  - intros [E|]; [inversion E; auto|auto].
  - intros [E|]; [inversion E; auto|auto].
  - auto.
  - intros [E|]; [inversion E; congruence|auto].
Qed.
Lemma in_lefts : forall a r t, In r (lefts a t) <-> In (OLeft a r) t.
Proof.
  induction t as [|o t IH]; [reflexivity|].
  destruct o as [| | | | | |x q| |]; cbn [lefts In]; try (rewrite IH; split; [auto|intros [E|]; [discriminate|auto]]).
  destruct (Nat.eqb_spec x a) as [->|N]; cbn [In]; rewrite IH; split.
  - intros [E|]; [inversion E; auto|auto].
  - intros [E|]; [inversion E; auto|auto].
  - auto.
  - intros [E|]; [inversion E; congruence|auto].
Qed.
Lemma in_fails : forall a t, fails a t = true <-> In (OStarted a false) t.
Proof.
  induction t as [|o t IH]; [split; [discriminate|intros []]|].
  destruct o as [x ok| | | | | | | |]; cbn [fails In]; try (rewrite IH; split; [auto|intros [E|]; [discriminate|auto]]).
  rewrite orb_true_iff, andb_true_iff, negb_true_iff, Nat.eqb_eq, IH. split.
  - intros [[-> ->]|]; auto.
  - intros [E|]; [inversion E; auto|auto].
Qed.
Lemma in_reports : forall a b r t, In r (reports a b t) <-> In (OPush b (SLinkDied a r)) t.
Proof.
  induction t as [|o t IH]; [reflexivity|].
  destruct o as [| | |c g| | | | |]; cbn [reports In]; try (rewrite IH; split; [auto|intros [E|]; [discriminate|auto]]).
  destruct g as [| | |d q]; cbn [In]; try (rewrite IH; split; [auto|intros [E|]; [discriminate|auto]]).
  destruct (Nat.eqb_spec c b) as [->|N]; [destruct (Nat.eqb_spec d a) as [->|N]|]; cbn [In]; rewrite IH; split;
    intros; repeat match goal with H : _ \/ _ |- _ => destruct H | H : OPush _ _ = _ |- _ => inversion H; subst; clear H end;
    subst; auto; congruence.
Qed.
Lemma in_pushed : forall b g t, In g (pushed b t) <-> In (OPush b g) t.
Proof.
  induction t as [|o t IH]; [reflexivity|].
  destruct o as [| | |c g'| | | | |]; cbn [pushed In]; try (rewrite IH; split; [auto|intros [E|]; [discriminate|auto]]).
  destruct (Nat.eqb_spec c b) as [->|N]; cbn [In]; rewrite IH; split.
  - intros [E|]; [subst; auto|auto].
  - intros [E|]; [inversion E; auto|auto].
  - auto.
  - intros [E|]; [inversion E; congruence|auto].
Qed.
Lemma in_taken : forall b g t, In g (taken b t) <-> (exists v, In (OHandled b g v) t) \/ In (OTaken b g) t.
Proof.
  induction t as [|o t IH]; [cbn; split; [tauto|intros [[v []]|[]]]|].
  assert (K : (forall v, o <> OHandled b g v) -> o <> OTaken b g ->
     ((exists v, In (OHandled b g v) t) \/ In (OTaken b g) t <->
      (exists v, In (OHandled b g v) (o :: t)) \/ In (OTaken b g) (o :: t))).
  { intros N1 N2. cbn [In]. split.
    - intros [[v I]|I]; eauto.
    - intros [[v [E|I]]|[E|I]]; eauto; [exfalso; eapply N1; eauto|exfalso; auto]. }
  destruct o as [| | | |c h v|c h| | |]; cbn [taken];
    try (rewrite IH; apply K; intros; discriminate).
  - destruct (Nat.eqb_spec c b) as [->|N]; [|rewrite IH; apply K; intros; congruence].
    cbn [In]. rewrite IH. split.
    + intros [->|[[w I]|I]]; eauto.
    + intros [[w [E|I]]|[E|I]]; eauto; [inversion E; auto|discriminate].
  - destruct (Nat.eqb_spec c b) as [->|N]; [|rewrite IH; apply K; intros; congruence].
    cbn [In]. rewrite IH. split.
    + intros [->|[[w I]|I]]; eauto.
    + intros [[w [E|I]]|[E|I]]; eauto; [discriminate|inversion E; auto].
Qed.

(** Nobody can be told any more: no receiver, or no reference left. *)
Definition gone (y : actor) : bool :=
  match ph y with
  | Absent => false
  | Done _ | Crashed => true
  | _ => negb (strong y)
  end.

Lemma gone_stays : forall s s' o b, sstepR s s' o -> gone (s b) = true -> gone (s' b) = true.
Proof.
  intros s s' o b H HG. unfold gone in *.
  cases_R H; unfold strong in *; look b; cbn; try assumption;
    repeat match goal with A : ph _ = _ |- _ => rewrite A in HG; cbn in HG end; try discriminate HG; auto.
  all: repeat match goal with
       | ok : bool |- _ => destruct ok
       | v : sverdict |- _ => destruct v
       | r : option reason |- _ => destruct r
       end; cbn in *;
       repeat match goal with
       | |- context [refd (?s ?z)] => destruct (refd (s z)); cbn in *; try discriminate
       | |- context [holds (?s ?z)] => destruct (holds (s z)) as [|[|]]; cbn in *; try discriminate
       | |- context [ph (?s ?z)] => destruct (ph (s z)); cbn in *; try discriminate
       end; auto; try (match goal with H : negb _ = true |- _ => apply negb_true_iff in H end;
            try match goal with F : true = true -> _ |- _ => specialize (F eq_refl) end; congruence).
  all: match goal with H : negb _ = true |- _ => rewrite ?orb_true_r, ?orb_true_l in H; cbn in H end; try discriminate.
  rewrite A in S. apply negb_true_iff in HG. congruence.
Qed.

Definition told_ok (s : sys) (t : list sobs) (a : nat) : Prop :=
  match ph (s a) with
  | Absent | Prepared | Starting | Running =>
      drains a t = [] /\ (forall b, reports a b t = []) /\ lefts a t = [] /\ fails a t = false
  | FailStop =>
      drains a t = [] /\ (forall b, reports a b t = []) /\ lefts a t = [] /\ fails a t = true
  | Leaving r =>
      drains a t = [] /\ (forall b, reports a b t = []) /\ lefts a t = [r] /\ fails a t = false
  | OnStop r l =>
      drains a t = [(r, l)] /\ (forall b, reports a b t = []) /\ lefts a t = [r] /\ fails a t = false
      /\ NoDup l /\ (forall b, In b l -> b <> a /\ ph (s b) <> Absent)
  | Notifying r p =>
      exists l, drains a t = [(r, l)] /\ lefts a t = [r] /\ fails a t = false
      /\ NoDup (map fst p) /\ (forall b, In b (map fst p) -> In b l)
      /\ (forall b, In b l -> b <> a /\ ph (s b) <> Absent)
      /\ (forall b, In b (map fst p) -> reports a b t = [])
      /\ (forall b, ~ In b l -> reports a b t = [])
      /\ (forall b, In b l -> ~ In b (map fst p) ->
            reports a b t = [r] \/ (reports a b t = [] /\ gone (s b) = true))
  | Done r =>
      (fails a t = true /\ drains a t = [] /\ lefts a t = [] /\ forall b, reports a b t = [])
      \/ (fails a t = false /\ lefts a t = [r] /\ exists l, drains a t = [(r, l)]
          /\ (forall b, ~ In b l -> reports a b t = [])
          /\ (forall b, In b l -> reports a b t = [r] \/ (reports a b t = [] /\ gone (s b) = true)))
  | Crashed =>
      (forall b, reports a b t = [])
      /\ ((drains a t = [] /\ lefts a t = []) \/ (fails a t = false /\ exists r l, drains a t = [(r, l)] /\ lefts a t = [r]))
  end.

(** A step that does not concern [a]. *)
Lemma told_frame : forall s s' t o a,
  told_ok s t a -> sstepR s s' o ->
  ph (s' a) = ph (s a) -> drains a o = [] -> (forall b, reports a b o = []) -> lefts a o = [] ->
  fails a o = false -> told_ok s' (t ++ o) a.
Proof.
  intros s s' t o a H ST P D R L F. unfold told_ok in *. rewrite P.
  assert (N : forall b, ph (s b) <> Absent -> ph (s' b) <> Absent)
    by (intros b; eapply stays_created; eauto).
  assert (G : forall b, gone (s b) = true -> gone (s' b) = true)
    by (intros b; eapply gone_stays; eauto).
  assert (R' : forall b, reports a b (t ++ o) = reports a b t)
    by (intro b; rewrite reports_app, R, app_nil_r; reflexivity).
  rewrite drains_app, lefts_app, fails_app, D, L, F, !app_nil_r, orb_false_r.
  destruct (ph (s a)) eqn:E.
  1-6: destruct H as (H1 & H2 & H3); repeat split; try tauto; intro b; rewrite R'; apply H2.
  - destruct H as (H1 & H2 & H3 & H4 & H5 & H6). repeat split; auto.
    + intro b; rewrite R'; apply H2.
    + intro Q. apply H6 in H. tauto.
    + intro Q. apply H6 in H. destruct H as [_ H]. apply N in H. auto.
  - destruct H as (l & H1 & H2 & H3 & H4 & H5 & H6 & H7 & H8 & H9). exists l.
    do 5 (split; [assumption|]). split; [|split; [|split]].
    + intros b I. apply H6 in I. destruct I. auto.
    + intros b I. rewrite R'. auto.
    + intros b I. rewrite R'. auto.
    + intros b I I'. rewrite R'. destruct (H9 b I I') as [|[]]; auto.
  - destruct H as [(H1 & H2 & H3 & H4)|(H1 & H2 & l & H3 & H4 & H5)]; [left|right].
    + repeat split; auto. intro b; rewrite R'; auto.
    + do 2 (split; [assumption|]). exists l. split; [assumption|]. split.
      * intros b I. rewrite R'. auto.
      * intros b I. rewrite R'. destruct (H5 b I) as [|[]]; auto.
  - destruct H as (H1 & H2). split; [|assumption]. intro b; rewrite R'; auto.
Qed.

Lemma drains_after : forall a x v, drains a (after_obs x v) = [].
Proof. intros. destruct v; reflexivity. Qed.
Lemma reports_after : forall a b x v, reports a b (after_obs x v) = [].
Proof. intros. destruct v; reflexivity. Qed.
Lemma fails_after : forall a x v, fails a (after_obs x v) = false.
Proof. intros. destruct v; reflexivity. Qed.
Lemma lefts_after : forall a x v, x <> a -> lefts a (after_obs x v) = [].
Proof. intros a x v N. destruct v; cbn; try reflexivity. destruct (Nat.eqb_spec x a); congruence. Qed.

Lemma find_pend_in : forall b l u, find_pend b l = Some u -> In b (map fst l).
Proof.
  induction l as [|[c w] l IH]; cbn; [discriminate|]. intros u H.
  destruct (Nat.eqb_spec c b); [auto|right; eauto].
Qed.
Lemma drop_pend_in : forall b c l, In c (map fst (drop_pend b l)) <-> c <> b /\ In c (map fst l).
Proof.
  induction l as [|[d w] l IH]; cbn; [tauto|].
  destruct (Nat.eqb_spec d b); cbn; rewrite IH; [subst|]; intuition congruence.
Qed.
Lemma drop_pend_nodup : forall b l, NoDup (map fst l) -> NoDup (map fst (drop_pend b l)).
Proof.
  induction l as [|[d w] l IH]; cbn; [auto|]. intro H. inversion H; subst.
  destruct (Nat.eqb_spec d b); cbn; auto. constructor; auto.
  intro I. apply drop_pend_in in I. tauto.
Qed.
Lemma mark_pend_fst : forall b l, map fst (mark_pend b l) = map fst l.
Proof.
  intros. unfold mark_pend. rewrite map_map. apply map_ext_in. intros [d w] _. cbn.
  destruct (Nat.eqb_spec d b); cbn; congruence.
Qed.

Ltac frame :=
  eapply told_frame; eauto;
  [look 0; reflexivity|..];
  intros; cbn [drains reports lefts fails];
  rewrite ?drains_after, ?reports_after, ?fails_after; 
  rewrite ?lefts_after by congruence; auto;
  repeat match goal with |- context [?u =? ?w] => destruct (Nat.eqb_spec u w); try congruence end; auto.

Ltac simple_told :=
  unfold told_ok in *; rewrite upd_same;
  match goal with A : ph (?s ?a) = _, Ha : match ph (?s ?a) with _ => _ end |- _ => rewrite A in Ha end;
  cbn [ph set_ph set_queue set_links close];
  match goal with Ha : _ = [] /\ _ |- _ => destruct Ha as (H1 & H2 & H3 & H4) end.

Ltac apps :=
  rewrite ?drains_app, ?reports_app, ?lefts_app, ?fails_app;
  cbn [drains reports lefts fails app]; rewrite ?Nat.eqb_refl, ?app_nil_r;
  rewrite ?drains_after, ?reports_after, ?fails_after, ?app_nil_r, ?orb_false_r.

Lemma told_step : forall s t s' o, reach s t -> (forall a, told_ok s t a) -> sstepR s s' o ->
  forall a, told_ok s' (t ++ o) a.
Proof.
  intros s t s' o HR H ST a.
  pose proof (links_inv _ _ HR) as LI. pose proof (H a) as Ha.
  pose proof ST as ST'.
  cases_R ST;
    try match goal with |- told_ok (upd _ ?z _) _ _ => destruct (Nat.eq_dec z a) as [->|NA]; [|frame; fail] end.

  - simple_told. rewrite app_nil_r. auto.
  - simple_told. rewrite app_nil_r. auto.
  - simple_told. destruct ok; (split; [|split; [intro b|split]]); apps; rewrite ?H1, ?H2, ?H3, ?H4; auto.
  - simple_told. destruct ok; (split; [|split; [intro b|split]]); apps; rewrite ?H1, ?H2, ?H3, ?H4; auto.
  - rewrite app_nil_r. exact Ha.
  - frame.
  - frame.
  - destruct G as [->|[n ->]]; frame.
  - frame.
  - simple_told. (split; [|split; [intro b|split]]); apps; rewrite ?H1, ?H2, ?H3, ?H4; auto.
  - simple_told. (split; [|split; [intro b|split]]); apps; rewrite ?H1, ?H2, ?H3, ?H4; auto.
  - simple_told. rewrite after_ph by assumption.
    destruct v; cbn [after_obs]; [| |split; [intro b|left; split]];
      try (split; [|split; [intro b|split]]); apps; rewrite ?H1, ?H2, ?H3, ?H4; auto.
  - simple_told. rewrite after_ph by assumption.
    destruct v; cbn [after_obs]; [| |split; [intro b|left; split]];
      try (split; [|split; [intro b|split]]); apps; rewrite ?H1, ?H2, ?H3, ?H4; auto.
  - simple_told. rewrite after_ph by assumption.
    destruct v; cbn [after_obs]; [| |split; [intro b|left; split]];
      try (split; [|split; [intro b|split]]); apps; rewrite ?H1, ?H2, ?H3, ?H4; auto.
  - simple_told. destruct (LI a) as (L1 & L2 & L3 & L4 & L5).
    (split; [|split; [intro b|split; [|split; [|split]]]]); apps; rewrite ?H1, ?H2, ?H3, ?H4; auto.
    intros b I. split; [intros ->; auto|]. eapply stays_created; eauto.
  - unfold told_ok in *. rewrite upd_same. rewrite A in Ha. cbn [ph set_ph].
    destruct Ha as (H1 & H2 & H3 & H4 & H5 & H6). rewrite app_nil_r.
    exists l. rewrite map_map. cbn [fst]. rewrite map_id.
    do 4 (split; [assumption|]). split; [auto|]. split.
    + intros b I. destruct (H6 b I). split; [assumption|]. eapply stays_created; eauto.
    + repeat split; auto.
  - unfold told_ok in *. rewrite upd_same. rewrite A in Ha. cbn [ph set_ph close set_queue].
    destruct Ha as (H1 & H2 & H3 & H4 & H5 & H6).
    split; [intro b; apps; apply H2|]. right. split; [apps; assumption|]. exists r, l. apps. auto.
  - unfold told_ok in *. rewrite upd_same. rewrite A in Ha. cbn [ph set_ph].
    destruct Ha as (m & H1 & H2 & H3 & H4 & H5 & H6 & H7 & H8 & H9).
    pose proof (find_pend_in _ _ _ F) as I.
    exists m. split; [apps; assumption|]. split; [apps; assumption|]. split; [apps; assumption|].
    split; [apply drop_pend_nodup; assumption|].
    split; [intros b Ib; apply drop_pend_in in Ib; apply H5; tauto|].
    split; [intros b Ib; destruct (H6 b Ib); split; [assumption|]; eapply stays_created; eauto|].
    split; [|split].
    + intros b Ib. apply drop_pend_in in Ib. destruct Ib as [N Ib]. apps.
      destruct (Nat.eqb_spec y b); [congruence|]. rewrite app_nil_r. auto.
    + intros b Ib. apps. destruct (Nat.eqb_spec y b) as [->|]; [exfalso; auto|].
      rewrite app_nil_r. auto.
    + intros b Ib Ib'. apps. destruct (Nat.eqb_spec y b) as [->|N].
      * left. rewrite (H7 _ I). reflexivity.
      * rewrite app_nil_r. destruct (H9 b Ib) as [|[E' G']]; auto.
        -- intro Q. apply Ib'. apply drop_pend_in. auto.
        -- right. split; [assumption|]. eapply gone_stays; eauto.
  - unfold told_ok in *. rewrite upd_same. rewrite A in Ha. cbn [ph set_ph].
    destruct Ha as (m & H1 & H2 & H3 & H4 & H5 & H6 & H7 & H8 & H9).
    pose proof (find_pend_in _ _ _ F) as I.
    rewrite app_nil_r.
    exists m. do 3 (split; [assumption|]).
    split; [apply drop_pend_nodup; assumption|].
    split; [intros b Ib; apply drop_pend_in in Ib; apply H5; tauto|].
    split; [intros b Ib; destruct (H6 b Ib); split; [assumption|]; eapply stays_created; eauto|].
    split; [|split].
    + intros b Ib. apply drop_pend_in in Ib. destruct Ib as [N Ib]. auto.
    + auto.
    + intros b Ib Ib'. destruct (Nat.eq_dec b y) as [->|N].
      * right. split; [auto|]. eapply gone_stays; eauto.
        destruct (H6 y Ib) as [_ NA]. unfold gone, open in *.
        destruct OS as [O|[_ S]]; [destruct (ph (s y)); congruence|].
        rewrite S. destruct (ph (s y)); try reflexivity; congruence.
      * destruct (H9 b Ib) as [|[E' G']]; auto.
        -- intro Q. apply Ib'. apply drop_pend_in. auto.
        -- right. split; [assumption|]. eapply gone_stays; eauto.
  - unfold told_ok in *. rewrite upd_same. rewrite A in Ha. cbn [ph set_ph].
    destruct Ha as (m & H1 & H2 & H3 & H4 & H5 & H6 & H7 & H8 & H9).
    rewrite app_nil_r, mark_pend_fst.
    exists m. do 5 (split; [assumption|]).
    split; [intros b Ib; destruct (H6 b Ib); split; [assumption|]; eapply stays_created; eauto|].
    split; [|split]; auto.
    intros b Ib Ib'. destruct (H9 b Ib Ib') as [|[E' G']]; auto.
    right. split; [assumption|]. eapply gone_stays; eauto.
  - unfold told_ok in *. rewrite upd_same. rewrite A in Ha. cbn [ph set_ph close set_queue].
    destruct Ha as (m & H1 & H2 & H3 & H4 & H5 & H6 & H7 & H8 & H9).
    right. split; [apps; assumption|]. split; [apps; assumption|]. exists m. split; [apps; assumption|].
    split.
    + intros b Ib. apps. auto.
    + intros b Ib. apps. destruct (H9 b Ib) as [|[E' G']]; auto.
      right. split; [assumption|]. eapply gone_stays; eauto.
  - simple_told. destruct r.
    + left. split; [|split; [|split; [|intro b]]]; apps; rewrite ?H1, ?H2, ?H3, ?H4; auto.
    + split; [intro b; apps; apply H2|]. left. split; apps; assumption.
Qed.

Lemma told_inv : forall s t, reach s t -> forall a, told_ok s t a.
Proof.
  apply (reach_inv (fun s t => forall a, told_ok s t a)).
  - intro a. cbn. auto.
  - intros s s' t S H a. specialize (H a). unfold told_ok in *. rewrite <- (S a).
    destruct (ph (s a)); auto.
    + destruct H as (H1 & H2 & H3 & H4 & H5 & H6). repeat split; auto; rewrite <- (S b) || idtac; apply H6; assumption.
    + destruct H as (m & H1 & H2 & H3 & H4 & H5 & H6 & H7 & H8 & H9). exists m.
      do 5 (split; [assumption|]). split; [intros b I; rewrite <- (S b); auto|].
      do 2 (split; [assumption|]). intros b. rewrite <- (S b). auto.
    + destruct H as [H|(H1 & H2 & l & H3 & H4 & H5)]; [auto|]. right.
      do 2 (split; [assumption|]). exists l. split; [assumption|]. split; [assumption|].
      intros b. rewrite <- (S b). auto.
  - intros. eapply told_step; eauto.
Qed.

(** ** Observations in the middle of a run *)
Lemma reach_split : forall s t, reach s t -> forall t1 o t2, t = t1 ++ o :: t2 ->
  exists s0 u s1 p q rest, reach s0 u /\ sstepR s0 s1 (p ++ o :: q)
    /\ t1 = u ++ p /\ t2 = q ++ rest.
Proof.
  induction 1 as [|s t e s' ob R IH E]; intros t1 o t2 H.
  - destruct t1; discriminate.
  - destruct (sstep_R _ _ _ _ E) as (s'' & SR & _).
    destruct (le_lt_dec (length t) (length t1)) as [L|L].
    + (* in the last step *)
      assert (exists p, t1 = t ++ p /\ ob = p ++ o :: t2) as (p & -> & ->).
      { clear - H L. revert t1 L H. induction t as [|x t IH]; intros t1 L H.
        - exists t1. auto.
        - destruct t1 as [|y t1]; [cbn in L; lia|]. cbn in H. inversion H; subst.
          destruct (IH t1) as (p & -> & ->); [cbn in L; lia|assumption|]. exists p. auto. }
      exists s, t, s'', p, t2, []. rewrite app_nil_r. auto.
    + assert (exists m, t = t1 ++ o :: m /\ t2 = m ++ ob) as (m & -> & ->).
      { clear - H L. revert t1 L H. induction t as [|x t IH]; intros t1 L H.
        - cbn in L. lia.
        - destruct t1 as [|y t1]; cbn in H; inversion H; subst.
          + exists t. auto.
          + destruct (IH t1) as (m & -> & ->); [cbn in L; lia|assumption|]. exists m. auto. }
      destruct (IH _ _ _ eq_refl) as (s0 & u & s1 & p & q & rest & H1 & H2 & H3 & H4).
      exists s0, u, s1, p, q, (rest ++ ob). subst. rewrite app_assoc. auto.
Qed.

Lemma in_after_obs : forall x v o, In o (after_obs x v) ->
  (exists r, v = VLeave r /\ o = OLeft x r) \/ (v = VCrash /\ o = OClosed x).
Proof. intros x [|r|] o; cbn; [intros []|intros [<-|[]]; eauto|intros [<-|[]]; auto]. Qed.

Lemma after_obs_split : forall x v p o q, after_obs x v = p ++ o :: q ->
  (exists r, o = OLeft x r) \/ o = OClosed x.
Proof.
  intros x [|r|] [|y [|z p]] o q H; cbn in H; inversion H; eauto.
Qed.

(** The step that put a report into a mailbox. *)
Lemma pushed_by : forall s s' o b a r0, sstepR s s' o -> In (OPush b (SLinkDied a r0)) o ->
  o = [OPush b (SLinkDied a r0)] /\ exists l up, ph (s a) = Notifying r0 l /\ find_pend b l = Some up
    /\ open (s b) = true.
Proof.
  intros s s' o b a r0 H I.
  cases_R H; cbn [In] in I; try contradiction;
    repeat match goal with H : _ \/ _ |- _ => destruct H end; try discriminate; try contradiction;
    try (match goal with H : In _ (after_obs _ _) |- _ => apply in_after_obs in H end;
         repeat match goal with H : _ \/ _ |- _ => destruct H | H : _ /\ _ |- _ => destruct H
                              | H : exists _, _ |- _ => destruct H end; discriminate);
    try match goal with H : OPush _ _ = OPush _ _ |- _ => inversion H; subst end; try discriminate;
    try match goal with H : exists n, _ = SMsg n |- _ => destruct H; discriminate end.
  eauto 6.
Qed.

Lemma drained_by : forall s s' o a r0 l0, sstepR s s' o -> In (ODrained a r0 l0) o ->
  o = [ODrained a r0 l0] /\ ph (s a) = Leaving r0 /\ l0 = links (s a).
Proof.
  intros s s' o a r0 l0 H I.
  cases_R H; cbn [In] in I; try contradiction;
    repeat match goal with H : _ \/ _ |- _ => destruct H end; try discriminate; try contradiction;
    try (match goal with H : In _ (after_obs _ _) |- _ => apply in_after_obs in H end;
         repeat match goal with H : _ \/ _ |- _ => destruct H | H : _ /\ _ |- _ => destruct H
                              | H : exists _, _ |- _ => destruct H end; discriminate).
  inversion H; subst. auto.
Qed.

Lemma singleton_split : forall (A : Type) (x : A) p y q, [x] = p ++ y :: q -> p = [] /\ q = [] /\ x = y.
Proof. intros A x [|z [|]] y q H; cbn in H; inversion H; auto. Qed.

(** C32 *)
Lemma drained_exact : forall es s t t1 a r l t2, srun sinit es = Some (s, t) ->
  t = t1 ++ ODrained a r l :: t2 -> NoDup l /\ forall b, In b l <-> linked_after t1 a b.
Proof.
  intros es s t t1 a r l t2 H E. apply srun_reach in H.
  destruct (reach_split _ _ H _ _ _ E) as (s0 & u & s1 & p & q & rest & R & ST & -> & ->).
  destruct (drained_by _ _ _ a r l ST) as (O & P & ->); [apply in_or_app; right; left; reflexivity|].
  symmetry in O. apply singleton_split in O. destruct O as (-> & _ & _). rewrite app_nil_r.
  destruct (links_inv _ _ R a) as (L1 & _ & _ & _ & M). split; [assumption|].
  intro b. rewrite <- mem_In, M, lfold_spec. reflexivity.
Qed.

Lemma at_most_once : forall es s t a b, srun sinit es = Some (s, t) -> length (reports a b t) <= 1.
Proof.
  intros es s t a b H. apply srun_reach in H. pose proof (told_inv _ _ H a) as T. unfold told_ok in T.
  destruct (ph (s a)).
  1-6: destruct T as (_ & T & _); rewrite T; cbn; lia.
  - destruct T as (_ & T & _); rewrite T; cbn; lia.
  - destruct T as (l & _ & _ & _ & _ & _ & _ & T7 & T8 & T9).
    destruct (in_dec Nat.eq_dec b l) as [I|I]; [|rewrite T8 by assumption; cbn; lia].
    destruct (in_dec Nat.eq_dec b (map fst pend)) as [J|J]; [rewrite T7 by assumption; cbn; lia|].
    destruct (T9 b I J) as [->|[-> _]]; cbn; lia.
  - destruct T as [(_ & _ & _ & T)|(_ & _ & l & _ & T8 & T9)]; [rewrite T; cbn; lia|].
    destruct (in_dec Nat.eq_dec b l) as [I|I]; [|rewrite T8 by assumption; cbn; lia].
    destruct (T9 b I) as [->|[-> _]]; cbn; lia.
  - destruct T as (T & _); rewrite T; cbn; lia.
Qed.

Definition is_over (x : actor) : bool := match ph x with Done _ | Crashed => true | _ => false end.
Fixpoint closes (a : nat) (t : list sobs) : bool :=
  match t with
  | [] => false
  | OClosed x :: t' => (x =? a) || closes a t'
  | _ :: t' => closes a t'
  end.
Lemma closes_app : forall a t u, closes a (t ++ u) = closes a t || closes a u.
Proof.
  induction t as [|o t IH]; intro u; [reflexivity|].
  destruct o; cbn; rewrite ?IH; try reflexivity. rewrite orb_assoc. reflexivity.
Qed.
Lemma in_closes : forall a t, closes a t = true <-> In (OClosed a) t.
Proof.
  induction t as [|o t IH]; [split; [discriminate|intros []]|].
  destruct o; cbn [closes In]; try (rewrite IH; split; [auto|intros [E|]; [discriminate|auto]]).
  rewrite orb_true_iff, Nat.eqb_eq, IH. split; [intros [->|]; auto|intros [E|]; [inversion E; auto|auto]].
Qed.

Lemma closes_step : forall s s' o a, sstepR s s' o -> is_over (s' a) = is_over (s a) || closes a o.
Proof.
  intros s s' o a H. unfold is_over.
  cases_R H; cbn [closes]; look a; cbn;
    repeat match goal with A : ph _ = _ |- _ => rewrite A end;
    rewrite ?orb_false_r; try reflexivity;
    repeat match goal with |- context [?u =? ?w] => destruct (Nat.eqb_spec u w); try congruence end;
    rewrite ?orb_false_r; try reflexivity;
    try (destruct v; cbn; rewrite ?Nat.eqb_refl;
         repeat match goal with A : ph _ = _ |- _ => rewrite A end;
         repeat match goal with |- context [?u =? ?w] => destruct (Nat.eqb_spec u w); try congruence end;
         rewrite ?orb_false_r; reflexivity).
  - destruct ok; reflexivity.
  - destruct ok; reflexivity.
  - destruct r; reflexivity.
Qed.

Lemma closed_inv : forall s t, reach s t -> forall a, is_over (s a) = closes a t.
Proof.
  apply (reach_inv (fun s t => forall a, is_over (s a) = closes a t)).
  - reflexivity.
  - intros s s' t S H a. rewrite <- (S a). apply H.
  - intros s t s' o R H ST a. rewrite closes_app, <- H. eapply closes_step; eauto.
Qed.

Lemma report_reason : forall es s t t1 t2 a b r, srun sinit es = Some (s, t) ->
  t = t1 ++ OPush b (SLinkDied a r) :: t2 ->
  (exists l, In (ODrained a r l) t1 /\ In b l) /\ ~ In (OClosed a) t1 /\ ~ In (OClosed b) t1.
Proof.
  intros es s t t1 t2 a b r H E. apply srun_reach in H.
  destruct (reach_split _ _ H _ _ _ E) as (s0 & u & s1 & p & q & rest & R & ST & -> & ->).
  destruct (pushed_by _ _ _ b a r ST) as (O & l & up & P & F & OB); [apply in_or_app; right; left; reflexivity|].
  symmetry in O. apply singleton_split in O. destruct O as (-> & _ & _). rewrite app_nil_r.
  pose proof (told_inv _ _ R a) as T. unfold told_ok in T. rewrite P in T.
  destruct T as (m & T1 & _ & _ & _ & T5 & _). split; [|split].
  - exists m. split; [apply in_drains; rewrite T1; left; reflexivity|]. apply T5. eapply find_pend_in; eauto.
  - intro C. apply in_closes in C. rewrite <- (closed_inv _ _ R) in C. unfold is_over in C. rewrite P in C. discriminate.
  - intro C. apply in_closes in C. rewrite <- (closed_inv _ _ R) in C. unfold is_over, open in *.
    destruct (ph (s0 b)); congruence.
Qed.

Lemma all_told : forall es s t a b r l, srun sinit es = Some (s, t) ->
  In (ODrained a r l) t -> In (OClosed a) t -> ph (s a) <> Crashed -> In b l ->
  ~ In (OClosed b) t -> refd (s b) = true ->
  reports a b t = [r].
Proof.
  intros es s t a b r l H D C NC I OB RB. apply srun_reach in H.
  pose proof (told_inv _ _ H a) as T. unfold told_ok in T.
  apply in_closes in C. rewrite <- (closed_inv _ _ H) in C. unfold is_over in C.
  apply in_drains in D.
  destruct (ph (s a)) eqn:P; try discriminate; try congruence.
  destruct T as [(_ & T & _)|(_ & _ & m & T1 & T2 & T3)]; [rewrite T in D; contradiction|].
  rewrite T1 in D. destruct D as [D|[]]. inversion D; subst.
  destruct (T3 b I) as [|[_ G]]; [assumption|exfalso].
  rewrite <- in_closes, <- (closed_inv _ _ H) in OB. unfold is_over, gone, strong in *. rewrite RB in G.
  cbn in G. destruct (ph (s b)); cbn in G; congruence.
Qed.

(** A failed start tells nobody (C33). *)
Lemma failed_start_silent : forall es s t a b r, srun sinit es = Some (s, t) ->
  In (OStarted a false) t -> ~ In (OPush b (SLinkDied a r)) t.
Proof.
  intros es s t a b r H F I. apply srun_reach in H. pose proof (told_inv _ _ H a) as T.
  apply in_fails in F. apply in_reports in I. unfold told_ok in T.
  destruct (ph (s a)).
  1-6: destruct T as (_ & T & _); rewrite T in I; contradiction.
  - destruct T as (_ & T & _); rewrite T in I; contradiction.
  - destruct T as (l & _ & _ & T & _). congruence.
  - destruct T as [(_ & _ & _ & T)|(T & _)]; [rewrite T in I; contradiction|congruence].
  - destruct T as (T & _). rewrite T in I; contradiction.
Qed.

(** ** Signals are taken in the order in which they were put in *)
Definition queue_ok (s : sys) (t : list sobs) (b : nat) : Prop :=
  (ph (s b) = Absent -> pushed b t = [] /\ taken b t = []) /\
  if open (s b) then pushed b t = taken b t ++ queue (s b)
  else exists rest, pushed b t = taken b t ++ rest.

Lemma pushed_after : forall b x v, pushed b (after_obs x v) = [].
Proof. intros. destruct v; reflexivity. Qed.
Lemma taken_after : forall b x v, taken b (after_obs x v) = [].
Proof. intros. destruct v; reflexivity. Qed.

Lemma queue_frame : forall s s' t o b, queue_ok s t b ->
  (ph (s' b) = Absent -> ph (s b) = Absent) -> open (s' b) = open (s b) -> queue (s' b) = queue (s b) ->
  pushed b o = [] -> taken b o = [] -> queue_ok s' (t ++ o) b.
Proof.
  intros s s' t o b [H1 H2] A O Q P T. unfold queue_ok.
  rewrite pushed_app, taken_app, P, T, !app_nil_r, O, Q. auto.
Qed.

Ltac qframe :=
  eapply queue_frame; eauto; unfold open; look 0; cbn [pushed taken];
  rewrite ?pushed_after, ?taken_after; cbn;
  repeat match goal with A : ph _ = _ |- _ => rewrite A end;
  repeat match goal with |- context [?u =? ?w] => destruct (Nat.eqb_spec u w); try congruence end;
  try reflexivity; try congruence; try tauto.

Lemma queue_step : forall s t s' o b, queue_ok s t b -> sstepR s s' o -> queue_ok s' (t ++ o) b.
Proof.
  intros s t s' o b H ST. pose proof H as H'. destruct H' as [H1 H2].
  pose proof (stays_created _ _ _ b ST) as SC.
  cases_R ST; try (qframe; fail).
  all: try match goal with |- queue_ok (upd _ ?z _) _ _ => destruct (Nat.eq_dec z b) as [->|NA]; [|try (qframe; fail)] end.
  - (* create *)
    destruct (H1 A) as [P T]. unfold queue_ok. rewrite upd_same, pushed_app, taken_app, P, T. cbn.
    split; [discriminate|reflexivity].
  - unfold queue_ok, open in *. rewrite upd_same, pushed_app, taken_app. rewrite A in H2. cbn.
    rewrite Nat.eqb_refl, app_nil_r. rewrite H2.
    destruct ok; (split; [discriminate|]); cbn; rewrite app_assoc; reflexivity.
  - destruct ok; qframe.
  - unfold queue_ok in *. rewrite upd_same, pushed_app, taken_app. cbn. rewrite Nat.eqb_refl, app_nil_r.
    unfold open in *. cbn in *. rewrite O, H2 in *. split; [|rewrite app_assoc; reflexivity].
    intro A. rewrite A in O. discriminate.
  - unfold queue_ok, open in *. rewrite upd_same, pushed_app, taken_app. rewrite A, Q in *. cbn.
    rewrite Nat.eqb_refl, app_nil_r, H2, <- app_assoc. split; [discriminate|reflexivity].
  - unfold queue_ok, open in *. rewrite upd_same, pushed_app, taken_app, pushed_after, taken_after, !app_nil_r.
    rewrite after_ph by assumption. rewrite A, Q, app_nil_r in *.
    destruct v; (split; [discriminate|]); cbn; rewrite ?Q, ?app_nil_r; try assumption.
    exists []. rewrite app_nil_r. assumption.
  - unfold queue_ok, open in *. rewrite upd_same, pushed_app, taken_app. cbn [pushed taken].
    rewrite pushed_after, taken_after, Nat.eqb_refl, !app_nil_r.
    rewrite after_ph by assumption. rewrite A, Q in *.
    destruct v; (split; [discriminate|]); cbn; rewrite H2, <- ?app_assoc; try reflexivity.
    exists q. rewrite <- app_assoc. reflexivity.
  - unfold queue_ok, open in *. rewrite upd_same, pushed_app, taken_app. cbn [pushed taken].
    rewrite pushed_after, taken_after, Nat.eqb_refl, !app_nil_r.
    rewrite after_ph by assumption. rewrite A, Q in *.
    destruct v; (split; [discriminate|]); cbn; rewrite H2, <- ?app_assoc; try reflexivity.
    exists q. rewrite <- app_assoc. reflexivity.
  - unfold queue_ok, open in *. rewrite upd_same, pushed_app, taken_app. cbn. rewrite A in *. rewrite !app_nil_r.
    split; [discriminate|]. eexists; eassumption.
  - destruct (Nat.eq_dec y b) as [->|NY].
    + unfold queue_ok, open in *. rewrite pushed_app, taken_app. unfold upd. rewrite Nat.eqb_refl. cbn.
      rewrite Nat.eqb_refl, app_nil_r, A in *. rewrite H2, app_assoc. split; [discriminate|reflexivity].
    + qframe.
  - destruct (Nat.eq_dec y b) as [->|NY]; [|qframe].
    unfold queue_ok, open in *. rewrite pushed_app, taken_app. unfold upd. rewrite Nat.eqb_refl.
    destruct (Nat.eqb_spec b x); [congruence|]. cbn. rewrite Nat.eqb_refl, app_nil_r. rewrite O, H2 in *.
    split; [|rewrite app_assoc; reflexivity]. intro A'. rewrite A' in O. discriminate.
  - unfold queue_ok, open in *. rewrite upd_same, pushed_app, taken_app. cbn. rewrite A in *. rewrite !app_nil_r.
    split; [discriminate|]. eexists; eassumption.
  - unfold queue_ok, open in *. rewrite upd_same, pushed_app, taken_app. cbn. rewrite A in *. rewrite !app_nil_r.
    destruct r; (split; [discriminate|]; eexists; eassumption).
Qed.

Lemma queue_inv : forall s t, reach s t -> forall b, queue_ok s t b.
Proof.
  apply (reach_inv (fun s t => forall b, queue_ok s t b)).
  - intro b. split; [auto|]. exists []. reflexivity.
  - intros s s' t S H b. unfold queue_ok. rewrite <- (S b). apply H.
  - intros. eapply queue_step; eauto.
Qed.

(** ** The default policy (C34) *)
Lemma cap_inv : forall s t, reach s t -> forall a, cap (s a) <> Some 0.
Proof.
  apply (reach_inv (fun s t => forall a, cap (s a) <> Some 0)).
  - discriminate.
  - intros s s' t S H a. rewrite <- (S a). apply H.
  - intros s t s' o _ H ST a. cases_R ST; look a; cbn; auto; destruct v; cbn; auto.
Qed.

Lemma dflt_step : forall s s' o a, sstepR s s' o -> ph (s a) <> Absent -> dflt (s' a) = dflt (s a).
Proof. intros s s' o a ST N. cases_R ST; look a; cbn; auto; destruct v; reflexivity. Qed.

Lemma handled_by : forall s s' o a0 g0 v0, sstepR s s' o -> In (OHandled a0 g0 v0) o ->
  o = OHandled a0 g0 v0 :: after_obs a0 v0 /\ ph (s a0) = Running
  /\ (forall id r, g0 = SLinkDied id r -> dflt (s a0) = true -> v0 = default_link_died id r)
  /\ exists q, queue (s a0) = g0 :: q.
Proof.
  intros s s' o a0 g0 v0 H I.
  cases_R H; cbn [In] in I; try contradiction;
    repeat match goal with H : _ \/ _ |- _ => destruct H end; try discriminate; try contradiction;
    try (match goal with H : In _ (after_obs _ _) |- _ => apply in_after_obs in H end;
         repeat match goal with H : _ \/ _ |- _ => destruct H | H : _ /\ _ |- _ => destruct H
                              | H : exists _, _ |- _ => destruct H end; discriminate);
    match goal with H : OHandled _ _ _ = OHandled _ _ _ |- _ => inversion H; subst end.
  - repeat split; eauto. intros id' r' E. inversion E; subst. exact D.
  - repeat split; eauto. intros id' r' E. subst. edestruct G; reflexivity.
Qed.

Definition policy_ok (s : sys) (t : list sobs) : Prop :=
  (forall a x r v, In (OHandled a (SLinkDied x r) v) t ->
     ph (s a) <> Absent /\ (dflt (s a) = true -> v = default_link_died x r))
  /\ (forall a g q, In (OHandled a g (VLeave q)) t -> In (OLeft a q) t)
  /\ (forall a g, In (OTaken a g) t -> In (OLeft a RKilled) t).

Lemma policy_inv : forall s t, reach s t -> policy_ok s t.
Proof.
  apply (reach_inv policy_ok).
  - repeat split; intros; contradiction.
  - intros s s' t S (H1 & H2 & H3). split; [|auto]. intros a x r v I. rewrite <- (S a). eauto.
  - intros s t s' o _ (H1 & H2 & H3) ST. split; [|split].
    + intros a x r v I. apply in_app_or in I. destruct I as [I|I].
      * destruct (H1 _ _ _ _ I) as [N D]. split; [eapply stays_created; eauto|].
        rewrite (dflt_step _ _ _ _ ST N). exact D.
      * destruct (handled_by _ _ _ _ _ _ ST I) as (_ & P & D & _).
        assert (N : ph (s a) <> Absent) by congruence.
        split; [eapply stays_created; eauto|]. rewrite (dflt_step _ _ _ _ ST N). eauto.
    + intros a g q I. apply in_or_app. apply in_app_or in I. destruct I as [I|I]; [eauto|right].
      destruct (handled_by _ _ _ _ _ _ ST I) as (-> & _). right. left. reflexivity.
    + intros a g0 I. apply in_or_app. apply in_app_or in I. destruct I as [I|I]; [eauto|right].
      cases_R ST; cbn [In] in I; try contradiction;
        repeat match goal with H : _ \/ _ |- _ => destruct H end; try discriminate; try contradiction;
        try (match goal with H : In _ (after_obs _ _) |- _ => apply in_after_obs in H end;
         repeat match goal with H : _ \/ _ |- _ => destruct H | H : _ /\ _ |- _ => destruct H
                              | H : exists _, _ |- _ => destruct H end; discriminate).
      inversion H; subst. right. left. reflexivity.
Qed.

(** What an actor is told is true. *)
Lemma report_true : forall s t a b r, reach s t -> In (OPush b (SLinkDied a r)) t -> In (OLeft a r) t.
Proof.
  intros s t a b r H I. apply in_reports in I. apply in_lefts.
  pose proof (told_inv _ _ H a) as T. unfold told_ok in T.
  destruct (ph (s a)).
  1-6: destruct T as (_ & T & _); rewrite T in I; contradiction.
  - destruct T as (_ & T & _); rewrite T in I; contradiction.
  - destruct T as (l & T1 & T2 & _ & _ & _ & _ & T7 & T8 & T9).
    destruct (in_dec Nat.eq_dec b l) as [J|J]; [|rewrite T8 in I by assumption; contradiction].
    destruct (in_dec Nat.eq_dec b (map fst pend)) as [K|K]; [rewrite T7 in I by assumption; contradiction|].
    destruct (T9 b J K) as [E|[E _]]; rewrite E in I; [|contradiction]. rewrite T2. exact I.
  - destruct T as [(_ & _ & _ & T)|(_ & T2 & l & _ & T8 & T9)]; [rewrite T in I; contradiction|].
    destruct (in_dec Nat.eq_dec b l) as [J|J]; [|rewrite T8 in I by assumption; contradiction].
    destruct (T9 b J) as [E|[E _]]; rewrite E in I; [|contradiction]. rewrite T2. exact I.
  - destruct T as (T & _). rewrite T in I; contradiction.
Qed.

Lemma taken_pushed : forall s t b g, reach s t -> In g (taken b t) -> In g (pushed b t).
Proof.
  intros s t b g H I. destruct (queue_inv _ _ H b) as [_ Q].
  destruct (open (s b)); [rewrite Q|destruct Q as [rest ->]]; apply in_or_app; auto.
Qed.

Lemma handled_true : forall s t a b r v, reach s t -> In (OHandled b (SLinkDied a r) v) t -> In (OLeft a r) t.
Proof.
  intros s t a b r v H I. eapply report_true; eauto. apply in_pushed. eapply taken_pushed; eauto.
  apply in_taken. eauto.
Qed.

Lemma default_documented : forall id r v, v = default_link_died id r <-> documented_policy id r v.
Proof.
  intros id r v. split.
  - intros ->. destruct r; cbn; constructor; discriminate.
  - intros D. inversion D; subst; try reflexivity. destruct r; cbn; try reflexivity; congruence.
Qed.

Lemma default_policy : forall es s t a x r v, srun sinit es = Some (s, t) ->
  In (OHandled a (SLinkDied x r) v) t -> dflt (s a) = true ->
  documented_policy x r v /\ In (OLeft x r) t
  /\ (r <> RNormal -> r <> RPeerDisconnected -> In (OLeft a (RLinkDied x r)) t).
Proof.
  intros es s t a x r v H I D. apply srun_reach in H.
  destruct (policy_inv _ _ H) as (P1 & P2 & _). destruct (P1 _ _ _ _ I) as [_ E]. specialize (E D).
  split; [apply default_documented; assumption|]. split; [eapply handled_true; eauto|].
  intros N1 N2. apply P2 with (g := SLinkDied x r). rewrite E in I.
  destruct r; cbn in I; congruence || assumption.
Qed.

(** ** Settled states *)
Lemma settled_facts : forall s t, reach s t -> settled s -> forall a,
  match ph (s a) with
  | FailStop | Leaving _ | OnStop _ _ => False
  | Running => queue (s a) = [] /\ strong (s a) = true
  | Notifying r p => p <> [] /\ forall b, In b (map fst p) ->
      open (s b) = true /\ has_room (s b) = false
  | _ => True
  end.
Proof.
  intros s t R (S1 & S2 & S3 & S4 & S5 & S6) a.
  specialize (S1 a). specialize (S2 a). specialize (S3 a). specialize (S4 a). specialize (S5 a). specialize (S6 a).
  cbn in S1, S2, S3, S4, S5, S6.
  destruct (ph (s a)) eqn:P; try exact I.
  - destruct (queue (s a)) as [|g q] eqn:Q.
    + destruct (strong (s a)); [auto|]. specialize (S1 VContinue). discriminate.
    + destruct g.
      4:{ specialize (S1 (default_link_died id r)).
          replace (sverdict_eqb (default_link_died id r) (default_link_died id r)) with true in S1
            by (symmetry; apply sverdict_eqb_eq; reflexivity).
          rewrite orb_true_r in S1. discriminate. }
      all: specialize (S1 VContinue); discriminate.
  - specialize (S6 None). discriminate.
  - discriminate.
  - specialize (S3 true). discriminate.
  - split; [intros ->; discriminate|]. intros b I. specialize (S4 b).
    destruct (find_pend b pend) as [up|] eqn:F.
    + unfold notify in S4. destruct up.
      * destruct (open (s b)); [|discriminate]. destruct (has_room (s b)); [discriminate|auto].
      * destruct (strong (s b)); [|discriminate]. destruct (open (s b)); [|discriminate].
        destruct (has_room (s b)); discriminate.
    + exfalso. clear - I F. induction pend as [|[c w] l IH]; cbn in *; [contradiction|].
      destruct (Nat.eqb_spec c b); [discriminate|]. destruct I; [congruence|auto].
Qed.

(** C36: what an ending actor can be waiting for. *)
Lemma waits_for : forall es s t a r p b, srun sinit es = Some (s, t) -> settled s ->
  ph (s a) = Notifying r p -> In b (map fst p) ->
  (exists c, cap (s b) = Some c /\ c <= length (queue (s b)))
  /\ (ph (s b) = Prepared \/ ph (s b) = Starting
      \/ exists r' p', ph (s b) = Notifying r' p' /\ p' <> []).
Proof.
  intros es s t a r p b H S P I. apply srun_reach in H.
  pose proof (settled_facts _ _ H S a) as Fa. rewrite P in Fa. destruct Fa as [_ Fa].
  destruct (Fa b I) as [O R]. pose proof (settled_facts _ _ H S b) as Fb.
  assert (Q : exists c, cap (s b) = Some c /\ c <= length (queue (s b))).
  { unfold has_room in R. destruct (cap (s b)) as [c|]; [|discriminate]. exists c. split; [reflexivity|].
    apply Nat.ltb_ge in R. exact R. }
  split; [exact Q|].
  unfold open in O. destruct (ph (s b)) eqn:E; try discriminate; try contradiction; auto.
  - destruct Fb as [Qb _]. destruct Q as (c & C & L). rewrite Qb in L. cbn in L.
    exfalso. apply (cap_inv _ _ H b). rewrite C. f_equal. lia.
  - right. right. destruct Fb. eauto.
Qed.

Lemma unbounded_ends : forall es s t a, srun sinit es = Some (s, t) -> settled s ->
  (forall b, cap (s b) = None) -> (exists r, In (OLeft a r) t) -> In (OClosed a) t.
Proof.
  intros es s t a H S U [r L]. pose proof (srun_reach _ _ _ H) as R.
  apply in_closes. rewrite <- (closed_inv _ _ R). unfold is_over.
  apply in_lefts in L. pose proof (told_inv _ _ R a) as T. unfold told_ok in T.
  pose proof (settled_facts _ _ R S a) as F.
  destruct (ph (s a)) eqn:P; try reflexivity; try contradiction.
  1-4: destruct T as (_ & _ & T & _); rewrite T in L; contradiction.
  destruct F as [NE F]. destruct pend as [|[b u] p]; [congruence|].
  destruct (F b) as [_ RM]; [left; reflexivity|]. unfold has_room in RM. rewrite U in RM. discriminate.
Qed.

(** The steps of the end are bounded: what is left to do only shrinks. *)
Fixpoint weight (p : list (nat * bool)) : nat :=
  match p with
  | [] => 0
  | (_, u) :: p' => (if u then 1 else 2) + weight p'
  end.
Definition todo (x : actor) : nat :=
  match ph x with
  | OnStop _ l => 2 + 2 * length l
  | Notifying _ p => 1 + weight p
  | _ => 0
  end.
Definition ending (x : actor) : bool :=
  match ph x with OnStop _ _ | Notifying _ _ | Done _ | Crashed => true | _ => false end.

Lemma weight_drop_le : forall b p, weight (drop_pend b p) <= weight p.
Proof.
  induction p as [|[c w] p IH]; [cbn; lia|]. unfold drop_pend in *. cbn [filter fst].
  destruct (negb (c =? b)); cbn [weight]; destruct w; lia.
Qed.
Lemma weight_drop : forall b p u, find_pend b p = Some u -> weight (drop_pend b p) < weight p.
Proof.
  induction p as [|[c w] p IH]; cbn [find_pend]; [discriminate|]. intros u H.
  pose proof (weight_drop_le b p) as L. unfold drop_pend in *. cbn [filter fst].
  destruct (Nat.eqb_spec c b) as [->|N]; cbn [negb].
  - cbn [weight]. destruct w; lia.
  - specialize (IH _ H). cbn [weight]. lia.
Qed.
Lemma weight_mark_le : forall b p, weight (mark_pend b p) <= weight p.
Proof.
  induction p as [|[c w] p IH]; [cbn; lia|]. unfold mark_pend in *. cbn [map fst].
  destruct (c =? b); cbn [weight]; destruct w; lia.
Qed.
Lemma weight_mark : forall b p, find_pend b p = Some false -> weight (mark_pend b p) < weight p.
Proof.
  induction p as [|[c w] p IH]; cbn [find_pend]; [discriminate|]. intros H.
  pose proof (weight_mark_le b p) as L. unfold mark_pend in *. cbn [map fst].
  destruct (Nat.eqb_spec c b) as [->|N].
  - inversion H; subst. cbn [weight]. lia.
  - specialize (IH H). cbn [weight]. lia.
Qed.
Lemma weight_fresh : forall l, weight (map (fun b => (b, false)) l) = 2 * length l.
Proof. induction l; cbn [map weight length]; lia. Qed.

Lemma notify_keeps : forall a r u y f z gs, notify a r u y = Some (f, z, gs) -> ph z = ph y.
Proof.
  intros a r u y f z gs H. unfold notify in H.
  repeat (break_match_in H; try discriminate H); inversion H; subst; reflexivity.
Qed.
Lemma notify_future : forall a r u y z gs f, notify a r u y = Some (Some f, z, gs) -> u = false.
Proof.
  intros a r u y z gs f H. unfold notify in H.
  repeat (break_match_in H; try discriminate H); reflexivity.
Qed.

Lemma todo_step : forall s e s' o a, sstep s e = Some (s', o) -> ending (s a) = true ->
  ending (s' a) = true
  /\ todo (s' a) + (if own_exit_step a e then 1 else 0) <= todo (s a).
Proof.
  intros s e s' o a H E. unfold ending, todo in *. destruct e; cbn [sstep own_exit_step] in *.
  - destruct (is_absent (s a0) && _) eqn:G; inversion H; subst. unfold upd.
    destruct (Nat.eqb_spec a a0) as [->|]; [|split; [assumption|lia]].
    apply andb_true_iff in G. destruct G as [G _]. unfold is_absent in G. destruct (ph (s a0)); discriminate.
  - destruct (ph (s a0)) eqn:P; inversion H; subst. unfold upd.
    destruct (Nat.eqb_spec a a0) as [->|]; [rewrite P in E; discriminate|split; [assumption|lia]].
  - destruct (ph (s a0)) eqn:P; inversion H; subst. unfold upd.
    destruct (Nat.eqb_spec a a0) as [->|]; [rewrite P in E; discriminate|split; [assumption|lia]].
  - destruct (is_absent (s a0) || is_absent (s b)); [discriminate|]. destruct (a0 =? b); inversion H; subst;
      [split; [assumption|lia]|]. unfold upd. destruct (a =? b), (a =? a0); cbn; (split; [assumption|lia]).
  - destruct (is_absent (s a0) || is_absent (s b)); [discriminate|]. destruct (a0 =? b); inversion H; subst;
      [split; [assumption|lia]|]. unfold upd. destruct (a =? b), (a =? a0); cbn; (split; [assumption|lia]).
  - destruct g; try discriminate; destruct (open (s a0) && strong (s a0) && has_room (s a0)); inversion H; subst;
      unfold upd; destruct (a =? a0); cbn; (split; [assumption|lia]).
  - destruct (is_absent (s a0)); inversion H; subst. unfold upd; destruct (a =? a0); cbn; (split; [assumption|lia]).
  - destruct (negb (is_absent (s a0)) && strong (s a0)); inversion H; subst.
    unfold upd; destruct (a =? a0); cbn; (split; [assumption|lia]).
  - destruct (ph (s a0)) eqn:P; try discriminate.
    assert (N : a <> a0) by (intros ->; rewrite P in E; discriminate).
    destruct (queue (s a0)), taken; inversion H; subst; rewrite !upd_other by assumption; (split; [assumption|lia]).
  - destruct (ph (s a0)) eqn:P; try discriminate.
    assert (N : a <> a0) by (intros ->; rewrite P in E; discriminate).
    repeat (break_match_in H; try discriminate); inversion H; subst; rewrite !upd_other by assumption; (split; [assumption|lia]).
  - destruct (ph (s a0)) eqn:P; inversion H; subst.
    assert (N : a <> a0) by (intros ->; rewrite P in E; discriminate).
    rewrite !upd_other by assumption. destruct (Nat.eqb_spec a0 a); [congruence|]. split; [assumption|lia].
  - destruct (ph (s a0)) eqn:P; try discriminate.
    destruct ok; inversion H; subst; unfold upd; (destruct (Nat.eqb_spec a a0) as [->|]; 
      [rewrite Nat.eqb_refl|destruct (Nat.eqb_spec a0 a); [congruence|split; [assumption|lia]]]); rewrite P in *; cbn [ph set_ph close set_queue].
    + rewrite weight_fresh. split; [reflexivity|lia].
    + split; [reflexivity|lia].
  - destruct (ph (s a0)) eqn:P; try discriminate.
    destruct (find_pend b pend) as [up|] eqn:F; [|discriminate].
    destruct (notify a0 r up (s b)) as [[[f y] gs]|] eqn:NF; inversion H; subst.
    pose proof (notify_keeps _ _ _ _ _ _ _ NF) as K.
    unfold upd. destruct (Nat.eqb_spec a a0) as [->|N].
    + rewrite Nat.eqb_refl. cbn [ph set_ph]. rewrite P. split; [reflexivity|].
      destruct f as [w|].
      * pose proof (notify_future _ _ _ _ _ _ _ NF); subst.
        pose proof (weight_mark _ _ F). lia.
      * pose proof (weight_drop _ _ _ F). lia.
    + destruct (Nat.eqb_spec a0 a); [congruence|]. destruct (Nat.eqb_spec a b) as [->|]; [|split; [assumption|lia]].
      rewrite K. split; [assumption|lia].
  - destruct (ph (s a0)) eqn:P; try discriminate. destruct pend; inversion H; subst. unfold upd.
    destruct (Nat.eqb_spec a a0) as [->|N]; [|destruct (Nat.eqb_spec a0 a); [congruence|]; split; [assumption|lia]].
    rewrite P, Nat.eqb_refl. cbn. split; [reflexivity|lia].
  - destruct (ph (s a0)) eqn:P; inversion H; subst.
    assert (N : a <> a0) by (intros ->; rewrite P in E; discriminate).
    rewrite !upd_other by assumption. split; [assumption|lia].
Qed.

Lemma todo_run : forall es s s' t a, srun s es = Some (s', t) -> ending (s a) = true ->
  length (filter (own_exit_step a) es) <= todo (s a).
Proof.
  induction es as [|e es IH]; intros s s' t a H E; [cbn; lia|].
  cbn [srun] in H. destruct (sstep s e) as [[s1 o1]|] eqn:S1; [|discriminate].
  destruct (srun s1 es) as [[s2 o2]|] eqn:S2; [|discriminate].
  destruct (todo_step _ _ _ _ a S1 E) as [E1 T1]. specialize (IH _ _ _ _ S2 E1).
  cbn [filter]. destruct (own_exit_step a e); cbn [length]; lia.
Qed.

Lemma bounded_exit : forall es s s' t a r l, ph (s a) = OnStop r l -> srun s es = Some (s', t) ->
  length (filter (own_exit_step a) es) <= 2 + 2 * length l.
Proof.
  intros es s s' t a r l P H. pose proof (todo_run es s s' t a H) as T.
  unfold ending, todo in T. rewrite P in T. apply T. reflexivity.
Qed.

(** ** Two actors that end at the same time, each with a full mailbox (C36) *)
Definition stuck_pair (s : sys) : Prop :=
  ph (s 0) = Notifying RKilled [(1, true)] /\ ph (s 1) = Notifying RKilled [(0, true)]
  /\ has_room (s 0) = false /\ has_room (s 1) = false.

Lemma stuck_step : forall s e s' o, sstep s e = Some (s', o) -> stuck_pair s -> stuck_pair s'.
Proof.
  intros s e s' o H (P0 & P1 & R0 & R1).
  assert (K : forall a, a = 0 \/ a = 1 -> s' a = s a
     \/ (exists l, s' a = set_links l (s a)) \/ (exists f, s' a = set_refd f (s a))
     \/ (exists h, s' a = set_holds h (s a))
     \/ (exists l h, s' a = set_ph (ph (s a)) (set_links l (set_holds h (s a))))).
  { intros a Ha.
    assert (Pa : exists b, ph (s a) = Notifying RKilled [(b, true)] /\ (b = 0 \/ b = 1) /\ has_room (s a) = false).
    { destruct Ha as [ -> | -> ]; eauto 10. }
    destruct Pa as (b0 & Pa & Hb0 & Ra).
    destruct e; cbn [sstep] in H.
    - destruct (is_absent (s a0) && _) eqn:G; inversion H; subst. unfold upd.
      destruct (Nat.eqb_spec a a0) as [->|]; [|auto].
      apply andb_true_iff in G. destruct G as [G _]. unfold is_absent in G. rewrite Pa in G. discriminate.
    - destruct (ph (s a0)) eqn:P; inversion H; subst. left. apply upd_other. congruence.
    - destruct (ph (s a0)) eqn:P; inversion H; subst. left. apply upd_other. congruence.
    - destruct (is_absent (s a0) || is_absent (s b)); [discriminate|]. destruct (Nat.eqb_spec a0 b); inversion H; subst; [auto|].
      unfold upd. destruct (Nat.eqb_spec a b), (Nat.eqb_spec a a0); try congruence; eauto.
    - destruct (is_absent (s a0) || is_absent (s b)); [discriminate|]. destruct (Nat.eqb_spec a0 b); inversion H; subst; [auto|].
      unfold upd. destruct (Nat.eqb_spec a b), (Nat.eqb_spec a a0); try congruence; eauto.
    - destruct g; try discriminate; destruct (open (s a0) && strong (s a0) && has_room (s a0)) eqn:G; inversion H; subst;
        (left; apply upd_other; intros ->; rewrite Ra, andb_false_r in G; discriminate).
    - destruct (is_absent (s a0)); inversion H; subst. unfold upd; destruct (a =? a0); eauto.
    - destruct (negb (is_absent (s a0)) && strong (s a0)); inversion H; subst. unfold upd; destruct (a =? a0); eauto.
    - destruct (ph (s a0)) eqn:P; try discriminate.
      left. destruct (queue (s a0)), taken; inversion H; subst; apply upd_other; congruence.
    - destruct (ph (s a0)) eqn:P; try discriminate.
      left. repeat (break_match_in H; try discriminate); inversion H; subst; apply upd_other; congruence.
    - destruct (ph (s a0)) eqn:P; inversion H; subst. left. apply upd_other; congruence.
    - destruct (ph (s a0)) eqn:P; try discriminate.
      left. destruct ok; inversion H; subst; apply upd_other; congruence.
    - destruct (ph (s a0)) eqn:P; try discriminate.
      destruct (find_pend b pend) as [up|] eqn:F; [|discriminate].
      destruct (notify a0 r up (s b)) as [[[f y] gs]|] eqn:NF; inversion H; subst.
      assert (Na : a <> a0).
      { intros ->. rewrite Pa in P. inversion P; subst. cbn in F. destruct (Nat.eqb_spec b0 b); [|discriminate].
        inversion F; subst. unfold notify in NF.
        assert (Rb : has_room (s b) = false) by (destruct Hb0 as [ -> | -> ]; assumption).
        assert (Ob : open (s b) = true) by (unfold open; destruct Hb0 as [ -> | -> ]; rewrite ?P0, ?P1; reflexivity).
        rewrite Ob, Rb in NF. discriminate. }
      rewrite (upd_other _ a0) by assumption. unfold upd.
      destruct (Nat.eqb_spec a b) as [->|]; [|auto].
      unfold notify in NF. rewrite Ra in NF.
      repeat (break_match_in NF; try discriminate NF); inversion NF; subst; try (left; reflexivity); right; right; right; left; eexists; reflexivity.
    - destruct (ph (s a0)) eqn:P; try discriminate. destruct pend; inversion H; subst.
      left. apply upd_other; congruence.
    - destruct (ph (s a0)) eqn:P; inversion H; subst. left. apply upd_other; congruence. }
  assert (K' : forall a, a = 0 \/ a = 1 -> ph (s' a) = ph (s a) /\ has_room (s' a) = has_room (s a)).
  { intros a Ha. destruct (K a Ha) as [E|[(l & E)|[(f & E)|[(h & E)|(l & h & E)]]]]; rewrite E; split; reflexivity. }
  destruct (K' 0) as [A0 B0]; [auto|]. destruct (K' 1) as [A1 B1]; [auto|].
  unfold stuck_pair. rewrite A0, A1, B0, B1. auto.
Qed.

Lemma stuck_run : forall es s s' t, srun s es = Some (s', t) -> stuck_pair s -> stuck_pair s'.
Proof.
  induction es as [|e es IH]; cbn [srun]; intros s s' t H K.
  - inversion H; subst. exact K.
  - destruct (sstep s e) as [[s1 o1]|] eqn:S1; [|discriminate].
    destruct (srun s1 es) as [[s2 o2]|] eqn:S2; [|discriminate]. inversion H; subst.
    eapply IH; eauto. eapply stuck_step; eauto.
Qed.

Lemma stuck_forever : forall es s t, srun sinit es = Some (s, t) -> stuck_pair s ->
  forall es' s' t', srun s es' = Some (s', t') ->
  ~ In (OClosed 0) (t ++ t') /\ ~ In (OClosed 1) (t ++ t').
Proof.
  intros es s t H K es' s' t' H'. pose proof (stuck_run _ _ _ _ H' K) as (P0 & P1 & _).
  assert (R : reach s' (t ++ t')) by (eapply reach_more; eauto using srun_reach).
  rewrite <- !in_closes, <- !(closed_inv _ _ R). unfold is_over. rewrite P0, P1. split; discriminate.
Qed.

(** ** A death reaches a whole component (C34) *)
Lemma left_not_running : forall s t a r, reach s t -> In (OLeft a r) t -> ph (s a) <> Running.
Proof.
  intros s t a r H I P. apply in_lefts in I. pose proof (told_inv _ _ H a) as T. unfold told_ok in T.
  rewrite P in T. destruct T as (_ & _ & T & _). rewrite T in I. contradiction.
Qed.

Lemma drains_single : forall s t a, reach s t -> length (drains a t) <= 1.
Proof.
  intros s t a H. pose proof (told_inv _ _ H a) as T. unfold told_ok in T.
  destruct (ph (s a)).
  1-6: destruct T as (T & _); rewrite T; cbn; lia.
  - destruct T as (T & _); rewrite T; cbn; lia.
  - destruct T as (l & T & _); rewrite T; cbn; lia.
  - destruct T as [(_ & T & _)|(_ & _ & l & T & _)]; rewrite T; cbn; lia.
  - destruct T as (_ & [[T _]|(_ & r & l & T & _)]); rewrite T; cbn; lia.
Qed.

(** What the links of [a] were when it drained them. *)
Lemma good_link_drained : forall es s t a b r l, srun sinit es = Some (s, t) ->
  linked_for_good t a b -> In (ODrained a r l) t ->
  In b l \/ exists r' v, In (OHandled a (SLinkDied b r') v) t.
Proof.
  intros es s t a b r l H (t1 & o & t2 & E & L & Na & Nb & U1 & U2) D.
  pose proof (srun_reach _ _ _ H) as R. pose proof (drains_single _ _ a R) as DS.
  rewrite E in D. apply in_app_or in D. destruct D as [D|[D|D]].
  - exfalso. eapply Na; eauto.
  - exfalso. destruct L; congruence.
  - apply in_split in D. destruct D as (u1 & u2 & ->).
    assert (E2 : t = (t1 ++ o :: u1) ++ ODrained a r l :: u2) by (rewrite E, <- app_assoc; reflexivity).
    destruct (drained_exact _ _ _ _ _ _ _ _ H E2) as [_ X].
    assert (Q : (exists r' v, In (OHandled a (SLinkDied b r') v) u1) \/ forall r' v, ~ In (OHandled a (SLinkDied b r') v) u1).
    { clear. induction u1 as [|y u IH]; [right; intros; auto|].
      destruct IH as [(r' & v & I)|N]; [left; exists r', v; right; assumption|].
      destruct y as [| | | |x g v| | | |]; try (right; intros r' v' [E|I]; [discriminate|eapply N; eauto]).
      destruct g as [| | |y r']; try (right; intros r'' v' [E|I]; [discriminate|eapply N; eauto]).
      destruct (Nat.eq_dec x a) as [->|]; [destruct (Nat.eq_dec y b) as [->|]|].
      - left. exists r', v. left. reflexivity.
      - right. intros r'' v' [E|I]; [congruence|eapply N; eauto].
      - right. intros r'' v' [E|I]; [congruence|eapply N; eauto]. }
    destruct Q as [(r' & v & I)|N].
    + right. exists r', v. rewrite E. apply in_or_app. right. right. apply in_or_app. auto.
    + left. apply X. exists t1, o, u1. split; [reflexivity|]. split; [exact L|].
      intros o' I U. inversion U; subst.
      * apply U1. apply in_or_app. auto.
      * apply U2. apply in_or_app. auto.
      * rewrite E2, drains_app in DS. cbn in DS. rewrite Nat.eqb_refl in DS.
        rewrite app_length in DS. cbn in DS.
        assert (I2 : In (ODrained a r0 l0) (t1 ++ o :: u1)) by (apply in_or_app; right; right; assumption).
        apply in_drains in I2. destruct (drains a (t1 ++ o :: u1)); [contradiction|cbn in DS; lia].
      * eapply N; eauto.
Qed.

Lemma death_spreads : forall es s t a b r, srun sinit es = Some (s, t) -> settled s ->
  linked_for_good t a b -> In (OLeft a r) t -> r <> RNormal -> ph (s a) <> Crashed ->
  dflt (s b) = true -> ph (s b) <> Running.
Proof.
  intros es s t a b r H S L LA NR NC D RB. pose proof (srun_reach _ _ _ H) as R.
  pose proof (settled_facts _ _ R S a) as Fa. pose proof (settled_facts _ _ R S b) as Fb.
  rewrite RB in Fb. destruct Fb as [QB SB].
  pose proof (told_inv _ _ R a) as T. pose proof (told_inv _ _ R b) as Tb. unfold told_ok in T, Tb.
  rewrite RB in Tb. destruct Tb as (_ & _ & LB & _).
  assert (NLB : forall q, ~ In (OLeft b q) t) by (intros q I; apply in_lefts in I; rewrite LB in I; contradiction).
  apply in_lefts in LA.
  destruct (policy_inv _ _ R) as (P1 & P2 & P3).
  assert (TOLD : In (OPush b (SLinkDied a r)) t -> False).
  { intro I. apply in_pushed in I. destruct (queue_inv _ _ R b) as [_ Q]. unfold open in Q. rewrite RB, QB, app_nil_r in Q.
    rewrite Q in I. apply in_taken in I. destruct I as [(v & I)|I].
    - destruct (P1 _ _ _ _ I) as [_ E]. specialize (E D). subst.
      destruct r; try congruence; cbn in I; apply P2 in I; eapply NLB; eauto.
    - apply P3 in I. eapply NLB; eauto. }
  assert (HANDLED : (exists r' v, In (OHandled a (SLinkDied b r') v) t) -> False).
  { intros (r' & v & I). eapply NLB. eapply handled_true; eauto. }
  destruct (ph (s a)) eqn:P; try contradiction.
  1-4: destruct T as (_ & _ & T & _); rewrite T in LA; contradiction.
  - destruct T as (l & T1 & T2 & _ & _ & T5 & _ & T7 & T8 & T9). destruct Fa as [_ Fa].
    rewrite T2 in LA. destruct LA as [->|[]].
    destruct (good_link_drained _ _ _ a b r l H L) as [I|I]; [apply in_drains; rewrite T1; left; reflexivity| |auto].
    destruct (in_dec Nat.eq_dec b (map fst pend)) as [J|J].
    + destruct (Fa b J) as [_ RM]. unfold has_room in RM. rewrite QB in RM.
      destruct (cap (s b)) as [[|c]|] eqn:C; try discriminate. eapply cap_inv; eauto.
    + destruct (T9 b I J) as [E|[_ G]].
      * apply TOLD. apply in_reports. rewrite E. left. reflexivity.
      * unfold gone in G. rewrite RB, SB in G. discriminate.
  - destruct T as [(_ & _ & T & _)|(_ & T2 & l & T1 & T8 & T9)]; [rewrite T in LA; contradiction|].
    rewrite T2 in LA. destruct LA as [->|[]].
    destruct (good_link_drained _ _ _ a b r l H L) as [I|I]; [apply in_drains; rewrite T1; left; reflexivity| |auto].
    destruct (T9 b I) as [E|[_ G]].
    + apply TOLD. apply in_reports. rewrite E. left. reflexivity.
    + unfold gone in G. rewrite RB, SB in G. discriminate.
Qed.

Fixpoint starts (a : nat) (t : list sobs) : list bool :=
  match t with
  | [] => []
  | OStarted x ok :: t' => if x =? a then ok :: starts a t' else starts a t'
  | _ :: t' => starts a t'
  end.
Lemma starts_app : forall a t u, starts a (t ++ u) = starts a t ++ starts a u.
Proof.
  induction t as [|o t IH]; intro u; [reflexivity|].
  destruct o; cbn; rewrite ?IH; try reflexivity. destruct (a0 =? a); reflexivity.
Qed.
Lemma in_starts : forall a ok t, In ok (starts a t) <-> In (OStarted a ok) t.
Proof.
  induction t as [|o t IH]; [reflexivity|].
  destruct o as [x ok'| | | | | | | |]; cbn [starts In]; try (rewrite IH; split; [auto|intros [E|]; [discriminate|auto]]).
  destruct (Nat.eqb_spec x a) as [->|N]; cbn [In]; rewrite IH; split.
  - intros [E|]; [subst; auto|auto].
  - intros [E|]; [inversion E; auto|auto].
  - auto.
  - intros [E|]; [inversion E; congruence|auto].
Qed.

Definition starts_ok (x : actor) (l : list bool) : Prop :=
  match ph x with
  | Absent | Prepared | Starting => l = []
  | FailStop => l = [false]
  | Running | Leaving _ | OnStop _ _ | Notifying _ _ => l = [true]
  | Done _ | Crashed => exists b, l = [b]
  end.

Lemma starts_after : forall a x v, starts a (after_obs x v) = [].
Proof. intros. destruct v; reflexivity. Qed.

Lemma starts_inv : forall s t, reach s t -> forall a, starts_ok (s a) (starts a t).
Proof.
  apply (reach_inv (fun s t => forall a, starts_ok (s a) (starts a t))).
  - reflexivity.
  - intros s s' t S H a. rewrite <- (S a). apply H.
  - intros s t s' o _ H ST a. specialize (H a). unfold starts_ok in *. rewrite starts_app.
    cases_R ST; cbn [starts]; rewrite ?starts_after, ?app_nil_r; look a; cbn;
      repeat match goal with A : ph _ = _ |- _ => rewrite A in H end; rewrite ?H; cbn;
      try reflexivity; try assumption; eauto;
      try (rewrite after_ph by (cbn; assumption); destruct v; eauto; fail).
    + destruct ok; reflexivity.
    + destruct (Nat.eqb_spec x a); [congruence|]. rewrite app_nil_r. assumption.
    + destruct ok; reflexivity.
    + destruct (Nat.eqb_spec x a); [congruence|]. rewrite app_nil_r. assumption.
    + destruct r; eauto.
Qed.

Lemma component_dies : forall es s t a, srun sinit es = Some (s, t) -> settled s ->
  (forall x, connected t a x ->
     dflt (s x) = true /\ In (OStarted x true) t /\ ph (s x) <> Crashed /\ ~ In (OLeft x RNormal) t) ->
  (exists r, In (OLeft a r) t) ->
  forall x, connected t a x -> exists r, In (OLeft x r) t.
Proof.
  intros es s t a H S A LA x C. revert A LA. induction C as [|a b x L C IH]; intros A LA; [assumption|].
  apply IH.
  - intros y Cy. apply A. econstructor; eauto.
  - assert (Ca : connected t a a) by apply rt1n_refl.
    assert (Cb : connected t a b) by (econstructor; [exact L|apply rt1n_refl]).
    destruct (A a Ca) as (Da & SA & NCa & NNa). destruct (A b Cb) as (Db & SB & NCb & NNb).
    destruct LA as [r LA].
    assert (NR : r <> RNormal) by congruence.
    pose proof (death_spreads _ _ _ _ _ _ H S L LA NR NCa Db) as NB.
    pose proof (srun_reach _ _ _ H) as R.
    pose proof (starts_inv _ _ R b) as ST. pose proof (settled_facts _ _ R S b) as F.
    pose proof (told_inv _ _ R b) as T. apply in_starts in SB. unfold starts_ok, told_ok in *.
    destruct (ph (s b)) eqn:P; try congruence; try contradiction; try (rewrite ST in SB; contradiction).
    + destruct T as (l & _ & T & _). exists r0. apply in_lefts. rewrite T. left. reflexivity.
    + destruct T as [(T & _)|(_ & T & _)]; [|exists r0; apply in_lefts; rewrite T; left; reflexivity].
      apply in_fails, in_starts in T. destruct ST as [b0 ST]. rewrite ST in SB, T.
      destruct SB as [->|[]], T as [T|[]]; discriminate.
Qed.

(** [spawn_link] leaves no gap (C52) *)
Lemma no_events_no_obs : forall es s s' t c p, srun s es = Some (s', t) ->
  (In (OUnlink c p) t -> In (EUnlink c p) es) /\ (forall r l, In (ODrained c r l) t -> In (EDrain c) es).
Proof.
  induction es as [|e es IH]; cbn [srun]; intros s s' t c p H.
  - inversion H; subst. split; intros; contradiction.
  - destruct (sstep s e) as [[s1 o1]|] eqn:S1; [|discriminate].
    destruct (srun s1 es) as [[s2 o2]|] eqn:S2; [|discriminate]. inversion H; subst.
    destruct (IH _ _ _ c p S2) as [I1 I2].
    assert (K : forall o, In o o1 -> (o = OUnlink c p -> e = EUnlink c p) /\ (forall r l, o = ODrained c r l -> e = EDrain c)).
    { clear - S1. intros o I. destruct e; cbn [sstep] in S1;
        repeat (break_match_in S1; try discriminate S1); inversion S1; subst; cbn in I;
        repeat match goal with H : _ \/ _ |- _ => destruct H end; subst; try contradiction;
        try (split; intros; congruence);
        try (match goal with H : In _ (after_obs _ _) |- _ => apply in_after_obs in H end;
             repeat match goal with H : _ \/ _ |- _ => destruct H | H : _ /\ _ |- _ => destruct H
                              | H : exists _, _ |- _ => destruct H end; subst; split; intros; discriminate).
      - apply in_map_iff in I. destruct I as (g & <- & _). split; intros; discriminate.
      - apply in_map_iff in I. destruct I as (g & <- & _). split; intros; discriminate. }
    split.
    + intro I. apply in_app_or in I. destruct I as [I|I]; [left; apply (K _ I); reflexivity|right; auto].
    + intros r l I. apply in_app_or in I. destruct I as [I|I]; [left; eapply (K _ I); reflexivity|right; eauto].
Qed.

Lemma spawn_link_no_gap : forall e1 e2 child parent s t, child <> parent ->
  srun sinit (e1 ++ ELink child parent :: e2) = Some (s, t) ->
  ~ In (EDrain child) e1 -> ~ In (EDrain parent) e1 ->
  ~ In (EUnlink child parent) e2 -> ~ In (EUnlink parent child) e2 ->
  linked_for_good t child parent /\ linked_for_good t parent child.
Proof.
  intros e1 e2 c p s t N H D1 D2 U1 U2. rewrite srun_app in H.
  destruct (srun sinit e1) as [[s1 o1]|] eqn:S1; [|discriminate].
  cbn [srun sstep] in H. destruct (is_absent (s1 c) || is_absent (s1 p)); [discriminate|].
  destruct (Nat.eqb_spec c p); [congruence|].
  match type of H with match match srun ?u e2 with _ => _ end with _ => _ end = _ =>
    destruct (srun u e2) as [[s2 o2]|] eqn:S2; [|discriminate] end.
  inversion H; subst. cbn [app].
  destruct (no_events_no_obs _ _ _ _ c p S1) as [_ X1]. destruct (no_events_no_obs _ _ _ _ p c S1) as [_ X2].
  destruct (no_events_no_obs _ _ _ _ c p S2) as [X3 _]. destruct (no_events_no_obs _ _ _ _ p c S2) as [X4 _].
  split; exists o1, (OLink c p), o2; (split; [reflexivity|]); repeat split; auto; intros; intro; eauto.
Qed.

(** An actor that is still starting is told whether or not anybody refers to it. *)
Lemma starting_told : forall es s t a b r l, srun sinit es = Some (s, t) ->
  In (ODrained a r l) t -> In (OClosed a) t -> ph (s a) <> Crashed -> In b l ->
  (forall ok, ~ In (OStarted b ok) t) ->
  reports a b t = [r].
Proof.
  intros es s t a b r l H D C NC I NS. apply srun_reach in H.
  pose proof (told_inv _ _ H a) as T. unfold told_ok in T.
  apply in_closes in C. rewrite <- (closed_inv _ _ H) in C. unfold is_over in C.
  apply in_drains in D.
  destruct (ph (s a)) eqn:P; try discriminate; try congruence.
  destruct T as [(_ & T & _)|(_ & _ & m & T1 & T2 & T3)]; [rewrite T in D; contradiction|].
  rewrite T1 in D. destruct D as [D|[]]. inversion D; subst.
  destruct (T3 b I) as [|[_ G]]; [assumption|exfalso].
  pose proof (starts_inv _ _ H b) as S. unfold starts_ok in S. unfold gone, strong in G.
  assert (N : starts b t = []).
  { destruct (starts b t) as [|ok u] eqn:E; [reflexivity|]. exfalso. apply (NS ok). apply in_starts. rewrite E. left. reflexivity. }
  rewrite N in S.
  destruct (ph (s b)); cbn in G; rewrite ?orb_true_r in G; try discriminate; destruct S; discriminate.
Qed.
