(** Proofs about bootstrapping. *)
From Coq Require Import List Bool PeanoNat Lia.
From Verif Require Import Bootstrap Bootstrap_spec.
Import ListNotations.

(** ** Lists *)

Lemma nth_update_same : forall l i c x, nth_error l i = Some x -> nth_error (update i c l) i = Some c.
Proof. induction l as [|y l IH]; intros [|i] c x E; cbn in *; try discriminate; eauto. Qed.

Lemma nth_update_other : forall l i j c, i <> j -> nth_error (update i c l) j = nth_error l j.
Proof. induction l as [|y l IH]; intros [|i] [|j] c N; cbn; auto; congruence. Qed.

Definition kind_of (c : call) : method * nat := (c_method c, c_peer c).

Lemma map_update : forall l i c x, nth_error l i = Some x -> kind_of c = kind_of x ->
  map kind_of (update i c l) = map kind_of l.
Proof.
  induction l as [|y l IH]; intros [|i] c x E K; cbn in *; try discriminate.
  - injection E as ->. now rewrite K.
  - now rewrite (IH _ _ _ E K).
Qed.

Lemma pairs_app : forall A (R : A -> A -> Prop) l1 l2, ForallOrdPairs R l1 -> ForallOrdPairs R l2 ->
  (forall x y, In x l1 -> In y l2 -> R x y) -> ForallOrdPairs R (l1 ++ l2).
Proof.
  intros A R l1 l2 F1 F2 X. induction F1 as [|a l F F1 IH]; cbn; [exact F2|].
  constructor; [|apply IH; intros; apply X; cbn; auto].
  apply Forall_app. split; [exact F|]. apply Forall_forall. intros y I. apply X; cbn; auto.
Qed.

Lemma pairs_split : forall A (R : A -> A -> Prop) l1 x l2 y, ForallOrdPairs R (l1 ++ x :: l2) -> In y l2 -> R x y.
Proof.
  intros A R l1 x l2 y F I. induction l1 as [|z l1 IH]; cbn in F; inversion F; subst; auto.
  now apply (proj1 (Forall_forall _ _) H1).
Qed.

(** ** The invariant *)

(** Where a call of function [m] can be; [i]: its number, [w]: the static. *)
Definition place (m : method) (peer i : nat) (w : option swarm) (a : point) : Prop :=
  match a with
  | AtNew => m = Identity
  | AtCheck | AtBuild => m = Identity \/ m = Behaviour
  | AtInsert => True
  | AtSpawn => m <> Manual /\ w = Some (mk_swarm i peer)
  | Over r =>
      may_end m r /\
      match r with
      | Started s | Handed s => s = mk_swarm i peer /\ w = Some s
      | Already s _ => sw_maker s <> i /\ w = Some s
      | Panicked => w = Some (mk_swarm i peer)
      | Refused => exists s, w = Some s /\ sw_maker s <> i
      | NoBehaviour => match w with Some s => sw_maker s <> i | None => True end
      end
  end.

(** The relation between an earlier and a later observation. *)
Definition later (x y : obs) : Prop :=
  ((exists s, shows x s) -> ~ shows_none y) /\ (shows_gone x -> ~ shows_alive y /\ ~ shows_none y).

Record inv (p : process) (es : list event) (h : list obs) : Prop := mk_inv {
  i_calls : map kind_of (p_calls p) = entered es;
  i_place : forall i c, nth_error (p_calls p) i = Some c -> place (c_method c) (c_peer c) i (p_swarm p) (c_at c);
  i_maker : forall s, p_swarm p = Some s -> exists c, nth_error (p_calls p) (sw_maker s) = Some c /\
    c_peer c = sw_peer s /\ (c_at c = AtSpawn \/ c_at c = Over Panicked \/ exists r, c_at c = Over r /\ wins r s);
  i_none : p_swarm p = None -> p_open p = false;
  i_closed : p_open p = false -> p_queue p = [];
  i_spawning : forall i c, nth_error (p_calls p) i = Some c -> c_at c = AtSpawn -> p_open p = true;
  i_over : forall i r, In (OEnd i r) h <-> exists c, nth_error (p_calls p) i = Some c /\ c_at c = Over r;
  i_ends : forall i, ends h i = match nth_error (p_calls p) i with
                                | Some c => match c_at c with Over _ => 1 | _ => 0 end
                                | None => 0
                                end;
  i_shows : forall o s, In o h -> shows o s -> p_swarm p = Some s;
  i_gone : forall o, In o h -> shows_gone o -> p_open p = false /\ p_swarm p <> None;
  i_queue : accepted h = taken h ++ lost h ++ p_queue p;
  i_order : ForallOrdPairs later h
}.

Lemma inv_boot : inv boot [] [].
Proof.
  constructor; cbn; intros; try discriminate; try tauto; try (constructor).
  - destruct i; discriminate.
  - destruct i; discriminate.
  - intros [].
  - intros (c & E & _). destruct i; discriminate.
  - destruct i; reflexivity.
Qed.

(** The call [i] moves to [a] and [os] is observed; nothing else changes. *)
Lemma ends_app : forall h1 h2 i, ends (h1 ++ h2) i = ends h1 i + ends h2 i.
Proof. intros. unfold ends. rewrite filter_app, app_length. reflexivity. Qed.
Lemma entered_app : forall a b, entered (a ++ b) = entered a ++ entered b.
Proof. intros. apply flat_map_app. Qed.
Lemma accepted_app : forall a b, accepted (a ++ b) = accepted a ++ accepted b.
Proof. intros. apply flat_map_app. Qed.
Lemma taken_app : forall a b, taken (a ++ b) = taken a ++ taken b.
Proof. intros. apply flat_map_app. Qed.
Lemma lost_app : forall a b, lost (a ++ b) = lost a ++ lost b.
Proof. intros. apply flat_map_app. Qed.

Lemma later_one : forall o, ForallOrdPairs later [o].
Proof. intros o. constructor; [constructor|constructor]. Qed.

(** A step that only changes the calls' points: no observation. *)
Lemma inv_quiet : forall p es h e i c a, inv p es h -> entered [e] = [] ->
  nth_error (p_calls p) i = Some c -> (forall r, c_at c <> Over r) -> (forall r, a <> Over r) ->
  c_at c <> AtSpawn -> a <> AtSpawn -> place (c_method c) (c_peer c) i (p_swarm p) a ->
  inv (move p i c a) (es ++ [e]) h.
Proof.
  intros p es h e i c a V Ee E No Na Ns Nas Pl. constructor; cbn [move p_calls p_swarm p_open p_queue]; try apply V.
  - rewrite entered_app, Ee, app_nil_r, <- (i_calls _ _ _ V). eapply map_update; [exact E|reflexivity].
  - intros j d Ej. destruct (Nat.eq_dec i j) as [<-|N].
    + rewrite (nth_update_same _ _ _ _ E) in Ej. injection Ej as <-. exact Pl.
    + rewrite nth_update_other in Ej by exact N. now apply (i_place _ _ _ V).
  - intros s Es. destruct (i_maker _ _ _ V _ Es) as (d & Ed & Pd & Ad).
    destruct (Nat.eq_dec i (sw_maker s)) as [->|N].
    + rewrite E in Ed. injection Ed as <-. exfalso.
      destruct Ad as [A|[A|(r & A & _)]]; [exact (Ns A)|exact (No _ A)|exact (No _ A)].
    + exists d. rewrite nth_update_other by exact N. auto.
  - intros j d Ej Ad. destruct (Nat.eq_dec i j) as [<-|N].
    + rewrite (nth_update_same _ _ _ _ E) in Ej. injection Ej as <-. contradiction.
    + rewrite nth_update_other in Ej by exact N. eapply (i_spawning _ _ _ V); eauto.
  - intros j r. rewrite (i_over _ _ _ V). destruct (Nat.eq_dec i j) as [<-|N].
    + rewrite (nth_update_same _ _ _ _ E). split; intros (d & Ed & Ad).
      * rewrite E in Ed. injection Ed as <-. destruct (No _ Ad).
      * injection Ed as <-. destruct (Na _ Ad).
    + now rewrite nth_update_other by exact N.
  - intros j. rewrite (i_ends _ _ _ V). destruct (Nat.eq_dec i j) as [<-|N].
    + rewrite (nth_update_same _ _ _ _ E), E. cbn.
      destruct (c_at c); try (destruct a; reflexivity || (exfalso; eapply Na; reflexivity)). exfalso; eapply No; reflexivity.
    + now rewrite nth_update_other by exact N.
Qed.

Lemma over_point : forall h calls i c c' r0,
  (forall j r, In (OEnd j r) h <-> exists d, nth_error calls j = Some d /\ c_at d = Over r) ->
  nth_error calls i = Some c -> (forall r, c_at c <> Over r) -> c_at c' = Over r0 ->
  forall j r, In (OEnd j r) (h ++ [OEnd i r0]) <-> exists d, nth_error (update i c' calls) j = Some d /\ c_at d = Over r.
Proof.
  intros h calls i c c' r0 V E No C' j r. rewrite in_app_iff, V. destruct (Nat.eq_dec i j) as [<-|N].
  - rewrite (nth_update_same _ _ _ _ E). split.
    + intros [(d & Ed & Ad)|[[= <-]|[]]]; [|eauto]. rewrite E in Ed. injection Ed as <-. destruct (No _ Ad).
    + intros (d & [= <-] & Ad). right; left. congruence.
  - rewrite nth_update_other by exact N. split; [|auto].
    intros [H|[[= <- <-]|[]]]; [exact H|congruence].
Qed.

Lemma ends_point : forall h calls i c c' r0,
  (forall j, ends h j = match nth_error calls j with
                        | Some c => match c_at c with Over _ => 1 | _ => 0 end | None => 0 end) ->
  nth_error calls i = Some c -> (forall r, c_at c <> Over r) -> c_at c' = Over r0 ->
  forall j, ends (h ++ [OEnd i r0]) j = match nth_error (update i c' calls) j with
                        | Some c => match c_at c with Over _ => 1 | _ => 0 end | None => 0 end.
Proof.
  intros h calls i c c' r0 V E No C' j. rewrite ends_app, V. unfold ends. cbn.
  destruct (Nat.eq_dec i j) as [<-|N].
  - rewrite (nth_update_same _ _ _ _ E), E, C', Nat.eqb_refl. cbn.
    destruct (c_at c); try reflexivity. exfalso; eapply No; reflexivity.
  - rewrite nth_update_other by exact N. destruct (Nat.eqb_spec j i) as [->|_]; [congruence|]. cbn. lia.
Qed.

(** A call ends, other than with a panic. *)
Lemma inv_end : forall p es h e i c r, inv p es h -> entered [e] = [] ->
  nth_error (p_calls p) i = Some c -> (forall r, c_at c <> Over r) ->
  place (c_method c) (c_peer c) i (p_swarm p) (Over r) -> r <> Panicked ->
  (c_at c = AtSpawn -> wins r (mk_swarm i (c_peer c))) -> ((exists s, wins r s) -> p_open p = true) ->
  inv (move p i c (Over r)) (es ++ [e]) (h ++ [OEnd i r]).
Proof.
  intros p es h e i c r V Ee E No Pl Np Sp Wo. constructor; cbn [move p_calls p_swarm p_open p_queue]; try apply V.
  - rewrite entered_app, Ee, app_nil_r, <- (i_calls _ _ _ V). eapply map_update; [exact E|reflexivity].
  - intros j d Ej. destruct (Nat.eq_dec i j) as [<-|N].
    + rewrite (nth_update_same _ _ _ _ E) in Ej. injection Ej as <-. exact Pl.
    + rewrite nth_update_other in Ej by exact N. now apply (i_place _ _ _ V).
  - intros s Es. destruct (i_maker _ _ _ V _ Es) as (d & Ed & Pd & Ad).
    destruct (Nat.eq_dec i (sw_maker s)) as [->|N].
    + rewrite E in Ed. injection Ed as <-. rewrite (nth_update_same _ _ _ _ E). eexists; split; [reflexivity|].
      cbn. split; [exact Pd|]. right; right. exists r. split; [reflexivity|].
      destruct Ad as [A|[A|(r1 & A & _)]]; [|destruct (No _ A)|destruct (No _ A)].
      destruct s as [mk pe]. cbn in *. rewrite <- Pd. apply Sp; exact A.
    + exists d. rewrite nth_update_other by exact N. auto.
  - intros j d Ej Ad. destruct (Nat.eq_dec i j) as [<-|N].
    + rewrite (nth_update_same _ _ _ _ E) in Ej. injection Ej as <-. discriminate.
    + rewrite nth_update_other in Ej by exact N. eapply (i_spawning _ _ _ V); eauto.
  - eapply over_point; [apply V|exact E|exact No|reflexivity].
  - eapply ends_point; [apply V|exact E|exact No|reflexivity].
  - intros o s I Sh. apply in_app_or in I as [I|[<-|[]]]; [eapply (i_shows _ _ _ V); eauto|].
    destruct Pl as [_ Pl]. inversion Sh; subst; tauto.
  - intros o I Sg. apply in_app_or in I as [I|[<-|[]]]; [eapply (i_gone _ _ _ V); eauto|]. inversion Sg; congruence.
  - rewrite accepted_app, taken_app, lost_app. cbn. rewrite !app_nil_r. apply V.
  - apply pairs_app; [apply V|apply later_one|]. intros x y Ix [<-|[]]. split.
    + intros _ Sn. inversion Sn.
    + intros Sg. split; [|intros Sn; inversion Sn]. intros Sa. inversion Sa; subst.
      destruct (i_gone _ _ _ V _ Ix Sg) as [O _]. rewrite Wo in O by eauto. discriminate.
Qed.

(** A call fills the static. *)
Lemma inv_insert : forall p es h e i c a os, inv p es h -> entered [e] = [] ->
  nth_error (p_calls p) i = Some c -> (forall r, c_at c <> Over r) -> p_swarm p = None ->
  let s := mk_swarm i (c_peer c) in
  (a = AtSpawn /\ os = [] /\ c_method c <> Manual) \/ (a = Over (Handed s) /\ os = [OEnd i (Handed s)] /\ c_method c = Manual) ->
  inv (mk_process (Some s) (update i (mk_call (c_method c) (c_peer c) a) (p_calls p)) true []) (es ++ [e]) (h ++ os).
Proof.
  intros p es h e i c a os V Ee E No Ns s Cs.
  assert (Ng : forall o, In o h -> ~ shows_gone o) by (intros o I G; destruct (i_gone _ _ _ V _ I G); contradiction).
  assert (Nh : forall o s', In o h -> ~ shows o s')
    by (intros o s' I G; pose proof (i_shows _ _ _ V _ _ I G); congruence).
  assert (Qe : p_queue p = []) by (apply (i_closed _ _ _ V), (i_none _ _ _ V), Ns).
  constructor; cbn [p_calls p_swarm p_open p_queue]; try discriminate.
  - rewrite entered_app, Ee, app_nil_r, <- (i_calls _ _ _ V). eapply map_update; [exact E|reflexivity].
  - intros j d Ej. destruct (Nat.eq_dec i j) as [<-|N].
    + rewrite (nth_update_same _ _ _ _ E) in Ej. injection Ej as <-. cbn.
      destruct Cs as [(-> & _ & M)|(-> & _ & M)]; cbn; [auto|]. rewrite M. split; [constructor|auto].
    + rewrite nth_update_other in Ej by exact N. pose proof (i_place _ _ _ V _ _ Ej) as Pl. rewrite Ns in Pl.
      destruct (c_at d) as [| | | | |r]; cbn in *; auto; [destruct Pl; discriminate|].
      destruct Pl as [Pm Pl]. split; [exact Pm|]. destruct r; try (destruct Pl; discriminate); try discriminate; auto.
      destruct Pl as (? & [=] & _).
  - intros s' [= <-]. cbn. rewrite (nth_update_same _ _ _ _ E). eexists; split; [reflexivity|]. split; [reflexivity|]. cbn.
    destruct Cs as [(-> & _)|(-> & _)]; [now left|right; right]. eexists; split; [reflexivity|now right].
  - reflexivity.
  - destruct Cs as [(-> & -> & _)|(-> & -> & _)].
    + intros j r. rewrite app_nil_r, (i_over _ _ _ V). destruct (Nat.eq_dec i j) as [<-|N].
      * rewrite (nth_update_same _ _ _ _ E), E. split; intros (d & [= <-] & Ad); [destruct (No _ Ad)|discriminate].
      * now rewrite nth_update_other by exact N.
    + eapply over_point; [apply V|exact E|exact No|reflexivity].
  - destruct Cs as [(-> & -> & _)|(-> & -> & _)].
    + intros j. rewrite app_nil_r, (i_ends _ _ _ V). destruct (Nat.eq_dec i j) as [<-|N].
      * rewrite (nth_update_same _ _ _ _ E), E. cbn. destruct (c_at c); try reflexivity. exfalso; eapply No; reflexivity.
      * now rewrite nth_update_other by exact N.
    + eapply ends_point; [apply V|exact E|exact No|reflexivity].
  - intros o s' I Sh. apply in_app_or in I as [I|I]; [destruct (Nh _ _ I Sh)|].
    destruct Cs as [(_ & -> & _)|(_ & -> & _)]; [destruct I|]. destruct I as [<-|[]]. inversion Sh; reflexivity.
  - intros o I Sg. apply in_app_or in I as [I|I]; [destruct (Ng _ I Sg)|].
    destruct Cs as [(_ & -> & _)|(_ & -> & _)]; [destruct I|]. destruct I as [<-|[]]. inversion Sg.
  - rewrite accepted_app, taken_app, lost_app. pose proof (i_queue _ _ _ V) as Q. rewrite Qe in Q.
    destruct Cs as [(_ & -> & _)|(_ & -> & _)]; cbn; rewrite !app_nil_r in *; exact Q.
  - apply pairs_app; [apply V| |].
    + destruct Cs as [(_ & -> & _)|(_ & -> & _)]; [constructor|apply later_one].
    + intros x y Ix _. split; [intros [s' Sh]; destruct (Nh _ _ Ix Sh)|intros Sg; destruct (Ng _ Ix Sg)].
Qed.

Lemma later_safe : forall x y, ~ shows_alive y -> ~ shows_none y -> later x y.
Proof. intros x y A N. split; auto. Qed.

Lemma pairs_safe : forall l, (forall y, In y l -> ~ shows_alive y /\ ~ shows_none y) -> ForallOrdPairs later l.
Proof.
  induction l as [|x l IH]; intros H; constructor; [|apply IH; intros; apply H; now right].
  apply Forall_forall. intros y I. destruct (H y) as [A N]; [now right|]. now apply later_safe.
Qed.

Lemma lost_lost : forall q, lost (map OLost q) = q /\ accepted (map OLost q) = [] /\ taken (map OLost q) = [].
Proof. induction q as [|c q (A & B & C)]; cbn; [auto|]. unfold lost, accepted, taken in *. rewrite A, B, C. auto. Qed.

Lemma ends_lost : forall q i, ends (map OLost q) i = 0.
Proof. intros q i. unfold ends. induction q; cbn; auto. Qed.

(** The handler is lost. *)
Lemma inv_lose : forall p es h e, inv p es h -> entered [e] = [] ->
  (forall i c, nth_error (p_calls p) i = Some c -> c_at c <> AtSpawn) -> p_swarm p <> None ->
  inv (fst (lose p)) (es ++ [e]) (h ++ snd (lose p)).
Proof.
  intros p es h e V Ee Ns Sw. unfold lose. cbn [fst snd].
  constructor; cbn [p_calls p_swarm p_open p_queue]; try apply V; auto.
  - rewrite entered_app, Ee, app_nil_r. apply V.
  - intros i c E A. destruct (Ns _ _ E A).
  - intros i r. rewrite in_app_iff, <- (i_over _ _ _ V). split; [|auto]. intros [I|I]; [exact I|].
    apply in_map_iff in I as (c & [=] & _).
  - intros i. rewrite ends_app, ends_lost, Nat.add_0_r. apply V.
  - intros o s I Sh. apply in_app_or in I as [I|I]; [eapply (i_shows _ _ _ V); eauto|].
    apply in_map_iff in I as (c & <- & _). inversion Sh.
  - rewrite accepted_app, taken_app, lost_app. destruct (lost_lost (p_queue p)) as (-> & -> & ->).
    rewrite !app_nil_r. apply V.
  - apply pairs_app; [apply V|apply pairs_safe|].
    + intros y I. apply in_map_iff in I as (c & <- & _). split; intros X; inversion X.
    + intros x y _ I. apply in_map_iff in I as (c & <- & _). apply later_safe; intros X; inversion X.
Qed.

(** [tokio::spawn] panics. *)
Lemma inv_panic : forall p es h e i c, inv p es h -> entered [e] = [] ->
  nth_error (p_calls p) i = Some c -> c_at c = AtSpawn ->
  inv (move (fst (lose p)) i c (Over Panicked)) (es ++ [e]) (h ++ map OLost (p_queue p) ++ [OEnd i Panicked]).
Proof.
  intros p es h e i c V Ee E At.
  assert (No : forall r, c_at c <> Over r) by (intros r; rewrite At; discriminate).
  pose proof (i_place _ _ _ V _ _ E) as Pl. rewrite At in Pl. destruct Pl as [Mm Ew].
  constructor; cbn [lose fst move p_calls p_swarm p_open p_queue]; try (rewrite Ew; discriminate).
  - rewrite entered_app, Ee, app_nil_r, <- (i_calls _ _ _ V). eapply map_update; [exact E|reflexivity].
  - intros j d Ej. destruct (Nat.eq_dec i j) as [<-|N].
    + rewrite (nth_update_same _ _ _ _ E) in Ej. injection Ej as <-. cbn. split; [now constructor|exact Ew].
    + rewrite nth_update_other in Ej by exact N. now apply (i_place _ _ _ V).
  - intros s Es. rewrite Ew in Es. injection Es as <-. cbn. rewrite (nth_update_same _ _ _ _ E).
    eexists; split; [reflexivity|]. cbn. auto.
  - reflexivity.
  - intros j d Ej Ad. exfalso. destruct (Nat.eq_dec i j) as [<-|N].
    + rewrite (nth_update_same _ _ _ _ E) in Ej. injection Ej as <-. discriminate.
    + rewrite nth_update_other in Ej by exact N. pose proof (i_place _ _ _ V _ _ Ej) as Pl. rewrite Ad in Pl.
      destruct Pl as [_ Pl]. congruence.
  - intros j r. rewrite app_assoc. revert j r. eapply over_point; [|exact E|exact No|reflexivity].
    intros j r. rewrite in_app_iff, <- (i_over _ _ _ V). split; [|auto]. intros [I|I]; [exact I|].
    apply in_map_iff in I as (d & [=] & _).
  - intros j. rewrite app_assoc. revert j. eapply ends_point; [|exact E|exact No|reflexivity].
    intros j. rewrite ends_app, ends_lost, Nat.add_0_r. apply V.
  - intros o s I Sh. apply in_app_or in I as [I|I]; [eapply (i_shows _ _ _ V); eauto|].
    apply in_app_or in I as [I|[<-|[]]]; [|inversion Sh]. apply in_map_iff in I as (d & <- & _). inversion Sh.
  - intros o I Sg. split; [reflexivity|rewrite Ew; discriminate].
  - rewrite !accepted_app, !taken_app, !lost_app. destruct (lost_lost (p_queue p)) as (-> & -> & ->). cbn.
    rewrite !app_nil_r. apply V.
  - assert (S : forall y, In y (map OLost (p_queue p) ++ [OEnd i Panicked]) -> ~ shows_alive y /\ ~ shows_none y).
    { intros y I. apply in_app_or in I as [I|[<-|[]]].
      - apply in_map_iff in I as (d & <- & _). split; intros X; inversion X.
      - split; intros X; inversion X. destruct H0 as [H0|H0]; discriminate. }
    apply pairs_app; [apply V|apply pairs_safe, S|]. intros x y _ I. destruct (S _ I). now apply later_safe.
Qed.

(** An observation that changes neither calls nor static. *)
Lemma inv_obs : forall p es h e o op q, inv p es h -> entered [e] = [] ->
  (forall i r, o <> OEnd i r) -> (forall s, shows o s -> p_swarm p = Some s) ->
  (shows_gone o -> p_open p = false /\ p_swarm p <> None) -> (op = p_open p) -> (op = false -> q = []) ->
  accepted (h ++ [o]) = taken (h ++ [o]) ++ lost (h ++ [o]) ++ q ->
  (shows_none o -> p_swarm p = None) -> (shows_alive o -> p_open p = true) ->
  inv (mk_process (p_swarm p) (p_calls p) op q) (es ++ [e]) (h ++ [o]).
Proof.
  intros p es h e o op q V Ee Ne Sh Sg -> Qc Q Sn Sa.
  constructor; cbn [p_calls p_swarm p_open p_queue]; try apply V; auto.
  - rewrite entered_app, Ee, app_nil_r. apply V.
  - intros i r. rewrite in_app_iff, <- (i_over _ _ _ V). split; [|auto]. intros [I|[I|[]]]; [exact I|].
    destruct (Ne _ _ I).
  - intros i. rewrite ends_app. rewrite (i_ends _ _ _ V). unfold ends. cbn.
    destruct o; cbn; try lia. exfalso; eapply Ne; reflexivity.
  - intros x s I S. apply in_app_or in I as [I|[<-|[]]]; [eapply (i_shows _ _ _ V); eauto|auto].
  - intros x I S. apply in_app_or in I as [I|[<-|[]]]; [eapply (i_gone _ _ _ V); eauto|auto].
  - apply pairs_app; [apply V|apply later_one|]. intros x y Ix [<-|[]]. split.
    + intros [s S] N. apply Sn in N. pose proof (i_shows _ _ _ V _ _ Ix S). congruence.
    + intros G. destruct (i_gone _ _ _ V _ Ix G) as [O W]. split; intros X; [apply Sa in X|apply Sn in X]; congruence.
Qed.

Lemma inv_step : forall p es h e p' o, inv p es h -> step p e = Some (p', o) -> inv p' (es ++ [e]) (h ++ o).
Proof.
  intros p es h e p' o V St. destruct e as [m peer|i well| | | |c]; cbn [step] in St.
  - injection St as <- <-. rewrite app_nil_r.
    assert (Lt : forall i c, nth_error (p_calls p) i = Some c -> nth_error (p_calls p ++ [mk_call m peer (entry m)]) i = Some c)
      by (intros i c E; rewrite nth_error_app1; [exact E|apply nth_error_Some; congruence]).
    assert (Rt : forall i c, nth_error (p_calls p ++ [mk_call m peer (entry m)]) i = Some c ->
              nth_error (p_calls p) i = Some c \/ (nth_error (p_calls p) i = None /\ c = mk_call m peer (entry m))).
    { intros i c E. destruct (Nat.lt_ge_cases i (length (p_calls p))) as [L|G].
      - left. now rewrite nth_error_app1 in E by exact L.
      - right. split; [now apply nth_error_None|]. rewrite nth_error_app2 in E by exact G.
        destruct (i - length (p_calls p)) as [|[|]]; cbn in E; congruence. }
    constructor; cbn [p_calls p_swarm p_open p_queue]; try apply V.
    + rewrite map_app, (i_calls _ _ _ V), entered_app. reflexivity.
    + intros i c E. apply Rt in E as [E|[_ ->]]; [now apply (i_place _ _ _ V)|]. cbn. destruct m; cbn; auto.
    + intros s Es. destruct (i_maker _ _ _ V _ Es) as (d & Ed & R). exists d. split; [now apply Lt|exact R].
    + intros i c E A. apply Rt in E as [E|[_ ->]]; [eapply (i_spawning _ _ _ V); eauto|]. destruct m; discriminate.
    + intros i r. rewrite (i_over _ _ _ V). split; intros (c & E & A); exists c; [split; [now apply Lt|exact A]|].
      apply Rt in E as [E|[_ ->]]; [auto|]. destruct m; discriminate.
    + intros i. rewrite (i_ends _ _ _ V). destruct (nth_error (p_calls p) i) as [c|] eqn:E.
      * now rewrite (Lt _ _ E).
      * destruct (nth_error (p_calls p ++ [mk_call m peer (entry m)]) i) as [c|] eqn:E'; [|reflexivity].
        apply Rt in E' as [E'|[_ ->]]; [congruence|]. destruct m; reflexivity.
  - destruct (nth_error (p_calls p) i) as [c|] eqn:E; [|discriminate]. unfold go in St.
    pose proof (i_place _ _ _ V _ _ E) as Pl.
    assert (Mk : forall s, p_swarm p = Some s -> c_at c = AtInsert \/ c_at c = AtNew \/ c_at c = AtCheck \/ c_at c = AtBuild ->
                 sw_maker s <> i).
    { intros s Es At <-. destruct (i_maker _ _ _ V _ Es) as (d & Ed & _ & Ad). rewrite E in Ed. injection Ed as <-.
      destruct Ad as [A|[A|(r & A & _)]]; rewrite A in At; destruct At as [At|[At|[At|At]]]; discriminate. }
    assert (Nb : c_at c = AtNew \/ c_at c = AtBuild -> c_method c = Identity \/ c_method c = Behaviour ->
      place (c_method c) (c_peer c) i (p_swarm p) (Over NoBehaviour)).
    { intros At M. split; [now constructor|]. destruct (p_swarm p) as [s|] eqn:Es; [|exact I].
      apply (Mk _ eq_refl). tauto. }
    destruct (c_at c) as [| | | | |r] eqn:At; cbn in Pl.
    + destruct well; injection St as <- <-; [rewrite app_nil_r|].
      * apply inv_quiet; auto; try (rewrite At; discriminate); try discriminate. now left.
      * apply inv_end; auto; try (rewrite At; discriminate); try discriminate. intros (s & [W|W]); discriminate.
    + destruct (p_swarm p) as [s|] eqn:Es; injection St as <- <-; [|rewrite app_nil_r].
      * apply inv_end; auto; try (rewrite At; discriminate); try discriminate; [|intros (s' & [W|W]); discriminate].
        rewrite Es. split; [now constructor|]. split; [|reflexivity]. apply (Mk _ eq_refl); tauto.
      * apply inv_quiet; auto; try (rewrite At; discriminate); try discriminate.
    + destruct well; injection St as <- <-; [rewrite app_nil_r|].
      * apply inv_quiet; auto; try (rewrite At; discriminate); try discriminate. exact I.
      * apply inv_end; auto; try (rewrite At; discriminate); try discriminate. intros (s & [W|W]); discriminate.
    + destruct (p_swarm p) as [s|] eqn:Es.
      * injection St as <- <-. assert (Nm : sw_maker s <> i) by (apply (Mk _ eq_refl); tauto).
        apply inv_end; auto; try (rewrite At; discriminate); rewrite ?Es.
        -- split; [destruct (c_method c); constructor; discriminate|].
           destruct (c_method c); cbn; eauto.
        -- destruct (c_method c); discriminate.
        -- intros (s' & [W|W]); destruct (c_method c); discriminate.
      * destruct (c_method c) eqn:M; injection St as <- <-; unfold move; cbn [p_swarm p_calls p_open p_queue];
          rewrite ?app_nil_r.
        4:{ apply inv_insert; try assumption; [reflexivity|rewrite At; discriminate|right; auto]. }
        all: rewrite <- (app_nil_r h); apply inv_insert; try assumption;
          [reflexivity|rewrite At; discriminate|left; repeat split; rewrite M; discriminate].
    + destruct Pl as [Mm Ew]. destruct well.
      * injection St as <- <-. apply inv_end; auto; try (rewrite At; discriminate); try discriminate.
        -- rewrite Ew. split; [now constructor|auto].
        -- intros _. now left.
        -- intros _. eapply (i_spawning _ _ _ V); eauto.
      * cbn in St. injection St as <- <-. apply (inv_panic p es h _ i c); auto.
    + discriminate.
  - destruct (p_swarm p) as [s|] eqn:Es; [|discriminate]. destruct (nth_error (p_calls p) (sw_maker s)) as [c|] eqn:E; [|discriminate].
    destruct (c_at c) as [| | | | |r] eqn:At; try discriminate. destruct (p_open p) eqn:Op; [|discriminate].
    injection St as <- <-. apply (inv_lose p es h Lose); auto; [|congruence].
    intros j d Ej Aj. pose proof (i_place _ _ _ V _ _ Ej) as Pl. rewrite Aj in Pl. destruct Pl as [_ Pl].
    rewrite Es in Pl. injection Pl as ->. cbn in E. rewrite E in Ej. injection Ej as ->. congruence.
  - destruct (p_swarm p) as [s|] eqn:Es; [|discriminate]. destruct (nth_error (p_calls p) (sw_maker s)) as [c|] eqn:E; [|discriminate].
    destruct (c_at c) as [| | | | |r] eqn:At; try discriminate. destruct (p_queue p) as [|q l] eqn:Qe; [discriminate|].
    injection St as <- <-. rewrite <- Es. apply inv_obs; auto; try discriminate; try (intros X; inversion X; fail);
      try (intros s' X; inversion X; fail).
    + intros Op. apply (i_closed _ _ _ V) in Op. congruence.
    + pose proof (i_queue _ _ _ V) as Q. rewrite accepted_app, taken_app, lost_app. cbn. rewrite !app_nil_r, Q, Qe.
      assert (L : lost h = []).
      { destruct (lost h) as [|z lz] eqn:L; [reflexivity|exfalso].
        assert (I : In z (lost h)) by (rewrite L; now left). apply in_flat_map in I as (o & I & Io).
        assert (G : shows_gone o) by (destruct o; try destruct Io; constructor).
        destruct (i_gone _ _ _ V _ I G) as [Op _]. apply (i_closed _ _ _ V) in Op. congruence. }
      rewrite L. cbn. rewrite <- app_assoc. reflexivity.
    + intros _. destruct (p_open p) eqn:Op; [reflexivity|]. apply (i_closed _ _ _ V) in Op. congruence.
  - injection St as <- <-. destruct p as [w cs op q]. apply (inv_obs (mk_process w cs op q)); cbn; auto; try discriminate.
    + intros s X; inversion X; auto.
    + intros X; inversion X.
    + apply (i_closed _ _ _ V).
    + pose proof (i_queue _ _ _ V) as Q. rewrite accepted_app, taken_app, lost_app. cbn. rewrite !app_nil_r. exact Q.
    + intros X; inversion X; auto.
    + intros X; inversion X.
  - destruct (p_swarm p) as [s|] eqn:Es; [destruct (p_open p) eqn:Op|]; injection St as <- <-.
    + rewrite <- Es. apply inv_obs; auto; try discriminate; try (intros X; inversion X; fail);
        try (intros s' X; inversion X; fail).
      pose proof (i_queue _ _ _ V) as Q. rewrite accepted_app, taken_app, lost_app, Q. cbn.
      rewrite !app_nil_r, <- !app_assoc. reflexivity.
    + destruct p as [w cs op q]. cbn in *. subst w op.
      apply (inv_obs (mk_process (Some s) cs false q)); cbn; auto; try discriminate;
        try (intros X; inversion X; fail); try (intros s' X; inversion X; fail).
      * intros _. split; [reflexivity|discriminate].
      * apply (i_closed _ _ _ V).
      * pose proof (i_queue _ _ _ V) as Q. rewrite accepted_app, taken_app, lost_app. cbn. rewrite !app_nil_r. exact Q.
    + destruct p as [w cs op q]. cbn in *. subst w.
      apply (inv_obs (mk_process None cs op q)); cbn; auto; try discriminate;
        try (intros X; inversion X; fail); try (intros s' X; inversion X; fail).
      * apply (i_closed _ _ _ V).
      * pose proof (i_queue _ _ _ V) as Q. rewrite accepted_app, taken_app, lost_app. cbn. rewrite !app_nil_r. exact Q.
Qed.

Lemma exec_inv : forall es2 es1 p h p' h', inv p es1 h -> exec p es2 = Some (p', h') -> inv p' (es1 ++ es2) (h ++ h').
Proof.
  induction es2 as [|e es2 IH]; intros es1 p h p' h' V X; cbn in X.
  - injection X as <- <-. now rewrite !app_nil_r.
  - destruct (step p e) as [[p1 o1]|] eqn:St; [|discriminate]. destruct (exec p1 es2) as [[p2 o2]|] eqn:Ex; [|discriminate].
    injection X as <- <-. rewrite (app_assoc h). change (e :: es2) with ([e] ++ es2). rewrite app_assoc.
    eapply IH; [|exact Ex]. eapply inv_step; eauto.
Qed.

Lemma reach_inv : forall es p h, exec boot es = Some (p, h) -> inv p es h.
Proof. intros es p h X. apply (exec_inv es [] boot [] p h inv_boot X). Qed.

(** ** The theorems *)

Theorem one_swarm : forall es p h o o' s s', exec boot es = Some (p, h) ->
  In o h -> shows o s -> In o' h -> shows o' s' -> s = s'.
Proof.
  intros es p h o o' s s' X I S I' S'. apply reach_inv in X as V.
  pose proof (i_shows _ _ _ V _ _ I S). pose proof (i_shows _ _ _ V _ _ I' S'). congruence.
Qed.

Theorem shown_stays : forall es p h1 o s h2 o', exec boot es = Some (p, h1 ++ o :: h2) ->
  shows o s -> In o' h2 -> ~ shows_none o'.
Proof.
  intros es p h1 o s h2 o' X S I. apply reach_inv in X as V.
  destruct (pairs_split _ _ _ _ _ _ (i_order _ _ _ V) I) as [A _]. eauto.
Qed.

Theorem ended : forall es p h i r, exec boot es = Some (p, h) -> In (OEnd i r) h ->
  exists m peer, nth_error (entered es) i = Some (m, peer) /\ may_end m r /\
    (forall s, wins r s -> s = mk_swarm i peer) /\ (forall s own, r = Already s own -> sw_maker s <> i).
Proof.
  intros es p h i r X I. apply reach_inv in X as V. apply (i_over _ _ _ V) in I as (c & E & A).
  exists (c_method c), (c_peer c). rewrite <- (i_calls _ _ _ V).
  split; [rewrite (map_nth_error kind_of _ _ E); reflexivity|].
  pose proof (i_place _ _ _ V _ _ E) as Pl. rewrite A in Pl. destruct Pl as [M Pl]. split; [exact M|]. split.
  - intros s [->| ->]; apply Pl.
  - intros s own ->. apply Pl.
Qed.

Theorem ends_once : forall es p h i, exec boot es = Some (p, h) -> ends h i <= 1.
Proof.
  intros es p h i X. apply reach_inv in X as V. rewrite (i_ends _ _ _ V).
  destruct (nth_error (p_calls p) i) as [c|]; [|lia]. destruct (c_at c); lia.
Qed.

Theorem one_wins : forall es p h i r s i' r' s', exec boot es = Some (p, h) ->
  In (OEnd i r) h -> wins r s -> In (OEnd i' r') h -> wins r' s' -> i = i' /\ r = r' /\ s = s'.
Proof.
  intros es p h i r s i' r' s' X I W I' W'. apply reach_inv in X as V.
  assert (Es : s = s').
  { eapply one_swarm; [exact X|exact I| |exact I'|]; [destruct W as [->| ->]|destruct W' as [->| ->]]; constructor. }
  destruct (ended _ _ _ _ _ X I) as (m & pe & _ & _ & S1 & _). destruct (ended _ _ _ _ _ X I') as (m' & pe' & _ & _ & S2 & _).
  apply S1 in W as Es1. apply S2 in W' as Es2. subst s'. rewrite Es1 in Es2. injection Es2 as <- _.
  split; [reflexivity|]. split; [|reflexivity].
  apply (i_over _ _ _ V) in I as (c & E & A). apply (i_over _ _ _ V) in I' as (c' & E' & A'). congruence.
Qed.

Theorem commands : forall es p h, exec boot es = Some (p, h) ->
  exists waiting, accepted h = taken h ++ lost h ++ waiting /\
    ((exists o, In o h /\ shows_gone o) -> waiting = []).
Proof.
  intros es p h X. apply reach_inv in X as V. exists (p_queue p). split; [apply V|].
  intros (o & I & G). apply (i_closed _ _ _ V). apply (i_gone _ _ _ V _ I G).
Qed.

Theorem gone_stays : forall es p h1 o h2 o', exec boot es = Some (p, h1 ++ o :: h2) ->
  shows_gone o -> In o' h2 -> ~ shows_alive o' /\ ~ shows_none o'.
Proof.
  intros es p h1 o h2 o' X G I. apply reach_inv in X as V.
  destruct (pairs_split _ _ _ _ _ _ (i_order _ _ _ V) I) as [_ A]. auto.
Qed.

(** A call that goes on alone and well ends; if there was no swarm it wins. *)
Definition not_over (c : call) : Prop := forall r, c_at c <> Over r.

Lemma over_found : forall es p h i c, exec boot es = Some (p, h) -> nth_error (p_calls p) i = Some c ->
  (not_over c <-> ends h i = 0).
Proof.
  intros es p h i c X E. apply reach_inv in X as V. rewrite (i_ends _ _ _ V), E. unfold not_over.
  destruct (c_at c) eqn:A; split; intros H; try reflexivity; try discriminate; try (intros r'; discriminate).
  exfalso; eapply H; reflexivity.
Qed.

Lemma goes_on : forall p i c, nth_error (p_calls p) i = Some c -> not_over c ->
  exists n p' h' r, exec p (repeat (Go i true) n) = Some (p', h') /\ In (OEnd i r) h' /\
    (p_swarm p = None -> c_at c <> AtSpawn -> wins r (mk_swarm i (c_peer c))).
Proof.
  assert (At_spawn : forall p i c, nth_error (p_calls p) i = Some c -> c_at c = AtSpawn ->
    exists n p' h', exec p (repeat (Go i true) n) = Some (p', h') /\ In (OEnd i (Started (mk_swarm i (c_peer c)))) h').
  { intros p i c E A. exists 1. cbn. rewrite E. unfold go. rewrite A. cbn. do 2 eexists. split; [reflexivity|now left]. }
  assert (At_insert : forall p i c, nth_error (p_calls p) i = Some c -> c_at c = AtInsert ->
    exists n p' h' r, exec p (repeat (Go i true) n) = Some (p', h') /\ In (OEnd i r) h' /\
      (p_swarm p = None -> wins r (mk_swarm i (c_peer c)))).
  { intros p i c E A. destruct (p_swarm p) as [s|] eqn:Es.
    - exists 1. cbn. rewrite E. unfold go. rewrite A, Es. cbn. do 3 eexists.
      split; [reflexivity|split; [now left|discriminate]].
    - set (s := mk_swarm i (c_peer c)). set (p0 := mk_process (Some s) (p_calls p) true []).
      destruct (At_spawn (move p0 i c AtSpawn) i (mk_call (c_method c) (c_peer c) AtSpawn)) as (n & p' & h' & X & I);
        [cbn; eapply nth_update_same; exact E|reflexivity|].
      assert (D : step p (Go i true) = Some (match c_method c with Manual => finish p0 i c (Handed s)
                                                              | _ => (move p0 i c AtSpawn, []) end)).
      { cbn [step]. rewrite E. unfold go. rewrite A, Es. now destruct (c_method c). }
      destruct (c_method c).
      4:{ exists 1. cbn [repeat exec]. rewrite D. cbn [finish]. do 3 eexists. split; [reflexivity|]. split; [now left|right; reflexivity]. }
      all: exists (S n), p', h', (Started s); cbn [repeat exec]; rewrite D, X;
        split; [reflexivity|split; [exact I|left; reflexivity]]. }
  assert (At_build : forall p i c, nth_error (p_calls p) i = Some c -> c_at c = AtBuild ->
    exists n p' h' r, exec p (repeat (Go i true) n) = Some (p', h') /\ In (OEnd i r) h' /\
      (p_swarm p = None -> wins r (mk_swarm i (c_peer c)))).
  { intros p i c E A. destruct (At_insert (move p i c AtInsert) i (mk_call (c_method c) (c_peer c) AtInsert))
      as (n & p' & h' & r & X & I & W); [cbn; eapply nth_update_same; exact E|reflexivity|].
    exists (S n), p', h', r. cbn [repeat exec step]. rewrite E. unfold go. rewrite A, X. auto. }
  assert (At_check : forall p i c, nth_error (p_calls p) i = Some c -> c_at c = AtCheck ->
    exists n p' h' r, exec p (repeat (Go i true) n) = Some (p', h') /\ In (OEnd i r) h' /\
      (p_swarm p = None -> wins r (mk_swarm i (c_peer c)))).
  { intros p i c E A. destruct (p_swarm p) as [s|] eqn:Es.
    - exists 1. cbn. rewrite E. unfold go. rewrite A, Es. cbn. do 3 eexists.
      split; [reflexivity|split; [now left|discriminate]].
    - destruct (At_build (move p i c AtBuild) i (mk_call (c_method c) (c_peer c) AtBuild))
        as (n & p' & h' & r & X & I & W); [cbn; eapply nth_update_same; exact E|reflexivity|].
      exists (S n), p', h', r. cbn [repeat exec step]. rewrite E. unfold go. rewrite A, Es, X. auto. }
  intros p i c E No. destruct (c_at c) as [| | | | |r] eqn:A.
  - destruct (At_check (move p i c AtCheck) i (mk_call (c_method c) (c_peer c) AtCheck))
      as (n & p' & h' & r & X & I & W); [cbn; eapply nth_update_same; exact E|reflexivity|].
    exists (S n), p', h', r. cbn [repeat exec step]. rewrite E. unfold go. rewrite A, X. auto.
  - destruct (At_check p i c E A) as (n & p' & h' & r & X & I & W). exists n, p', h', r. auto.
  - destruct (At_build p i c E A) as (n & p' & h' & r & X & I & W). exists n, p', h', r. auto.
  - destruct (At_insert p i c E A) as (n & p' & h' & r & X & I & W). exists n, p', h', r. auto.
  - destruct (At_spawn p i c E A) as (n & p' & h' & X & I). exists n, p', h'. eexists. split; [exact X|]. split; [exact I|].
    intros _ Z. congruence.
  - destruct (No _ A).
Qed.

Theorem first_wins : forall es p h i m peer, exec boot es = Some (p, h) -> nth_error (entered es) i = Some (m, peer) ->
  ends h i = 0 ->
  exists n p' h' r, exec p (repeat (Go i true) n) = Some (p', h') /\ In (OEnd i r) h' /\
    (step p Get = Some (p, [OGet None]) -> wins r (mk_swarm i peer)).
Proof.
  intros es p h i m peer X E Z. apply reach_inv in X as V. rewrite <- (i_calls _ _ _ V), nth_error_map in E.
  destruct (nth_error (p_calls p) i) as [c|] eqn:Ec; [|discriminate]. injection E as <- <-.
  apply (over_found _ _ _ _ _ X Ec) in Z. destruct (goes_on p i c Ec Z) as (n & p' & h' & r & G & I & W).
  exists n, p', h', r. split; [exact G|]. split; [exact I|]. cbn. intros [= N]. apply W; [exact N|].
  intros A. pose proof (i_place _ _ _ V _ _ Ec) as Pl. rewrite A in Pl. destruct Pl as [_ Pl]. congruence.
Qed.

(** ** What does not hold *)

(** A bootstrap outside a runtime, and one whose runtime has ended. *)
Lemma panicked_run : exists p, exec boot [Enter Given 5; Go 0 true; Go 0 false] = Some (p, [OEnd 0 Panicked]) /\
  step p Get = Some (p, [OGet (Some (mk_swarm 0 5))]) /\ forall c, step p (Send c) = Some (p, [OSendPanic c]).
Proof. eexists. split; [reflexivity|]. split; reflexivity. Qed.

Lemma ended_run : exists p, exec boot [Enter Given 5; Go 0 true; Go 0 true; Lose] = Some (p, [OEnd 0 (Started (mk_swarm 0 5))]) /\
  step p Get = Some (p, [OGet (Some (mk_swarm 0 5))]) /\ forall c, step p (Send c) = Some (p, [OSendPanic c]).
Proof. eexists. split; [reflexivity|]. split; reflexivity. Qed.

Theorem usable_refuted : ~ (forall es p h s c, exec boot es = Some (p, h) -> step p Get = Some (p, [OGet (Some s)]) ->
  exists p', step p (Send c) = Some (p', [OAccepted c])).
Proof.
  intros A. destruct panicked_run as (p & X & G & S). destruct (A _ _ _ _ 1 X G) as (p' & Y). rewrite S in Y. discriminate.
Qed.

Theorem started_usable_refuted : ~ (forall es p h i s c, exec boot es = Some (p, h) -> In (OEnd i (Started s)) h ->
  exists p', step p (Send c) = Some (p', [OAccepted c])).
Proof.
  intros A. destruct ended_run as (p & X & G & S). destruct (A _ _ _ 0 _ 1 X (or_introl eq_refl)) as (p' & Y).
  rewrite S in Y. discriminate.
Qed.

(** A call made when there is a swarm need not say so. *)
Theorem already_refuted : ~ (forall es p h s m peer es' p' h' r, exec boot es = Some (p, h) ->
  step p Get = Some (p, [OGet (Some s)]) -> m <> Manual ->
  exec p (Enter m peer :: es') = Some (p', h') -> In (OEnd (length (entered es)) r) h' ->
  exists own, r = Already s own).
Proof.
  intros A.
  destruct (A [Enter Given 5; Go 0 true; Go 0 true] (mk_process (Some (mk_swarm 0 5)) [mk_call Given 5 (Over (Started (mk_swarm 0 5)))] true [])
    _ (mk_swarm 0 5) Identity 6 [Go 1 false] _ _ NoBehaviour eq_refl eq_refl ltac:(discriminate) eq_refl (or_introl eq_refl)) as [own Y].
  discriminate.
Qed.

(** Without a failure in libp2p it does: it ends with the swarm that is there. *)
Theorem already_there : forall es p h s m peer, exec boot es = Some (p, h) -> step p Get = Some (p, [OGet (Some s)]) ->
  exists n p' h' r, exec p (Enter m peer :: repeat (Go (length (entered es)) true) n) = Some (p', h') /\
    h' = [OEnd (length (entered es)) r] /\
    match m with Manual => r = Refused | Given => r = Already s true | _ => r = Already s false end.
Proof.
  intros es p h s m peer X G. cbn in G. injection G as G. apply reach_inv in X as V.
  assert (L : length (p_calls p) = length (entered es)) by (rewrite <- (i_calls _ _ _ V); now rewrite map_length).
  set (i := length (entered es)).
  assert (Nth : forall c, nth_error (p_calls p ++ [c]) i = Some c).
  { intros c. rewrite nth_error_app2 by lia. unfold i. now rewrite L, Nat.sub_diag. }
  set (p1 := mk_process (p_swarm p) (p_calls p ++ [mk_call m peer (entry m)]) (p_open p) (p_queue p)).
  assert (S1 : step p (Enter m peer) = Some (p1, [])) by reflexivity.
  assert (E1 : nth_error (p_calls p1) i = Some (mk_call m peer (entry m))) by apply Nth.
  assert (W1 : p_swarm p1 = Some s) by exact G.
  destruct m.
  - assert (S2 : step p1 (Go i true) = Some (move p1 i (mk_call Identity peer AtNew) AtCheck, [])).
    { cbn [step]. rewrite E1. reflexivity. }
    exists 2. do 3 eexists. cbn [repeat exec]. rewrite S1. cbn [repeat exec]. rewrite S2. cbn [step move p_calls p_swarm].
    rewrite (nth_update_same _ _ _ _ E1). unfold go. cbn [c_at c_method c_peer move p_swarm]. rewrite W1. cbn. split; [reflexivity|]. split; reflexivity.
  - exists 1. do 3 eexists. cbn [repeat exec]. rewrite S1. cbn [step]. rewrite E1. cbn [go c_at entry]. rewrite W1.
    cbn. split; [reflexivity|]. split; reflexivity.
  - exists 1. do 3 eexists. cbn [repeat exec]. rewrite S1. cbn [step]. rewrite E1. cbn [go c_at entry]. rewrite W1.
    cbn. split; [reflexivity|]. split; reflexivity.
  - exists 1. do 3 eexists. cbn [repeat exec]. rewrite S1. cbn [step]. rewrite E1. cbn [go c_at entry]. rewrite W1.
    cbn. split; [reflexivity|]. split; reflexivity.
Qed.
