(** Proofs about an actor's task with any [next]. *)
From Coq Require Import List Bool PeanoNat Lia Sorting.Sorted.
From Verif Require Import Lifecycle Loop Loop_spec.
Import ListNotations.

(** ** What one more sight changes *)

Lemma gaves_app : forall a b, gaves (a ++ b) = gaves a ++ gaves b.
Proof. intros. apply flat_map_app. Qed.
Lemma begun_app : forall a b, begun (a ++ b) = begun a ++ begun b.
Proof. intros. apply flat_map_app. Qed.
Lemma dropped_app : forall a b, dropped (a ++ b) = dropped a ++ dropped b.
Proof. intros. apply flat_map_app. Qed.
Lemma opened_app : forall a b, opened (a ++ b) = opened a || opened b.
Proof. intros. apply existsb_app. Qed.

Lemma running_snoc : forall h o, running (h ++ [o]) = track (running h) o.
Proof. intros. unfold running. now rewrite fold_left_app. Qed.

Lemma last_end_snoc : forall h o, last_end (h ++ [o]) = if is_end o then Some o else last_end h.
Proof.
  intros. unfold last_end, ends. rewrite filter_app. cbn. destruct (is_end o); cbn.
  - now rewrite rev_app_distr.
  - now rewrite app_nil_r.
Qed.

Lemma stop_given_snoc : forall h o, stop_given (h ++ [o]) =
  match o with Gave g => match g with GStop | GNone => true | _ => false end | _ => stop_given h end.
Proof.
  intros. unfold stop_given. rewrite gaves_app. destruct o; cbn; rewrite ?app_nil_r; auto.
  rewrite rev_app_distr. cbn. now destruct g.
Qed.

Lemma start_failed_snoc : forall h o, 2 <= length h -> start_failed (h ++ [o]) = start_failed h.
Proof. intros [|a [|b h]] o L; cbn in L; try lia. reflexivity. Qed.

(** A sight that does not concern messages. *)
Definition plain (o : sight) : bool :=
  match o with Gave _ | Began (HMessage _) | Dropped _ => false | _ => true end.

Lemma is_message_app : forall h o k, k < length (gaves h) -> is_message (h ++ [o]) k = is_message h k.
Proof. intros. unfold is_message. rewrite gaves_app, nth_error_app1 by assumption. reflexivity. Qed.

Lemma waiting_plain : forall h o, plain o = true -> waiting (h ++ [o]) = waiting h.
Proof.
  intros h o P. unfold waiting, is_message. rewrite gaves_app, begun_app, dropped_app.
  assert (E : gaves [o] = [] /\ begun [o] = [] /\ dropped [o] = []).
  { destruct o as [x| | | | | | | | | | | | | | | |]; try (cbn in *; auto; discriminate). destruct x; cbn in *; auto; discriminate. }
  destruct E as (-> & -> & ->). now rewrite !app_nil_r.
Qed.

Lemma waiting_gave : forall h g, (forall k, In k (begun h ++ dropped h) -> k < length (gaves h)) ->
  waiting (h ++ [Gave g]) = waiting h ++ match g with GMessage _ => [length (gaves h)] | _ => [] end.
Proof.
  intros h g L. unfold waiting. rewrite begun_app, dropped_app, gaves_app. cbn [begun dropped gaves flat_map app].
  rewrite !app_nil_r, app_length. cbn [length]. rewrite Nat.add_1_r, seq_S, filter_app. cbn [plus].
  f_equal.
  - apply filter_ext_in. intros k I. apply in_seq in I. rewrite is_message_app by lia. reflexivity.
  - cbn [filter]. unfold is_message. rewrite gaves_app, nth_error_app2, Nat.sub_diag by lia. cbn.
    destruct g; cbn; auto.
    destruct (existsb (Nat.eqb (length (gaves h))) (begun h ++ dropped h)) eqn:E; [|reflexivity].
    apply existsb_exists in E as (x & I & E). apply Nat.eqb_eq in E. apply L in I. lia.
Qed.

Lemma waiting_begun : forall h k, waiting (h ++ [Began (HMessage k)]) = filter (fun j => negb (Nat.eqb j k)) (waiting h).
Proof.
  intros h k. unfold waiting, is_message. rewrite begun_app, dropped_app, gaves_app. cbn [begun dropped gaves flat_map app].
  rewrite !app_nil_r. induction (seq 0 (length (gaves h))) as [|j l IH]; [reflexivity|]. cbn [filter].
  rewrite !existsb_app in *. cbn [existsb]. rewrite orb_false_r.
  destruct (match nth_error (gaves h) j with Some (GMessage _) => true | _ => false end); cbn [andb]; [|exact IH].
  destruct (existsb (Nat.eqb j) (begun h)), (existsb (Nat.eqb j) (dropped h)); cbn; rewrite ?orb_true_r; cbn; try exact IH.
  destruct (Nat.eqb j k); cbn; rewrite IH; reflexivity.
Qed.

Lemma waiting_dropped : forall h k, waiting (h ++ [Dropped k]) = filter (fun j => negb (Nat.eqb j k)) (waiting h).
Proof.
  intros h k. unfold waiting, is_message. rewrite begun_app, dropped_app, gaves_app. cbn [begun dropped gaves flat_map app].
  rewrite !app_nil_r. induction (seq 0 (length (gaves h))) as [|j l IH]; [reflexivity|]. cbn [filter].
  rewrite !existsb_app in *. cbn [existsb]. rewrite orb_false_r.
  destruct (match nth_error (gaves h) j with Some (GMessage _) => true | _ => false end); cbn [andb]; [|exact IH].
  destruct (existsb (Nat.eqb j) (begun h)), (existsb (Nat.eqb j) (dropped h)); cbn; rewrite ?orb_true_r; cbn; try exact IH.
  destruct (Nat.eqb j k); cbn; rewrite IH; reflexivity.
Qed.

Lemma seq_sorted : forall n a, StronglySorted lt (seq a n).
Proof.
  induction n as [|n IH]; intros a; cbn; constructor; auto. apply Forall_forall. intros x I. apply in_seq in I. lia.
Qed.

Lemma filter_sorted : forall (f : nat -> bool) l, StronglySorted lt l -> StronglySorted lt (filter f l).
Proof.
  induction l as [|x l IH]; intros S; cbn; [constructor|]. inversion S; subst. destruct (f x); [|auto].
  constructor; [auto|]. apply Forall_forall. intros y I. apply filter_In in I as [I _]. now apply (proj1 (Forall_forall _ _) H2).
Qed.

Lemma waiting_sorted : forall h, StronglySorted lt (waiting h).
Proof. intros. apply filter_sorted, seq_sorted. Qed.

Lemma filter_head : forall k l, StronglySorted lt (k :: l) -> filter (fun j => negb (Nat.eqb j k)) (k :: l) = l.
Proof.
  intros k l S. cbn. rewrite Nat.eqb_refl. cbn. inversion S; subst.
  assert (F : forall x, In x l -> Nat.eqb x k = false).
  { intros x I. apply Nat.eqb_neq. pose proof (proj1 (Forall_forall _ _) H2 _ I). cbn in *. lia. }
  clear - F. induction l as [|y l IH]; cbn; [reflexivity|]. rewrite F by (now left). cbn. f_equal. apply IH. intros. apply F. now right.
Qed.

Lemma filter_last : forall k l, StronglySorted lt (l ++ [k]) -> filter (fun j => negb (Nat.eqb j k)) (l ++ [k]) = l.
Proof.
  intros k l. induction l as [|y l IH]; intros S; cbn; [now rewrite Nat.eqb_refl|].
  inversion S; subst. assert (L : y < k) by (apply (proj1 (Forall_forall _ _) H2); apply in_or_app; right; now left).
  replace (Nat.eqb y k) with false by (symmetry; apply Nat.eqb_neq; lia). cbn. f_equal. now apply IH.
Qed.

Lemma waiting_in : forall h k, In k (waiting h) <->
  (exists w, given h k w) /\ ~ In k (begun h) /\ ~ In k (dropped h).
Proof.
  intros h k. unfold waiting. rewrite filter_In, in_seq, andb_true_iff, negb_true_iff. unfold is_message, given. split.
  - intros (_ & M & E). split.
    + destruct (nth_error (gaves h) k) as [[]|]; try discriminate. eauto.
    + assert (N : ~ In k (begun h ++ dropped h)).
      { intros I. enough (existsb (Nat.eqb k) (begun h ++ dropped h) = true) by congruence.
        apply existsb_exists. exists k. split; [exact I|apply Nat.eqb_refl]. }
      rewrite in_app_iff in N. tauto.
  - intros ((w & G) & N1 & N2). split; [|split].
    + assert (nth_error (gaves h) k <> None) by congruence. apply nth_error_Some in H. lia.
    + now rewrite G.
    + destruct (existsb (Nat.eqb k) (begun h ++ dropped h)) eqn:E; [|reflexivity].
      apply existsb_exists in E as (x & I & E). apply Nat.eqb_eq in E as <-. apply in_app_iff in I. tauto.
Qed.

Lemma given_app : forall h h' k w, given h k w -> given (h ++ h') k w.
Proof. intros h h' k w G. unfold given in *. rewrite gaves_app, nth_error_app1; [exact G|]. apply nth_error_Some. congruence. Qed.

Lemma given_lt : forall h k w, given h k w -> k < length (gaves h).
Proof. intros h k w G. apply nth_error_Some. unfold given in G. congruence. Qed.

Lemma given_fun : forall h k w w', given h k w -> given h k w' -> w = w'.
Proof. unfold given. intros. congruence. Qed.

(** [expected] does not change with sights of no consequence. *)
Definition idle_sight (o : sight) : bool :=
  match o with Ready | Took _ | Told _ | Returned _ | Crashed => true | _ => false end.

Lemma expected_idle : forall h o, 2 <= length h -> idle_sight o = true -> expected (h ++ [o]) = expected h.
Proof.
  intros h o L I. unfold expected, waiting_first. rewrite last_end_snoc, opened_app, stop_given_snoc, gaves_app, start_failed_snoc by exact L.
  rewrite waiting_plain by (now destruct o). destruct o; try discriminate; cbn; rewrite ?app_nil_r, ?orb_false_r; reflexivity.
Qed.

(** Nor with dropped messages, unless it depends on those that wait. *)
Definition fixed_end (o : sight) : bool :=
  match o with
  | Gave GStartup | Gave GStop | Gave GNone | Handled _ HookOk => false
  | _ => true
  end.

Lemma expected_dropped : forall h l o, 2 <= length h -> last_end h = Some o -> fixed_end o = true ->
  expected (h ++ map Dropped l) = expected h /\ last_end (h ++ map Dropped l) = Some o.
Proof.
  intros h l. revert h. induction l as [|k l IH]; intros h o L E F; cbn; [rewrite app_nil_r; auto|].
  replace (h ++ Dropped k :: map Dropped l) with ((h ++ [Dropped k]) ++ map Dropped l) by now rewrite <- app_assoc.
  assert (E' : last_end (h ++ [Dropped k]) = Some o) by now rewrite last_end_snoc.
  destruct (IH (h ++ [Dropped k]) o) as [-> ->]; [rewrite app_length; cbn; lia|exact E'|exact F|]. split; [|reflexivity].
  unfold expected. rewrite E, E'. rewrite opened_app, stop_given_snoc, gaves_app, start_failed_snoc by exact L. cbn.
  rewrite app_nil_r, orb_false_r. destruct o as [| |[]|[]| |? []| | | | | | | | | | |]; try discriminate; reflexivity.
Qed.

(** ** Histories *)

Lemma always_snoc : forall P h o, always P h -> P h o -> always P (h ++ [o]).
Proof.
  intros P h o A H h1 o1 h2. destruct h2 as [|z h3 _] using rev_ind; intros E.
  - apply app_inj_tail in E as [-> ->]. exact H.
  - change (h1 ++ o1 :: h3 ++ [z]) with (h1 ++ (o1 :: h3) ++ [z]) in E. rewrite app_assoc in E.
    apply app_inj_tail in E as [-> ->]. eapply A. reflexivity.
Qed.

Lemma touched_given : forall h, always legal h -> forall k, In k (begun h ++ dropped h) -> exists w, given h k w.
Proof.
  intros h A k I. apply in_app_iff in I as [I|I]; apply in_flat_map in I as (o & I & J);
    apply in_split in I as (h1 & h2 & ->); specialize (A h1 o h2 eq_refl); destruct A as [A _].
  - destruct o as [[]| | | | | | | | | | | | | | | |]; cbn in J; try contradiction. destruct J as [->|[]].
    destruct A as (_ & _ & W & _). apply waiting_in in W as ((w & G) & _). exists w. now apply given_app.
  - destruct o; cbn in J; try contradiction. destruct J as [->|[]]. destruct A as (W & _).
    apply waiting_in in W as ((w & G) & _). exists w. now apply given_app.
Qed.

Lemma touched_lt : forall h, always legal h -> forall k, In k (begun h ++ dropped h) -> k < length (gaves h).
Proof. intros h A k I. destruct (touched_given h A k I) as [w G]. eapply given_lt, G. Qed.

(** ** The invariant *)

(** What holds in the loop; [pend]: messages of the buffer being handled. *)
Record base (pend : list nat) (s : task) (h : list sight) : Prop := mk_base {
  b_legal : always legal h;
  b_count : t_count s = length (gaves h);
  b_fin : t_finished s = opened h;
  b_wait : waiting h = pend ++ t_buffer s;
  b_buf : t_finished s = true -> t_buffer s = [];
  b_pend : pend <> [] -> t_finished s = true;
  b_ext : forall k, In k (waiting h) -> given h k false;
  b_order : forall k k', In k' (begun h) -> given h k' false -> In k (waiting h) -> k' < k;
  b_len : 2 <= length h;
  b_nostop : ~ stopping h;
  b_ok : start_failed h = None
}.

(** Between two hooks. *)
Definition idle (pend : list nat) (s : task) (h : list sight) : Prop := base pend s h /\ running h = Some None.

Definition pend (p : place) : list nat := match p with QHandle _ rest _ => rest | _ => [] end.

Definition inv (s : task) (h : list sight) : Prop :=
  match t_place s with
  | QStart => s = task_new /\ h = first_sights
  | QPanic f true => s = at_place (QPanic f true) task_new /\
      h = [Began HStart; Started (HookFail f); Ready; Began (HPanic f)]
  | QStop r lk => always legal h /\ running h = Some (Some (HStop r)) /\ In (Began (HStop r)) h /\ waiting h = [] /\ t_buffer s = [] /\
      (lk = true -> In (Took r) h /\ start_failed h = None) /\ (lk = false -> start_failed h <> None) /\ 2 <= length h
  | QOver => always legal h /\ running h = Some None /\ waiting h = [] /\ t_buffer s = [] /\
      exists h0 o, h = h0 ++ [o] /\ (o = Crashed \/ exists r, o = Returned r)
  | p => base (pend p) s h /\ running h = Some (runs p) /\
      match p with
      | QHandle _ _ st => st = stop_given h
      | QLink _ _ => stop_given h = false
      | QEntry => last_end h = Some (Started HookOk) /\ stop_given h = false
      | QForget res => last_end h = Some (LinkDone res) /\ stop_given h = false
      | QPanic f _ => stop_given h = true -> exists a k, ends h = a ++ [Handled k (HookFail f)]
      | _ => True
      end
  end.

Lemma not_stopping_snoc : forall h o, ~ stopping h -> (forall r, o <> Began (HStop r)) -> ~ stopping (h ++ [o]).
Proof. intros h o N D (r & I). apply in_app_iff in I as [I|[I|[]]]; [apply N; now exists r|now apply (D r)]. Qed.

(** An end of a hook other than an answer of [next]. *)
Lemma base_end : forall p s h o, base p s h -> plain o = true -> opens o = false -> is_end o = true ->
  (forall x, running h = Some (Some x) -> same_hook o x = true \/ o = Cut x) ->
  (exists x, running h = Some (Some x)) -> idle p s (h ++ [o]).
Proof.
  intros p s h o B P Op E R (x & Rx). specialize (R x Rx).
  assert (G : gaves [o] = [] /\ begun [o] = []) by (destruct o as [[]| | | | | | | | | | | | | | | |]; cbn in *; auto; discriminate).
  destruct G as [G1 G2].
  assert (Rs : running (h ++ [o]) = Some None).
  { rewrite running_snoc, Rx. destruct R as [R| ->]; [|reflexivity].
    destruct o; cbn in *; try discriminate; try (now rewrite R); destruct x; try discriminate; now rewrite ?R. }
  split; [|exact Rs]. constructor.
  - apply always_snoc; [apply (b_legal _ _ _ B)|]. split; [|split].
    + destruct o; try discriminate; try exact I.
      * destruct R as [R|[= <-]]; [destruct x; discriminate|exact Rx].
      * destruct R as [R|R]; [destruct x; discriminate|discriminate].
    + rewrite Rs. discriminate.
    + intros S. now destruct (b_nostop _ _ _ B).
  - rewrite gaves_app, G1, app_nil_r. apply (b_count _ _ _ B).
  - rewrite opened_app. cbn. rewrite Op, !orb_false_r. apply (b_fin _ _ _ B).
  - rewrite waiting_plain by exact P. apply (b_wait _ _ _ B).
  - apply (b_buf _ _ _ B).
  - apply (b_pend _ _ _ B).
  - rewrite waiting_plain by exact P. intros k I. apply given_app. now apply (b_ext _ _ _ B).
  - rewrite waiting_plain by exact P. rewrite begun_app, G2, app_nil_r. intros k k' I J. apply (b_order _ _ _ B); auto.
    unfold given in *. now rewrite gaves_app, G1, app_nil_r in J.
  - rewrite app_length. pose proof (b_len _ _ _ B). lia.
  - apply not_stopping_snoc; [apply (b_nostop _ _ _ B)|]. intros r ->. discriminate.
  - rewrite start_failed_snoc by apply (b_len _ _ _ B). apply (b_ok _ _ _ B).
Qed.

(** Sights that only tell. *)
Lemma base_idle : forall p s h o, idle p s h -> idle_sight o = true \/ o = Aborted -> legal h o -> idle p s (h ++ [o]).
Proof.
  intros p s h o [B R] Io L.
  assert (P : plain o = true) by (destruct Io as [Io| ->]; [destruct o; try discriminate|]; reflexivity).
  assert (G : gaves [o] = [] /\ begun [o] = [] /\ opens o = false) by (destruct Io as [Io| ->]; [destruct o; try discriminate|]; auto).
  destruct G as (G1 & G2 & G3).
  assert (Rs : running (h ++ [o]) = Some None) by (rewrite running_snoc, R; destruct Io as [Io| ->]; [destruct o; try discriminate|]; reflexivity).
  split; [|exact Rs]. constructor.
  - apply always_snoc; [apply (b_legal _ _ _ B)|exact L].
  - rewrite gaves_app, G1, app_nil_r. apply (b_count _ _ _ B).
  - rewrite opened_app. cbn. rewrite G3, !orb_false_r. apply (b_fin _ _ _ B).
  - rewrite waiting_plain by exact P. apply (b_wait _ _ _ B).
  - apply (b_buf _ _ _ B).
  - apply (b_pend _ _ _ B).
  - rewrite waiting_plain by exact P. intros k I. apply given_app. now apply (b_ext _ _ _ B).
  - rewrite waiting_plain by exact P. rewrite begun_app, G2, app_nil_r. intros k k' I J. apply (b_order _ _ _ B); auto.
    unfold given in *. now rewrite gaves_app, G1, app_nil_r in J.
  - rewrite app_length. pose proof (b_len _ _ _ B). lia.
  - apply not_stopping_snoc; [apply (b_nostop _ _ _ B)|]. intros r ->. destruct Io; discriminate.
  - rewrite start_failed_snoc by apply (b_len _ _ _ B). apply (b_ok _ _ _ B).
Qed.

(** A hook other than a handler and [on_stop] is called. *)
Lemma base_began : forall s h x, idle [] s h -> expected h = Some x ->
  (forall k, x <> HMessage k) -> (forall r, x <> HStop r) -> (x = HNext -> stop_given h = true -> resumed h) ->
  base [] s (h ++ [Began x]) /\ running (h ++ [Began x]) = Some (Some x).
Proof.
  intros s h x [B R] E N1 N2 Rs0.
  assert (P : plain (Began x) = true) by (destruct x; try reflexivity; now destruct (N1 k)).
  assert (G2 : begun [Began x] = []) by (destruct x; try reflexivity; now destruct (N1 k)).
  assert (Rs : running (h ++ [Began x]) = Some (Some x)) by (rewrite running_snoc, R; reflexivity).
  split; [|exact Rs]. constructor.
  - apply always_snoc; [apply (b_legal _ _ _ B)|]. split; [|split].
    + split; [exact R|]. split; [exact E|]. destruct x; try exact I; [|now destruct (N1 k)|now destruct (N2 r)].
      split; [|now apply Rs0]. intros k J. split; [now apply (b_ext _ _ _ B)|]. rewrite <- (b_fin _ _ _ B). rewrite (b_wait _ _ _ B) in J. cbn in J.
      destruct (t_finished s) eqn:F; [|reflexivity]. rewrite (b_buf _ _ _ B F) in J. destruct J.
    + rewrite Rs. discriminate.
    + intros S. now destruct (b_nostop _ _ _ B).
  - rewrite gaves_app, app_nil_r. apply (b_count _ _ _ B).
  - rewrite opened_app. cbn. rewrite !orb_false_r. apply (b_fin _ _ _ B).
  - rewrite waiting_plain by exact P. apply (b_wait _ _ _ B).
  - apply (b_buf _ _ _ B).
  - apply (b_pend _ _ _ B).
  - rewrite waiting_plain by exact P. intros k I. apply given_app. now apply (b_ext _ _ _ B).
  - rewrite waiting_plain by exact P. rewrite begun_app, G2, app_nil_r. intros k k' I J. apply (b_order _ _ _ B); auto.
    unfold given in *. now rewrite gaves_app, app_nil_r in J.
  - rewrite app_length. pose proof (b_len _ _ _ B). lia.
  - apply not_stopping_snoc; [apply (b_nostop _ _ _ B)|]. intros r [= ->]. now destruct (N2 r).
  - rewrite start_failed_snoc by apply (b_len _ _ _ B). apply (b_ok _ _ _ B).
Qed.

(** A waiting message is handled. *)
Lemma base_message : forall k p s h, idle (k :: p) s h -> expected h = Some (HMessage k) ->
  base p s (h ++ [Began (HMessage k)]) /\ running (h ++ [Began (HMessage k)]) = Some (Some (HMessage k)).
Proof.
  intros k p s h [B R] E.
  assert (Rs : running (h ++ [Began (HMessage k)]) = Some (Some (HMessage k))) by (rewrite running_snoc, R; reflexivity).
  assert (F : t_finished s = true) by (apply (b_pend _ _ _ B); discriminate).
  pose proof (b_wait _ _ _ B) as W. rewrite (b_buf _ _ _ B F), app_nil_r in W.
  assert (Ik : In k (waiting h)) by (rewrite W; now left).
  pose proof (waiting_sorted h) as So. rewrite W in So.
  assert (W' : waiting (h ++ [Began (HMessage k)]) = p) by (rewrite waiting_begun, W; now apply filter_head).
  split; [|exact Rs]. constructor.
  - apply always_snoc; [apply (b_legal _ _ _ B)|]. split; [|split].
    + split; [exact R|]. split; [exact E|]. split; [exact Ik|]. exists false. split; [now apply (b_ext _ _ _ B)|].
      split; [right; now rewrite <- (b_fin _ _ _ B)|]. intros k' J G. eapply (b_order _ _ _ B); eauto.
    + rewrite Rs. discriminate.
    + intros S. now destruct (b_nostop _ _ _ B).
  - rewrite gaves_app, app_nil_r. apply (b_count _ _ _ B).
  - rewrite opened_app. cbn. rewrite !orb_false_r. apply (b_fin _ _ _ B).
  - rewrite W', (b_buf _ _ _ B F), app_nil_r. reflexivity.
  - apply (b_buf _ _ _ B).
  - intros _. exact F.
  - rewrite W'. intros j I. apply given_app. apply (b_ext _ _ _ B). rewrite W. now right.
  - rewrite W'. intros j k' I J K. rewrite begun_app in I. apply in_app_iff in I as [I|[<-|[]]].
    + apply (b_order _ _ _ B); auto; [|rewrite W; now right]. unfold given in *. now rewrite gaves_app, app_nil_r in J.
    + inversion So; subst. now apply (proj1 (Forall_forall _ _) H2).
  - rewrite app_length. pose proof (b_len _ _ _ B). lia.
  - apply not_stopping_snoc; [apply (b_nostop _ _ _ B)|]. intros r [=].
  - rewrite start_failed_snoc by apply (b_len _ _ _ B). apply (b_ok _ _ _ B).
Qed.

(** Messages are dropped. *)
Lemma drop_all : forall l h q, always legal h -> ~ stopping h -> running h = Some None ->
  waiting h = l ++ q -> (exists e, last_end h = Some e /\ loses e = true) ->
  (forall k, In k (waiting h) -> given h k false) ->
  (forall k k', In k' (begun h) -> given h k' false -> In k (waiting h) -> k' < k) ->
  let h' := h ++ map Dropped l in
  always legal h' /\ ~ stopping h' /\ running h' = Some None /\ waiting h' = q /\ last_end h' = last_end h /\
  gaves h' = gaves h /\ opened h' = opened h /\ begun h' = begun h /\
  (forall k, In k (waiting h') -> given h' k false) /\
  (forall k k', In k' (begun h') -> given h' k' false -> In k (waiting h') -> k' < k) /\
  (2 <= length h -> start_failed h' = start_failed h) /\ length h <= length h'.
Proof.
  induction l as [|k l IH]; intros h q A N R W E X O; cbn.
  - rewrite app_nil_r. cbn in W. repeat (split; [auto|]). lia.
  - replace (h ++ Dropped k :: map Dropped l) with ((h ++ [Dropped k]) ++ map Dropped l) by now rewrite <- app_assoc.
    assert (W' : waiting (h ++ [Dropped k]) = l ++ q).
    { cbn in W. rewrite waiting_dropped, W. apply filter_head. rewrite <- W. apply waiting_sorted. }
    assert (Ik : In k (waiting h)) by (rewrite W; now left).
    assert (R' : running (h ++ [Dropped k]) = Some None) by (rewrite running_snoc, R; reflexivity).
    assert (G : gaves (h ++ [Dropped k]) = gaves h) by (rewrite gaves_app; apply app_nil_r).
    assert (Bg : begun (h ++ [Dropped k]) = begun h) by (rewrite begun_app; apply app_nil_r).
    assert (Gv : forall j w, given (h ++ [Dropped k]) j w <-> given h j w) by (intros; unfold given; now rewrite G).
    assert (Inc : forall j, In j (waiting (h ++ [Dropped k])) -> In j (waiting h)) by (rewrite W', W; intros; now right).
    destruct (IH (h ++ [Dropped k]) q) as (A1 & N1 & R1 & W1 & L1 & G1 & O1 & B1 & X1 & Or1 & S1 & Le1).
    + apply always_snoc; [exact A|]. split; [|split].
      * split; [exact Ik|]. exact E.
      * rewrite R'. discriminate.
      * intros S. now destruct N.
    + apply not_stopping_snoc; [exact N|]. intros r [=].
    + exact R'.
    + exact W'.
    + rewrite last_end_snoc. exact E.
    + intros j J. apply Gv. auto.
    + rewrite Bg. intros j j' J K L. apply Gv in K. eapply O; eauto.
    + split; [exact A1|]. split; [exact N1|]. split; [exact R1|]. split; [exact W1|].
      split; [rewrite L1; now rewrite last_end_snoc|]. split; [congruence|].
      split; [rewrite O1, opened_app; cbn; now rewrite orb_false_r|]. split; [congruence|].
      split; [exact X1|]. split; [exact Or1|].
      split; [intros L; rewrite S1, start_failed_snoc; auto; rewrite app_length; cbn; lia|].
      rewrite app_length in Le1; cbn in Le1; lia.
Qed.

Lemma base_place : forall p s h q, base p s h -> base p (at_place q s) h.
Proof. intros p s h q B. destruct B. constructor; cbn; auto. Qed.

Lemma idle_drop : forall p s h e, idle p s h -> last_end h = Some e -> loses e = true -> idle [] s (h ++ map Dropped p).
Proof.
  intros p s h e [B R] E L. destruct (drop_all p h (t_buffer s)) as (A1 & N1 & R1 & W1 & L1 & G1 & O1 & B1 & X1 & Or1 & S1 & Le1);
    try apply B; eauto.
  split; [|exact R1]. constructor; auto.
  - rewrite G1. apply (b_count _ _ _ B).
  - rewrite O1. apply (b_fin _ _ _ B).
  - apply (b_buf _ _ _ B).
  - pose proof (b_len _ _ _ B). lia.
  - rewrite S1 by apply (b_len _ _ _ B). apply (b_ok _ _ _ B).
Qed.

Lemma idle_again : forall s h, idle [] s h -> expected h = Some HNext -> (stop_given h = true -> resumed h) ->
  inv (fst (again s)) (h ++ snd (again s)).
Proof.
  intros s h Id E Rs. destruct (base_began _ _ _ Id E) as [B R]; try discriminate; [auto|].
  split; [now apply base_place|]. auto.
Qed.

Lemma loses_fixed : forall e, loses e = true -> fixed_end e = true.
Proof. intros [| |[]|[]| |? []|[[]|]| | | | | | | | | |]; cbn; congruence. Qed.

Lemma idle_leave : forall s h r e, idle [] s h -> last_end h = Some e -> expected h = Some (HStop r) ->
  t_buffer s = [] \/ loses e = true -> inv (fst (leave r s)) (h ++ snd (leave r s)).
Proof.
  intros s h r e Id E X C.
  assert (D : exists s', idle [] s' (h ++ map Dropped (t_buffer s)) /\ t_buffer s' = [] /\
    expected (h ++ map Dropped (t_buffer s)) = Some (HStop r) /\ last_end (h ++ map Dropped (t_buffer s)) = Some e).
  { destruct (t_buffer s) as [|k l] eqn:Eb; [cbn; rewrite app_nil_r; exists s; auto|].
    destruct C as [C|C]; [discriminate|].
    destruct (expected_dropped h (k :: l) e) as [X1 L1]; [apply (b_len _ _ _ (proj1 Id))|exact E|now apply loses_fixed|].
    exists (mk_task (t_place s) (t_finished s) [] (t_count s)). split; [|split; [reflexivity|split; congruence]].
    assert (Id' : idle (k :: l) (mk_task (t_place s) (t_finished s) [] (t_count s)) h \/ t_finished s = false).
    { destruct (t_finished s) eqn:F; [|auto]. exfalso. rewrite (b_buf _ _ _ (proj1 Id) F) in Eb. discriminate. }
    destruct Id as [B R].
    destruct (drop_all (k :: l) h []) as (A1 & N1 & R1 & W1 & L2 & G1 & O1 & B1 & Xe & Or1 & S1 & Le1); try apply B; eauto.
    { rewrite (b_wait _ _ _ B), Eb. cbn. now rewrite app_nil_r. }
    split; [|exact R1]. constructor; cbn [t_finished t_buffer t_count]; auto; try congruence.
    - rewrite G1. apply (b_count _ _ _ B).
    - rewrite O1. apply (b_fin _ _ _ B).
    - pose proof (b_len _ _ _ B). lia.
    - rewrite S1 by apply (b_len _ _ _ B). apply (b_ok _ _ _ B). }
  unfold leave. cbn [fst snd]. rewrite app_assoc. set (h1 := h ++ map Dropped (t_buffer s)) in *. clearbody h1.
  destruct D as (s' & Id1 & Eb & X1 & E1). clear Id E X C.
  assert (Id2 : idle [] s' (h1 ++ [Took r])).
  { apply base_idle; [exact Id1|now left|]. split; [|split].
    - split; [apply (b_ok _ _ _ (proj1 Id1))|exact X1].
    - rewrite running_snoc, (proj2 Id1). discriminate.
    - intros S. now destruct (b_nostop _ _ _ (proj1 Id1)). }
  assert (X2 : expected (h1 ++ [Took r]) = Some (HStop r)).
  { rewrite expected_idle; [exact X1|apply (b_len _ _ _ (proj1 Id1))|reflexivity]. }
  replace (h1 ++ [Took r; Began (HStop r)]) with ((h1 ++ [Took r]) ++ [Began (HStop r)]) by now rewrite <- app_assoc.
  destruct Id2 as [B2 R2]. cbn. unfold inv. cbn [t_place].
  assert (R3 : running ((h1 ++ [Took r]) ++ [Began (HStop r)]) = Some (Some (HStop r))) by (rewrite running_snoc, R2; reflexivity).
  split; [|split; [exact R3|split; [|split; [|split; [reflexivity|split; [intros _; split|split; [discriminate|]]]]]]].
  - apply always_snoc; [apply (b_legal _ _ _ B2)|]. split; [|split].
    + split; [exact R2|]. split; [exact X2|]. split; [rewrite (b_wait _ _ _ B2), Eb; reflexivity|]. intros _. now exists h1.
    + rewrite R3. discriminate.
    + intros S. now destruct (b_nostop _ _ _ B2).
  - apply in_or_app. right. now left.
  - rewrite waiting_plain by reflexivity. rewrite (b_wait _ _ _ B2), Eb. reflexivity.
  - apply in_or_app. left. apply in_or_app. right. now left.
  - rewrite start_failed_snoc by apply (b_len _ _ _ B2). apply (b_ok _ _ _ B2).
  - rewrite app_length. pose proof (b_len _ _ _ B2). lia.
Qed.

Lemma idle_unwind : forall s h e, idle [] s h -> last_end h = Some e -> loses e = true -> uncaught e = true ->
  inv (fst (unwind s)) (h ++ snd (unwind s)).
Proof.
  intros s h e [B R] E L U.
  destruct (drop_all (t_buffer s) h []) as (A1 & N1 & R1 & W1 & L2 & G1 & O1 & B1 & Xe & Or1 & S1 & Le1); try apply B; eauto.
  { rewrite (b_wait _ _ _ B). cbn. now rewrite app_nil_r. }
  unfold unwind. cbn [fst snd]. rewrite app_assoc. unfold inv. cbn [t_place t_buffer].
  set (h1 := h ++ map Dropped (t_buffer s)) in *. clearbody h1.
  assert (R3 : running (h1 ++ [Crashed]) = Some None) by (rewrite running_snoc, R1; reflexivity).
  split; [|split; [exact R3|split; [now rewrite waiting_plain|split; [reflexivity|exists h1, Crashed; auto]]]].
  apply always_snoc; [exact A1|]. split; [|split].
  - split; [exact R1|]. exists e. split; [congruence|exact U].
  - rewrite R3. discriminate.
  - auto.
Qed.

Lemma idle_shut : forall s h r e, idle [] s h -> last_end h = Some e -> expected h = Some (closing r) ->
  t_buffer s = [] \/ loses e = true ->
  (forall f, r = Panicked f -> stop_given h = true -> exists a k, ends h = a ++ [Handled k (HookFail f)]) -> inv (fst (shut r s)) (h ++ snd (shut r s)).
Proof.
  intros s h r e Id E X C St. destruct r; try (apply idle_leave with (e := e); auto; fail).
  cbn in X. destruct (base_began _ _ _ Id X) as [B R]; try discriminate. cbn. unfold inv. cbn.
  split; [now apply base_place|]. split; [exact R|]. rewrite stop_given_snoc. intros Sg.
  destruct (St f eq_refl Sg) as (a & k & Ea). exists a, k. unfold ends in *. rewrite filter_app, Ea. cbn. now rewrite app_nil_r.
Qed.

Lemma idle_deal : forall ms st s h e, idle ms s h -> last_end h = Some e -> st = stop_given h ->
  (ms = [] -> st = true -> t_buffer s = []) ->
  expected h = Some (match ms with k :: _ => HMessage k | [] => if st then HStop Normal else HNext end) ->
  inv (fst (deal ms st s)) (h ++ snd (deal ms st s)).
Proof.
  intros ms st s h e Id E St C X. destruct ms as [|k rest]; cbn [deal].
  - destruct st; [|apply idle_again; auto; congruence]. apply idle_shut with (e := e); auto. discriminate.
  - destruct (base_message _ _ _ _ Id X) as [B R]. cbn. unfold inv. cbn.
    split; [now apply base_place|]. split; [exact R|]. now rewrite stop_given_snoc.
Qed.

(** An answer of [next] that is no message. *)
Lemma base_gave : forall s h g p, base [] s h -> running h = Some (Some HNext) -> (forall w, g <> GMessage w) ->
  let op := opens (Gave g) in
  idle (if op then t_buffer s else [])
    (mk_task p (t_finished s || op) (if op then [] else t_buffer s) (S (t_count s))) (h ++ [Gave g]).
Proof.
  intros s h g p B R N op.
  assert (Rs : running (h ++ [Gave g]) = Some None) by (rewrite running_snoc, R; reflexivity).
  assert (W : waiting (h ++ [Gave g]) = waiting h).
  { rewrite waiting_gave by (apply touched_lt, (b_legal _ _ _ B)). destruct g; try apply app_nil_r. now destruct (N within). }
  split; [|exact Rs]. constructor; cbn [t_finished t_buffer t_count].
  - apply always_snoc; [apply (b_legal _ _ _ B)|]. split; [exact I|split].
    + rewrite Rs. discriminate.
    + intros S. now destruct (b_nostop _ _ _ B).
  - rewrite gaves_app, app_length, (b_count _ _ _ B). cbn. lia.
  - rewrite opened_app, (b_fin _ _ _ B). cbn [opened existsb]. now rewrite orb_false_r.
  - rewrite W, (b_wait _ _ _ B). destruct op; cbn; now rewrite ?app_nil_r.
  - intros F. destruct op; [reflexivity|]. rewrite orb_false_r in F. now apply (b_buf _ _ _ B).
  - destruct op; [intros _; apply orb_true_r|congruence].
  - rewrite W. intros k I. apply given_app. now apply (b_ext _ _ _ B).
  - rewrite W, begun_app, app_nil_r. intros k k' I J L. apply (b_order _ _ _ B); auto.
    destruct (touched_given h (b_legal _ _ _ B) k') as [w G]; [apply in_or_app; now left|].
    now rewrite (given_fun _ _ _ _ J (given_app _ _ _ _ G)).
  - rewrite app_length. pose proof (b_len _ _ _ B). lia.
  - apply not_stopping_snoc; [apply (b_nostop _ _ _ B)|]. intros r [=].
  - rewrite start_failed_snoc by apply (b_len _ _ _ B). apply (b_ok _ _ _ B).
Qed.

(** A message that has to wait. *)
Lemma base_buffered : forall s h p, base [] s h -> running h = Some (Some HNext) -> t_finished s = false ->
  idle [] (mk_task p false (t_buffer s ++ [t_count s]) (S (t_count s))) (h ++ [Gave (GMessage false)]).
Proof.
  intros s h p B R F.
  assert (Rs : running (h ++ [Gave (GMessage false)]) = Some None) by (rewrite running_snoc, R; reflexivity).
  assert (W : waiting (h ++ [Gave (GMessage false)]) = waiting h ++ [length (gaves h)])
    by (apply waiting_gave, touched_lt, (b_legal _ _ _ B)).
  assert (Gn : given (h ++ [Gave (GMessage false)]) (length (gaves h)) false).
  { unfold given. rewrite gaves_app, nth_error_app2, Nat.sub_diag by lia. reflexivity. }
  split; [|exact Rs]. constructor; cbn [t_finished t_buffer t_count]; try congruence.
  - apply always_snoc; [apply (b_legal _ _ _ B)|]. split; [exact I|split].
    + rewrite Rs. discriminate.
    + intros S. now destruct (b_nostop _ _ _ B).
  - rewrite gaves_app, app_length, (b_count _ _ _ B). cbn. lia.
  - rewrite opened_app, <- (b_fin _ _ _ B), F. reflexivity.
  - rewrite W, (b_wait _ _ _ B), (b_count _ _ _ B). reflexivity.
  - rewrite W. intros k I. apply in_app_iff in I as [I|[<-|[]]]; [|exact Gn]. apply given_app. now apply (b_ext _ _ _ B).
  - rewrite W, begun_app, app_nil_r. intros k k' I J L.
    destruct (touched_given h (b_legal _ _ _ B) k') as [w G]; [apply in_or_app; now left|].
    rewrite <- (given_fun _ _ _ _ J (given_app _ _ _ _ G)) in G.
    apply in_app_iff in L as [L|[<-|[]]]; [|eapply given_lt, G]. apply (b_order _ _ _ B); auto.
  - rewrite app_length. pose proof (b_len _ _ _ B). lia.
  - apply not_stopping_snoc; [apply (b_nostop _ _ _ B)|]. intros r [=].
  - rewrite start_failed_snoc by apply (b_len _ _ _ B). apply (b_ok _ _ _ B).
Qed.

(** A message that is handled at once. *)
Lemma base_direct : forall s h p w, base [] s h -> running h = Some (Some HNext) -> w || t_finished s = true ->
  let h' := (h ++ [Gave (GMessage w)]) ++ [Began (HMessage (t_count s))] in
  base [] (mk_task p (t_finished s) (t_buffer s) (S (t_count s))) h' /\
  running h' = Some (Some (HMessage (t_count s))) /\ stop_given h' = false.
Proof.
  intros s h p w B R F h'. set (n := t_count s) in *. set (h1 := h ++ [Gave (GMessage w)]) in *.
  assert (En : n = length (gaves h)) by apply (b_count _ _ _ B).
  assert (R1 : running h1 = Some None) by (unfold h1; rewrite running_snoc, R; reflexivity).
  assert (Rs : running h' = Some (Some (HMessage n))) by (unfold h'; rewrite running_snoc, R1; reflexivity).
  assert (W1 : waiting h1 = waiting h ++ [n]).
  { rewrite En. apply waiting_gave, touched_lt, (b_legal _ _ _ B). }
  assert (W : waiting h' = waiting h).
  { unfold h'. rewrite waiting_begun, W1. apply filter_last. rewrite <- W1. apply waiting_sorted. }
  assert (Gn : given h1 n w).
  { unfold given, h1. rewrite gaves_app, En, nth_error_app2, Nat.sub_diag by lia. reflexivity. }
  assert (L1 : always legal h1).
  { apply always_snoc; [apply (b_legal _ _ _ B)|]. split; [exact I|split].
    + fold h1. rewrite R1. discriminate.
    + intros S. now destruct (b_nostop _ _ _ B). }
  assert (O1 : opened h1 = t_finished s) by (unfold h1; rewrite opened_app, (b_fin _ _ _ B); cbn; apply orb_false_r).
  assert (G1 : gaves h1 = gaves h ++ [GMessage w]) by (unfold h1; apply gaves_app).
  assert (Gh : gaves h' = gaves h1) by (unfold h'; rewrite gaves_app; apply app_nil_r).
  assert (Len : 2 <= length h1) by (unfold h1; rewrite app_length; pose proof (b_len _ _ _ B); lia).
  assert (Bg : begun h1 = begun h) by (unfold h1; rewrite begun_app; apply app_nil_r).
  split; [|split; [exact Rs|unfold h'; rewrite stop_given_snoc; unfold h1; now rewrite stop_given_snoc]].
  constructor; cbn [t_finished t_buffer t_count].
  - apply always_snoc; [exact L1|]. split; [|split].
    + split; [exact R1|]. split.
      * unfold expected. replace (last_end h1) with (Some (Gave (GMessage w))) by (unfold h1; now rewrite last_end_snoc).
        rewrite O1, F, G1, app_length, Nat.add_1_r. cbn. now rewrite <- En.
      * split; [rewrite W1; apply in_or_app; right; now left|]. exists w. split; [exact Gn|]. split.
        -- destruct w; [now left|right]. now rewrite O1.
        -- rewrite Bg. intros k' I _. rewrite En. apply (touched_lt h); [apply (b_legal _ _ _ B)|]. apply in_or_app. now left.
    + fold h'. rewrite Rs. discriminate.
    + intros S. exfalso. revert S. apply not_stopping_snoc; [apply (b_nostop _ _ _ B)|discriminate].
  - rewrite Gh, G1, app_length. cbn. lia.
  - unfold h'. rewrite opened_app, O1. cbn. now rewrite orb_false_r.
  - rewrite W. apply (b_wait _ _ _ B).
  - apply (b_buf _ _ _ B).
  - congruence.
  - rewrite W. intros k I. apply given_app, given_app. now apply (b_ext _ _ _ B).
  - rewrite W. unfold h' at 1. rewrite begun_app, Bg. intros k k' I J L. apply in_app_iff in I as [I|[<-|[]]].
    + apply (b_order _ _ _ B); auto. destruct (touched_given h (b_legal _ _ _ B) k') as [v G]; [apply in_or_app; now left|].
      now rewrite (given_fun _ _ _ _ J (given_app _ _ _ _ (given_app _ _ _ _ G))).
    + assert (w = false). { unfold given in J, Gn. rewrite Gh in J. congruence. } subst w. cbn in F.
      rewrite (b_wait _ _ _ B), (b_buf _ _ _ B F) in L. destruct L.
  - unfold h'. rewrite app_length. lia.
  - apply not_stopping_snoc; [apply not_stopping_snoc; [apply (b_nostop _ _ _ B)|]|]; discriminate.
  - unfold h'. rewrite start_failed_snoc by exact Len. unfold h1. rewrite start_failed_snoc by apply (b_len _ _ _ B). apply (b_ok _ _ _ B).
Qed.

Lemma always_nil : forall P, always P [].
Proof. intros P [|] ? ? [=]. Qed.

Lemma legal_first : legal [] (Began HStart).
Proof.
  split; [|split].
  - repeat split.
  - discriminate.
  - intros (r & []).
Qed.

Lemma started_idle : forall room p, idle [] (mk_task p (negb room) [] 0)
  ([Began HStart; Started HookOk] ++ if room then [] else [NoRoom]).
Proof.
  intros room p.
  assert (A : always legal ([] ++ [Began HStart] ++ [Started HookOk])).
  { rewrite app_assoc. apply always_snoc; [apply always_snoc; [apply always_nil|apply legal_first]|].
    split; [exact I|split; [discriminate|]]. intros (r & [H|[]]). discriminate. }
  assert (A2 : always legal (([] ++ [Began HStart] ++ [Started HookOk]) ++ if room then [] else [NoRoom])).
  { destruct room; [now rewrite app_nil_r|]. apply always_snoc; [exact A|]. split; [reflexivity|split; [discriminate|]].
    intros (r & [H|[H|[]]]); discriminate. }
  destruct room; (split; [constructor; cbn; auto; try discriminate; try (intros; contradiction)|reflexivity]);
    intros (r & I); cbn in I; repeat (destruct I as [I|I]; [discriminate|]); destruct I.
Qed.

(** ** Steps *)

Lemma inv_next : forall s h g s' o, inv s h -> t_place s = QNext -> take g s = (s', o) ->
  inv s' (h ++ Gave g :: o).
Proof.
  intros s h g s' o V Pl T. unfold inv in V. rewrite Pl in V. destruct V as (B & R & _). cbn in B, R.
  replace (h ++ Gave g :: o) with ((h ++ [Gave g]) ++ o) by now rewrite <- app_assoc.
  assert (Le : last_end (h ++ [Gave g]) = Some (Gave g)) by now rewrite last_end_snoc.
  assert (Fin : t_finished s = opened h) by apply (b_fin _ _ _ B).
  assert (Len : 2 <= length (h ++ [Gave g])) by (rewrite app_length; pose proof (b_len _ _ _ B); lia).
  unfold take in T. rewrite Pl in T. cbn [t_count t_place t_finished t_buffer] in T.
  destruct g as [|w|id r| |].
  - (* GStartup *)
    pose proof (base_gave s h GStartup QNext B R) as Id. cbn in Id. rewrite orb_true_r in Id. specialize (Id ltac:(discriminate)).
    unfold open_up in T. cbn [t_buffer t_place t_count] in T.
    destruct (deal (t_buffer s) false (mk_task QNext true [] (S (t_count s)))) as [s1 o1] eqn:D. injection T as <- <-.
    replace ((h ++ [Gave GStartup]) ++ Ready :: o1) with (((h ++ [Gave GStartup]) ++ [Ready]) ++ o1) by now rewrite <- app_assoc.
    assert (Id2 : idle (t_buffer s) (mk_task QNext true [] (S (t_count s))) ((h ++ [Gave GStartup]) ++ [Ready])).
    { apply base_idle; [exact Id|now left|]. split; [|split].
      - exists h, (Gave GStartup). auto.
      - rewrite running_snoc, (proj2 Id). discriminate.
      - intros S. now destruct (b_nostop _ _ _ (proj1 Id)). }
    pose proof (idle_deal (t_buffer s) false _ _ (Gave GStartup) Id2) as Z. rewrite D in Z. apply Z.
    + rewrite last_end_snoc. exact Le.
    + now rewrite !stop_given_snoc.
    + discriminate.
    + rewrite expected_idle by auto. unfold expected. rewrite Le. unfold waiting_first.
      rewrite <- (b_fin _ _ _ (proj1 Id)), (b_wait _ _ _ (proj1 Id)). cbn. rewrite app_nil_r. now destruct (t_buffer s).
  - (* GMessage *)
    destruct (negb w && negb (t_finished s)) eqn:C.
    + apply andb_true_iff in C as [C1 C2]. apply negb_true_iff in C1 as ->, C2.
      pose proof (base_buffered s h QNext B R C2) as Id. injection T as <- <-.
      apply (idle_again _ _ Id); [|rewrite stop_given_snoc; discriminate].
      unfold expected. rewrite Le. cbn. rewrite opened_app, <- Fin, C2. reflexivity.
    + assert (C' : w || t_finished s = true) by (destruct w, (t_finished s); auto).
      destruct (base_direct s h QNext w B R C') as (B1 & R1 & S1). injection T as <- <-.
      unfold inv. cbn [t_place at_place]. split; [now apply base_place|]. split; [exact R1|]. now rewrite S1.
  - (* GLinkDied *)
    pose proof (base_gave s h (GLinkDied id r) QNext B R) as Id. cbn in Id. rewrite orb_false_r in Id. specialize (Id ltac:(discriminate)).
    injection T as <- <-. destruct (base_began _ _ (HLinkDied id r) Id) as [B1 R1]; try discriminate.
    { unfold expected. now rewrite Le. }
    unfold inv. cbn. split; [now apply base_place|]. split; [exact R1|]. now rewrite !stop_given_snoc.
  - (* GStop *)
    pose proof (base_gave s h GStop QNext B R) as Id. cbn in Id. rewrite orb_true_r in Id. specialize (Id ltac:(discriminate)).
    unfold open_up in T. cbn [t_buffer t_place t_count] in T.
    pose proof (idle_deal (t_buffer s) true _ _ (Gave GStop) Id) as Z. rewrite T in Z. apply Z; auto.
    + now rewrite stop_given_snoc.
    + unfold expected. rewrite Le. unfold waiting_first.
      rewrite <- (b_fin _ _ _ (proj1 Id)), (b_wait _ _ _ (proj1 Id)). cbn. rewrite app_nil_r. now destruct (t_buffer s).
  - (* GNone *)
    pose proof (base_gave s h GNone QNext B R) as Id. cbn in Id. rewrite orb_true_r in Id. specialize (Id ltac:(discriminate)).
    unfold open_up in T. cbn [t_buffer t_place t_count] in T.
    pose proof (idle_deal (t_buffer s) true _ _ (Gave GNone) Id) as Z. rewrite T in Z. apply Z; auto.
    + now rewrite stop_given_snoc.
    + unfold expected. rewrite Le. unfold waiting_first.
      rewrite <- (b_fin _ _ _ (proj1 Id)), (b_wait _ _ _ (proj1 Id)). cbn. rewrite app_nil_r. now destruct (t_buffer s).
Qed.

Lemma inv_handled : forall s h res k rest st s' o, inv s h -> t_place s = QHandle k rest st ->
  advance s (DHandled res) = Some (s', o) -> inv s' (h ++ o).
Proof.
  intros s h res k rest st s' o V Pl T. unfold inv in V. rewrite Pl in V. destruct V as (B & R & St). cbn in B, R.
  cbn in T. rewrite Pl in T.
  assert (Id : idle rest s (h ++ [Handled k res])).
  { apply base_end; auto; [|eauto]. rewrite R. intros x [= <-]. left. cbn. apply Nat.eqb_refl. }
  assert (Le : last_end (h ++ [Handled k res]) = Some (Handled k res)) by now rewrite last_end_snoc.
  destruct res as [|f].
  - destruct (deal rest st s) as [s1 o1] eqn:D. injection T as <- <-.
    replace (h ++ Handled k HookOk :: o1) with ((h ++ [Handled k HookOk]) ++ o1) by now rewrite <- app_assoc.
    pose proof (idle_deal rest st s _ _ Id Le) as Z. rewrite D in Z. cbn in Z.
    assert (Bf : st = true -> t_finished s = true).
    { intros ->. rewrite (b_fin _ _ _ B). symmetry in St. unfold stop_given in St.
      assert (exists g, In (Gave g) h /\ opens (Gave g) = true) as (g & I & O).
      { destruct (hd_error (rev (gaves h))) as [g|] eqn:E; [|discriminate].
        assert (J : In g (gaves h)). { apply in_rev. destruct (rev (gaves h)); [discriminate|]. injection E as ->. now left. }
        apply in_flat_map in J as (o & I & J). destruct o; try contradiction. destruct J as [->|[]]. exists g. destruct g; try discriminate; auto. }
      apply existsb_exists. eauto. }
    apply Z.
    + now rewrite stop_given_snoc.
    + intros _ ->. now apply (b_buf _ _ _ B), Bf.
    + unfold expected. rewrite Le. unfold waiting_first. rewrite stop_given_snoc, <- St, opened_app, waiting_plain by reflexivity.
      cbn. rewrite orb_false_r, <- (b_fin _ _ _ B), (b_wait _ _ _ B).
      destruct (t_finished s) eqn:F.
      * rewrite (b_buf _ _ _ B F), app_nil_r. now destruct rest.
      * destruct rest; [reflexivity|]. pose proof (b_pend _ _ _ B ltac:(discriminate)). congruence.
  - injection T as <- <-.
    replace (h ++ Handled k (HookFail f) :: map Dropped rest ++ [Began (HPanic f)])
      with (((h ++ [Handled k (HookFail f)]) ++ map Dropped rest) ++ [Began (HPanic f)]) by now rewrite <- !app_assoc.
    pose proof (idle_drop _ _ _ _ Id Le eq_refl) as Id2.
    destruct (expected_dropped (h ++ [Handled k (HookFail f)]) rest _ (b_len _ _ _ (proj1 Id)) Le eq_refl) as [X1 L1].
    pose proof (idle_shut _ _ (Panicked f) _ Id2 L1) as Z. apply Z; auto.
    + rewrite X1. unfold expected. now rewrite Le.
    + intros f' [= <-] _. exists (ends h), k. unfold ends. rewrite !filter_app. cbn.
      rewrite <- app_nil_r. f_equal. clear. induction rest; cbn; auto.
Qed.

Lemma inv_link : forall s h res id r s' o, inv s h -> t_place s = QLink id r ->
  advance s (DLink res) = Some (s', o) -> inv s' (h ++ o).
Proof.
  intros s h res id r s' o V Pl T. unfold inv in V. rewrite Pl in V. destruct V as (B & R & Sg). cbn in B, R.
  cbn in T. rewrite Pl in T. injection T as <- <-.
  assert (Id : idle [] s (h ++ [LinkDone res])).
  { apply base_end; auto; [|eauto]. rewrite R. intros x [= <-]. now left. }
  destruct Id as [B1 R1]. unfold inv. cbn [t_place at_place]. split; [now apply base_place|]. split; [exact R1|].
  split; [now rewrite last_end_snoc|now rewrite stop_given_snoc].
Qed.

Lemma inv_forget : forall s h res s' o, inv s h -> t_place s = QForget res ->
  advance s DOn = Some (s', o) -> inv s' (h ++ o).
Proof.
  intros s h res s' o V Pl T. unfold inv in V. rewrite Pl in V. destruct V as (B & R & Le & Sg). cbn in B, R.
  cbn in T. rewrite Pl in T. assert (Id : idle [] s h) by now split.
  assert (Sh : forall r', expected h = Some (closing r') ->
    (loses (LinkDone res) = true \/ exists f, r' = Panicked f) -> inv (fst (shut r' s)) (h ++ snd (shut r' s))).
  { intros r' X C. destruct C as [C|(f & ->)].
    - apply (idle_shut _ _ r' _ Id Le X (or_intror C)). congruence.
    - cbn in X. destruct (base_began _ _ _ Id X) as [B1 R1]; try discriminate.
      unfold inv. cbn. split; [now apply base_place|]. split; [exact R1|]. rewrite !stop_given_snoc. congruence. }
  destruct res as [[|r']|f].
  - injection T as <- <-. apply (idle_again _ _ Id); [|congruence]. unfold expected. now rewrite Le.
  - destruct (shut r' s) as [s1 o1] eqn:S. injection T as <- <-. specialize (Sh r'). rewrite S in Sh. apply Sh; auto. unfold expected. now rewrite Le.
  - injection T as <- <-. apply (Sh (Panicked f)); [unfold expected; now rewrite Le|right; now exists f].
Qed.

Lemma inv_panic : forall s h res f s' o, inv s h -> t_place s = QPanic f false ->
  advance s (DPanic res) = Some (s', o) -> inv s' (h ++ o).
Proof.
  intros s h res f s' o V Pl T. unfold inv in V. rewrite Pl in V. destruct V as (B & R & Sg). cbn in B, R.
  cbn in T. rewrite Pl in T.
  assert (Id : idle [] s (h ++ [PanicDone res])).
  { apply base_end; auto; [|eauto]. rewrite R. intros x [= <-]. now left. }
  assert (Le : last_end (h ++ [PanicDone res]) = Some (PanicDone res)) by now rewrite last_end_snoc.
  destruct res as [[|r']|[e|e]].
  - injection T as <- <-. replace (h ++ [PanicDone (FlowOk Continue); Began HNext])
      with ((h ++ [PanicDone (FlowOk Continue)]) ++ [Began HNext]) by now rewrite <- app_assoc.
    apply (idle_again _ _ Id); [unfold expected; rewrite Le; now rewrite (b_ok _ _ _ (proj1 Id))|].
    rewrite stop_given_snoc. intros S. destruct (Sg S) as (a & k & Ea). exists a, k, f. unfold ends in *.
    rewrite filter_app, Ea, <- app_assoc. reflexivity.
  - pose proof (idle_leave _ _ r' _ Id Le) as Z. destruct (leave r' s) as [s1 o1]. injection T as <- <-.
    replace (h ++ PanicDone (FlowOk (Break r')) :: o1) with ((h ++ [PanicDone (FlowOk (Break r'))]) ++ o1) by now rewrite <- app_assoc.
    apply Z; auto. unfold expected. now rewrite Le.
  - pose proof (idle_leave _ _ (Panicked (FErr e)) _ Id Le) as Z. destruct (leave (Panicked (FErr e)) s) as [s1 o1]. injection T as <- <-.
    replace (h ++ PanicDone (FlowFail (FErr e)) :: o1) with ((h ++ [PanicDone (FlowFail (FErr e))]) ++ o1) by now rewrite <- app_assoc.
    apply Z; auto. unfold expected. now rewrite Le.
  - pose proof (idle_unwind _ _ _ Id Le eq_refl eq_refl) as Z. destruct (unwind s) as [s1 o1]. injection T as <- <-.
    replace (h ++ PanicDone (FlowFail (FPanic e)) :: o1) with ((h ++ [PanicDone (FlowFail (FPanic e))]) ++ o1) by now rewrite <- app_assoc.
    exact Z.
Qed.

Lemma inv_aborted : forall s h e s' o, idle (pend (t_place s)) s h -> last_end h = Some e ->
  match e with Cut _ | Started HookOk | LinkDone _ => True | _ => False end ->
  (h ++ [Aborted]) ++ map Dropped (pend (t_place s)) ++ snd (leave Killed s) = h ++ o -> s' = fst (leave Killed s) -> inv s' (h ++ o).
Proof.
  intros s h e s' o Id0 Le0 E0 <- ->.
  assert (Id : idle (pend (t_place s)) s (h ++ [Aborted])).
  { apply base_idle; [exact Id0|now right|]. destruct Id0 as [B R]. split; [|split].
    - split; [exact R|]. split; [apply (b_ok _ _ _ B)|]. now exists e.
    - rewrite running_snoc, R. discriminate.
    - intros S. now destruct (b_nostop _ _ _ B). }
  assert (Le : last_end (h ++ [Aborted]) = Some Aborted) by now rewrite last_end_snoc.
  pose proof (idle_drop _ _ _ _ Id Le eq_refl) as Id2.
  destruct (expected_dropped (h ++ [Aborted]) (pend (t_place s)) _ (b_len _ _ _ (proj1 Id)) Le eq_refl) as [X1 L1].
  rewrite app_assoc. apply idle_leave with (e := Aborted); auto. rewrite X1. unfold expected. now rewrite Le.
Qed.

Lemma inv_kill : forall s h x s' o, base (pend (t_place s)) s h -> running h = Some (Some x) -> runs (t_place s) = Some x ->
  ((h ++ [Cut x]) ++ [Aborted]) ++ map Dropped (pend (t_place s)) ++ snd (leave Killed s) = h ++ o -> s' = fst (leave Killed s) -> inv s' (h ++ o).
Proof.
  intros s h x s' o B R Rx <- ->.
  assert (Id : idle (pend (t_place s)) s (h ++ [Cut x])).
  { apply base_end; auto; [|eauto]. rewrite R. intros y [= <-]. now right. }
  rewrite <- app_assoc. eapply inv_aborted; [exact Id|now rewrite last_end_snoc|exact I|now rewrite <- app_assoc|reflexivity].
Qed.

Lemma app_cons : forall A (l : list A) x m, l ++ x :: m = (l ++ [x]) ++ m.
Proof. intros. rewrite <- app_assoc. reflexivity. Qed.

Definition failed_start (f : failure) : list sight := [Began HStart; Started (HookFail f); Ready; Began (HPanic f)].

Lemma failed_legal : forall f, always legal (failed_start f).
Proof.
  intros f. change (failed_start f) with (((([] ++ [Began HStart]) ++ [Started (HookFail f)]) ++ [Ready]) ++ [Began (HPanic f)]).
  repeat apply always_snoc; [apply always_nil|apply legal_first| | |].
  - split; [exact I|split; [discriminate|]]. intros (r & [H|[]]). discriminate.
  - split; [|split; [discriminate|]].
    + exists [Began HStart], (Started (HookFail f)). split; [reflexivity|]. right. now exists f.
    + intros (r & [H|[H|[]]]); discriminate.
  - split; [|split; [discriminate|]].
    + repeat split.
    + intros (r & [H|[H|[H|[]]]]); discriminate.
Qed.

Lemma inv_failed : forall s h f res s' o, inv s h -> t_place s = QPanic f true ->
  advance s (DPanic res) = Some (s', o) -> inv s' (h ++ o).
Proof.
  intros s h f res s' o V Pl T. unfold inv in V. rewrite Pl in V. destruct V as [-> ->]. fold (failed_start f).
  assert (A : always legal (failed_start f ++ [PanicDone res])).
  { apply always_snoc; [apply failed_legal|]. split; [exact I|split; [discriminate|]].
    intros (r & [H|[H|[H|[H|[]]]]]); discriminate. }
  assert (N : ~ stopping (failed_start f ++ [PanicDone res])).
  { intros (r & [H|[H|[H|[H|[H|[]]]]]]); discriminate. }
  assert (St : forall r, expected (failed_start f ++ [PanicDone res]) = Some (HStop r) ->
    inv (at_place (QStop r false) task_new) ((failed_start f ++ [PanicDone res]) ++ [Began (HStop r)])).
  { intros r X. unfold inv. cbn [at_place t_place t_buffer task_new]. split; [|split; [reflexivity|split; [|split; [reflexivity|split; [reflexivity|split; [discriminate|split; [discriminate|cbn; lia]]]]]]].
    - apply always_snoc; [exact A|]. split; [|split; [discriminate|]].
      + split; [reflexivity|]. split; [exact X|]. split; [reflexivity|]. discriminate.
      + intros S. now destruct N.
    - apply in_or_app. right. now left. }
  cbn in T. destruct res as [[|r]|[e|e]]; injection T as <- <-; rewrite app_cons.
  - apply (St (Panicked f)). reflexivity.
  - apply (St r). reflexivity.
  - apply (St (Panicked (FErr e))). reflexivity.
  - unfold inv. cbn [t_place t_buffer]. split; [|split; [reflexivity|split; [reflexivity|split; [reflexivity|]]]].
    + apply always_snoc; [exact A|]. split; [|split; [discriminate|]].
      * split; [reflexivity|]. exists (PanicDone (FlowFail (FPanic e))). split; reflexivity.
      * intros S. now destruct N.
    + eexists _, Crashed. split; [reflexivity|]. now left.
Qed.

Lemma inv_stop : forall s h r lk res s' o, inv s h -> t_place s = QStop r lk ->
  advance s (DStop res) = Some (s', o) -> inv s' (h ++ o).
Proof.
  intros s h r lk res s' o V Pl T. unfold inv in V. rewrite Pl in V. destruct V as (A & R & I & W & Bf & K1 & K2 & L2).
  assert (R1 : running (h ++ [Stopped res]) = Some None) by (rewrite running_snoc, R; reflexivity).
  assert (A1 : always legal (h ++ [Stopped res])).
  { apply always_snoc; [exact A|]. split; [exact Logic.I|split; [|auto]]. rewrite R1. discriminate. }
  assert (L1 : last_end (h ++ [Stopped res]) = Some (Stopped res)) by now rewrite last_end_snoc.
  assert (W1 : waiting (h ++ [Stopped res]) = []) by now rewrite waiting_plain.
  assert (End : forall h1 z, always legal h1 -> running h1 = Some None -> waiting h1 = [] ->
    (match z with Returned _ | Crashed => True | _ => False end) -> legal h1 z ->
    inv (mk_task QOver (t_finished s) [] (t_count s)) (h1 ++ [z])).
  { intros h1 z Ah Rh Wh K L. unfold inv. cbn. split; [now apply always_snoc|].
    split; [rewrite running_snoc, Rh; destruct z; try contradiction; reflexivity|].
    split; [rewrite waiting_plain; [exact Wh|destruct z; try contradiction; reflexivity]|]. split; [reflexivity|].
    exists h1, z. split; [reflexivity|]. destruct z; try contradiction; eauto. }
  cbn in T. rewrite Pl in T.
  assert (Ret : uncaught (Stopped res) = false ->
    Some (at_place QOver s, Stopped res :: (if lk then [Told r] else []) ++ [Returned r]) = Some (s', o) -> inv s' (h ++ o)).
  { intros U [= <- <-]. unfold at_place. rewrite Bf. destruct lk.
    - destruct (K1 eq_refl) as [Tk Ok].
      assert (Lg : legal (h ++ [Stopped res]) (Told r)).
      { split; [|split].
        - split; [apply in_or_app; now left|]. split; [now rewrite start_failed_snoc|]. exists res. auto.
        - rewrite running_snoc, R1. discriminate.
        - auto. }
      replace (h ++ Stopped res :: [Told r] ++ [Returned r]) with (((h ++ [Stopped res]) ++ [Told r]) ++ [Returned r]) by now rewrite <- !app_assoc.
      apply End; [now apply always_snoc|rewrite running_snoc, R1; reflexivity|now rewrite waiting_plain|exact Logic.I|]. split; [|split].
      + split; [apply in_or_app; left; apply in_or_app; now left|]. split; [intros _; now exists (h ++ [Stopped res])|].
        exists res. split; [now rewrite last_end_snoc|exact U].
      + rewrite !running_snoc, R. discriminate.
      + auto.
    - replace (h ++ Stopped res :: [] ++ [Returned r]) with ((h ++ [Stopped res]) ++ [Returned r]) by now rewrite <- !app_assoc.
      apply End; auto. split; [|split].
      + split; [apply in_or_app; now left|]. split; [intros N; rewrite start_failed_snoc in N by exact L2; now destruct (K2 eq_refl)|]. exists res. auto.
      + rewrite running_snoc, R1. discriminate.
      + auto. }
  destruct res as [|[e|e]]; [now apply Ret|now apply Ret|].
  unfold unwind in T. rewrite Bf in T. cbn in T. injection T as <- <-. rewrite app_cons. apply End; auto.
  split; [|split].
  - split; [exact R1|]. exists (Stopped (HookFail (FPanic e))). auto.
  - rewrite running_snoc, R1. discriminate.
  - auto.
Qed.

Lemma inv_start : forall s h res room s' o, inv s h -> t_place s = QStart ->
  advance s (DStart res room) = Some (s', o) -> inv s' (h ++ o).
Proof.
  intros s h res room s' o V Pl T. unfold inv in V. rewrite Pl in V. destruct V as [-> ->].
  destruct res as [|f].
  - pose proof (started_idle room QEntry) as [B R]. destruct room; cbn in T; injection T as <- <-.
    + rewrite app_nil_r in B, R. exact (conj B (conj R (conj eq_refl eq_refl))).
    + exact (conj B (conj R (conj eq_refl eq_refl))).
  - cbn in T. injection T as <- <-. unfold inv. cbn. auto.
Qed.

Lemma inv_advance : forall s h e s' o, inv s h -> advance s e = Some (s', o) -> inv s' (h ++ o).
Proof.
  intros s h e s' o V T. pose proof V as V0. unfold inv in V0.
  assert (Kill : forall p x, t_place s = p -> runs p = Some x -> base (pend p) s h -> running h = Some (runs p) ->
    advance s DKill = Some (fst (leave Killed s), [Cut x] ++ Aborted :: map Dropped (pend p) ++ snd (leave Killed s)) -> e = DKill -> inv s' (h ++ o)).
  { intros p x Ep Rx B R A ->. rewrite A in T. injection T as <- <-. rewrite <- Ep in *.
    eapply inv_kill; eauto; [now rewrite R, Rx|]. now rewrite <- !app_assoc. }
  destruct (t_place s) as [| | |k rest st|id r|fres|f [|]|r lk|] eqn:Pl.
  - destruct e as [res room|g| |[]|res|res|res| |]; try (cbn in T; rewrite Pl in T; discriminate). eapply inv_start; eauto.
  - destruct V0 as (B & R & Le & Sg). cbn in B, R. assert (Id : idle [] s h) by now split.
    destruct e as [[] []|g| |[]|res|res|res| |]; try (cbn in T; rewrite Pl in T; discriminate); cbn in T; rewrite Pl in T; injection T as <- <-.
    + apply (idle_again _ _ Id); [|congruence]. unfold expected. now rewrite Le.
    + apply (inv_aborted s h (Started HookOk)); auto; rewrite Pl; [exact Id|now rewrite <- app_assoc].
  - destruct V0 as (B & R & _).
    destruct e as [[] []|g| |[]|res|res|res| |]; try (cbn in T; rewrite Pl in T; discriminate).
    + cbn in T. rewrite Pl in T. destruct (take g s) as [s1 o1] eqn:Tk. injection T as <- <-. eapply inv_next; eauto.
    + assert (Id : idle [] s (h ++ [NextPanicked])).
      { apply base_end; auto; [|eauto]. cbn in R. rewrite R. intros x [= <-]. now left. }
      cbn in T. rewrite Pl in T. unfold unwind in T. cbn in T. injection T as <- <-. rewrite app_cons.
      apply (idle_unwind s _ NextPanicked); auto. now rewrite last_end_snoc.
    + eapply (Kill QNext HNext); eauto. cbn. rewrite Pl. reflexivity.
  - destruct V0 as (B & R & _).
    destruct e as [[] []|g| |res|res|res|res| |]; try (cbn in T; rewrite Pl in T; discriminate).
    + eapply inv_handled; eauto.
    + eapply (Kill (QHandle k rest st) (HMessage k)); eauto. cbn. rewrite Pl. reflexivity.
  - destruct V0 as (B & R & _).
    destruct e as [[] []|g| |[]|res|res|res| |]; try (cbn in T; rewrite Pl in T; discriminate).
    + eapply inv_link; eauto.
    + eapply (Kill (QLink id r) (HLinkDied id r)); eauto. cbn. rewrite Pl. reflexivity.
  - destruct V0 as (B & R & Le & Sg). cbn in B, R. assert (Id : idle [] s h) by now split.
    destruct e as [[] []|g| |[]|res|res|res| |]; try (cbn in T; rewrite Pl in T; discriminate).
    + eapply inv_forget; eauto.
    + cbn in T. rewrite Pl in T. injection T as <- <-. apply (inv_aborted s h (LinkDone fres)); auto; rewrite Pl; [exact Id|now rewrite <- app_assoc].
  - destruct e as [[] []|g| |[]|res|res|res| |]; try (cbn in T; rewrite Pl in T; discriminate).
    eapply inv_failed; eauto.
  - destruct V0 as (B & R & _).
    destruct e as [[] []|g| |[]|res|res|res| |]; try (cbn in T; rewrite Pl in T; discriminate).
    + eapply inv_panic; eauto.
    + eapply (Kill (QPanic f false) (HPanic f)); eauto. cbn. rewrite Pl. reflexivity.
  - destruct e as [[] []|g| |[]|res|res|res| |]; try (cbn in T; rewrite Pl in T; discriminate).
    eapply inv_stop; eauto.
  - destruct e as [[] []|g| |[]|res|res|res| |]; cbn in T; rewrite Pl in T; discriminate.
Qed.

Lemma advances_inv : forall es s h s' o, inv s h -> advances s es = Some (s', o) -> inv s' (h ++ o).
Proof.
  induction es as [|e es IH]; intros s h s' o V T; cbn in T.
  - injection T as <- <-. now rewrite app_nil_r.
  - destruct (advance s e) as [[s1 o1]|] eqn:A; [|discriminate].
    destruct (advances s1 es) as [[s2 o2]|] eqn:As; [|discriminate]. injection T as <- <-.
    rewrite app_assoc. eapply IH; [|exact As]. eapply inv_advance; eauto.
Qed.

Lemma run_inv : forall es s h, run_task es = Some (s, h) -> inv s h.
Proof.
  intros es s h T. unfold run_task in T. destruct (advances task_new es) as [[s1 o]|] eqn:A; [|discriminate].
  injection T as <- <-. apply (advances_inv es task_new first_sights s1 o); [|exact A]. unfold inv. cbn. auto.
Qed.

(** ** Theorems *)

Lemma inv_legal : forall s h, inv s h -> always legal h.
Proof.
  intros s h V. unfold inv in V. destruct (t_place s) as [| | |k rest st|id r|fres|f [|]|r lk|];
    try (exact (b_legal _ _ _ (proj1 V))); try (exact (proj1 V)).
  - destruct V as [_ ->]. change first_sights with ([] ++ [Began HStart]). apply always_snoc; [apply always_nil|apply legal_first].
  - destruct V as [_ ->]. apply failed_legal.
Qed.

Lemma run_legal : forall es s h, run_task es = Some (s, h) -> always legal h.
Proof. intros es s h T. eapply inv_legal, run_inv, T. Qed.

Theorem next_hook : forall es s h1 x h2, run_task es = Some (s, h1 ++ Began x :: h2) -> expected h1 = Some x.
Proof. intros es s h1 x h2 T. apply run_legal in T. destruct (T h1 (Began x) h2 eq_refl) as [(_ & E & _) _]. exact E. Qed.

Theorem one_at_a_time : forall es s h1 h2, run_task es = Some (s, h1 ++ h2) -> running h1 <> None /\
  forall x h3, h2 = Cut x :: h3 -> running h1 = Some (Some x).
Proof.
  intros es s h1 h2 T. apply run_legal in T. split.
  - destruct h1 as [|o h1 _] using rev_ind; [discriminate|]. rewrite <- app_assoc in T.
    destruct (T h1 o h2 eq_refl) as (_ & R & _). exact R.
  - intros x h3 ->. destruct (T h1 (Cut x) h3 eq_refl) as (R & _). exact R.
Qed.

Theorem handled : forall es s h1 k h2, run_task es = Some (s, h1 ++ Began (HMessage k) :: h2) ->
  exists w, given h1 k w /\ ~ In k (begun h1) /\ ~ In k (dropped h1) /\ (w = true \/ opened h1 = true) /\
    forall k', In k' (begun h1) -> given h1 k' w -> k' < k.
Proof.
  intros es s h1 k h2 T. apply run_legal in T. destruct (T h1 _ h2 eq_refl) as [(_ & _ & W & w & G & O & L) _].
  apply waiting_in in W as (_ & N1 & N2). exists w. auto.
Qed.

Theorem dropping : forall es s h1 k h2, run_task es = Some (s, h1 ++ Dropped k :: h2) ->
  (exists w, given h1 k w) /\ ~ In k (begun h1) /\ ~ In k (dropped h1) /\ exists e, last_end h1 = Some e /\ loses e = true.
Proof.
  intros es s h1 k h2 T. apply run_legal in T. destruct (T h1 _ h2 eq_refl) as [(W & L) _].
  apply waiting_in in W as (G & N1 & N2). auto.
Qed.

Lemma accounted_at : forall h k w, given h k w -> In k (begun h) \/ In k (dropped h) \/ In k (waiting h).
Proof.
  intros h k w G. destruct (in_dec Nat.eq_dec k (begun h)) as [I|N]; [auto|].
  destruct (in_dec Nat.eq_dec k (dropped h)) as [I|N2]; [auto|]. right. right. apply waiting_in. split; eauto.
Qed.

Theorem accounted : forall es s h1 x h2 k w, run_task es = Some (s, h1 ++ Began x :: h2) -> given h1 k w ->
  match x with HNext => True | HStop _ => True | _ => False end ->
  In k (begun h1) \/ In k (dropped h1) \/ (x = HNext /\ w = false /\ opened h1 = false).
Proof.
  intros es s h1 x h2 k w T G X. apply run_legal in T. destruct (T h1 _ h2 eq_refl) as [(_ & _ & L) _].
  destruct (accounted_at _ _ _ G) as [I|[I|I]]; auto. destruct x; try contradiction.
  - destruct L as [L _]. destruct (L _ I) as [G' O]. right. right. split; [reflexivity|]. split; [|exact O]. eapply given_fun; eauto.
  - destruct L as [L _]. rewrite L in I. destruct I.
Qed.

Theorem over_accounted : forall es s h o k w, run_task es = Some (s, h ++ [o]) ->
  o = Crashed \/ (exists r, o = Returned r) -> given h k w -> In k (begun h) \/ In k (dropped h).
Proof.
  intros es s h o k w T O G. apply run_inv in T as V.
  assert (W : waiting (h ++ [o]) = []).
  { unfold inv in V. destruct (t_place s) as [| | |k' rest st|id r|fres|f [|]|r lk|].
    1:{ destruct V as [_ E]. change first_sights with ([] ++ [Began HStart]) in E. apply app_inj_tail in E as [_ ->].
        destruct O as [O|(r & O)]; discriminate. }
    6:{ destruct V as [_ E]. change [Began HStart; Started (HookFail f); Ready; Began (HPanic f)] with
          ([Began HStart; Started (HookFail f); Ready] ++ [Began (HPanic f)]) in E. apply app_inj_tail in E as [_ ->].
        destruct O as [O|(r & O)]; discriminate. }
    7,8: tauto.
    all: exfalso; destruct V as (B & R & Z); pose proof (b_legal _ _ _ B) as A;
      destruct (A h o [] eq_refl) as (Lg & _ & St); destruct O as [->|(r' & ->)].
    all: try (destruct Lg as [I _]; apply (b_nostop _ _ _ B); exists r'; apply in_or_app; now left).
    all: destruct Lg as (R0 & e & E & U); rewrite running_snoc, R0 in R; try discriminate.
    all: destruct Z as [Z _]; rewrite last_end_snoc in Z; cbn in Z; rewrite E in Z; injection Z as ->; discriminate. }
  rewrite waiting_plain in W; [|destruct O as [->|(r & ->)]; reflexivity].
  destruct (accounted_at _ _ _ G) as [I|[I|I]]; auto. rewrite W in I. destruct I.
Qed.

(** The task is over once, at the end. *)
Definition over_sight (o : sight) : bool := match o with Returned _ | Crashed => true | _ => false end.

Lemma dropped_not_over : forall ks, existsb over_sight (map Dropped ks) = false.
Proof. induction ks; [reflexivity|exact IHks]. Qed.

Lemma leave_over : forall r s, t_place (fst (leave r s)) <> QOver /\ existsb over_sight (snd (leave r s)) = false.
Proof. intros. split; [discriminate|]. cbn. rewrite existsb_app, dropped_not_over. reflexivity. Qed.

Lemma shut_over : forall r s, t_place (fst (shut r s)) <> QOver /\ existsb over_sight (snd (shut r s)) = false.
Proof. intros. destruct r; try apply leave_over. split; [discriminate|reflexivity]. Qed.

Lemma deal_over : forall ms st s, t_place (fst (deal ms st s)) <> QOver /\ existsb over_sight (snd (deal ms st s)) = false.
Proof. intros [|m ms] [] s; try apply leave_over; split; try discriminate; reflexivity. Qed.

Definition over_once (s : task) (o : list sight) : Prop :=
  (t_place s <> QOver /\ existsb over_sight o = false) \/
  (t_place s = QOver /\ exists o1 z, o = o1 ++ [z] /\ over_sight z = true /\ existsb over_sight o1 = false).

Lemma over_plus : forall s pre o, existsb over_sight pre = false ->
  t_place s <> QOver /\ existsb over_sight o = false -> over_once s (pre ++ o).
Proof. intros s pre o P [N E]. left. split; [exact N|]. now rewrite existsb_app, P, E. Qed.

Lemma unwind_over : forall s pre, existsb over_sight pre = false -> over_once (fst (unwind s)) (pre ++ snd (unwind s)).
Proof.
  intros s pre P. right. split; [reflexivity|]. exists (pre ++ map Dropped (t_buffer s)), Crashed. cbn [snd unwind]. rewrite <- app_assoc.
  split; [reflexivity|]. split; [reflexivity|]. now rewrite existsb_app, P, dropped_not_over.
Qed.

Lemma advance_over : forall s e s' o, advance s e = Some (s', o) -> t_place s <> QOver /\ over_once s' o.
Proof.
  intros s e s' o T. destruct (t_place s) as [| | |k rest st|id r|fres|f sf|r lk|] eqn:Pl.
  9:{ destruct e as [[|] []|g| |[]|res|res|res| |]; cbn in T; rewrite Pl in T; discriminate. }
  all: split; [discriminate|].
  - destruct e as [[|f] []|g| |[]|res|res|res| |]; cbn in T; rewrite Pl in T; try discriminate; injection T as <- <-;
      left; split; try discriminate; reflexivity.
  - destruct e as [[|f] []|g| |[]|res|res|res| |]; cbn [advance] in T; rewrite Pl in T; try discriminate.
    + injection T as <- <-. left. split; [discriminate|reflexivity].
    + cbn [runs] in T. destruct (leave Killed s) as [s1 o1] eqn:U. injection T as <- <-. pose proof (leave_over Killed s) as D. rewrite U in D.
      apply (over_plus s1 ([Aborted])); [reflexivity|exact D].
  - destruct e as [[|f] []|g| |[]|res|res|res| |]; cbn [advance] in T; rewrite Pl in T; try discriminate.
    + destruct (take g s) as [s1 o1] eqn:Tk. injection T as <- <-. apply (over_plus _ [Gave g]); [destruct g; reflexivity|].
      assert (E : s1 = fst (take g s) /\ o1 = snd (take g s)) by now rewrite Tk. destruct E as [-> ->]. clear Tk.
      destruct g as [|w|id r| |]; cbn [take].
      * unfold open_up.
        match goal with |- context[deal ?a ?b ?c] => pose proof (deal_over a b c) as D; destruct (deal a b c) end. exact D.
      * cbn [t_finished t_place t_buffer t_count]. destruct (negb w && negb (t_finished s)); [split; [discriminate|reflexivity]|apply deal_over].
      * split; [discriminate|reflexivity].
      * apply deal_over.
      * apply deal_over.
    + destruct (unwind s) as [s1 o1] eqn:U. injection T as <- <-. pose proof (unwind_over s [NextPanicked] eq_refl) as D.
      rewrite U in D. exact D.
    + cbn [runs] in T. destruct (leave Killed s) as [s1 o1] eqn:U. injection T as <- <-. pose proof (leave_over Killed s) as D. rewrite U in D.
      apply (over_plus s1 [Cut HNext; Aborted]); [reflexivity|exact D].
  - destruct e as [[|f] []|g| |[|f]|res|res|res| |]; cbn [advance] in T; rewrite Pl in T; try discriminate.
    + destruct (deal rest st s) as [s1 o1] eqn:U. injection T as <- <-. pose proof (deal_over rest st s) as D. rewrite U in D.
      apply (over_plus s1 [_]); [reflexivity|exact D].
    + destruct (shut (Panicked f) s) as [s1 o1] eqn:U. injection T as <- <-. pose proof (shut_over (Panicked f) s) as D. rewrite U in D.
      rewrite app_comm_cons. apply over_plus; [cbn; apply dropped_not_over|exact D].
    + cbn [runs] in T. destruct (leave Killed s) as [s1 o1] eqn:U. injection T as <- <-. pose proof (leave_over Killed s) as D. rewrite U in D.
      rewrite app_comm_cons, app_comm_cons.
      apply (over_plus s1); [cbn; apply dropped_not_over|exact D].
  - destruct e as [[|f] []|g| |[|f]|res|res|res| |]; cbn [advance] in T; rewrite Pl in T; try discriminate.
    + injection T as <- <-. left. split; [discriminate|reflexivity].
    + cbn [runs] in T. destruct (leave Killed s) as [s1 o1] eqn:U. injection T as <- <-. pose proof (leave_over Killed s) as D. rewrite U in D.
      apply (over_plus s1 [_; Aborted]); [reflexivity|exact D].
  - destruct e as [[|f] []|g| |[|f]|res|res|res| |]; cbn [advance] in T; rewrite Pl in T; try discriminate.
    + assert (K : forall p : task * list sight, t_place (fst p) <> QOver /\ existsb over_sight (snd p) = false -> Some p = Some (s', o) -> over_once s' o)
        by (intros p D [= ->]; left; exact D).
      destruct fres as [[|r0]|f]; refine (K _ _ T); [split; [discriminate|reflexivity]|apply shut_over|apply shut_over].
    + cbn [runs] in T. destruct (leave Killed s) as [s1 o1] eqn:U. injection T as <- <-. pose proof (leave_over Killed s) as D. rewrite U in D.
      apply (over_plus s1 ([Aborted])); [reflexivity|exact D].
  - destruct e as [[|f0] []|g| |[|f0]|res|res|res| |]; try (cbn [advance] in T; rewrite Pl in T; discriminate).
    + assert (K : forall p : task * list sight, over_once (fst p) ([PanicDone res] ++ snd p) ->
        Some (fst p, PanicDone res :: snd p) = Some (s', o) -> over_once s' o) by (intros p D [= <- <-]; exact D).
      cbn [advance] in T. rewrite Pl in T.
      destruct res as [[|r0]|[e|e]]; [destruct sf|destruct sf|destruct sf|].
      * apply (K (at_place (QStop (Panicked f) false) s, [Began (HStop (Panicked f))])); [left; split; [discriminate|reflexivity]|exact T].
      * apply (K (again s)); [left; split; [discriminate|reflexivity]|exact T].
      * apply (K (at_place (QStop r0 false) s, [Began (HStop r0)])); [left; split; [discriminate|reflexivity]|exact T].
      * apply (K (leave r0 s)); [apply over_plus; [reflexivity|apply leave_over]|exact T].
      * apply (K (at_place (QStop (Panicked (FErr e)) false) s, [Began (HStop (Panicked (FErr e)))])); [left; split; [discriminate|reflexivity]|exact T].
      * apply (K (leave (Panicked (FErr e)) s)); [apply over_plus; [reflexivity|apply leave_over]|exact T].
      * apply (K (unwind s)); [apply unwind_over; reflexivity|exact T].
    + destruct sf; cbn [advance] in T; rewrite Pl in T; [discriminate|].
      cbn [runs] in T. destruct (leave Killed s) as [s1 o1] eqn:U. injection T as <- <-. pose proof (leave_over Killed s) as D. rewrite U in D.
      apply (over_plus s1 [_; Aborted]); [reflexivity|exact D].
  - destruct e as [[|f0] []|g| |[|f0]|res|res|res| |]; cbn [advance] in T; rewrite Pl in T; try discriminate.
    destruct res as [|[e|e]].
    1,2: injection T as <- <-; right; split; [reflexivity|]; eexists (Stopped _ :: if lk then [Told r] else []), (Returned r); split; [reflexivity|split; [reflexivity|now destruct lk]].
    destruct (unwind s) as [s1 o1] eqn:U. injection T as <- <-. pose proof (unwind_over s [Stopped (HookFail (FPanic e))] eq_refl) as D.
    rewrite U in D. exact D.
Qed.

Lemma advances_over : forall es s s' o, advances s es = Some (s', o) ->
  existsb over_sight o = false \/ (exists o1 z, o = o1 ++ [z] /\ over_sight z = true /\ existsb over_sight o1 = false).
Proof.
  induction es as [|e es IH]; intros s s' o T; cbn in T; [injection T as <- <-; now left|].
  destruct (advance s e) as [[s1 o1]|] eqn:A; [|discriminate]. destruct (advances s1 es) as [[s2 o2]|] eqn:As; [|discriminate].
  injection T as <- <-. apply advance_over in A as (_ & [(N & F)|(Q & p & z & -> & Z & F)]).
  - destruct (IH _ _ _ As) as [F2|(p & z & -> & Z & F2)]; [left; now rewrite existsb_app, F, F2|].
    right. exists (o1 ++ p), z. rewrite app_assoc. split; [reflexivity|]. split; [exact Z|]. now rewrite existsb_app, F, F2.
  - assert (E : o2 = []).
    { destruct es as [|e' es]; cbn in As; [now injection As as <- <-|]. destruct (advance s1 e') as [[s3 o3]|] eqn:A; [|discriminate].
      apply advance_over in A as [N _]. now destruct N. }
    subst. right. exists p, z. rewrite app_nil_r. auto.
Qed.

Theorem over_last : forall es s h1 o h2, run_task es = Some (s, h1 ++ o :: h2) ->
  o = Crashed \/ (exists r, o = Returned r) -> h2 = [].
Proof.
  intros es s h1 o h2 T O. unfold run_task in T. destruct (advances task_new es) as [[s1 o1]|] eqn:A; [|discriminate].
  assert (Z : over_sight o = true) by (destruct O as [->|(r & ->)]; reflexivity).
  injection T as -> E. apply advances_over in A.
  assert (K : existsb over_sight (first_sights ++ o1) = false \/
    exists p z, first_sights ++ o1 = p ++ [z] /\ existsb over_sight p = false).
  { destruct A as [F|(p & z & -> & Z' & F)]; [left; exact F|right]. exists (first_sights ++ p), z. now rewrite <- app_assoc. }
  change (Began HStart :: o1) with (first_sights ++ o1) in E. rewrite E in K. destruct K as [F|(p & z & F & P)].
  - rewrite existsb_app in F. cbn in F. rewrite Z, orb_true_r in F. discriminate.
  - destruct h2 as [|y h2 _] using rev_ind; [reflexivity|]. rewrite app_comm_cons, app_assoc in F. apply app_inj_tail in F as [<- _].
    rewrite existsb_app in P. cbn in P. rewrite Z, orb_true_r in P. discriminate.
Qed.

(** What is seen right after some sights. *)
Definition follow (o : sight) : option sight :=
  match o with
  | Gave GStartup | Started (HookFail _) => Some Ready
  | Took r => Some (Began (HStop r))
  | Told r => Some (Returned r)
  | Cut _ => Some Aborted
  | _ => None
  end.
Definition calls (o : sight) : bool := match follow o with Some _ => true | None => false end.

Definition heeded (h : list sight) : Prop :=
  forall a z b y, h = a ++ z :: b -> follow z = Some y -> exists c, b = y :: c.

Lemma heeded_app : forall h1 h2, heeded h1 -> heeded h2 -> heeded (h1 ++ h2).
Proof.
  intros h1 h2 H1 H2 a z b y E Z. apply app_eq_app in E as (l & [[-> E]|[-> E]]).
  - destruct l as [|w l]; cbn in E.
    + subst h2. apply (H2 [] z b); auto.
    + injection E as <- ->. destruct (H1 a z l y eq_refl Z) as (c & ->). now exists (c ++ h2).
  - apply (H2 l z b y E Z).
Qed.

Lemma heeded_none : forall h, existsb calls h = false -> heeded h.
Proof.
  intros h N a z b y -> Z. rewrite existsb_app in N. cbn in N. unfold calls at 2 in N. rewrite Z, orb_true_r in N. discriminate.
Qed.

Lemma heeded_pair : forall z y, follow z = Some y -> calls y = false -> heeded [z; y].
Proof.
  intros z y F N [|w [|v a]] u b x E Z; cbn in E.
  - injection E as -> <-. rewrite F in Z. injection Z as ->. now exists [].
  - injection E as -> <- _. unfold calls in N. rewrite Z in N. discriminate.
  - injection E as _ _ E. destruct a; discriminate.
Qed.

Lemma heeded_cons : forall z h, calls z = false -> heeded h -> heeded (z :: h).
Proof. intros z h N H. apply (heeded_app [z]); [apply heeded_none; cbn; now rewrite N|exact H]. Qed.

Lemma heeded_dropped : forall ks h, heeded h -> heeded (map Dropped ks ++ h).
Proof. induction ks as [|k ks IH]; intros h H; [exact H|]. apply heeded_cons; [reflexivity|]. now apply IH. Qed.

Lemma leave_heeded : forall r s, heeded (snd (leave r s)).
Proof. intros. apply heeded_dropped. apply heeded_pair; reflexivity. Qed.

Lemma unwind_heeded : forall s, heeded (snd (unwind s)).
Proof. intros. apply heeded_dropped. apply heeded_none. reflexivity. Qed.

Lemma shut_heeded : forall r s, heeded (snd (shut r s)).
Proof. intros. destruct r; try apply leave_heeded. apply heeded_none. reflexivity. Qed.

Lemma deal_heeded : forall ms st s, heeded (snd (deal ms st s)).
Proof. intros [|m ms] [] s; try apply leave_heeded; apply heeded_none; reflexivity. Qed.

Lemma cut_heeded : forall x h, heeded h -> heeded (Cut x :: Aborted :: h).
Proof. intros x h H. apply (heeded_app [_; _]); [apply heeded_pair; reflexivity|exact H]. Qed.

Lemma advance_heeded : forall s e s' o, advance s e = Some (s', o) -> heeded o.
Proof.
  intros s e s' o T. destruct (t_place s) as [| | |k rest st|id r|fres|f sf|r lk|] eqn:Pl.
  - destruct e as [[|f] []|g| |[]|res|res|res| |]; cbn in T; rewrite Pl in T; try discriminate; injection T as <- <-.
    1,2: apply heeded_none; reflexivity.
    1,2: apply (heeded_app [_; _] [_]); [apply heeded_pair; reflexivity|apply heeded_none; reflexivity].
  - destruct e as [[|f] []|g| |[]|res|res|res| |]; cbn in T; rewrite Pl in T; try discriminate; injection T as <- <-.
    + apply heeded_none; reflexivity.
    + apply heeded_cons; [reflexivity|]. apply (leave_heeded Killed s).
  - destruct e as [[|f] []|g| |[]|res|res|res| |]; cbn [advance] in T; rewrite Pl in T; try discriminate.
    + destruct (take g s) as [s1 o1] eqn:Tk. injection T as <- <-.
      destruct g as [|w|id r| |]; cbn [take] in Tk.
      * unfold open_up in Tk. match type of Tk with context[deal ?a ?b ?c] => pose proof (deal_heeded a b c) as D; destruct (deal a b c) end.
        injection Tk as <- <-. apply (heeded_app [_; _]); [apply heeded_pair; reflexivity|exact D].
      * apply heeded_cons; [reflexivity|]. cbn [t_finished t_place t_buffer t_count] in Tk.
        destruct (negb w && negb (t_finished s)); [injection Tk as <- <-; apply heeded_none; reflexivity|].
        change o1 with (snd (s1, o1)). rewrite <- Tk. apply deal_heeded.
      * injection Tk as <- <-. apply heeded_none. reflexivity.
      * apply heeded_cons; [reflexivity|]. change o1 with (snd (s1, o1)). rewrite <- Tk. apply deal_heeded.
      * apply heeded_cons; [reflexivity|]. change o1 with (snd (s1, o1)). rewrite <- Tk. apply deal_heeded.
    + unfold unwind in T. injection T as <- <-. apply heeded_cons; [reflexivity|]. apply (unwind_heeded s).
    + cbn [runs] in T. unfold leave in T. injection T as <- <-. apply cut_heeded. apply (leave_heeded Killed s).
  - destruct e as [[|f] []|g| |[|f]|res|res|res| |]; cbn [advance] in T; rewrite Pl in T; try discriminate.
    + pose proof (deal_heeded rest st s) as D. destruct (deal rest st s) as [s1 o1]. injection T as <- <-. now apply heeded_cons.
    + pose proof (shut_heeded (Panicked f) s) as D. destruct (shut (Panicked f) s) as [s1 o1]. injection T as <- <-.
      apply heeded_cons; [reflexivity|]. now apply heeded_dropped.
    + pose proof (leave_heeded Killed s) as D. destruct (leave Killed s) as [s1 o1]. injection T as <- <-.
      apply cut_heeded. now apply heeded_dropped.
  - destruct e as [[|f] []|g| |[|f]|res|res|res| |]; cbn [advance] in T; rewrite Pl in T; try discriminate.
    + injection T as <- <-. apply heeded_none. reflexivity.
    + pose proof (leave_heeded Killed s) as D. destruct (leave Killed s) as [s1 o1]. injection T as <- <-. now apply cut_heeded.
  - destruct e as [[|f] []|g| |[|f]|res|res|res| |]; cbn [advance] in T; rewrite Pl in T; try discriminate.
    + injection T as T. change o with (snd (s', o)). rewrite <- T.
      destruct fres as [[|r0]|f]; [apply heeded_none; reflexivity|apply shut_heeded|apply (shut_heeded (Panicked f) s)].
    + pose proof (leave_heeded Killed s) as D. destruct (leave Killed s) as [s1 o1]. injection T as <- <-. now apply heeded_cons.
  - destruct e as [[|f0] []|g| |[|f0]|res|res|res| |]; try (cbn [advance] in T; rewrite Pl in T; discriminate).
    + cbn [advance] in T. rewrite Pl in T.
      destruct res as [[|r0]|[e|e]]; [destruct sf|destruct sf|destruct sf|]; injection T as <- <-; try (apply heeded_none; reflexivity);
        (apply heeded_cons; [reflexivity|]).
      * apply (leave_heeded r0 s).
      * apply (leave_heeded (Panicked (FErr e)) s).
      * apply (unwind_heeded s).
    + destruct sf; cbn [advance] in T; rewrite Pl in T; [discriminate|].
      pose proof (leave_heeded Killed s) as D. destruct (leave Killed s) as [s1 o1]. injection T as <- <-. now apply cut_heeded.
  - destruct e as [[|f0] []|g| |[|f0]|res|res|res| |]; cbn [advance] in T; rewrite Pl in T; try discriminate.
    destruct res as [|[e|e]]; injection T as <- <-; (apply heeded_cons; [reflexivity|]); [| |apply (unwind_heeded s)].
    1,2: destruct lk; [apply heeded_pair; reflexivity|apply heeded_none; reflexivity].
  - destruct e as [[|] []|g| |[]|res|res|res| |]; cbn in T; rewrite Pl in T; discriminate.
Qed.

Lemma run_heeded : forall es s h, run_task es = Some (s, h) -> heeded h.
Proof.
  intros es s h T. unfold run_task in T. destruct (advances task_new es) as [[s1 o]|] eqn:A; [|discriminate].
  assert (H : forall es s s' o, advances s es = Some (s', o) -> heeded o).
  { clear. induction es as [|e es IH]; intros s s' o A; cbn in A; [injection A as <- <-; apply heeded_none; reflexivity|].
    destruct (advance s e) as [[s1 o1]|] eqn:E; [|discriminate]. destruct (advances s1 es) as [[s2 o2]|] eqn:F; [|discriminate].
    injection A as <- <-. apply heeded_app; [eapply advance_heeded; eauto|eapply IH; eauto]. }
  apply H in A. injection T as -> <-. apply (heeded_cons (Began HStart)); [reflexivity|exact A].
Qed.

(** Nothing is called once [on_stop] was called. *)
Theorem stop_once_last : forall es s h1 r h2 o, run_task es = Some (s, h1 ++ Began (HStop r) :: h2) -> In o h2 ->
  (exists res, o = Stopped res) \/ o = Told r \/ o = Returned r \/ o = Crashed.
Proof.
  intros es s h1 r h2 o T I. pose proof (run_legal _ _ _ T) as A. apply in_split in I as (a & b & ->).
  destruct (A (h1 ++ Began (HStop r) :: a) o b) as (L & _ & S); [now rewrite <- app_assoc|].
  assert (St : stopping (h1 ++ Began (HStop r) :: a)) by (exists r; apply in_elt).
  assert (Same : forall r', In (Began (HStop r')) (h1 ++ Began (HStop r) :: a) -> r' = r).
  { clear L S St. intros r' L. apply in_app_iff in L as [L|[L|L]]; [|now injection L|].
    - exfalso. apply in_split in L as (c & d & E). rewrite E in A.
      destruct (A (c ++ Began (HStop r') :: d) (Began (HStop r)) (a ++ o :: b)) as (_ & _ & S'); [now rewrite <- app_assoc|].
      apply S'. exists r'. apply in_elt.
    - exfalso. apply in_split in L as (c & d & E). rewrite E in A.
      destruct (A (h1 ++ Began (HStop r) :: c) (Began (HStop r')) (d ++ o :: b)) as (_ & _ & S'); [|apply S'; exists r; apply in_elt].
      clear. repeat (rewrite <- app_assoc || (progress cbn [app])). reflexivity. }
  specialize (S St). destruct o as [| | | | | | | |res| | | | |r'| | |r']; try contradiction; eauto.
  - right. right. left. destruct L as [L _]. f_equal. now apply Same.
  - right. left. destruct L as [L _]. f_equal. apply Same.
    apply in_split in L as (c & d & E). pose proof (run_heeded _ _ _ T) as H.
    destruct (H c (Took r') (d ++ Told r' :: b) (Began (HStop r'))) as (d' & E'); [|reflexivity|].
    + change (h1 ++ Began (HStop r) :: a ++ Told r' :: b) with (h1 ++ (Began (HStop r) :: a) ++ Told r' :: b).
      rewrite app_assoc, E, <- app_assoc. reflexivity.
    + rewrite E. destruct d as [|y d]; cbn in E'; [discriminate|]. injection E' as -> _. apply in_app_iff. right. right. now left.
Qed.

(** The task returns after [on_stop], and panics only if [next], [on_panic] or [on_stop] does. *)
Theorem returned : forall es s h1 r h2, run_task es = Some (s, h1 ++ Returned r :: h2) ->
  In (Began (HStop r)) h1 /\ (exists res, last_end h1 = Some (Stopped res) /\ uncaught (Stopped res) = false) /\
  (start_failed h1 = None <-> exists h0, h1 = h0 ++ [Told r]).
Proof.
  intros es s h1 r h2 T. apply run_legal in T. destruct (T h1 _ h2 eq_refl) as [(L1 & L2 & L3) _].
  split; [exact L1|]. split; [exact L3|]. split; [exact L2|]. intros (h0 & ->).
  destruct (T h0 (Told r) (Returned r :: h2)) as [(S & S2 & _) _]; [now rewrite <- app_assoc|].
  destruct h0 as [|a [|b h0]]; [reflexivity|destruct a as [[]| | | | | | | | | | | | | | | |]; reflexivity|]. exact S2.
Qed.

Theorem crashed : forall es s h1 h2, run_task es = Some (s, h1 ++ Crashed :: h2) ->
  exists e, last_end h1 = Some e /\ uncaught e = true.
Proof. intros es s h1 h2 T. apply run_legal in T. destruct (T h1 _ h2 eq_refl) as [[_ L] _]. exact L. Qed.

(** The links are taken right before [on_stop], unless the start failed. *)
Theorem took : forall es s h1 r h2, run_task es = Some (s, h1 ++ Began (HStop r) :: h2) ->
  start_failed h1 = None <-> exists h0, h1 = h0 ++ [Took r].
Proof.
  intros es s h1 r h2 T. apply run_legal in T. destruct (T h1 _ h2 eq_refl) as [(_ & _ & _ & L) _]. split; [exact L|].
  intros (h0 & ->). destruct (T h0 (Took r) (Began (HStop r) :: h2)) as [(S & _) _]; [now rewrite <- app_assoc|].
  destruct h0 as [|a [|b h0]]; [reflexivity|destruct a as [[]| | | | | | | | | | | | | | | |]; reflexivity|]. exact S.
Qed.

(** After a stop was given [next] is asked again only if [on_panic] let the actor go on after
    a failed handler. *)
Theorem stop_heeded : forall es s h1 h2, run_task es = Some (s, h1 ++ Began HNext :: h2) -> stop_given h1 = true -> resumed h1.
Proof. intros es s h1 h2 T G. apply run_legal in T. destruct (T h1 _ h2 eq_refl) as [(_ & _ & _ & L) _]. now apply L. Qed.

Lemma advances_app : forall es es' s s1 o1, advances s es = Some (s1, o1) ->
  advances s (es ++ es') = match advances s1 es' with Some (s2, o2) => Some (s2, o1 ++ o2) | None => None end.
Proof.
  induction es as [|e es IH]; intros es' s s1 o1 A; cbn in A.
  - injection A as <- <-. cbn. destruct (advances s es') as [[]|]; reflexivity.
  - destruct (advance s e) as [[s2 o2]|] eqn:E; [|discriminate]. destruct (advances s2 es) as [[s3 o3]|] eqn:F; [|discriminate].
    injection A as <- <-. cbn. rewrite E, (IH _ _ _ _ F). destruct (advances s3 es') as [[]|]; [|reflexivity]. now rewrite app_assoc.
Qed.

(** While a hook runs the task waits for it, and takes every way in which it can end. *)
Lemma inv_runs : forall s h, inv s h -> running h = Some (runs (t_place s)).
Proof.
  intros s h V. unfold inv in V. destruct (t_place s) as [| | |k rest st|id r|fres|f [|]|r lk|]; try (exact (proj1 (proj2 V))).
  - destruct V as [_ ->]. reflexivity.
  - destruct V as [_ ->]. reflexivity.
Qed.

Theorem goes_on : forall es s h x o, run_task es = Some (s, h) -> running h = Some (Some x) -> same_hook o x = true ->
  exists e s' h', run_task (es ++ [e]) = Some (s', h ++ o :: h').
Proof.
  intros es s h x o T R K. pose proof (inv_runs _ _ (run_inv _ _ _ T)) as R'. rewrite R' in R. injection R as R.
  assert (Step : forall e s' o', advance s e = Some (s', o :: o') -> exists s' h', run_task (es ++ [e]) = Some (s', h ++ o :: h')).
  { intros e s' o' A. exists s', o'. unfold run_task in *. destruct (advances task_new es) as [[s1 o1]|] eqn:As; [|discriminate].
    injection T as -> <-. rewrite (advances_app _ _ _ _ _ As). cbn. rewrite A. cbn. rewrite app_nil_r. reflexivity. }
  destruct (t_place s) as [| | |k rest st|id r|fres|f sf|r lk|] eqn:Pl; cbn in R; try discriminate; injection R as <-; destruct o as [x|x|res|g| |k' res|res|res|res| | |d|r'|r'| | |r']; try discriminate.
  - exists (DStart res true). destruct res; eapply Step; cbn; rewrite Pl; reflexivity.
  - exists (DNext g). destruct (take g s) as [s1 o1] eqn:E. eapply Step. cbn [advance]. rewrite Pl, E. reflexivity.
  - exists DNextPanic. eapply Step. cbn. rewrite Pl. reflexivity.
  - apply Nat.eqb_eq in K. subst k'. exists (DHandled res). destruct res as [|f].
    + destruct (deal rest st s) as [s1 o1] eqn:E. eapply Step. cbn [advance]. rewrite Pl, E. reflexivity.
    + eapply Step. cbn. rewrite Pl. reflexivity.
  - exists (DLink res). eapply Step. cbn [advance]. rewrite Pl. reflexivity.
  - exists (DPanic res). destruct res as [[|r0]|[e|e]], sf; eapply Step; cbn [advance]; rewrite Pl; reflexivity.
  - exists (DStop res). destruct res as [|[e|e]]; eapply Step; cbn [advance]; rewrite Pl; reflexivity.
Qed.

(** While none runs the task is over or goes on by itself. *)
Theorem goes_on_alone : forall es s h, run_task es = Some (s, h) -> running h = Some None ->
  (exists h0 o, h = h0 ++ [o] /\ (o = Crashed \/ exists r, o = Returned r)) \/
  exists s' h' x, run_task (es ++ [DOn]) = Some (s', h ++ h' ++ [Began x]) /\
    forall o, In o h' -> (exists k, o = Dropped k) \/ exists r, o = Took r.
Proof.
  intros es s h T R. pose proof (run_inv _ _ _ T) as V. pose proof (inv_runs _ _ V) as R'. rewrite R' in R. injection R as R.
  assert (Step : forall s' o' x, advance s DOn = Some (s', o' ++ [Began x]) -> (forall o, In o o' -> (exists k, o = Dropped k) \/ exists r, o = Took r) ->
    exists s' h' x, run_task (es ++ [DOn]) = Some (s', h ++ h' ++ [Began x]) /\ forall o, In o h' -> (exists k, o = Dropped k) \/ exists r, o = Took r).
  { intros s' o' x A Q. exists s', o', x. split; [|exact Q]. unfold run_task in *. destruct (advances task_new es) as [[s1 o1]|] eqn:As; [|discriminate].
    injection T as -> <-. rewrite (advances_app _ _ _ _ _ As). cbn [advances]. rewrite A. cbn. rewrite app_nil_r. reflexivity. }
  assert (Lv : forall r, advance s DOn = Some (leave r s) ->
    exists s' h' x, run_task (es ++ [DOn]) = Some (s', h ++ h' ++ [Began x]) /\ forall o, In o h' -> (exists k, o = Dropped k) \/ exists r, o = Took r).
  { intros r A. apply (Step (fst (leave r s)) (map Dropped (t_buffer s) ++ [Took r]) (HStop r)); [rewrite A; cbn; now rewrite <- app_assoc|].
    intros o I. apply in_app_iff in I as [I|[<-|[]]]; [left|right; eauto]. apply in_map_iff in I as (k & <- & _). eauto. }
  destruct (t_place s) as [| | |k rest st|id r|fres|f sf|r lk|] eqn:Pl; cbn in R; try discriminate.
  - right. apply (Step (at_place QNext s) [] HNext); [cbn; rewrite Pl; reflexivity|intros o []].
  - right. destruct fres as [[|r]|f].
    + apply (Step (at_place QNext s) [] HNext); [cbn; rewrite Pl; reflexivity|intros o []].
    + destruct r; try (eapply Lv; cbn [advance]; rewrite Pl; reflexivity).
      apply (Step (at_place (QPanic f false) s) [] (HPanic f)); [cbn; rewrite Pl; reflexivity|intros o []].
    + apply (Step (at_place (QPanic f false) s) [] (HPanic f)); [cbn; rewrite Pl; reflexivity|intros o []].
  - left. unfold inv in V. rewrite Pl in V. tauto.
Qed.

(** A kill cuts what runs; it is without effect on [on_start], [on_stop] and the [on_panic] of a
    failed start. *)
Theorem killed : forall es s h x, run_task es = Some (s, h) -> running h = Some (Some x) ->
  match x with HStart | HStop _ => False | HPanic _ => start_failed h = None | _ => True end <->
  exists s' h', run_task (es ++ [DKill]) = Some (s', h ++ Cut x :: h').
Proof.
  intros es s h x T R. pose proof (run_inv _ _ _ T) as V. pose proof (inv_runs _ _ V) as R'. rewrite R' in R. injection R as R.
  assert (Step : (exists s' o', advance s DKill = Some (s', Cut x :: o')) <-> exists s' h', run_task (es ++ [DKill]) = Some (s', h ++ Cut x :: h')).
  { unfold run_task in *. destruct (advances task_new es) as [[s1 o1]|] eqn:As; [|discriminate].
    injection T as -> <-. rewrite (advances_app _ _ _ _ _ As). cbn [advances]. destruct (advance s DKill) as [[s' o']|] eqn:A.
    - split; [intros (s2 & o2 & [= -> ->]); exists s2, o2; cbn; now rewrite app_nil_r|].
      intros (s2 & h2 & E). injection E as -> E. rewrite app_nil_r in E. apply app_inv_head in E. subst. eauto.
    - split; [intros (? & ? & E); discriminate|intros (? & ? & E); discriminate]. }
  rewrite <- Step. clear Step.
  destruct (t_place s) as [| | |k rest st|id r|fres|f sf|r lk|] eqn:Pl; cbn in R; try discriminate; injection R as <-.
  1,6: split; [contradiction|intros (? & ? & E); cbn in E; rewrite Pl in E; discriminate].
  1-3: split; [intros _|auto]; cbn [advance]; rewrite Pl; cbn [runs]; eexists _, _; reflexivity.
  destruct sf.
  - unfold inv in V. rewrite Pl in V. destruct V as [_ ->]. split; [discriminate|]. intros (? & ? & E). cbn in E. rewrite Pl in E. discriminate.
  - unfold inv in V. rewrite Pl in V. destruct V as [B _]. split; [intros _|intros _; apply (b_ok _ _ _ B)].
    cbn [advance]. rewrite Pl. cbn [runs]. eexists _, _. reflexivity.
Qed.

(** The loop is dropped while a hook of it runs, before it was entered, or after [on_link_died]. *)
Theorem aborted : forall es s h1 h2, run_task es = Some (s, h1 ++ Aborted :: h2) ->
  running h1 = Some None /\ start_failed h1 = None /\
  exists e, last_end h1 = Some e /\ match e with Cut _ | Started HookOk | LinkDone _ => True | _ => False end.
Proof. intros es s h1 h2 T. apply run_legal in T. destruct (T h1 _ h2 eq_refl) as [L _]. exact L. Qed.

(** Who waits for the startup is let go when [next] gives the startup signal, or the start fails. *)
Theorem ready_only : forall es s h1 h2, run_task es = Some (s, h1 ++ Ready :: h2) ->
  exists h0 e, h1 = h0 ++ [e] /\ (e = Gave GStartup \/ exists f, e = Started (HookFail f)).
Proof. intros es s h1 h2 T. apply run_legal in T. destruct (T h1 _ h2 eq_refl) as [L _]. exact L. Qed.

Theorem ready : forall es s h1 z h2, run_task es = Some (s, h1 ++ z :: h2) ->
  z = Gave GStartup \/ (exists f, z = Started (HookFail f)) -> exists h3, h2 = Ready :: h3.
Proof.
  intros es s h1 z h2 T Z. apply run_heeded in T. apply (T h1 z h2 _ eq_refl). destruct Z as [->|(f & ->)]; reflexivity.
Qed.

Theorem took_then : forall es s h1 r h2, run_task es = Some (s, h1 ++ Took r :: h2) -> exists h3, h2 = Began (HStop r) :: h3.
Proof. intros es s h1 r h2 T. apply run_heeded in T. apply (T h1 _ h2 _ eq_refl). reflexivity. Qed.

Theorem cut_then : forall es s h1 x h2, run_task es = Some (s, h1 ++ Cut x :: h2) -> exists h3, h2 = Aborted :: h3.
Proof. intros es s h1 x h2 T. apply run_heeded in T. apply (T h1 _ h2 _ eq_refl). reflexivity. Qed.

(** They are told after an [on_stop] that did not panic, and then the task returns. *)
Theorem told : forall es s h1 r h2, run_task es = Some (s, h1 ++ Told r :: h2) ->
  h2 = [Returned r] /\ In (Took r) h1 /\ exists res, last_end h1 = Some (Stopped res) /\ uncaught (Stopped res) = false.
Proof.
  intros es s h1 r h2 T. destruct (run_heeded _ _ _ T h1 _ h2 _ eq_refl eq_refl) as (c & ->).
  pose proof (run_legal _ _ _ T h1 _ _ eq_refl) as [(L1 & _ & L2) _]. split; [|auto]. f_equal.
  apply (over_last es s (h1 ++ [Told r]) (Returned r) c); [now rewrite <- app_assoc|right; eauto].
Qed.

(** Nobody is told if the task panics. *)
Theorem crash_untold : forall es s h r, run_task es = Some (s, h ++ [Crashed]) -> ~ In (Told r) h.
Proof.
  intros es s h r T I. apply in_split in I as (a & b & ->). rewrite <- app_assoc in T. cbn in T. apply told in T as [E _].
  destruct b as [|y b]; [discriminate|]. injection E as _ E. destruct b; discriminate.
Qed.

(** ** What does not hold *)

(** [on_stop] is not called if [next] panics, and nobody linked is told. *)
Theorem next_panic : forall es s h, run_task es = Some (s, h) -> running h = Some (Some HNext) ->
  exists s' ks, run_task (es ++ [DNextPanic]) = Some (s', h ++ NextPanicked :: map Dropped ks ++ [Crashed]) /\
    ~ stopping (h ++ NextPanicked :: map Dropped ks ++ [Crashed]) /\
    forall r, ~ In (Told r) (h ++ NextPanicked :: map Dropped ks ++ [Crashed]).
Proof.
  intros es s h T R. pose proof (run_inv _ _ _ T) as V. pose proof (inv_runs _ _ V) as R'. rewrite R' in R.
  destruct (t_place s) eqn:Pl; try discriminate. pose proof V as V0. unfold inv in V0. rewrite Pl in V0. destruct V0 as (B & _).
  assert (Q : forall r, ~ In (Began (HStop r)) (NextPanicked :: map Dropped (t_buffer s) ++ [Crashed])).
  { intros r [I|I]; try discriminate. apply in_app_iff in I as [I|[I|[]]]; [|discriminate]. apply in_map_iff in I as (? & I & _). discriminate. }
  assert (T' : run_task (es ++ [DNextPanic]) = Some (fst (unwind s), h ++ NextPanicked :: map Dropped (t_buffer s) ++ [Crashed])).
  { unfold run_task in *. destruct (advances task_new es) as [[s1 o1]|] eqn:As; [|discriminate].
    injection T as -> <-. rewrite (advances_app _ _ _ _ _ As). cbn [advances advance]. rewrite Pl. cbn. rewrite app_nil_r. reflexivity. }
  exists (fst (unwind s)), (t_buffer s). split; [exact T'|split].
  - intros (r & I). apply in_app_iff in I as [I|I]; [|destruct (Q r I)]. apply (b_nostop _ _ _ B). now exists r.
  - intros r I. rewrite app_comm_cons, app_assoc in T', I. apply in_app_iff in I as [I|[I|[]]]; [|discriminate].
    now apply (crash_untold _ _ _ r T').
Qed.

(** A [next] that never gives the startup signal nor a stop: what others send is never handled
    nor dropped, while the loop goes on, and nobody who waits for the startup is let go. *)
Definition swallowed (n : nat) : list move := DStart HookOk true :: DOn :: repeat (DNext (GMessage false)) n.

Lemma swallowed_run : forall n, exists h, run_task (swallowed n) = Some (mk_task QNext false (seq 0 n) n, h) /\
  running h = Some (Some HNext) /\ gaves h = repeat (GMessage false) n /\ begun h = [] /\ dropped h = [] /\ ~ In Ready h.
Proof.
  induction n as [|n (h & T & R & L & B & D & N)].
  - eexists. split; [reflexivity|]. cbn. repeat (split; [reflexivity|]). intros [H|[H|[H|[]]]]; discriminate.
  - exists (h ++ [Gave (GMessage false); Began HNext]).
    split; [|rewrite gaves_app, begun_app, dropped_app, L, B, D; cbn [gaves begun dropped flat_map app]; split; [|split; [symmetry; apply repeat_cons|split; [reflexivity|split; [reflexivity|]]]]].
    + unfold run_task, swallowed in *. cbn [repeat]. rewrite repeat_cons, !app_comm_cons.
      destruct (advances task_new (DStart HookOk true :: DOn :: repeat (DNext (GMessage false)) n)) as [[s1 o1]|] eqn:As; [|discriminate].
      injection T as -> <-. rewrite (advances_app _ _ _ _ _ As). cbn -[seq]. now rewrite seq_S.
    + rewrite (app_cons _ h), !running_snoc, R. reflexivity.
    + intros I. apply in_app_iff in I as [I|[I|[I|[]]]]; [now apply N|discriminate|discriminate].
Qed.

Theorem swallowing : forall n, exists es s h, run_task es = Some (s, h) /\
  running h = Some (Some HNext) /\ gaves h = repeat (GMessage false) n /\ begun h = [] /\ dropped h = [] /\ ~ In Ready h.
Proof. intros n. destruct (swallowed_run n) as (h & T & K). exists (swallowed n), (mk_task QNext false (seq 0 n) n), h. auto. Qed.
