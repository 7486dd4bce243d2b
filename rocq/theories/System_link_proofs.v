(** Consequences of the invariants of System_proofs.v about links: symmetry,
    idempotence, late and stale links, [spawn_link]. *)
From Coq Require Import List Bool PeanoNat Relations Lia.
From Verif Require Import System System_spec System_proofs.
Import ListNotations.

Lemma left_of_drained : forall s t a r l, reach s t -> In (ODrained a r l) t -> In (OLeft a r) t.
Proof.
  intros s t a r l R D. pose proof (told_inv _ _ R a) as T. apply in_drains in D. apply in_lefts.
  unfold told_ok in T.
  destruct (ph (s a)); try (destruct T as (T & _); rewrite T in D; contradiction).
  - destruct T as (T & _ & L & _). rewrite T in D. destruct D as [D|[]]. inversion D; subst.
    rewrite L. left. reflexivity.
  - destruct T as (l0 & T & L & _). rewrite T in D. destruct D as [D|[]]. inversion D; subst.
    rewrite L. left. reflexivity.
  - destruct T as [(_ & T & _)|(_ & L & l0 & T & _)].
    + rewrite T in D. contradiction.
    + rewrite T in D. destruct D as [D|[]]. inversion D; subst. rewrite L. left. reflexivity.
  - destruct T as (_ & [[T _]|(_ & r0 & l0 & T & L)]); rewrite T in D; [contradiction|].
    destruct D as [D|[]]. inversion D; subst. rewrite L. left. reflexivity.
Qed.

(** Irreflexive, without repetition *)
Lemma links_shape : forall es s t a, srun sinit es = Some (s, t) ->
  NoDup (links (s a)) /\ ~ In a (links (s a)).
Proof.
  intros es s t a H. destruct (links_inv _ _ (srun_reach _ _ _ H) a) as (N & I & _). auto.
Qed.

(** As long as neither has left its loop only calls of link and unlink count. *)
Lemma linked_by_calls : forall es s t a b, srun sinit es = Some (s, t) ->
  (forall r, ~ In (OLeft a r) t) -> (forall r, ~ In (OLeft b r) t) ->
  In b (links (s a)) <-> last_call_links t a b.
Proof.
  intros es s t a b H LA LB. rewrite (links_exact _ _ _ a b H). pose proof (srun_reach _ _ _ H) as R.
  split.
  - intros (t1 & o & t2 & E & L & U). exists t1, o, t2. repeat split; auto; intro I; apply (U _ I); constructor.
  - intros (t1 & o & t2 & E & L & U1 & U2). exists t1, o, t2. repeat split; auto.
    intros o' I U. assert (J : In o' t) by (rewrite E; apply in_or_app; right; right; exact I).
    destruct U.
    + contradiction.
    + contradiction.
    + apply (LA r). eapply left_of_drained; eauto.
    + apply (LB r). eapply handled_true; eauto.
Qed.

Lemma last_call_sym : forall t a b, last_call_links t a b -> last_call_links t b a.
Proof. intros t a b (t1 & o & t2 & E & L & U1 & U2). exists t1, o, t2. tauto. Qed.

Lemma links_symmetric : forall es s t a b, srun sinit es = Some (s, t) ->
  (forall r, ~ In (OLeft a r) t) -> (forall r, ~ In (OLeft b r) t) ->
  In b (links (s a)) <-> In a (links (s b)).
Proof.
  intros es s t a b H LA LB. rewrite (linked_by_calls _ _ _ a b H LA LB), (linked_by_calls _ _ _ b a H LB LA).
  split; apply last_call_sym.
Qed.

(** Repeating a call changes nothing *)
Lemma add_add : forall b l, add_link b (add_link b l) = add_link b l.
Proof.
  intros b l. unfold add_link at 1. change (existsb (Nat.eqb b) (add_link b l)) with (mem b (add_link b l)).
  rewrite mem_add, Nat.eqb_refl. reflexivity.
Qed.
Lemma del_del : forall b l, del_link b (del_link b l) = del_link b l.
Proof.
  intros b l. unfold del_link. induction l as [|c l IH]; cbn; [reflexivity|].
  destruct (negb (c =? b)) eqn:E; cbn; rewrite ?E, IH; reflexivity.
Qed.

Lemma set_links_twice : forall l m x, set_links l (set_links m x) = set_links l x.
Proof. reflexivity. Qed.

Ltac again L :=
  let c := fresh "c" in
  do 2 eexists; split; [reflexivity|]; intro c; cbn beta;
  repeat match goal with
  | |- context [?u =? ?u] => rewrite (Nat.eqb_refl u)
  | |- context [?u =? ?w] => destruct (Nat.eqb_spec u w); subst
  end; try congruence; try reflexivity;
  cbn [links set_links]; rewrite L; reflexivity.

Lemma link_again : forall s a b s1 o1 x y, sstep s (ELink a b) = Some (s1, o1) -> same_pair a b x y ->
  exists s2 o2, sstep s1 (ELink x y) = Some (s2, o2) /\ forall c, s2 c = s1 c.
Proof.
  intros s a b s1 o1 x y H P. cbn [sstep] in H.
  destruct (is_absent (s a)) eqn:A; [discriminate|]. destruct (is_absent (s b)) eqn:B; [discriminate|].
  cbn [orb] in H. destruct (Nat.eqb_spec a b) as [->|N].
  - inversion H; subst. destruct P as [[-> ->]|[-> ->]]; cbn [sstep]; rewrite B, Nat.eqb_refl; cbn [orb]; eauto.
  - inversion H; subst. clear H.
    destruct P as [[-> ->]|[-> ->]]; cbn [sstep]; unfold is_absent, upd in *.
    + rewrite !Nat.eqb_refl. destruct (Nat.eqb_spec a b); [congruence|]. destruct (Nat.eqb_spec b a); [congruence|].
      cbn [ph set_links]. rewrite A, B. cbn [orb]. again add_add.
    + rewrite !Nat.eqb_refl. destruct (Nat.eqb_spec a b); [congruence|]. destruct (Nat.eqb_spec b a); [congruence|].
      cbn [ph set_links]. rewrite A, B. cbn [orb]. again add_add.
Qed.

Lemma unlink_again : forall s a b s1 o1 x y, sstep s (EUnlink a b) = Some (s1, o1) -> same_pair a b x y ->
  exists s2 o2, sstep s1 (EUnlink x y) = Some (s2, o2) /\ forall c, s2 c = s1 c.
Proof.
  intros s a b s1 o1 x y H P. cbn [sstep] in H.
  destruct (is_absent (s a)) eqn:A; [discriminate|]. destruct (is_absent (s b)) eqn:B; [discriminate|].
  cbn [orb] in H. destruct (Nat.eqb_spec a b) as [->|N].
  - inversion H; subst. destruct P as [[-> ->]|[-> ->]]; cbn [sstep]; rewrite B, Nat.eqb_refl; cbn [orb]; eauto.
  - inversion H; subst. clear H.
    destruct P as [[-> ->]|[-> ->]]; cbn [sstep]; unfold is_absent, upd in *.
    + rewrite !Nat.eqb_refl. destruct (Nat.eqb_spec a b); [congruence|]. destruct (Nat.eqb_spec b a); [congruence|].
      cbn [ph set_links]. rewrite A, B. cbn [orb]. again del_del.
    + rewrite !Nat.eqb_refl. destruct (Nat.eqb_spec a b); [congruence|]. destruct (Nat.eqb_spec b a); [congruence|].
      cbn [ph set_links]. rewrite A, B. cbn [orb]. again del_del.
Qed.

Lemma self_link_nothing : forall s a s' o,
  sstep s (ELink a a) = Some (s', o) \/ sstep s (EUnlink a a) = Some (s', o) -> s' = s /\ o = [].
Proof.
  intros s a s' o [H|H]; cbn [sstep] in H; destruct (is_absent (s a)); cbn [orb] in H; try discriminate;
    rewrite Nat.eqb_refl in H; inversion H; auto.
Qed.

(** A link made after the dying actor took its links down is never told. *)
Lemma late_link : forall es s t a b r l, srun sinit es = Some (s, t) ->
  In (ODrained a r l) t -> ~ In b l -> forall q, ~ In (OPush b (SLinkDied a q)) t.
Proof.
  intros es s t a b r l H D N q I. pose proof (srun_reach _ _ _ H) as R.
  apply in_split in I. destruct I as (t1 & t2 & E).
  destruct (report_reason _ _ _ _ _ _ _ _ H E) as ((l0 & D0 & I0) & _).
  assert (D1 : In (ODrained a q l0) t) by (rewrite E; apply in_or_app; left; exact D0).
  apply in_drains in D, D1. pose proof (drains_single _ _ a R) as S.
  destruct (drains a t) as [|e [|e' m]]; cbn in S; [contradiction| |lia].
  destruct D as [D|[]], D1 as [D1|[]]. rewrite D in D1. inversion D1; subst. contradiction.
Qed.

(** The parent of an actor whose [on_start] failed keeps the link. *)
Lemma failed_never_left : forall s t a, reach s t -> In (OStarted a false) t -> forall r, ~ In (OLeft a r) t.
Proof.
  intros s t a R F r I. apply in_fails in F. apply in_lefts in I. pose proof (told_inv _ _ R a) as T.
  pose proof (starts_inv _ _ R a) as ST. unfold told_ok, starts_ok in *. apply in_fails, in_starts in F.
  assert (FF : fails a t = true) by (apply in_fails, in_starts; exact F).
  destruct (ph (s a)).
  1-4: destruct T as (_ & _ & T & _); rewrite T in I; contradiction.
  - destruct T as (_ & _ & T & _); rewrite T in I; contradiction.
  - destruct T as (_ & _ & _ & T). congruence.
  - destruct T as (_ & _ & _ & T & _). congruence.
  - destruct T as (l & _ & _ & T & _). congruence.
  - destruct T as [(_ & _ & T & _)|(T & _)]; [rewrite T in I; contradiction|congruence].
  - destruct T as (_ & [[_ T]|(T & _)]); [rewrite T in I; contradiction|congruence].
Qed.

Lemma stale_link : forall es s t a b, srun sinit es = Some (s, t) ->
  In (OStarted a false) t -> last_call_links t b a -> (forall r, ~ In (OLeft b r) t) ->
  In a (links (s b)).
Proof.
  intros es s t a b H F L LB. pose proof (srun_reach _ _ _ H) as R.
  apply (linked_by_calls _ _ _ b a H LB); [eapply failed_never_left; eauto|exact L].
Qed.

(** What one mailbox gets is handled in that order. *)
Lemma in_order : forall es s t b, srun sinit es = Some (s, t) ->
  exists rest, pushed b t = taken b t ++ rest /\ (open (s b) = true -> rest = queue (s b)).
Proof.
  intros es s t b H. destruct (queue_inv _ _ (srun_reach _ _ _ H) b) as [_ Q].
  destruct (open (s b)); [exists (queue (s b)); auto|]. destruct Q as [rest Q]. exists rest. split; [exact Q|discriminate].
Qed.

(** Both ends of a link that was there in time and never taken down. *)
Lemma good_link_told : forall es s t a b r, srun sinit es = Some (s, t) ->
  linked_for_good t a b -> In (OLeft a r) t -> In (OClosed a) t -> ph (s a) <> Crashed ->
  ph (s b) = Running -> refd (s b) = true ->
  reports a b t = [r].
Proof.
  intros es s t a b r H L I C NC PB RB. pose proof (srun_reach _ _ _ H) as R.
  assert (D : exists l, In (ODrained a r l) t).
  { pose proof (told_inv _ _ R a) as T. pose proof (closed_inv _ _ R a) as CI.
    apply in_closes in C. rewrite C in CI. unfold is_over in CI. unfold told_ok in T. apply in_lefts in I.
    destruct (ph (s a)); try discriminate; [|congruence].
    destruct T as [(_ & _ & T & _)|(_ & L1 & l & D & _)]; [rewrite T in I; contradiction|].
    rewrite L1 in I. destruct I as [->|[]]. exists l. apply in_drains. rewrite D. left. reflexivity. }
  destruct D as [l D].
  assert (J : In b l).
  { destruct (good_link_drained _ _ _ _ _ _ _ H L D) as [J|(r' & v & J)]; [exact J|].
    exfalso. apply (left_not_running _ _ b r' R); [eapply handled_true; eauto|exact PB]. }
  eapply all_told; eauto. intro CB. apply in_closes in CB.
  pose proof (closed_inv _ _ R b) as CI. rewrite CB in CI. unfold is_over in CI. rewrite PB in CI. discriminate.
Qed.

Lemma not_run_not_drained : forall es s t c, srun sinit es = Some (s, t) -> ~ In (ERun c) es ->
  (ph (s c) = Absent \/ ph (s c) = Prepared).
Proof.
  assert (G : forall es s s' t c, srun s es = Some (s', t) -> ~ In (ERun c) es ->
    ph (s c) = Absent \/ ph (s c) = Prepared -> ph (s' c) = Absent \/ ph (s' c) = Prepared).
  { induction es as [|e es IH]; cbn [srun]; intros s s' t c H N P; [inversion H; subst; exact P|].
    destruct (sstep s e) as [[s1 o1]|] eqn:S1; [|discriminate].
    destruct (srun s1 es) as [[s2 o2]|] eqn:S2; [|discriminate]. inversion H; subst.
    eapply IH; [exact S2|intro I; apply N; right; exact I|].
    assert (NE : e <> ERun c) by (intro; apply N; left; assumption). clear - S1 NE P.
    destruct e; cbn [sstep] in S1; repeat (break_match_in S1; try discriminate S1); inversion S1; subst; clear S1;
      unfold upd; repeat match goal with |- context [c =? ?z] => destruct (Nat.eqb_spec c z); subst end;
      try exact P; cbn; auto; try (destruct P; congruence).
    all: try (match goal with H : notify _ _ _ _ = Some _ |- _ => apply notify_keeps in H; rewrite H; exact P end).
    all: match goal with |- context [if ?u then _ else _] => destruct u end; exact P. }
  intros es s t c H N. eapply G; eauto.
Qed.

Lemma spawn_link_told : forall e1 e2 child parent s t, child <> parent ->
  srun sinit (e1 ++ ELink child parent :: e2) = Some (s, t) ->
  ~ In (ERun child) e1 -> ~ In (EDrain parent) e1 ->
  ~ In (EUnlink child parent) e2 -> ~ In (EUnlink parent child) e2 ->
  forall x y r, same_pair child parent x y ->
    In (OLeft x r) t -> In (OClosed x) t -> ph (s x) <> Crashed ->
    ph (s y) = Running -> refd (s y) = true -> reports x y t = [r].
Proof.
  intros e1 e2 c p s t N H ND1 ND2 U1 U2 x y r P.
  assert (ND : ~ In (EDrain c) e1).
  { intro I. apply in_split in I. destruct I as (u1 & u2 & ->). rewrite <- app_assoc in H. rewrite srun_app in H.
    destruct (srun sinit u1) as [[s1 o1]|] eqn:S1; [|discriminate].
    cbn [app srun sstep] in H.
    destruct (not_run_not_drained _ _ _ c S1) as [E|E]; [intro I; apply ND1, in_or_app; left; exact I| |];
      rewrite E in H; discriminate. }
  destruct (spawn_link_no_gap _ _ _ _ _ _ N H ND ND2 U1 U2) as [G1 G2].
  intros. destruct P as [[-> ->]|[-> ->]]; eapply good_link_told; eauto.
Qed.

(** [spawn_link], its three steps interleaved with anything else. *)
Definition begun (x : actor) : bool :=
  match ph x with Absent | Prepared => false | _ => true end.
Lemma begun_step : forall s e s' o c, sstep s e = Some (s', o) -> begun (s c) = true -> begun (s' c) = true.
Proof.
  intros s e s' o c H B.
  destruct e; cbn [sstep] in H; repeat (break_match_in H; try discriminate H); inversion H; subst; clear H;
    unfold upd; repeat match goal with |- context [c =? ?z] => destruct (Nat.eqb_spec c z); subst end;
    try exact B; try reflexivity;
    try (match goal with |- context [if ?u then _ else _] => destruct u end; try exact B; reflexivity).
  all: try (unfold begun, is_absent in *; cbn; destruct (ph (s a)); cbn in *; congruence).
  all: try (match goal with |- context [after ?v] => destruct v; try reflexivity; exact B end).
  all: try (match goal with H : notify _ _ _ _ = Some _ |- _ => apply notify_keeps in H; unfold begun; rewrite H; exact B end).
  all: match goal with |- context [match ?r with _ => _ end] => destruct r; reflexivity end.
Qed.
Lemma begun_run : forall es s s' t c, srun s es = Some (s', t) -> begun (s c) = true -> begun (s' c) = true.
Proof.
  induction es as [|e es IH]; cbn [srun]; intros s s' t c H B; [inversion H; subst; exact B|].
  destruct (sstep s e) as [[s1 o1]|] eqn:S1; [|discriminate].
  destruct (srun s1 es) as [[s2 o2]|] eqn:S2; [|discriminate]. inversion H; subst.
  eapply IH; eauto. eapply begun_step; eauto.
Qed.
Lemma run_once : forall u v s s' t c, srun s (u ++ ERun c :: v) = Some (s', t) -> ~ In (ERun c) u.
Proof.
  intros u v s s' t c H I. apply in_split in I. destruct I as (u1 & u2 & ->).
  rewrite <- app_assoc in H. cbn [app] in H. rewrite srun_app in H.
  destruct (srun s u1) as [[s1 o1]|]; [|discriminate]. cbn [srun] in H.
  destruct (sstep s1 (ERun c)) as [[s2 o2]|] eqn:S2; [|discriminate].
  assert (B : begun (s2 c) = true).
  { cbn [sstep] in S2. destruct (ph (s1 c)); inversion S2. unfold begun. rewrite upd_same. reflexivity. }
  rewrite srun_app in H. destruct (srun s2 u2) as [[s3 o3]|] eqn:S3; [|discriminate].
  apply (begun_run _ _ _ _ c S3) in B. cbn [srun sstep] in H. unfold begun in B.
  destruct (ph (s3 c)); discriminate.
Qed.

Lemma spawn_link_steps : forall parent child c d x0 x1 x2 u0 u1 u2 u3 s t,
  spawn_link parent child c d = [x0; x1; x2] -> child <> parent ->
  srun sinit (u0 ++ x0 :: u1 ++ x1 :: u2 ++ x2 :: u3) = Some (s, t) ->
  ~ In (EDrain parent) (u0 ++ u1) ->
  ~ In (EUnlink child parent) (u2 ++ u3) -> ~ In (EUnlink parent child) (u2 ++ u3) ->
  forall x y r, same_pair child parent x y ->
    In (OLeft x r) t -> In (OClosed x) t -> ph (s x) <> Crashed ->
    ph (s y) = Running -> refd (s y) = true -> reports x y t = [r].
Proof.
  intros p ch c d x0 x1 x2 u0 u1 u2 u3 s t E N H D U1 U2. inversion E; subst x0 x1 x2.
  rewrite (app_comm_cons u1 _ (ECreate ch c d)), app_assoc in H.
  assert (K : forall z, z <> ERun ch -> In z (u2 ++ ERun ch :: u3) -> In z (u2 ++ u3)).
  { intros z Z I. apply in_app_or in I. apply in_or_app. destruct I as [I|[I|I]]; [auto|congruence|auto]. }
  eapply spawn_link_told; eauto.
  - assert (R : ~ In (ERun ch) ((u0 ++ ECreate ch c d :: u1) ++ ELink ch p :: u2)).
    { rewrite app_comm_cons, app_assoc in H. eapply run_once; eauto. }
    intro I. apply R, in_or_app. left. exact I.
  - intro I. apply D. apply in_app_or in I. apply in_or_app. destruct I as [I|[I|I]]; [auto|discriminate|auto].
  - intro I. apply U1, K; [discriminate|exact I].
  - intro I. apply U2, K; [discriminate|exact I].
Qed.
