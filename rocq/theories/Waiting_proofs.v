(** Proofs about Waiting. *)
From Coq Require Import List Bool PeanoNat Lia.
From Verif Require Import Waiting Waiting_spec.
Import ListNotations.

Definition is (x : actor) (r : option actor) : bool := match r with Some y => x =? y | None => false end.
Definition mine (x : actor) (l : list (option actor)) : nat := length (filter (is x) l).
Definition busyn (x : actor) (d : doing) : nat := match d with Busy r => if is x r then 1 else 0 | _ => 0 end.
Definition own (x : actor) (c : cell) : nat := mine x (box c) + busyn x (does c).
Definition inl (x : actor) (l : list (option actor * bool)) : nat := length (filter (fun e => is x (fst e)) l).
Definition rep (x : option wait) (b : actor) : nat := match x with Some (ForReply b') => if b =? b' then 1 else 0 | _ => 0 end.
Definition roo (x : option wait) (b : actor) : nat := match x with Some (ForRoom b') => if b =? b' then 1 else 0 | _ => 0 end.

#[local] Arguments mine : simpl never.
#[local] Arguments inl : simpl never.

Definition coding (d : doing) : Prop := d <> Idle /\ d <> Gone.

Record good (w : world) : Prop := {
  g_own : forall x b, own x (w b) = rep (waits (w x)) b;
  g_line : forall x b, inl x (line (w b)) = roo (waits (w x)) b;
  g_busy : forall x, waits (w x) <> None -> coding (does (w x));
  g_full : forall b, line (w b) <> [] -> box (w b) <> [];
  g_gone : forall b, does (w b) = Gone -> box (w b) = [] /\ line (w b) = [];
  g_cap : forall b, cap (w b) <> Some 0
}.

Lemma mine_app : forall x l m, mine x (l ++ m) = mine x l + mine x m.
Proof. intros. unfold mine. rewrite filter_app, app_length. reflexivity. Qed.
Lemma inl_app : forall x l m, inl x (l ++ m) = inl x l + inl x m.
Proof. intros. unfold inl. rewrite filter_app, app_length. reflexivity. Qed.
Lemma mine_cons : forall x r l, mine x (r :: l) = (if is x r then 1 else 0) + mine x l.
Proof. intros. unfold mine. cbn. destruct (is x r); reflexivity. Qed.
Lemma inl_cons : forall x e l, inl x (e :: l) = (if is x (fst e) then 1 else 0) + inl x l.
Proof. intros. unfold inl. cbn. destruct (is x (fst e)); reflexivity. Qed.

Lemma is_disown : forall x a r, is x (disown a r) = if x =? a then false else is x r.
Proof.
  intros x a [y|]; cbn; [|destruct (x =? a); reflexivity].
  destruct (Nat.eqb_spec y a), (Nat.eqb_spec x a); subst; cbn; try reflexivity.
  - symmetry. apply Nat.eqb_neq. congruence.
  - apply Nat.eqb_neq. congruence.
Qed.

Lemma mine_disown : forall x a l, mine x (map (disown a) l) = if x =? a then 0 else mine x l.
Proof.
  induction l as [|r l IH]; cbn [map].
  - destruct (x =? a); reflexivity.
  - rewrite !mine_cons, is_disown, IH. destruct (x =? a); reflexivity.
Qed.

Lemma inl_forget : forall x a l,
  inl x (filter (fun e => match fst e with Some y => negb (y =? a) | None => true end) l) = if x =? a then 0 else inl x l.
Proof.
  induction l as [|[[y|] k] l IH].
  - destruct (x =? a); reflexivity.
  - cbn [filter fst]. rewrite (inl_cons x (Some y, k)). cbn [fst is].
    destruct (Nat.eqb_spec y a); cbn [negb].
    + rewrite IH. subst. destruct (Nat.eqb_spec x a); reflexivity.
    + rewrite inl_cons, IH. cbn [fst is]. destruct (Nat.eqb_spec x a); [|reflexivity].
      destruct (Nat.eqb_spec x y); [congruence|reflexivity].
  - cbn [filter fst]. rewrite !inl_cons, IH. cbn [fst is]. destruct (x =? a); reflexivity.
Qed.

Lemma forget_own : forall x a c, own x (forget a c) = if x =? a then 0 else own x c.
Proof.
  intros. unfold own, forget. cbn [box does]. rewrite mine_disown.
  assert (busyn x (match does c with Busy r => Busy (disown a r) | d => d end) = if x =? a then 0 else busyn x (does c)) as ->.
  { destruct (does c) as [| |r| |]; cbn; try (destruct (x =? a); reflexivity). rewrite is_disown. destruct (x =? a); reflexivity. }
  destruct (x =? a); reflexivity.
Qed.

Lemma fresh_good : forall caps sc, (forall a, caps a <> Some 0) -> good (fresh caps sc).
Proof. intros caps sc H. constructor; cbn; try reflexivity; try congruence; auto. Qed.

(** The single changes. *)
Lemma runs_inv : forall c, runs c = true -> coding (does c) /\ waits c = None.
Proof. intros c. unfold runs, coding. destruct (does c), (waits c); try discriminate; repeat split; discriminate. Qed.

Lemma room_inv : forall c, room c = true -> line c = [].
Proof. intros c. unfold room. destruct (line c); [reflexivity|discriminate]. Qed.

Lemma no_room : forall c, room c = false -> cap c <> Some 0 -> (line c <> [] -> box c <> []) -> box c <> [].
Proof.
  intros c H Hc Hf. unfold room in H. destruct (line c) eqn:El.
  - destruct (cap c) as [n|]; [|discriminate]. apply Nat.ltb_ge in H. intros E. rewrite E in H. cbn in H.
    assert (n = 0) by lia. congruence.
  - apply Hf. congruence.
Qed.

(** What a change leaves and what it changes. *)
Lemma aw_box : forall a v w x, box (await a v w x) = box (w x).
Proof. intros. unfold await, change. destruct (x =? a); reflexivity. Qed.
Lemma aw_line : forall a v w x, line (await a v w x) = line (w x).
Proof. intros. unfold await, change. destruct (x =? a); reflexivity. Qed.
Lemma aw_does : forall a v w x, does (await a v w x) = does (w x).
Proof. intros. unfold await, change. destruct (x =? a); reflexivity. Qed.
Lemma aw_cap : forall a v w x, cap (await a v w x) = cap (w x).
Proof. intros. unfold await, change. destruct (x =? a); reflexivity. Qed.
Lemma aw_waits : forall a v w x, waits (await a v w x) = if x =? a then v else waits (w x).
Proof. intros. unfold await, change. destruct (x =? a); reflexivity. Qed.
Lemma en_box : forall r b w x, box (enter r b w x) = if x =? b then box (w x) ++ [r] else box (w x).
Proof. intros. unfold enter, change. destruct (x =? b); reflexivity. Qed.
Lemma en_line : forall r b w x, line (enter r b w x) = line (w x).
Proof. intros. unfold enter, change. destruct (x =? b); reflexivity. Qed.
Lemma en_does : forall r b w x, does (enter r b w x) = does (w x).
Proof. intros. unfold enter, change. destruct (x =? b); reflexivity. Qed.
Lemma en_cap : forall r b w x, cap (enter r b w x) = cap (w x).
Proof. intros. unfold enter, change. destruct (x =? b); reflexivity. Qed.
Lemma en_waits : forall r b w x, waits (enter r b w x) = waits (w x).
Proof. intros. unfold enter, change. destruct (x =? b); reflexivity. Qed.
Lemma st_box : forall r b w x, box (stand r b w x) = box (w x).
Proof. intros. unfold stand, change. destruct (x =? b); reflexivity. Qed.
Lemma st_line : forall r b w x, line (stand r b w x) = if x =? b then line (w x) ++ [r] else line (w x).
Proof. intros. unfold stand, change. destruct (x =? b); reflexivity. Qed.
Lemma st_does : forall r b w x, does (stand r b w x) = does (w x).
Proof. intros. unfold stand, change. destruct (x =? b); reflexivity. Qed.
Lemma st_cap : forall r b w x, cap (stand r b w x) = cap (w x).
Proof. intros. unfold stand, change. destruct (x =? b); reflexivity. Qed.
Lemma st_waits : forall r b w x, waits (stand r b w x) = waits (w x).
Proof. intros. unfold stand, change. destruct (x =? b); reflexivity. Qed.
Lemma do_box : forall d b w x, box (change w b (with_does d) x) = box (w x).
Proof. intros. unfold change. destruct (x =? b); reflexivity. Qed.
Lemma do_line : forall d b w x, line (change w b (with_does d) x) = line (w x).
Proof. intros. unfold change. destruct (x =? b); reflexivity. Qed.
Lemma do_does : forall d b w x, does (change w b (with_does d) x) = if x =? b then d else does (w x).
Proof. intros. unfold change. destruct (x =? b); reflexivity. Qed.
Lemma do_cap : forall d b w x, cap (change w b (with_does d) x) = cap (w x).
Proof. intros. unfold change. destruct (x =? b); reflexivity. Qed.
Lemma do_waits : forall d b w x, waits (change w b (with_does d) x) = waits (w x).
Proof. intros. unfold change. destruct (x =? b); reflexivity. Qed.
Lemma li_box : forall l b w x, box (change w b (with_line l) x) = box (w x).
Proof. intros. unfold change. destruct (x =? b); reflexivity. Qed.
Lemma li_line : forall l b w x, line (change w b (with_line l) x) = if x =? b then l else line (w x).
Proof. intros. unfold change. destruct (x =? b); reflexivity. Qed.
Lemma li_does : forall l b w x, does (change w b (with_line l) x) = does (w x).
Proof. intros. unfold change. destruct (x =? b); reflexivity. Qed.
Lemma li_cap : forall l b w x, cap (change w b (with_line l) x) = cap (w x).
Proof. intros. unfold change. destruct (x =? b); reflexivity. Qed.
Lemma li_waits : forall l b w x, waits (change w b (with_line l) x) = waits (w x).
Proof. intros. unfold change. destruct (x =? b); reflexivity. Qed.

#[local] Hint Rewrite aw_box aw_line aw_does aw_cap aw_waits en_box en_line en_does en_cap en_waits
  st_box st_line st_does st_cap st_waits do_box do_line do_does do_cap do_waits
  li_box li_line li_does li_cap li_waits : parts.

Lemma iff_eqb : forall x y, (if x =? y then 1 else 0) = (if y =? x then 1 else 0).
Proof. intros. rewrite Nat.eqb_sym. reflexivity. Qed.

Ltac eqs := repeat match goal with
  | |- context [?a =? ?b] => destruct (Nat.eqb_spec a b); subst
  | H : context [?a =? ?b] |- _ => destruct (Nat.eqb_spec a b); subst
  end.

Ltac fin := eqs; rewrite ?mine_app, ?inl_app, ?mine_cons, ?inl_cons; cbn in *; eqs; unfold mine, inl in *; cbn in *; try congruence; try lia.

Lemma ask_room : forall w a b, good w -> waits (w a) = None -> coding (does (w a)) -> does (w b) <> Gone ->
  room (w b) = true -> good (await a (Some (ForReply b)) (enter (Some a) b w)).
Proof.
  intros w a b G Ha Hr Hb Hroom. pose proof (room_inv _ Hroom) as Hl. destruct G as [G1 G2 G3 G4 G5 G6].
  constructor; intros; unfold own in *; autorewrite with parts in *.
  - pose proof (G1 x b0) as E. pose proof (G1 a b0) as Ea. rewrite Ha in Ea. cbn [rep] in Ea. fin.
  - pose proof (G2 x b0) as E. destruct (Nat.eqb_spec x a) as [->|]; [rewrite Ha in E|]; exact E.
  - destruct (Nat.eqb_spec x a) as [e|e]; [rewrite e|]; eauto.
  - destruct (Nat.eqb_spec b0 b) as [e|e]; [rewrite e in *; congruence|auto].
  - destruct (Nat.eqb_spec b0 b) as [e|e]; [rewrite e in *; congruence|auto].
  - auto.
Qed.

Lemma put_none : forall w b, good w -> does (w b) <> Gone -> good (enter None b w).
Proof.
  intros w b G Hb. destruct G as [G1 G2 G3 G4 G5 G6].
  constructor; intros; unfold own in *; autorewrite with parts in *; auto.
  - pose proof (G1 x b0) as E. fin.
  - destruct (Nat.eqb_spec b0 b) as [e|e]; [rewrite e in *|]; auto. intros E. apply app_eq_nil in E. destruct E; congruence.
  - destruct (Nat.eqb_spec b0 b) as [e|e]; [rewrite e in *; congruence|auto].
Qed.

Lemma stand_mine : forall w a b k, good w -> waits (w a) = None -> coding (does (w a)) -> does (w b) <> Gone ->
  room (w b) = false -> good (await a (Some (ForRoom b)) (stand (Some a, k) b w)).
Proof.
  intros w a b k G Ha Hr Hb Hroom. destruct G as [G1 G2 G3 G4 G5 G6].
  pose proof (no_room _ Hroom (G6 b) (G4 b)) as Hbox.
  constructor; intros; unfold own in *; autorewrite with parts in *; auto.
  - pose proof (G1 x b0) as E. destruct (Nat.eqb_spec x a) as [->|]; [rewrite Ha in E|]; exact E.
  - pose proof (G2 x b0) as E. pose proof (G2 a b0) as Ea. rewrite Ha in Ea. cbn [roo] in Ea. fin.
  - destruct (Nat.eqb_spec x a) as [e|e]; [rewrite e|]; eauto.
  - destruct (Nat.eqb_spec b0 b) as [e|e]; [rewrite e in *|]; auto.
  - destruct (Nat.eqb_spec b0 b) as [e|e]; [rewrite e in *; congruence|auto].
Qed.

Lemma stand_none : forall w b k, good w -> does (w b) <> Gone -> room (w b) = false -> good (stand (None, k) b w).
Proof.
  intros w b k G Hb Hroom. destruct G as [G1 G2 G3 G4 G5 G6].
  pose proof (no_room _ Hroom (G6 b) (G4 b)) as Hbox.
  constructor; intros; unfold own in *; autorewrite with parts in *; auto.
  - pose proof (G2 x b0) as E. fin.
  - destruct (Nat.eqb_spec b0 b) as [e|e]; [rewrite e in *|]; auto.
  - destruct (Nat.eqb_spec b0 b) as [e|e]; [rewrite e in *; congruence|auto].
Qed.

Definition took (b : actor) (r : option actor) (rest : list (option actor)) (w : world) : world :=
  change w b (fun c => with_does (Busy r) (with_box rest c)).
Lemma tk_box : forall r l b w x, box (took b r l w x) = if x =? b then l else box (w x).
Proof. intros. unfold took, change. destruct (x =? b); reflexivity. Qed.
Lemma tk_line : forall r l b w x, line (took b r l w x) = line (w x).
Proof. intros. unfold took, change. destruct (x =? b); reflexivity. Qed.
Lemma tk_does : forall r l b w x, does (took b r l w x) = if x =? b then Busy r else does (w x).
Proof. intros. unfold took, change. destruct (x =? b); reflexivity. Qed.
Lemma tk_cap : forall r l b w x, cap (took b r l w x) = cap (w x).
Proof. intros. unfold took, change. destruct (x =? b); reflexivity. Qed.
Lemma tk_waits : forall r l b w x, waits (took b r l w x) = waits (w x).
Proof. intros. unfold took, change. destruct (x =? b); reflexivity. Qed.
#[local] Hint Rewrite tk_box tk_line tk_does tk_cap tk_waits : parts.

Lemma roo_le : forall x b, roo x b <= 1.
Proof. intros [[y|y|]|] b; cbn; try lia; destruct (b =? y); lia. Qed.

Lemma in_line_waits : forall w b x k l, good w -> line (w b) = (Some x, k) :: l -> waits (w x) = Some (ForRoom b) /\ inl x l = 0.
Proof.
  intros w b x k l G Hl. pose proof (g_line _ G x b) as E. rewrite Hl, inl_cons in E. cbn [fst is] in E. rewrite Nat.eqb_refl in E.
  pose proof (roo_le (waits (w x)) b) as Hle. destruct (waits (w x)) as [[b'|b'|]|]; cbn in E; try discriminate.
  destruct (Nat.eqb_spec b b'); [|discriminate]. subst. split; [reflexivity|lia].
Qed.

Lemma take_good : forall w b r rest, good w -> does (w b) = Idle -> box (w b) = r :: rest -> good (admit b (took b r rest w)).
Proof.
  intros w b r rest G Hd Hb. unfold admit. rewrite tk_line. pose proof G as G0. destruct G as [G1 G2 G3 G4 G5 G6].
  assert (K : forall x b0, mine x (if b0 =? b then rest else box (w b0)) + busyn x (if b0 =? b then Busy r else does (w b0)) = rep (waits (w x)) b0).
  { intros x b0. rewrite <- G1. unfold own. destruct (Nat.eqb_spec b0 b) as [e|e]; [rewrite e, Hb, Hd, mine_cons; cbn; lia|reflexivity]. }
  assert (Hwb : waits (w b) = None).
  { destruct (waits (w b)) eqn:E; [|reflexivity]. destruct (G3 b); congruence. }
  destruct (line (w b)) as [|[o k] l] eqn:El.
  - constructor; intros; unfold own in *; autorewrite with parts in *; auto.
    + destruct (Nat.eqb_spec x b) as [e|e]; [split; discriminate|auto].
    + destruct (Nat.eqb_spec b0 b) as [e|e]; [rewrite e in *; congruence|auto].
    + destruct (Nat.eqb_spec b0 b) as [e|e]; [discriminate|auto].
  - destruct o as [y|].
    + destruct (in_line_waits _ _ _ _ _ G0 El) as [Hy Hl0].
      assert (y <> b) by congruence.
      constructor; intros; unfold own in *; autorewrite with parts in *; auto.
      * pose proof (K x b0) as E. destruct (Nat.eqb_spec x y) as [e|e].
        -- subst x. rewrite Hy in E. cbn [rep] in E.
           destruct (Nat.eqb_spec b0 b) as [e|e].
           ++ subst b0. rewrite mine_app, mine_cons. destruct k; cbn [is rep]; rewrite ?Nat.eqb_refl; unfold mine in *; cbn in *; lia.
           ++ rewrite E. destruct k; cbn [rep]; [|reflexivity]. destruct (Nat.eqb_spec b0 b); [congruence|reflexivity].
        -- rewrite <- E. destruct (Nat.eqb_spec b0 b) as [e'|e']; [|reflexivity].
           rewrite mine_app, mine_cons. destruct k; cbn [is]; [destruct (Nat.eqb_spec x y); [congruence|]|]; unfold mine; cbn; lia.
      * pose proof (G2 x b0) as E. destruct (Nat.eqb_spec x y) as [e|e].
        -- subst x. rewrite Hy in E. cbn [roo] in E. destruct (Nat.eqb_spec b0 b) as [e|e].
           ++ rewrite Hl0. destruct k; reflexivity.
           ++ rewrite E. destruct k; reflexivity.
        -- rewrite <- E. destruct (Nat.eqb_spec b0 b) as [e'|e']; [|reflexivity].
           rewrite e', El, inl_cons. cbn [fst is]. destruct (Nat.eqb_spec x y); [congruence|reflexivity].
      * destruct (Nat.eqb_spec x b) as [e|e]; [split; discriminate|].
        destruct (Nat.eqb_spec x y) as [e'|e']; [|auto]. subst x. apply G3. congruence.
      * destruct (Nat.eqb_spec b0 b) as [e|e]; [|auto]. intros E. apply app_eq_nil in E. destruct E; discriminate.
      * destruct (Nat.eqb_spec b0 b) as [e|e]; [discriminate|auto].
    + replace (if k then None else None) with (@None actor) by (destruct k; reflexivity).
      constructor; intros; unfold own in *; autorewrite with parts in *; auto.
      * rewrite <- (K x b0). destruct (Nat.eqb_spec b0 b) as [e'|e']; [|reflexivity].
        rewrite mine_app, mine_cons. unfold mine; cbn; lia.
      * rewrite <- (G2 x b0). destruct (Nat.eqb_spec b0 b) as [e'|e']; [|reflexivity].
        rewrite e', El, inl_cons. reflexivity.
      * destruct (Nat.eqb_spec x b) as [e|e]; [split; discriminate|auto].
      * destruct (Nat.eqb_spec b0 b) as [e|e]; [|auto]. intros E. apply app_eq_nil in E. destruct E; discriminate.
      * destruct (Nat.eqb_spec b0 b) as [e|e]; [discriminate|auto].
Qed.

Lemma rep_le : forall x b, rep x b <= 1.
Proof. intros [[y|y|]|] b; cbn; try lia; destruct (b =? y); lia. Qed.

Lemma busy_waits : forall w a x, good w -> does (w a) = Busy (Some x) -> waits (w x) = Some (ForReply a) /\ mine x (box (w a)) = 0.
Proof.
  intros w a x G Hd. pose proof (g_own _ G x a) as E. unfold own in E. rewrite Hd in E. cbn [busyn is] in E. rewrite Nat.eqb_refl in E.
  pose proof (rep_le (waits (w x)) a) as Hle. destruct (waits (w x)) as [[b'|b'|]|]; cbn in E; try lia.
  cbn in Hle. destruct (Nat.eqb_spec a b'); [subst; split; [reflexivity|lia]|lia].
Qed.

(** [a] is done with a message, or has given its reply away; its asker, if any, awaits [v] now. *)
Lemma turn_good : forall w a v d, good w -> waits (w a) = None -> does (w a) <> Gone ->
  d = Idle \/ d = Busy None \/ d = Stopping -> v = None \/ v = Some ForOther -> good (turn a d v w).
Proof.
  intros w a v d G Hw Hng Hdd Hv. unfold turn. pose proof G as G0. destruct G as [G1 G2 G3 G4 G5 G6].
  assert (D : forall x, busyn x d = 0) by (intros x; destruct Hdd as [-> | [-> | ->]]; reflexivity).
  assert (ND : d <> Gone) by (destruct Hdd as [-> | [-> | ->]]; discriminate).
  assert (Q : forall x, waits (w x) <> None -> coding (if x =? a then d else does (w x))).
  { intros x Hx. destruct (Nat.eqb_spec x a) as [e|e]; [|auto]. congruence. }
  destruct (asker (does (w a))) as [y|] eqn:Ea.
  - assert (Hd : does (w a) = Busy (Some y)) by (destruct (does (w a)); cbn in Ea; congruence).
    destruct (busy_waits _ _ _ G0 Hd) as [Hy Hm].
    constructor; intros; unfold own in *; autorewrite with parts in *; auto.
    + pose proof (G1 x b) as E. destruct (Nat.eqb_spec x y) as [e|e].
      * subst x. rewrite Hy in E. cbn [rep] in E. destruct (Nat.eqb_spec b a) as [e|e].
        -- subst b. rewrite D, Hm. destruct Hv as [-> | ->]; reflexivity.
        -- rewrite E. destruct Hv as [-> | ->]; reflexivity.
      * rewrite <- E. destruct (Nat.eqb_spec b a) as [e'|e']; [|reflexivity]. subst b. rewrite D, Hd. cbn.
        destruct (Nat.eqb_spec x y); [congruence|reflexivity].
    + pose proof (G2 x b) as E. destruct (Nat.eqb_spec x y) as [e|e]; [|exact E].
      subst x. rewrite Hy in E. rewrite E. destruct Hv as [-> | ->]; reflexivity.
    + destruct (Nat.eqb_spec x y) as [e|e]; [|auto]. subst x. apply Q. congruence.
    + destruct (Nat.eqb_spec b a) as [e|e]; [congruence|auto].
  - assert (Hb : forall x, busyn x (does (w a)) = 0) by (intros x; destruct (does (w a)) as [| |[z|]| |]; cbn in *; congruence).
    constructor; intros; unfold own in *; autorewrite with parts in *; auto.
    + pose proof (G1 x b) as E. rewrite <- E. destruct (Nat.eqb_spec b a) as [e'|e']; [|reflexivity].
      subst b. rewrite D, Hb. reflexivity.
    + destruct (Nat.eqb_spec b a) as [e|e]; [congruence|auto].
Qed.

Lemma other_good : forall w a v, good w -> (waits (w a) = None /\ coding (does (w a))) \/ waits (w a) = Some ForOther ->
  v = None \/ v = Some ForOther -> good (await a v w).
Proof.
  intros w a v G Ha Hv. destruct G as [G1 G2 G3 G4 G5 G6].
  assert (R : forall b, rep v b = rep (waits (w a)) b) by (intros b; destruct Hv as [-> | ->], Ha as [[-> _]| ->]; reflexivity).
  assert (S : forall b, roo v b = roo (waits (w a)) b) by (intros b; destruct Hv as [-> | ->], Ha as [[-> _]| ->]; reflexivity).
  constructor; intros; unfold own in *; autorewrite with parts in *; auto.
  - rewrite (G1 x b). destruct (Nat.eqb_spec x a) as [e|e]; [subst; auto|reflexivity].
  - rewrite (G2 x b). destruct (Nat.eqb_spec x a) as [e|e]; [subst; auto|reflexivity].
  - destruct (Nat.eqb_spec x a) as [e|e]; [|auto]. subst x. destruct Ha as [[_ Ha]|Ha]; [exact Ha|apply G3; congruence].
Qed.

Lemma forget_box : forall a c, box (forget a c) = [] <-> box c = [].
Proof. intros. unfold forget. cbn. destruct (box c); cbn; split; congruence. Qed.

Lemma giveup_good : forall w a, good w -> good (await a None (fun x => forget a (w x))).
Proof.
  intros w a G. destruct G as [G1 G2 G3 G4 G5 G6].
  constructor; intros.
  - change (own x (await a None (fun x0 => forget a (w x0)) b)) with (own x (await a None (fun x0 => forget a (w x0)) b)).
    assert (own x (await a None (fun x0 => forget a (w x0)) b) = own x (forget a (w b))) as ->.
    { unfold own. autorewrite with parts. reflexivity. }
    rewrite forget_own, aw_waits. destruct (Nat.eqb_spec x a); [reflexivity|]. apply G1.
  - rewrite aw_line, aw_waits. unfold forget at 1. cbn [line]. rewrite inl_forget. destruct (Nat.eqb_spec x a); [reflexivity|]. apply G2.
  - rewrite aw_waits in H. rewrite aw_does. destruct (Nat.eqb_spec x a); [congruence|]. cbn in H |- *. destruct (G3 x H) as [Hr Hr'].
    destruct (does (w x)); split; congruence.
  - rewrite aw_line in H. rewrite aw_box. rewrite forget_box. apply G4. intros E. apply H. unfold forget. cbn. rewrite E. reflexivity.
  - rewrite aw_does in H. rewrite aw_box, aw_line. unfold forget in *. cbn in *.
    destruct (does (w b)) eqn:Ed; try discriminate. destruct (G5 b Ed) as [-> ->]. split; reflexivity.
  - rewrite aw_cap. apply G6.
Qed.

Lemma end_good : forall w a, good w -> waits (w a) = None -> good (ended a w).
Proof.
  intros w a G Ha. unfold ended. destruct G as [G1 G2 G3 G4 G5 G6].
  constructor; intros.
  - pose proof (G1 x b) as E. destruct (Nat.eqb_spec b a) as [e|e].
    + subst b. destruct (Nat.eqb_spec x a) as [e|e]; [reflexivity|]. cbn.
      destruct (waits (w x)) as [[b'|b'|]|]; cbn; try reflexivity; destruct (Nat.eqb_spec b' a); cbn; try reflexivity.
      destruct (Nat.eqb_spec a b'); [congruence|reflexivity].
    + change (own x (w b) = rep (waits (if x =? a then mk_cell (cap (w x)) (scoped (w x)) [] [] Gone None
                 else with_waits (released a (waits (w x))) (w x))) b).
      rewrite E. destruct (Nat.eqb_spec x a) as [e'|e']; [subst x; rewrite Ha; reflexivity|]. cbn.
      destruct (waits (w x)) as [[b'|b'|]|]; cbn; try reflexivity; destruct (Nat.eqb_spec b' a); cbn; try reflexivity.
      destruct (Nat.eqb_spec b b'); [congruence|reflexivity].
  - pose proof (G2 x b) as E. destruct (Nat.eqb_spec b a) as [e|e].
    + subst b. destruct (Nat.eqb_spec x a) as [e|e]; [reflexivity|]. cbn.
      destruct (waits (w x)) as [[b'|b'|]|]; cbn; try reflexivity; destruct (Nat.eqb_spec b' a); cbn; try reflexivity.
      destruct (Nat.eqb_spec a b'); [congruence|reflexivity].
    + cbn. rewrite E. destruct (Nat.eqb_spec x a) as [e'|e']; [subst x; rewrite Ha; reflexivity|]. cbn.
      destruct (waits (w x)) as [[b'|b'|]|]; cbn; try reflexivity; destruct (Nat.eqb_spec b' a); cbn; try reflexivity.
      destruct (Nat.eqb_spec b b'); [congruence|reflexivity].
  - destruct (Nat.eqb_spec x a) as [e|e]; [cbn in H; congruence|]. cbn in H |- *.
    apply G3. intros E. rewrite E in H. cbn in H. congruence.
  - destruct (Nat.eqb_spec b a) as [e|e]; [cbn in H; congruence|]. cbn in H |- *. auto.
  - destruct (Nat.eqb_spec b a) as [e|e]; [split; reflexivity|]. cbn in H |- *. auto.
  - destruct (Nat.eqb_spec b a) as [e|e]; apply G6.
Qed.

Theorem step_good : forall w e w', good w -> step w e = Some w' -> good w'.
Proof.
  intros w e w' G H. destruct e as [a b|a b|b p|b|a|a|a|a|a|a|a|a]; cbn in H.
  - destruct (runs (w a)) eqn:Er; [|discriminate]. destruct (runs_inv _ Er) as [Hd Hw].
    destruct (does (w b)) eqn:Ed; [| | | |injection H as <-; exact G];
    (destruct (room (w b)) eqn:Em; injection H as <-; [apply ask_room|apply stand_mine]; auto; congruence).
  - destruct (runs (w a)) eqn:Er; [|discriminate]. destruct (runs_inv _ Er) as [Hd Hw].
    destruct (does (w b)) eqn:Ed; [| | | |injection H as <-; exact G];
    (destruct (room (w b)) eqn:Em; injection H as <-; [apply put_none|apply stand_mine]; auto; congruence).
  - destruct (does (w b)) eqn:Ed; [| | | |injection H as <-; exact G];
    (destruct (room (w b)) eqn:Em; [injection H as <-; apply put_none; auto; congruence|]; destruct p; injection H as <-; [apply stand_none; auto; congruence|exact G]).
  - destruct (does (w b)) eqn:Ed; try discriminate. destruct (box (w b)) as [|r rest] eqn:Eb; [discriminate|]. injection H as <-.
    apply (take_good w b r rest); assumption.
  - destruct (does (w a)) eqn:Ed; try discriminate; (destruct (waits (w a)) eqn:Ew; [discriminate|]; injection H as <-; apply turn_good; auto; congruence).
  - destruct (runs (w a)) eqn:Er; [|discriminate]. destruct (runs_inv _ Er) as [Hd Hw]. injection H as <-. apply other_good; auto.
  - destruct (waits (w a)) as [[]|] eqn:Ew; try discriminate. injection H as <-. apply other_good; auto.
  - destruct (does (w a)) as [| |[x|]| |] eqn:Ed; try discriminate. destruct (waits (w a)) eqn:Ew; [discriminate|]. injection H as <-.
    apply turn_good; auto; congruence.
  - destruct (waits (w a)) eqn:Ew; [|discriminate]. injection H as <-. apply giveup_good. exact G.
  - destruct (does (w a)) eqn:Ed; try discriminate; (destruct (waits (w a)) eqn:Ew; [discriminate|]; injection H as <-; apply turn_good; auto; congruence).
  - destruct (does (w a)) eqn:Ed; injection H as <-; try exact G; (apply turn_good; auto;
      [apply giveup_good; exact G|rewrite aw_waits, Nat.eqb_refl; reflexivity|rewrite aw_does; cbn; rewrite Ed; discriminate]).
  - destruct (does (w a)) eqn:Ed; try discriminate. destruct (waits (w a)) eqn:Ew; [discriminate|]. injection H as <-. apply end_good; assumption.
Qed.

Lemma exec_good : forall es w w', good w -> exec w es = Some w' -> good w'.
Proof.
  induction es as [|e es IH]; cbn; intros w w' G H; [congruence|].
  destruct (step w e) as [w1|] eqn:E; [|discriminate]. eauto using step_good.
Qed.

Lemma reached_good : forall w, reached w -> good w.
Proof. intros w (caps & sc & es & Hc & H). eapply exec_good; [apply fresh_good; exact Hc|exact H]. Qed.

(** ** Those who wait for each other stay *)

Lemma with_rest : forall w b r rest x, waits (admit b (took b r rest w) x) =
  match line (w b) with
  | (Some y, k) :: _ => if x =? y then (if k : bool then Some (ForReply b) else None) else waits (w x)
  | _ => waits (w x)
  end.
Proof.
  intros. unfold admit. rewrite tk_line. destruct (line (w b)) as [|[[y|] k] l]; autorewrite with parts; reflexivity.
Qed.

Definition closed (w : world) (S : actor -> Prop) : Prop := forall x, S x -> exists y, target w x = Some y /\ S y.

Lemma closed_waits : forall w S x, closed w S -> S x -> waits (w x) <> None.
Proof. intros w S x C Hx E. destruct (C x Hx) as (y & Hy & _). unfold target in Hy. rewrite E in Hy. discriminate. Qed.

Lemma target_of : forall w x y, waits (w x) = Some (ForReply y) \/ waits (w x) = Some (ForRoom y) -> target w x = Some y.
Proof. intros w x y [H|H]; unfold target; rewrite H; reflexivity. Qed.

Lemma target_same : forall w w' x, waits (w' x) = waits (w x) -> target w' x = target w x.
Proof. intros w w' x H. unfold target. rewrite H. reflexivity. Qed.

Lemma tu_waits : forall a d v w x, waits (turn a d v w x) =
  match asker (does (w a)) with Some y => if x =? y then v else waits (w x) | None => waits (w x) end.
Proof. intros. unfold turn. destruct (asker (does (w a))); autorewrite with parts; reflexivity. Qed.
Lemma tu_does : forall a d v w x, does (turn a d v w x) = if x =? a then d else does (w x).
Proof. intros. unfold turn. destruct (asker (does (w a))); autorewrite with parts; reflexivity. Qed.
Lemma tu_box : forall a d v w x, box (turn a d v w x) = box (w x).
Proof. intros. unfold turn. destruct (asker (does (w a))); autorewrite with parts; reflexivity. Qed.
Lemma tu_line : forall a d v w x, line (turn a d v w x) = line (w x).
Proof. intros. unfold turn. destruct (asker (does (w a))); autorewrite with parts; reflexivity. Qed.
Lemma tu_cap : forall a d v w x, cap (turn a d v w x) = cap (w x).
Proof. intros. unfold turn. destruct (asker (does (w a))); autorewrite with parts; reflexivity. Qed.
#[local] Hint Rewrite tu_waits tu_does tu_box tu_line tu_cap : parts.

Lemma asker_waits : forall w a x, good w -> asker (does (w a)) = Some x -> waits (w x) = Some (ForReply a).
Proof. intros w a x G H. apply (busy_waits w a x G). destruct (does (w a)); cbn in H; congruence. Qed.

(** What it runs is as killable as before. *)
Definition stays (d d' : doing) : Prop := d' = d \/ (exists r r', d = Busy r /\ d' = Busy r').

Lemma step_stuck : forall w e w' S, good w -> closed w S -> step w e = Some w' ->
  (forall x, S x -> e <> GiveUp x /\ (killable w x -> e <> Kill x)) ->
  forall x, S x -> target w' x = target w x /\ stays (does (w x)) (does (w' x)).
Proof.
  intros w e w' S G C H Hsp x Hx. pose proof (closed_waits _ _ _ C Hx) as Wx. pose proof (g_busy _ G x Wx) as Cx.
  assert (U : forall y, S y -> forall a, waits (w a) = None -> target w y = Some a -> False).
  { intros y Hy a Ha Ht. destruct (C y Hy) as (z & Hz & Sz). rewrite Hz in Ht. injection Ht as ->. exact (closed_waits _ _ _ C Sz Ha). }
  assert (K : waits (w' x) = waits (w x) -> does (w' x) = does (w x) -> target w' x = target w x /\ stays (does (w x)) (does (w' x))).
  { intros A B. split; [apply target_same; exact A|left; exact B]. }
  assert (T : forall a d v, waits (w a) = None -> w' = turn a d v w -> target w' x = target w x /\ stays (does (w x)) (does (w' x))).
  { intros a d v Ha ->. assert (x <> a) by congruence. apply K; autorewrite with parts.
    - destruct (asker (does (w a))) as [y|] eqn:Ea; [|reflexivity]. destruct (Nat.eqb_spec x y); [|reflexivity]. subst y.
      exfalso. apply (U x Hx a Ha). apply target_of. left. apply asker_waits; assumption.
    - destruct (Nat.eqb_spec x a); [congruence|reflexivity]. }
  destruct e as [a b|a b|b p|b|a|a|a|a|a|a|a|a]; cbn in H.
  - destruct (runs (w a)) eqn:Er; [|discriminate]. destruct (runs_inv _ Er) as [Hd Hw]. assert (x <> a) by congruence.
    destruct (does (w b)) eqn:Ed; [| | | |injection H as <-; auto];
    (destruct (room (w b)); injection H as <-; apply K; autorewrite with parts; auto; (destruct (Nat.eqb_spec x a); [congruence|reflexivity])).
  - destruct (runs (w a)) eqn:Er; [|discriminate]. destruct (runs_inv _ Er) as [Hd Hw]. assert (x <> a) by congruence.
    destruct (does (w b)) eqn:Ed; [| | | |injection H as <-; auto];
    (destruct (room (w b)); injection H as <-; apply K; autorewrite with parts; auto; (destruct (Nat.eqb_spec x a); [congruence|reflexivity])).
  - destruct (does (w b)); [| | | |injection H as <-; auto];
    (destruct (room (w b)); [|destruct p]; injection H as <-; apply K; autorewrite with parts; reflexivity).
  - destruct (does (w b)) eqn:Ed; try discriminate. destruct (box (w b)) as [|r rest]; [discriminate|]. injection H as <-.
    assert (Wb : waits (w b) = None) by (destruct (waits (w b)) eqn:Ew; [destruct (g_busy _ G b); congruence|reflexivity]).
    assert (x <> b) by congruence.
    fold (took b r rest w). fold (took b r rest w) in K. apply K.
    + rewrite with_rest. destruct (line (w b)) as [|[[y|] k] l] eqn:El; try reflexivity.
      destruct (Nat.eqb_spec x y); [|reflexivity]. subst y. destruct (in_line_waits _ _ _ _ _ G El) as [Hy _]. exfalso.
      apply (U x Hx b Wb). apply target_of; auto.
    + unfold admit. rewrite tk_line. destruct (line (w b)) as [|[[y|] k] l]; autorewrite with parts; (destruct (Nat.eqb_spec x b); [congruence|reflexivity]).
  - destruct (does (w a)) eqn:Ed; try discriminate; (destruct (waits (w a)) eqn:Ew; [discriminate|]; injection H as <-; eapply T; [exact Ew|reflexivity]).
  - destruct (runs (w a)) eqn:Er; [|discriminate]. destruct (runs_inv _ Er) as [Hd Hw]. assert (x <> a) by congruence. injection H as <-.
    apply K; autorewrite with parts; [destruct (Nat.eqb_spec x a); [congruence|reflexivity]|reflexivity].
  - destruct (waits (w a)) as [[]|] eqn:Ew; try discriminate. injection H as <-. apply K; autorewrite with parts; [|reflexivity].
    destruct (Nat.eqb_spec x a); [|reflexivity]. subst x. destruct (C a Hx) as (z & Hz & _). unfold target in Hz. rewrite Ew in Hz. discriminate.
  - destruct (does (w a)) as [| |[y|]| |] eqn:Ed; try discriminate. destruct (waits (w a)) eqn:Ew; [discriminate|]. injection H as <-.
    eapply T; [exact Ew|reflexivity].
  - destruct (waits (w a)) eqn:Ew; [|discriminate]. injection H as <-.
    destruct (Nat.eq_dec x a); [subst x; destruct (Hsp a Hx); congruence|]. split.
    + apply target_same. rewrite aw_waits. destruct (Nat.eqb_spec x a); [congruence|reflexivity].
    + rewrite aw_does. unfold stays. cbn. destruct (does (w x)); eauto.
  - destruct (does (w a)) eqn:Ed; try discriminate; (destruct (waits (w a)) eqn:Ew; [discriminate|]; injection H as <-; eapply T; [exact Ew|reflexivity]).
  - assert (Hk : w' = w \/ (exists r, does (w a) = Busy r) \/ does (w a) = Idle) by (destruct (does (w a)); [left; congruence|auto|right; left; eauto|left; congruence|left; congruence]).
    destruct Hk as [->|Hk]; [apply K; reflexivity|].
    assert (Na : ~ S a).
    { intros Sa. destruct (Hsp a Sa) as [_ N]. apply N; [|reflexivity]. pose proof (closed_waits _ _ _ C Sa) as Wa.
      destruct (g_busy _ G a Wa). destruct Hk as [Hk|Hk]; [exact Hk|congruence]. }
    assert (x <> a) by congruence.
    assert (E : w' = turn a Stopping None (await a None (fun x0 => forget a (w x0)))) by (destruct Hk as [[r Hk]|Hk]; rewrite Hk in H; congruence). clear H. subst w'. clear K T.
    split.
    + apply target_same. rewrite tu_waits, aw_waits, aw_does.
      assert (waits (w x) = if x =? a then None else waits (forget a (w x))) as Ew by (destruct (Nat.eqb_spec x a); [congruence|reflexivity]).
      rewrite <- Ew. destruct (asker (does (forget a (w a)))) as [y|] eqn:Ea; [|reflexivity]. destruct (Nat.eqb_spec x y); [|reflexivity]. subst y.
      exfalso. assert (Hy : asker (does (w a)) = Some x).
      { cbn in Ea. destruct (does (w a)) as [| |[z|]| |]; cbn in *; try discriminate. destruct (z =? a); congruence. }
      apply (asker_waits _ _ _ G) in Hy. destruct (C x Hx) as (z & Hz & Sz). unfold target in Hz. rewrite Hy in Hz. congruence.
    + rewrite tu_does, aw_does. destruct (Nat.eqb_spec x a); [congruence|]. cbn. unfold stays. destruct (does (w x)); eauto.
  - destruct (does (w a)) eqn:Ed; try discriminate. destruct (waits (w a)) eqn:Ew; [discriminate|]. injection H as <-.
    assert (x <> a) by congruence. destruct (C x Hx) as (z & Hz & Sz). assert (z <> a) by (intros ->; exact (closed_waits _ _ _ C Sz Ew)).
    apply K; unfold ended; (destruct (Nat.eqb_spec x a); [congruence|]); cbn; [|reflexivity].
    unfold target in Hz. destruct (waits (w x)) as [[b'|b'|]|]; cbn; try reflexivity; (destruct (Nat.eqb_spec b' a); [congruence|reflexivity]).
Qed.

Lemma exec_stuck : forall es w w' S, good w -> closed w S -> exec w es = Some w' -> (forall x, S x -> unhelped w es x) ->
  forall x, S x -> target w' x = target w x.
Proof.
  induction es as [|e es IH]; cbn; intros w w' S G C H Hsp x Hx; [congruence|].
  destruct (step w e) as [w1|] eqn:E; [|discriminate].
  assert (T : forall y, S y -> target w1 y = target w y /\ stays (does (w y)) (does (w1 y))).
  { intros y Hy. eapply step_stuck; eauto. intros z Hz. destruct (Hsp z Hz) as [A B]. cbn in A, B. split; [intros ->; auto|].
    intros Kz ->. apply (B Kz). auto. }
  rewrite <- (proj1 (T x Hx)). apply (IH w1 w' S); auto.
  - eauto using step_good.
  - intros y Hy. rewrite (proj1 (T y Hy)). apply C. exact Hy.
  - intros y Hy. destruct (Hsp y Hy) as [A B]. split; [intros Hin; apply A; right; exact Hin|].
    intros [r Kr] Hin. apply B; [|right; exact Hin]. destruct (proj2 (T y Hy)) as [Es|(r1 & r2 & Es & _)]; [exists r; congruence|eexists; exact Es].
Qed.

Lemma waits_on_trans : forall w a b c, waits_on w a b -> waits_on w b c -> waits_on w a c.
Proof. intros w a b c H. revert c. induction H; intros; [eapply waits_through|eapply waits_through]; eauto. Qed.

Lemma deadlocked_next : forall w a, deadlocked w a -> exists b, target w a = Some b /\ deadlocked w b.
Proof.
  intros w a (c & Ha & Hc).
  assert (W : waits_on w a c) by (destruct Ha as [->|Ha]; assumption).
  inversion W; subst.
  - exists c. split; [assumption|]. exists c. auto.
  - exists b. split; [assumption|]. exists c. auto.
Qed.

Theorem deadlock_forever : forall w a es w' x,
  reached w -> deadlocked w a -> exec w es = Some w' ->
  (forall y, (y = a \/ waits_on w a y) -> unhelped w es y) ->
  x = a \/ waits_on w a x -> exists b, target w x = Some b /\ target w' x = Some b.
Proof.
  intros w a es w' x R D H Hsp Hx. pose proof (reached_good _ R) as G.
  set (S := fun y => deadlocked w y /\ (y = a \/ waits_on w a y)).
  assert (C : closed w S).
  { intros y [Dy Hy]. destruct (deadlocked_next _ _ Dy) as (z & Hz & Dz). exists z. split; [exact Hz|]. split; [exact Dz|]. right.
    destruct Hy as [->|Hy]; [apply waits_direct; exact Hz|]. eapply waits_on_trans; [exact Hy|apply waits_direct; exact Hz]. }
  assert (Sx : S x).
  { split; [|exact Hx]. destruct Hx as [->|Hx]; [exact D|]. clear -D Hx. induction Hx.
    - destruct (deadlocked_next _ _ D) as (z & Hz & Dz). congruence.
    - apply IHHx. destruct (deadlocked_next _ _ D) as (z & Hz & Dz). congruence. }
  destruct (C x Sx) as (b & Hb & _). exists b. split; [exact Hb|].
  rewrite <- Hb. apply (exec_stuck es w w' S); auto.
  intros y [_ Hy]. auto.
Qed.

(** ** The others can go on *)

Inductive ends (w : world) : actor -> Prop :=
| ends_here a : target w a = None -> ends w a
| ends_next a b : target w a = Some b -> ends w b -> ends w a.

Lemma settle_step : forall w e w' x, good w -> settles e -> step w e = Some w' ->
  (waits (w' x) = None \/ target w' x = target w x) /\ (waits (w x) = None -> waits (w' x) = None).
Proof.
  intros w e w' x G Hs H. destruct e; try contradiction; cbn in H.
  - destruct (does (w b)) eqn:Ed; try discriminate. destruct (box (w b)) as [|r rest]; [discriminate|]. injection H as <-.
    fold (took b r rest w). unfold target at 1. rewrite with_rest. fold (target w x).
    destruct (line (w b)) as [|[[y|] k] l] eqn:El; try (split; [right; reflexivity|auto]).
    destruct (in_line_waits _ _ _ _ _ G El) as [Hy _].
    destruct (Nat.eqb_spec x y); [subst y|split; [right; reflexivity|auto]].
    destruct k; (split; [|congruence]); [right|left; reflexivity]. symmetry. apply target_of. auto.
  - assert (w' = turn a Idle None w) as -> by (destruct (does (w a)); try discriminate; destruct (waits (w a)); congruence).
    unfold target at 1. rewrite tu_waits. fold (target w x). destruct (asker (does (w a))) as [y|]; [|auto].
    destruct (x =? y); auto.
  - destruct (waits (w a)) as [[]|] eqn:Ew; try discriminate. injection H as <-. unfold target at 1. autorewrite with parts.
    destruct (x =? a); (split; [|auto]); [left|right]; reflexivity.
  - destruct (does (w a)) eqn:Ed; try discriminate. destruct (waits (w a)) eqn:Ew; [discriminate|]. injection H as <-.
    unfold target, ended. destruct (x =? a); cbn; [auto|]. destruct (waits (w x)) as [[b'|b'|]|]; cbn; auto; destruct (b' =? a); auto.
Qed.

Lemma settle_exec : forall es w w' x, good w -> Forall settles es -> exec w es = Some w' ->
  (waits (w' x) = None \/ target w' x = target w x) /\ (waits (w x) = None -> waits (w' x) = None).
Proof.
  induction es as [|e es IH]; cbn; intros w w' x G Hs H.
  - injection H as <-. auto.
  - inversion Hs; subst. destruct (step w e) as [w1|] eqn:E; [|discriminate].
    destruct (settle_step w e w1 x G H2 E) as [A B].
    destruct (IH w1 w' x (step_good _ _ _ G E) H3 H) as [A' B']. split; [|auto].
    destruct A' as [A'|A']; [auto|]. destruct A as [A|A]; [auto|]. right. congruence.
Qed.

Lemma exec_app : forall es fs w w1, exec w es = Some w1 -> exec w (es ++ fs) = exec w1 fs.
Proof.
  induction es as [|e es IH]; cbn; intros fs w w1 H; [congruence|]. destruct (step w e); [|discriminate]. auto.
Qed.

Lemma waited_for : forall w a b, good w -> target w a = Some b ->
  does (w b) <> Gone /\ (does (w b) = Idle -> box (w b) <> []).
Proof.
  intros w a b G T. pose proof (g_own _ G a b) as E1. pose proof (g_line _ G a b) as E2. unfold target in T.
  destruct (waits (w a)) as [[b'|b'|]|] eqn:Ew; try discriminate; injection T as ->; cbn in E1, E2; rewrite Nat.eqb_refl in *.
  - unfold own in E1. split.
    + intros Hd. destruct (g_gone _ G b Hd) as [Hb _]. rewrite Hb, Hd in E1. discriminate.
    + intros Hd Hb. rewrite Hb, Hd in E1. discriminate.
  - assert (L : line (w b) <> []) by (intros E; rewrite E in E2; discriminate). split.
    + intros Hd. destruct (g_gone _ G b Hd) as [_ Hl]. congruence.
    + intros _. apply (g_full _ G). exact L.
Qed.

Lemma serve_idle : forall n w a b, good w -> target w a = Some b -> does (w b) = Idle ->
  length (box (w b)) + length (line (w b)) <= n ->
  exists es w', Forall settles es /\ exec w es = Some w' /\ waits (w' a) = None.
Proof.
  induction n as [|n IH]; intros w a b G T Hd Hn.
  - destruct (waited_for _ _ _ G T) as [_ Hb]. specialize (Hb Hd). destruct (box (w b)); [congruence|cbn in Hn; lia].
  - destruct (waited_for _ _ _ G T) as [_ Hb]. specialize (Hb Hd). destruct (box (w b)) as [|r rest] eqn:Eb; [congruence|].
    assert (Wb : waits (w b) = None).
    { destruct (waits (w b)) eqn:E; [|reflexivity]. destruct (g_busy _ G b); congruence. }
    set (w1 := admit b (took b r rest w)).
    assert (S1 : step w (Take b) = Some w1) by (cbn; rewrite Hd, Eb; reflexivity).
    assert (G1 : good w1) by (eapply step_good; eauto).
    destruct (settle_step w (Take b) w1 a G I S1) as [A1 _].
    assert (Wb1 : waits (w1 b) = None) by (apply (settle_step w (Take b) w1 b G I S1); exact Wb).
    destruct A1 as [A1|A1]; [exists [Take b], w1; cbn [exec]; rewrite S1; repeat constructor; exact A1|].
    assert (D1 : does (w1 b) = Busy r /\ length (box (w1 b)) + length (line (w1 b)) <= n).
    { cbn in Hn. unfold w1, admit. rewrite tk_line. destruct (line (w b)) as [|[[y|] k] l] eqn:El; autorewrite with parts; rewrite Nat.eqb_refl, ?El; (split; [reflexivity|]);
      rewrite ?app_length; cbn in *; lia. }
    destruct D1 as [D1 N1].
    set (w2 := turn b Idle None w1).
    assert (S2 : step w1 (Finish b) = Some w2) by (cbn; rewrite D1, Wb1; reflexivity).
    assert (G2 : good w2) by (eapply step_good; eauto).
    destruct (settle_step w1 (Finish b) w2 a G1 I S2) as [A2 _].
    destruct A2 as [A2|A2].
    { exists [Take b; Finish b], w2. cbn [exec]. rewrite S1, S2. repeat constructor; exact A2. }
    assert (D2 : does (w2 b) = Idle /\ length (box (w2 b)) + length (line (w2 b)) <= n).
    { unfold w2. autorewrite with parts; rewrite Nat.eqb_refl; auto. }
    destruct D2 as [D2 N2].
    destruct (IH w2 a b G2) as (es & w' & F & X & W); auto; [congruence|].
    exists (Take b :: Finish b :: es), w'. split; [repeat constructor; exact F|]. split; [|exact W]. cbn [exec]. rewrite S1, S2. exact X.
Qed.

Lemma serve_code : forall w a b, good w -> target w a = Some b -> waits (w b) = None -> does (w b) = Starting \/ (exists r, does (w b) = Busy r) ->
  exists es w', Forall settles es /\ exec w es = Some w' /\ waits (w' a) = None.
Proof.
  intros w a b G T Wb Hd. set (w2 := turn b Idle None w).
  assert (S2 : step w (Finish b) = Some w2) by (cbn; rewrite Wb; destruct Hd as [-> | [r ->]]; reflexivity).
  assert (G2 : good w2) by (eapply step_good; eauto).
  destruct (settle_step w (Finish b) w2 a G I S2) as [A2 _].
  destruct A2 as [A2|A2].
  { exists [Finish b], w2. cbn [exec]. rewrite S2. repeat constructor; exact A2. }
  assert (D2 : does (w2 b) = Idle) by (unfold w2; autorewrite with parts; rewrite Nat.eqb_refl; reflexivity).
  destruct (serve_idle _ w2 a b G2 ltac:(congruence) D2 (le_n _)) as (es & w' & F & X & W).
  exists (Finish b :: es), w'. split; [repeat constructor; exact F|]. split; [|exact W]. cbn [exec]. rewrite S2. exact X.
Qed.

Lemma serve : forall w a b, good w -> target w a = Some b -> waits (w b) = None ->
  exists es w', Forall settles es /\ exec w es = Some w' /\ waits (w' a) = None.
Proof.
  intros w a b G T Wb. destruct (waited_for _ _ _ G T) as [Hg _].
  destruct (does (w b)) as [| |r| |] eqn:Ed; [| | | |congruence].
  - apply (serve_code w a b); auto.
  - eapply serve_idle; eauto.
  - apply (serve_code w a b); eauto.
  - exists [End_ b], (ended b w). cbn. rewrite Ed, Wb. split; [repeat constructor|]. split; [reflexivity|].
    unfold ended. destruct (a =? b); [reflexivity|]. cbn. unfold target in T.
    destruct (waits (w a)) as [[b'|b'|]|]; try discriminate; injection T as ->; cbn; rewrite Nat.eqb_refl; reflexivity.
Qed.

Lemma ends_free : forall w a, good w -> ends w a ->
  exists es w', Forall settles es /\ exec w es = Some w' /\ waits (w' a) = None.
Proof.
  intros w a G E. induction E as [a H|a b H E IH].
  - destruct (waits (w a)) as [[b|b|]|] eqn:Ew.
    + unfold target in H. rewrite Ew in H. discriminate.
    + unfold target in H. rewrite Ew in H. discriminate.
    + exists [Answer a], (await a None w). cbn. rewrite Ew. split; [repeat constructor|]. split; [reflexivity|].
      rewrite aw_waits, Nat.eqb_refl. reflexivity.
    + exists [], w. repeat split; auto.
  - destruct IH as (es & w1 & F & X & W). destruct (settle_exec es w w1 a G F X) as [A _].
    destruct A as [A|A]; [exists es, w1; auto|].
    destruct (serve w1 a b (exec_good _ _ _ G X) ltac:(congruence) W) as (fs & w2 & F2 & X2 & W2).
    exists (es ++ fs), w2. split; [apply Forall_app; auto|]. split; [|exact W2]. rewrite (exec_app _ _ _ _ X). exact X2.
Qed.

(** ** Only finitely many wait *)

Definition who (e : event) : actor :=
  match e with
  | Ask a _ | Tell a _ | Await a | Answer a | Delegate a | GiveUp a | Leave a | Kill a | End_ a | Finish a => a
  | Take b | Outside b _ => b
  end.

Lemma turn_waiters : forall w a d v x, good w -> waits (turn a d v w x) <> None -> waits (w x) <> None.
Proof.
  intros w a d v x G. rewrite tu_waits. destruct (asker (does (w a))) as [y|] eqn:Ea; [|auto].
  destruct (Nat.eqb_spec x y); [|auto]. subst y. rewrite (asker_waits _ _ _ G Ea). discriminate.
Qed.

Lemma step_waiters : forall w e w' x, good w -> step w e = Some w' -> waits (w' x) <> None -> waits (w x) <> None \/ x = who e.
Proof.
  intros w e w' x G H Hx. destruct e as [a b|a b|b p|b|a|a|a|a|a|a|a|a]; cbn [who]; cbn in H.
  - destruct (runs (w a)); [|discriminate]. destruct (does (w b)); [| | | |injection H as <-; auto];
    (destruct (room (w b)); injection H as <-; autorewrite with parts in Hx; destruct (Nat.eqb_spec x a); auto).
  - destruct (runs (w a)); [|discriminate]. destruct (does (w b)); [| | | |injection H as <-; auto];
    (destruct (room (w b)); injection H as <-; autorewrite with parts in Hx; auto; destruct (Nat.eqb_spec x a); auto).
  - destruct (does (w b)); [| | | |injection H as <-; auto];
    (destruct (room (w b)); [|destruct p]; injection H as <-; autorewrite with parts in Hx; auto).
  - destruct (does (w b)) eqn:Ed; try discriminate. destruct (box (w b)) as [|r rest]; [discriminate|]. injection H as <-.
    fold (took b r rest w) in Hx. rewrite with_rest in Hx. destruct (line (w b)) as [|[[y|] k] l] eqn:El; auto.
    destruct (Nat.eqb_spec x y); auto. subst y. destruct (in_line_waits _ _ _ _ _ G El) as [Hy _]. left. congruence.
  - left. apply (turn_waiters w a Idle None x G).
    assert (w' = turn a Idle None w) as <- by (destruct (does (w a)); try discriminate; destruct (waits (w a)); congruence). exact Hx.
  - destruct (runs (w a)); [|discriminate]. injection H as <-. autorewrite with parts in Hx. destruct (Nat.eqb_spec x a); auto.
  - destruct (waits (w a)) as [[]|] eqn:Ew; try discriminate. injection H as <-. autorewrite with parts in Hx. destruct (Nat.eqb_spec x a); auto.
  - left. apply (turn_waiters w a (Busy None) (Some ForOther) x G).
    assert (w' = turn a (Busy None) (Some ForOther) w) as <- by (destruct (does (w a)) as [| |[y|]| |]; try discriminate; destruct (waits (w a)); congruence). exact Hx.
  - destruct (waits (w a)) eqn:Ew; [|discriminate]. injection H as <-. rewrite aw_waits in Hx. destruct (x =? a); [congruence|]. cbn in Hx. auto.
  - left. apply (turn_waiters w a Stopping None x G).
    assert (w' = turn a Stopping None w) as <- by (destruct (does (w a)); try discriminate; destruct (waits (w a)); congruence). exact Hx.
  - assert (Hk : w' = w \/ w' = turn a Stopping None (await a None (fun x0 => forget a (w x0)))) by (destruct (does (w a)); injection H as <-; auto).
    destruct Hk as [-> | ->]; [auto|].
    apply turn_waiters in Hx; [|apply giveup_good; exact G]. rewrite aw_waits in Hx. destruct (x =? a); [congruence|]. auto.
  - destruct (does (w a)) eqn:Ed; try discriminate. destruct (waits (w a)) eqn:Ew; [discriminate|]. injection H as <-. unfold ended in Hx.
    destruct (Nat.eqb_spec x a); [auto|]; cbn in Hx; left; intros E; rewrite E in Hx; cbn in Hx; congruence.
Qed.

Lemma exec_waiters : forall es w w', good w -> exec w es = Some w' -> forall L, (forall x, waits (w x) <> None -> In x L) ->
  exists L', forall x, waits (w' x) <> None -> In x L'.
Proof.
  induction es as [|e es IH]; cbn; intros w w' G H L HL.
  - injection H as <-. eauto.
  - destruct (step w e) as [w1|] eqn:E; [|discriminate]. apply (IH w1 w' (step_good _ _ _ G E) H (who e :: L)).
    intros x Hx. destruct (step_waiters _ _ _ _ G E Hx); cbn; auto.
Qed.

Lemma walk : forall L w, (forall x, waits (w x) <> None -> In x L) -> forall n seen a,
  length L - length seen <= n -> NoDup (a :: seen) -> (forall s, In s seen -> waits_on w s a /\ In s L) -> ends w a \/ deadlocked w a.
Proof.
  intros L w HL. induction n as [|n IH]; intros seen a Hn Nd Hs.
  - destruct (target w a) as [b|] eqn:T; [|left; apply ends_here; exact T]. exfalso.
    assert (In a L). { apply HL. intros E. unfold target in T. rewrite E in T. discriminate. }
    assert (length (a :: seen) <= length L).
    { apply NoDup_incl_length; [exact Nd|]. intros s [<-|Hin]; [assumption|apply Hs; exact Hin]. }
    cbn in *. lia.
  - destruct (target w a) as [b|] eqn:T; [|left; apply ends_here; exact T].
    assert (Ha : In a L). { apply HL. intros E. unfold target in T. rewrite E in T. discriminate. }
    destruct (in_dec Nat.eq_dec b (a :: seen)) as [Hin|Hout].
    + right. exists b. split; [right; apply waits_direct; exact T|].
      destruct Hin as [->|Hin]; [apply waits_direct; exact T|].
      eapply waits_on_trans; [apply Hs; exact Hin|apply waits_direct; exact T].
    + destruct (IH (a :: seen) b) as [E|D].
      * assert (length (a :: seen) <= length L).
        { apply NoDup_incl_length; [exact Nd|]. intros s [<-|Hin]; [assumption|apply Hs; exact Hin]. }
        cbn in *. lia.
      * constructor; assumption.
      * intros s [<-|Hin]; [split; [apply waits_direct; exact T|exact Ha]|].
        destruct (Hs s Hin) as [W HinL]. split; [|exact HinL]. eapply waits_on_trans; [exact W|apply waits_direct; exact T].
      * left. eapply ends_next; eauto.
      * right. destruct D as (c & [->|Hc] & Hcc); exists c; (split; [right|exact Hcc]); [apply waits_direct; exact T|].
        eapply waits_through; eauto.
Qed.

Lemma ends_or_deadlock : forall w a, reached w -> ends w a \/ deadlocked w a.
Proof.
  intros w a (caps & sc & es & Hc & H).
  destruct (exec_waiters es _ _ (fresh_good caps sc Hc) H []) as [L HL]; [cbn; congruence|].
  apply (walk L w HL _ [] a (le_n _)); [constructor; [intros []|constructor]|intros s []].
Qed.

Theorem deadlock_iff : forall w a, reached w ->
  ((exists es w', exec w es = Some w' /\ waits (w' a) = None /\
      forall y, (y = a \/ waits_on w a y) -> unhelped w es y)
   <-> ~ deadlocked w a).
Proof.
  intros w a R. split.
  - intros (es & w' & X & W & Hsp) D. destruct (deadlock_forever w a es w' a R D X Hsp (or_introl eq_refl)) as (b & _ & T).
    unfold target in T. rewrite W in T. discriminate.
  - intros ND. destruct (ends_or_deadlock w a R) as [E|D]; [|contradiction].
    destruct (ends_free w a (reached_good _ R) E) as (es & w' & F & X & W).
    exists es, w'. split; [exact X|]. split; [exact W|]. rewrite Forall_forall in F.
    intros y _. split; [intros Hin; apply F in Hin; exact Hin|intros _ Hin; apply F in Hin; exact Hin].
Qed.

Theorem deadlock_free : forall w a, reached w -> ~ deadlocked w a ->
  exists es w', Forall settles es /\ exec w es = Some w' /\ waits (w' a) = None.
Proof.
  intros w a R ND. destruct (ends_or_deadlock w a R) as [E|D]; [|contradiction]. apply ends_free; [apply reached_good; exact R|exact E].
Qed.

Theorem deadlock_decides : forall w a, reached w -> deadlocked w a \/ ~ deadlocked w a.
Proof.
  intros w a R. destruct (ends_or_deadlock w a R) as [E|D]; [|auto]. right. intros D.
  destruct (ends_free w a (reached_good _ R) E) as (es & w' & F & X & W).
  rewrite Forall_forall in F.
  destruct (deadlock_forever w a es w' a R D X) as (b & _ & T); [|auto|].
  - intros y _. split; [intros Hin; apply F in Hin; exact Hin|intros _ Hin; apply F in Hin; exact Hin].
  - unfold target in T. rewrite W in T. discriminate.
Qed.
