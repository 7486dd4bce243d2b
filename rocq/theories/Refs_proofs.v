(** Proofs about Refs. *)
From Coq Require Import List Bool Arith Lia.
Import ListNotations.
From Verif Require Import Refs Refs_spec.

Set Implicit Arguments.
Unset Strict Implicit.

Definition kind_of (h : handle) : kind :=
  match h with
  | HRef _ => KRef | HRecipient _ => KRecipient | HMessage _ => KMessage | HContext _ => KContext
  | HSender _ => KSender | HWeak _ => KWeak | HWeakRecipient _ => KWeakRecipient | HWeakSender _ => KWeakSender
  end.

Definition fits_sender (x : sender) (p : parts) : Prop :=
  x = if p_bounded p then TxBounded (p_chan p) else TxUnbounded (p_chan p).
Definition fits_weak_sender (x : weak_sender) (p : parts) : Prop :=
  x = if p_bounded p then WTxBounded (p_chan p) else WTxUnbounded (p_chan p).
Definition fits_ref (x : actor_ref) (p : parts) : Prop :=
  fits_sender (r_sender x) p /\ r_id x = p_id p /\ r_abort x = p_abort p /\ r_links x = p_links p
  /\ r_semaphore x = p_semaphore p /\ r_startup_error x = p_startup_error p /\ r_shutdown_error x = p_shutdown_error p.
Definition fits_weak (x : weak_ref) (p : parts) : Prop :=
  fits_weak_sender (w_mailbox x) p /\ w_id x = p_id p /\ w_abort x = p_abort p /\ w_links x = p_links p
  /\ w_startup_notify x = p_semaphore p /\ w_startup_error x = p_startup_error p /\ w_shutdown_error x = p_shutdown_error p.

Definition fits (h : handle) (p : parts) : Prop :=
  match h with
  | HRef x | HRecipient x | HMessage x | HContext x => fits_ref x p
  | HSender x => fits_sender x p
  | HWeak x | HWeakRecipient x => fits_weak x p
  | HWeakSender x => fits_weak_sender x p
  end.

Definition weak_chan (x : weak_sender) : nat := match x with WTxBounded c | WTxUnbounded c => c end.

Definition chan_of (h : handle) : nat :=
  match h with
  | HRef x | HRecipient x | HMessage x | HContext x => sender_chan (r_sender x)
  | HSender x => sender_chan x
  | HWeak x | HWeakRecipient x => weak_chan (w_mailbox x)
  | HWeakSender x => weak_chan x
  end.

Lemma fits_chan : forall h p, fits h p -> chan_of h = p_chan p.
Proof.
  intros h p H. destruct h; cbn in *; unfold fits_ref, fits_weak in H;
  try (destruct H as (H & _)); unfold fits_sender, fits_weak_sender in H; rewrite H; destruct (p_bounded p); reflexivity.
Qed.

(** Counting handles of a channel. *)
Definition on (b : bool) (c : nat) (x : option handle) : bool :=
  match x with Some h => eqb (strong_kind (kind_of h)) b && (chan_of h =? c) | None => false end.
Definition count (b : bool) (c : nat) (l : list (option handle)) : nat := length (filter (on b c) l).

Definition agree (tr : list (op * result)) (x : option handle) (e : entry) : Prop :=
  match x with
  | Some h => e_held e = true /\ kind_of h = e_kind e
      /\ exists b p, In (Prepare b, MadeActor (e_actor e) p) tr /\ fits h p
  | None => e_held e = false
  end.

Definition made_at (n : nat) (b : bool) : parts := mk_parts n b (n + 1) (n + 2) (n + 3) (n + 4) (n + 5) (n + 6).

Record inv (s : st) (tr : list (op * result)) : Prop := mk_inv {
  i_agree : Forall2 (agree tr) (st_handles s) (book tr);
  i_strong : forall c, n_strong (st_counts s) c = count true c (st_handles s);
  i_weak : forall c, n_weak (st_counts s) c = count false c (st_handles s);
  i_parts : forall o a p, In (o, MadeActor a p) tr ->
    a < length (st_handles s) /\ (exists b, p = made_at (p_id p) b) /\ p_id p + 7 <= st_next s;
  i_apart : forall o o' a a' p p', In (o, MadeActor a p) tr -> In (o', MadeActor a' p') tr ->
    a = a' /\ p = p' \/ a <> a' /\ (p_id p + 7 <= p_id p' \/ p_id p' + 7 <= p_id p);
  i_low : forall c, st_next s <= c -> count true c (st_handles s) = 0 /\ count false c (st_handles s) = 0
}.

Lemma agrees_length : forall tr l b, Forall2 (agree tr) l b -> length l = length b.
Proof. intros tr l b H. induction H; cbn; auto. Qed.

Lemma book_snoc : forall tr x, book (tr ++ [x]) = note (book tr) x.
Proof. intros. unfold book. rewrite fold_left_app. reflexivity. Qed.

Lemma count_snoc : forall b c l h, count b c (l ++ [h]) = count b c l + (if on b c h then 1 else 0).
Proof. intros. unfold count. rewrite filter_app, app_length. cbn. destruct (on b c h); reflexivity. Qed.

Lemma count_take : forall b c l k h, nth_error l k = Some (Some h) ->
  count b c l = count b c (take l k) + (if on b c (Some h) then 1 else 0).
Proof.
  unfold count. induction l as [|x l IH]; intros [|k] h H; try discriminate.
  - injection H as ->. cbn [take filter]. cbn [on]. destruct (eqb _ _ && _); cbn [length]; lia.
  - cbn [take filter]. specialize (IH k h H). destruct (on b c x); cbn [length]; lia.
Qed.

Lemma take_length : forall l k, length (take l k) = length l.
Proof. induction l as [|x l IH]; intros [|k]; cbn; auto. Qed.

Lemma cross_length : forall b k, length (cross_out b k) = length b.
Proof. induction b as [|x l IH]; intros [|k]; cbn; auto. Qed.

Lemma agree_more : forall tr x h e, agree tr h e -> agree (tr ++ [x]) h e.
Proof.
  intros tr x [h|] e H; [|exact H]. destruct H as (A & B & b & p & C & D). split; [exact A|]. split; [exact B|].
  exists b, p. split; [apply in_or_app; left; exact C|exact D].
Qed.

Lemma agrees_more : forall tr x l b, Forall2 (agree tr) l b -> Forall2 (agree (tr ++ [x])) l b.
Proof. intros tr x l b H. induction H; constructor; auto. apply agree_more. assumption. Qed.

Lemma agrees_take : forall tr l b k, Forall2 (agree tr) l b -> Forall2 (agree tr) (take l k) (cross_out b k).
Proof.
  intros tr l b k H. revert k. induction H; intros [|k]; cbn; try constructor; auto. reflexivity.
Qed.

Lemma held_entry : forall s tr k h, inv s tr -> held s k = Some h ->
  exists e, nth_error (book tr) k = Some e /\ agree tr (Some h) e.
Proof.
  intros s tr k h I H. unfold held in H. pose proof (i_agree I) as A.
  revert k H. induction A as [|x y l b X A IH]; intros [|k] H; cbn in *; try discriminate.
  - destruct x; [|discriminate]. injection H as ->. eauto.
  - apply IH. exact H.
Qed.

Lemma no_made : forall (tr : list (op * result)) (x : op * result), (forall o a p, x <> (o, MadeActor a p)) ->
  forall o a p, In (o, MadeActor a p) (tr ++ [x]) -> In (o, MadeActor a p) tr.
Proof.
  intros tr x N o a p H. apply in_app_or in H. destruct H as [H|[H|[]]]; [exact H|]. destruct (N _ _ _ H).
Qed.

(** A method that makes no handle. *)
Lemma inv_did : forall s tr o r, inv s tr -> uses_up o = false ->
  match r with Made _ | MadeActor _ _ => False | _ => True end -> inv s (tr ++ [(o, r)]).
Proof.
  intros s tr o r I U R.
  assert (N : forall o' a p, (o, r) <> (o', MadeActor a p)) by (intros o' a p E; injection E as -> ->; exact R).
  assert (B : book (tr ++ [(o, r)]) = book tr).
  { rewrite book_snoc. unfold note. rewrite U. destruct (about o), r; try reflexivity; destruct R. }
  destruct I as [A C D E F G]. constructor; auto.
  - rewrite B. apply agrees_more. exact A.
  - intros o' a p H. apply (@no_made _ _ N) in H. eauto.
  - intros o' o'' a a' p p' H H'. apply (@no_made _ _ N) in H, H'. eauto.
Qed.

Definition bump (b : bool) (c : nat) (q q' : counts) : Prop :=
  forall x, n_strong q' x = n_strong q x + (if b && (c =? x) then 1 else 0)
            /\ n_weak q' x = n_weak q x + (if negb b && (c =? x) then 1 else 0).

Lemma on_eq : forall b c h, on b c (Some h) = eqb (strong_kind (kind_of h)) b && (chan_of h =? c).
Proof. reflexivity. Qed.

Lemma inv_made : forall s tr o k h h' q', inv s tr -> held s k = Some h -> about o = Some k -> uses_up o = false ->
  kind_of h' = makes o (kind_of h) -> (forall p, fits h p -> fits h' p) ->
  bump (strong_kind (kind_of h')) (chan_of h) (st_counts s) q' ->
  inv (mk_st (st_next s) q' (st_handles s ++ [Some h'])) (tr ++ [(o, Made (length (st_handles s)))]).
Proof.
  intros s tr o k h h' q' I H O U K F B. destruct (held_entry I H) as (e & E & A).
  destruct A as (A1 & A2 & b & p & A3 & A4).
  assert (N : forall o' a p, (o, Made (length (st_handles s))) <> (o', MadeActor a p)) by (intros; discriminate).
  assert (C : chan_of h' = chan_of h) by (rewrite (fits_chan A4), (fits_chan (F _ A4)); reflexivity).
  assert (L : chan_of h < st_next s).
  { destruct (i_parts I A3) as (_ & (b' & P) & L). rewrite (fits_chan A4), P. cbn. lia. }
  constructor; cbn [st_handles st_counts st_next].
  - rewrite book_snoc. unfold note. rewrite O, U, E. apply Forall2_app; [apply agrees_more; apply (i_agree I)|].
    constructor; [|constructor]. cbn. split; [reflexivity|]. split; [congruence|]. exists b, p.
    split; [apply in_or_app; left; exact A3|auto].
  - intros c. rewrite count_snoc, (proj1 (B c)), (i_strong I), on_eq, C. destruct (strong_kind (kind_of h')), (chan_of h =? c); reflexivity.
  - intros c. rewrite count_snoc, (proj2 (B c)), (i_weak I), on_eq, C. destruct (strong_kind (kind_of h')), (chan_of h =? c); reflexivity.
  - intros o' a p' X. apply (@no_made _ _ N) in X. destruct (i_parts I X) as (Y & Z). rewrite app_length. split; [lia|exact Z].
  - intros o' o'' a a' p' p'' X Y. apply (@no_made _ _ N) in X, Y. exact (i_apart I X Y).
  - intros c Lc. destruct (i_low I Lc) as (X & Y). rewrite !count_snoc, X, Y, !on_eq, C.
    assert (chan_of h =? c = false) as -> by (apply Nat.eqb_neq; lia). rewrite !andb_false_r. auto.
Qed.

Lemma held_nth : forall s k h, held s k = Some h -> nth_error (st_handles s) k = Some (Some h).
Proof.
  unfold held. intros s k h H. destruct (nth_error (st_handles s) k) as [[x|]|]; congruence.
Qed.

Lemma inv_turned : forall s tr o k h h', inv s tr -> held s k = Some h -> about o = Some k -> uses_up o = true ->
  kind_of h' = makes o (kind_of h) -> (forall p, fits h p -> fits h' p) ->
  strong_kind (kind_of h') = strong_kind (kind_of h) ->
  inv (mk_st (st_next s) (st_counts s) (take (st_handles s) k ++ [Some h'])) (tr ++ [(o, Made (length (st_handles s)))]).
Proof.
  intros s tr o k h h' I H O U K F B. destruct (held_entry I H) as (e & E & A).
  destruct A as (A1 & A2 & b & p & A3 & A4). apply held_nth in H.
  assert (N : forall o' a p, (o, Made (length (st_handles s))) <> (o', MadeActor a p)) by (intros; discriminate).
  assert (C : chan_of h' = chan_of h) by (rewrite (fits_chan A4), (fits_chan (F _ A4)); reflexivity).
  assert (T : forall b' c, count b' c (take (st_handles s) k ++ [Some h']) = count b' c (st_handles s)).
  { intros b' c. rewrite count_snoc, (count_take b' c H), !on_eq, B, C. reflexivity. }
  constructor; cbn [st_handles st_counts st_next].
  - rewrite book_snoc. unfold note. rewrite O, U, E. apply Forall2_app; [apply agrees_more, agrees_take; apply (i_agree I)|].
    constructor; [|constructor]. cbn. split; [reflexivity|]. split; [congruence|]. exists b, p.
    split; [apply in_or_app; left; exact A3|auto].
  - intros c. rewrite T. apply (i_strong I).
  - intros c. rewrite T. apply (i_weak I).
  - intros o' a p' X. apply (@no_made _ _ N) in X. destruct (i_parts I X) as (Y & Z). rewrite app_length, take_length. split; [lia|exact Z].
  - intros o' o'' a a' p' p'' X Y. apply (@no_made _ _ N) in X, Y. exact (i_apart I X Y).
  - intros c Lc. rewrite !T. exact (i_low I Lc).
Qed.

Lemma inv_drop : forall s tr k h, inv s tr -> held s k = Some h ->
  inv (mk_st (st_next s) (drop_counts (st_counts s) h) (take (st_handles s) k)) (tr ++ [(DropIt k, Dropped)]).
Proof.
  intros s tr k h I H. destruct (held_entry I H) as (e & E & A). apply held_nth in H.
  assert (N : forall o' a p, (DropIt k, Dropped) <> (o', MadeActor a p)) by (intros; discriminate).
  assert (D : forall x, n_strong (drop_counts (st_counts s) h) x
       = n_strong (st_counts s) x - (if strong_kind (kind_of h) && (chan_of h =? x) then 1 else 0)
     /\ n_weak (drop_counts (st_counts s) h) x
       = n_weak (st_counts s) x - (if negb (strong_kind (kind_of h)) && (chan_of h =? x) then 1 else 0)).
  { intros x. destruct h as [y|y|y|y|y|y|y|y]; cbn; unfold sender_drop, weak_drop, chan_drop, chan_weak_drop;
    try destruct (w_mailbox y); try destruct y; cbn; unfold put; rewrite (Nat.eqb_sym x);
    try (destruct (sender_chan _ =? x) eqn:Q); try (destruct (c =? x) eqn:Q);
    try apply Nat.eqb_eq in Q; subst; split; lia. }
  constructor; cbn [st_handles st_counts st_next].
  - rewrite book_snoc. cbn. apply agrees_more, agrees_take. apply (i_agree I).
  - intros c. rewrite (proj1 (D c)), (i_strong I), (count_take true c H), on_eq.
    destruct (strong_kind (kind_of h)), (chan_of h =? c); cbn; lia.
  - intros c. rewrite (proj2 (D c)), (i_weak I), (count_take false c H), on_eq.
    destruct (strong_kind (kind_of h)), (chan_of h =? c); cbn; lia.
  - intros o' a p' X. apply (@no_made _ _ N) in X. destruct (i_parts I X) as (Y & Z). rewrite take_length. auto.
  - intros o' o'' a a' p' p'' X Y. apply (@no_made _ _ N) in X, Y. exact (i_apart I X Y).
  - intros c Lc. destruct (i_low I Lc) as (X & Y). rewrite (count_take true c H) in X.
    rewrite (count_take false c H) in Y. lia.
Qed.

Lemma inv_prepare : forall s tr b s' r, inv s tr -> prepare s b = Some (s', r) -> inv s' (tr ++ [(Prepare b, r)]).
Proof.
  intros s tr b s' r I H. unfold prepare in H. injection H as <- <-.
  set (n := st_next s). set (k := length (st_handles s)).
  assert (K : length (book tr) = k) by (symmetry; exact (agrees_length (i_agree I))).
  assert (Z : forall o a p, In (o, MadeActor a p) (tr ++ [(Prepare b, MadeActor k (made_at n b))]) ->
    In (o, MadeActor a p) tr \/ a = k /\ p = made_at n b).
  { intros o a p X. apply in_app_or in X. destruct X as [X|[X|[]]]; [auto|]. injection X as <- <- <-. auto. }
  set (h := HRef _).
  assert (Ch : chan_of h = n + 1) by (destruct b; reflexivity).
  assert (P : forall b' c, on b' c (Some h) = b' && (n + 1 =? c)).
  { intros b' c. rewrite on_eq, Ch. destruct b'; reflexivity. }
  constructor; cbn [st_handles st_counts st_next].
  - rewrite book_snoc. cbn [note about]. rewrite K. apply Forall2_app; [apply agrees_more; apply (i_agree I)|].
    constructor; [|constructor]. cbn. split; [reflexivity|]. split; [reflexivity|].
    exists b, (made_at n b). split; [apply in_or_app; right; left; reflexivity|].
    unfold fits_ref, fits_sender. cbn. destruct b; repeat split; reflexivity.
  - intros c. rewrite count_snoc, P. cbn. unfold put. rewrite (Nat.eqb_sym c).
    destruct (n + 1 =? c) eqn:Q; [apply Nat.eqb_eq in Q; subst c|]; rewrite (i_strong I); lia.
  - intros c. rewrite count_snoc, P. cbn. rewrite (i_weak I). lia.
  - intros o a p X. apply Z in X. rewrite app_length. destruct X as [X|(-> & ->)].
    + destruct (i_parts I X) as (X1 & X2 & X3). split; [lia|]. split; [exact X2|]. lia.
    + split; [unfold k; cbn; lia|]. split; [exists b; reflexivity|]. cbn. unfold n. lia.
  - intros o o' a a' p p' X Y. apply Z in X, Y. destruct X as [X|(-> & ->)], Y as [Y|(-> & ->)].
    + exact (i_apart I X Y).
    + destruct (i_parts I X) as (X1 & X2 & X3). right. split; [unfold k; lia|]. left. exact X3.
    + destruct (i_parts I Y) as (X1 & X2 & X3). right. split; [unfold k; lia|]. right. exact X3.
    + left. auto.
  - intros c Lc. rewrite !count_snoc, !P. destruct (@i_low _ _ I c) as (X & Y); [lia|]. rewrite X, Y.
    assert (n + 1 =? c = false) as -> by (apply Nat.eqb_neq; unfold n; lia). rewrite !andb_false_r. auto.
Qed.

Lemma bump_clone : forall q x q' y, sender_clone q x = (q', y) -> y = x /\ bump true (sender_chan x) q q'.
Proof.
  intros q x q' y H. destruct x; injection H as <- <-; (split; [reflexivity|]); intros z; cbn; unfold put;
  rewrite (Nat.eqb_sym z); destruct (c =? z) eqn:Q; try (apply Nat.eqb_eq in Q; subst); split; lia.
Qed.

Lemma bump_downgrade : forall q x q' y, sender_downgrade q x = (q', y) ->
  (forall p, fits_sender x p -> fits_weak_sender y p) /\ bump false (sender_chan x) q q'.
Proof.
  intros q x q' y H. destruct x; injection H as <- <-; split;
  try (intros p F; unfold fits_sender, fits_weak_sender in *; destruct (p_bounded p); congruence);
  intros z; cbn; unfold put; rewrite (Nat.eqb_sym z); destruct (c =? z) eqn:Q; try (apply Nat.eqb_eq in Q; subst); split; lia.
Qed.

Lemma bump_weak : forall q x q' y, weak_clone q x = (q', y) -> y = x /\ bump false (weak_chan x) q q'.
Proof.
  intros q x q' y H. destruct x; injection H as <- <-; (split; [reflexivity|]); intros z; cbn; unfold put;
  rewrite (Nat.eqb_sym z); destruct (c =? z) eqn:Q; try (apply Nat.eqb_eq in Q; subst); split; lia.
Qed.

Lemma bump_upgrade : forall q x q' y, weak_upgrade q x = Some (q', y) ->
  (forall p, fits_weak_sender x p -> fits_sender y p) /\ bump true (weak_chan x) q q' /\ n_strong q (weak_chan x) <> 0.
Proof.
  intros q x q' y H. destruct x; cbn in *; unfold chan_upgrade in H; destruct (n_strong q c =? 0) eqn:Z; try discriminate;
  apply Nat.eqb_neq in Z; injection H as <- <-; (split; [|split]); auto;
  try (intros p F; unfold fits_sender, fits_weak_sender in *; destruct (p_bounded p); congruence);
  intros z; cbn; unfold put; rewrite (Nat.eqb_sym z); destruct (c =? z) eqn:Q; try (apply Nat.eqb_eq in Q; subst); split; lia.
Qed.

Lemma ref_clone_ok : forall q x q' y, ref_clone q x = (q', y) -> y = x /\ bump true (sender_chan (r_sender x)) q q'.
Proof.
  intros q [id tx a l sm e1 e2] q' y H. unfold ref_clone in H. cbn in *. destruct (sender_clone q tx) as [q1 t1] eqn:E.
  injection H as <- <-. destruct (bump_clone E) as (-> & B). auto.
Qed.

Lemma wref_clone_ok : forall q x q' y, wref_clone q x = (q', y) -> y = x /\ bump false (weak_chan (w_mailbox x)) q q'.
Proof.
  intros q [id tx a l sm e1 e2] q' y H. unfold wref_clone in H. cbn in *. destruct (weak_clone q tx) as [q1 t1] eqn:E.
  injection H as <- <-. destruct (bump_weak E) as (-> & B). auto.
Qed.

Lemma ref_downgrade_ok : forall q x q' y, ref_downgrade q x = (q', y) ->
  (forall p, fits_ref x p -> fits_weak y p) /\ bump false (sender_chan (r_sender x)) q q'.
Proof.
  intros q [id tx a l sm e1 e2] q' y H. unfold ref_downgrade in H. cbn in *. destruct (sender_downgrade q tx) as [q1 t1] eqn:E.
  injection H as <- <-. destruct (bump_downgrade E) as (F & B). split; [|exact B].
  intros p (P1 & P2). split; [apply F; exact P1|exact P2].
Qed.

Lemma ref_upgrade_ok : forall q x q' y, ref_upgrade q x = Some (q', y) ->
  (forall p, fits_weak x p -> fits_ref y p) /\ bump true (weak_chan (w_mailbox x)) q q'.
Proof.
  intros q [id tx a l sm e1 e2] q' y H. unfold ref_upgrade in H. cbn in *. destruct (weak_upgrade q tx) as [[q1 t1]|] eqn:E; [|discriminate].
  injection H as <- <-. destruct (bump_upgrade E) as (F & B & _). split; [|exact B].
  intros p (P1 & P2). split; [apply F; exact P1|exact P2].
Qed.

Ltac no_handle := match goal with
  | I : inv ?s ?tr, H : did ?s _ = Some _ |- _ => injection H as <- <-; apply inv_did; [exact I|reflexivity|exact Logic.I]
  | I : inv ?s ?tr, H : Some (?s, _) = Some _ |- _ => injection H as <- <-; apply inv_did; [exact I|reflexivity|exact Logic.I]
  end.

Ltac one_made I E := match goal with
  | H : made _ _ _ = Some _ |- _ => injection H as <- <-; eapply (inv_made I E); [reflexivity|reflexivity|reflexivity| |]
  end.

Lemma inv_step : forall s tr o s' r, inv s tr -> step s o = Some (s', r) -> inv s' (tr ++ [(o, r)]).
Proof.
  intros s tr o s' r I H. destruct o; cbn [step] in H.
  - eapply inv_prepare; eassumption.
  - destruct (held s k) as [h|] eqn:E; [|discriminate]. destruct h; cbn [clone_handle] in H; try discriminate.
    1,2: destruct (ref_clone (st_counts s) x) as [q' y] eqn:C; destruct (ref_clone_ok C) as (-> & B); one_made I E; auto.
    1: destruct (sender_clone (st_counts s) x) as [q' y] eqn:C; destruct (bump_clone C) as (-> & B); one_made I E; auto.
    1,2: destruct (wref_clone (st_counts s) x) as [q' y] eqn:C; destruct (wref_clone_ok C) as (-> & B); one_made I E; auto.
    destruct (weak_clone (st_counts s) x) as [q' y] eqn:C; destruct (bump_weak C) as (-> & B); one_made I E; auto.
  - destruct (held s k) as [h|] eqn:E; [|discriminate]. destruct h; try discriminate. injection H as <- <-.
    eapply (inv_turned I E); auto.
  - destruct (held s k) as [h|] eqn:E; [|discriminate]. destruct h; try discriminate.
    + destruct (ref_downgrade (st_counts s) x) as [q' y] eqn:C. destruct (ref_downgrade_ok C) as (F & B). one_made I E; auto.
    + no_handle.
    + destruct (sender_downgrade (st_counts s) x) as [q' y] eqn:C. destruct (bump_downgrade C) as (F & B). one_made I E; auto.
  - destruct (held s k) as [h|] eqn:E; [|discriminate]. destruct h; try discriminate.
    1,2: destruct (ref_upgrade (st_counts s) x) as [[q' y]|] eqn:C; [|no_handle]; destruct (ref_upgrade_ok C) as (F & B); one_made I E; auto.
    destruct (weak_upgrade (st_counts s) x) as [[q' y]|] eqn:C; [|no_handle]; destruct (bump_upgrade C) as (F & B & _); one_made I E; auto.
  - destruct (held s k) as [h|] eqn:E; [|discriminate]. destruct h; try discriminate.
    destruct (sender_clone (st_counts s) (r_sender x)) as [q' y] eqn:C; destruct (bump_clone C) as (-> & B); one_made I E; auto.
    intros p P. apply P.
  - destruct (held s k) as [h|] eqn:E; [|discriminate]. destruct h; try discriminate.
    destruct (sender_downgrade (st_counts s) (r_sender x)) as [q' y] eqn:C; destruct (bump_downgrade C) as (F & B); one_made I E; auto.
    intros p P. apply F, P.
  - destruct (held s k) as [h|] eqn:E; [|discriminate]. destruct h; try discriminate;
    destruct (ref_clone (st_counts s) x) as [q' y] eqn:C; destruct (ref_clone_ok C) as (-> & B); one_made I E; auto.
  - destruct (held s k) as [h|] eqn:E; [|discriminate]. destruct h; try discriminate. injection H as <- <-.
    eapply (inv_turned I E); auto.
  - destruct (held s k) as [h|] eqn:E; [|discriminate]. destruct h; try discriminate.
    destruct (ref_clone (st_counts s) x) as [q' y] eqn:C; destruct (ref_clone_ok C) as (-> & B); one_made I E; auto.
  - destruct (held s k) as [h|] eqn:E; [|discriminate]. injection H as <- <-. apply inv_drop; assumption.
  - destruct (held s k) as [h|] eqn:E; [|discriminate]. destruct h; try discriminate; no_handle.
  - destruct (held s k) as [h|] eqn:E; [|discriminate]. destruct h; try discriminate; no_handle.
  - destruct (held s k) as [h|] eqn:E; [|discriminate]. destruct h; try discriminate; no_handle.
  - destruct (held s k) as [h|] eqn:E; [|discriminate]. destruct h; try discriminate; no_handle.
  - destruct (held s k) as [h|] eqn:E; [|discriminate]. destruct h; try discriminate; no_handle.
  - destruct (held s k) as [h|] eqn:E; [|discriminate]. destruct h; try discriminate; no_handle.
  - destruct (held s k) as [h|] eqn:E; [|discriminate]. destruct h; try discriminate; no_handle.
  - destruct (held s k) as [h|] eqn:E; [|discriminate]. destruct h; try discriminate; no_handle.
  - destruct (held s k) as [h|] eqn:E; [|discriminate]. destruct h; try discriminate; no_handle.
  - destruct (held s k) as [h|] eqn:E; [|discriminate]. destruct h; try discriminate; no_handle.
  - destruct (held s k) as [h|] eqn:E; [|discriminate]. destruct h; try discriminate; no_handle.
  - destruct (held s k) as [h|] eqn:E; [|discriminate]. destruct h; try discriminate; no_handle.
  - destruct (held s k) as [h|] eqn:E; [|discriminate]. destruct (held s j) as [h'|] eqn:E'; [|discriminate].
    destruct (own_sender h), (own_sender h'); try discriminate; no_handle.
  - destruct (held s k) as [h|] eqn:E; [|discriminate]. destruct h; try discriminate; no_handle.
Qed.

Lemma inv_init : inv st_init [].
Proof. constructor; cbn; auto; try (intros; contradiction). Qed.

Lemma exec_split : forall os s s' tr, exec s os = Some (s', tr) ->
  forall tr1 o r tr2, tr = tr1 ++ (o, r) :: tr2 ->
  exists os1 s1 s2, exec s os1 = Some (s1, tr1) /\ step s1 o = Some (s2, r).
Proof.
  induction os as [|o0 os IH]; cbn [exec]; intros s s' tr H tr1 o r tr2 T.
  - injection H as _ <-. destruct tr1; discriminate.
  - destruct (step s o0) as [[s1 r1]|] eqn:E; [|discriminate].
    destruct (exec s1 os) as [[s2 tr']|] eqn:E2; [|discriminate]. injection H as <- <-.
    destruct tr1 as [|x tr1]; injection T as T1 T2.
    + subst. exists [], s, s1. auto.
    + destruct (IH _ _ _ E2 _ _ _ _ T2) as (os1 & s3 & s4 & A & B). exists (o0 :: os1), s3, s4. split; [|exact B].
      cbn. rewrite E, A, <- T1. reflexivity.
Qed.

Lemma inv_exec : forall os s tr0 s' tr, inv s tr0 -> exec s os = Some (s', tr) -> inv s' (tr0 ++ tr).
Proof.
  induction os as [|o os IH]; cbn [exec]; intros s tr0 s' tr I H.
  - injection H as <- <-. rewrite app_nil_r. exact I.
  - destruct (step s o) as [[s1 r1]|] eqn:E; [|discriminate].
    destruct (exec s1 os) as [[s2 tr']|] eqn:E2; [|discriminate]. injection H as <- <-.
    replace (tr0 ++ (o, r1) :: tr') with ((tr0 ++ [(o, r1)]) ++ tr') by (rewrite <- app_assoc; reflexivity).
    eapply IH; [|exact E2]. eapply inv_step; eassumption.
Qed.

Section Run.
Variables (os : list op) (s : st) (tr : list (op * result)).
Hypothesis R : exec st_init os = Some (s, tr).

Lemma at_point : forall tr1 o r tr2, tr = tr1 ++ (o, r) :: tr2 ->
  exists s1 s2, inv s1 tr1 /\ step s1 o = Some (s2, r).
Proof.
  intros tr1 o r tr2 T. destruct (exec_split R T) as (os1 & s1 & s2 & A & B).
  exists s1, s2. split; [|exact B]. exact (inv_exec inv_init A).
Qed.

Lemma has_about : forall s1 o s2 r k, step s1 o = Some (s2, r) -> about o = Some k -> exists h, held s1 k = Some h.
Proof.
  intros s1 o s2 r k H A. destruct o; cbn in A; try discriminate; injection A as ->; cbn [step] in H;
  destruct (held s1 k); eauto; discriminate.
Qed.

(** The entry of a handle that can be used. *)
Lemma used : forall tr1 o r tr2 k, tr = tr1 ++ (o, r) :: tr2 -> about o = Some k ->
  exists d a b p, nth_error (book tr1) k = Some (mk_entry d a true) /\ In (Prepare b, MadeActor a p) tr1.
Proof.
  intros tr1 o r tr2 k T A. destruct (at_point T) as (s1 & s2 & I & E). destruct (has_about E A) as (h & H).
  destruct (held_entry I H) as ([d a x] & B & C & D & b & p & F & G). cbn in *. subst x. exists d, a, b, p. auto.
Qed.

Lemma of_sender : forall x p, fits_sender x p -> sender_chan x = p_chan p.
Proof. intros x p H. unfold fits_sender in H. rewrite H. destruct (p_bounded p); reflexivity. Qed.

Lemma acts : forall tr1 o r tr2 k d a b p x, tr = tr1 ++ (o, r) :: tr2 -> about o = Some k ->
  nth_error (book tr1) k = Some (mk_entry d a b) -> In (x, MadeActor a p) tr1 ->
  forall e, acts_on o p = Some e -> r = Did e.
Proof.
  intros tr1 o r tr2 k d a b p x T A B P e E. destruct (at_point T) as (s1 & s2 & I & Q).
  destruct (has_about Q A) as (h & H). destruct (held_entry I H) as (y & C & _ & D & b' & p' & F & G).
  rewrite B in C. injection C as <-. cbn in *.
  destruct (i_apart I P F) as [(_ & ->)|(N & _)]; [|congruence].
  assert (S : forall z, fits_sender (r_sender z) p' -> sender_chan (r_sender z) = p_chan p') by (intros; apply of_sender; assumption).
  destruct o; cbn in A, E; try discriminate; injection A as ->; injection E as <-; cbn [step] in Q; rewrite H in Q;
  destruct h; try discriminate; cbn in G; unfold fits_ref, fits_weak in G; try destruct G as (G1 & G2 & G3 & G4 & G5 & G6 & G7);
  injection Q as _ <-; rewrite ?G2, ?G3, ?G4, ?G5, ?G6, ?G7, ?(of_sender G1), ?(of_sender G); reflexivity.
Qed.

Lemma count_held : forall s1 tr1 a p x b, inv s1 tr1 -> In (x, MadeActor a p) tr1 ->
  count b (p_chan p) (st_handles s1)
  = length (filter (fun e => e_held e && eqb (strong_kind (e_kind e)) b && (e_actor e =? a)) (book tr1)).
Proof.
  intros s1 tr1 a p x b I P. unfold count.
  assert (K : forall h e, agree tr1 (Some h) e -> (chan_of h =? p_chan p) = (e_actor e =? a)).
  { intros h e (_ & _ & b' & p' & F & G). rewrite (fits_chan G).
    destruct (i_parts I P) as (_ & (b1 & P1) & _). destruct (i_parts I F) as (_ & (b2 & P2) & _).
    destruct (i_apart I P F) as [(E & ->)|(N & L)].
    - rewrite Nat.eqb_refl, E, Nat.eqb_refl. reflexivity.
    - assert (p_chan p = p_id p + 1) by (rewrite P1; reflexivity).
      assert (p_chan p' = p_id p' + 1) by (rewrite P2; reflexivity).
      rewrite (proj2 (Nat.eqb_neq _ _)) by lia. symmetry. apply Nat.eqb_neq. congruence. }
  pose proof (i_agree I) as A. induction A as [|h e l bk X A IH]; [reflexivity|]. cbn [filter].
  assert (E : on b (p_chan p) h = e_held e && eqb (strong_kind (e_kind e)) b && (e_actor e =? a)).
  { destruct h as [h|]; cbn in X; cbn.
    - rewrite (K _ _ X). destruct X as (-> & -> & _). reflexivity.
    - rewrite X. reflexivity. }
  rewrite E. destruct (e_held e && _ && _); cbn; congruence.
Qed.

Lemma eqb_is : forall b, eqb b true = b /\ eqb b false = negb b.
Proof. intros []; auto. Qed.

Lemma filter_same : forall (A : Type) (f g : A -> bool) l, (forall x, f x = g x) -> filter f l = filter g l.
Proof. intros A f g l H. induction l as [|x l IH]; [reflexivity|]. cbn. rewrite H, IH. reflexivity. Qed.

Lemma strong_now : forall s1 tr1 a p x, inv s1 tr1 -> In (x, MadeActor a p) tr1 ->
  n_strong (st_counts s1) (p_chan p) = strong_held (book tr1) a.
Proof.
  intros s1 tr1 a p x I P. rewrite (i_strong I), (count_held true I P). unfold strong_held. f_equal. apply filter_same.
  intros e. rewrite (proj1 (eqb_is _)). reflexivity.
Qed.

Lemma weak_now : forall s1 tr1 a p x, inv s1 tr1 -> In (x, MadeActor a p) tr1 ->
  n_weak (st_counts s1) (p_chan p) = weak_held (book tr1) a.
Proof.
  intros s1 tr1 a p x I P. rewrite (i_weak I), (count_held false I P). reflexivity.
Qed.

Lemma strong_chan : forall q x, sender_strong q x = n_strong q (sender_chan x).
Proof. intros q []; reflexivity. Qed.
Lemma weak_chan_ : forall q x, sender_weak q x = n_weak q (sender_chan x).
Proof. intros q []; reflexivity. Qed.
Lemma wstrong_chan : forall q x, weak_strong q x = n_strong q (weak_chan x).
Proof. intros q []; reflexivity. Qed.
Lemma wweak_chan : forall q x, weak_weak q x = n_weak q (weak_chan x).
Proof. intros q []; reflexivity. Qed.

Lemma strong_count : forall tr1 k r tr2 d a b, tr = tr1 ++ (StrongCount k, r) :: tr2 ->
  nth_error (book tr1) k = Some (mk_entry d a b) -> r = Did (SaysCount (strong_held (book tr1) a)).
Proof.
  intros tr1 k r tr2 d a b T B. destruct (at_point T) as (s1 & s2 & I & Q).
  destruct (has_about Q eq_refl) as (h & H). destruct (held_entry I H) as (y & C & _ & D & b' & p' & F & G).
  rewrite B in C. injection C as <-. cbn in F. rewrite <- (strong_now I F), <- (fits_chan G).
  cbn [step] in Q. rewrite H in Q. destruct h; try discriminate; injection Q as _ <-; cbn;
  rewrite ?strong_chan, ?wstrong_chan; reflexivity.
Qed.

Lemma weak_count : forall tr1 k r tr2 d a b, tr = tr1 ++ (WeakCount k, r) :: tr2 ->
  nth_error (book tr1) k = Some (mk_entry d a b) -> r = Did (SaysCount (weak_held (book tr1) a)).
Proof.
  intros tr1 k r tr2 d a b T B. destruct (at_point T) as (s1 & s2 & I & Q).
  destruct (has_about Q eq_refl) as (h & H). destruct (held_entry I H) as (y & C & _ & D & b' & p' & F & G).
  rewrite B in C. injection C as <-. cbn in F. rewrite <- (weak_now I F), <- (fits_chan G).
  cbn [step] in Q. rewrite H in Q. destruct h; try discriminate; injection Q as _ <-; cbn;
  rewrite ?weak_chan_, ?wweak_chan; reflexivity.
Qed.

Lemma weak_up : forall q x, weak_upgrade q x = None <-> n_strong q (weak_chan x) = 0.
Proof.
  intros q [c|c]; cbn; unfold chan_upgrade; destruct (n_strong q c =? 0) eqn:E; cbn;
  (apply Nat.eqb_eq in E || apply Nat.eqb_neq in E); split; congruence.
Qed.

Lemma ref_up : forall q x, ref_upgrade q x = None <-> n_strong q (weak_chan (w_mailbox x)) = 0.
Proof.
  intros q x. unfold ref_upgrade. rewrite <- weak_up. destruct (weak_upgrade q (w_mailbox x)) as [[? ?]|]; split; congruence.
Qed.

Lemma upgrade : forall tr1 k r tr2 d a b, tr = tr1 ++ (Upgrade k, r) :: tr2 ->
  nth_error (book tr1) k = Some (mk_entry d a b) ->
  r = (if strong_held (book tr1) a =? 0 then NotUpgraded else Made (length (book tr1))).
Proof.
  intros tr1 k r tr2 d a b T B. destruct (at_point T) as (s1 & s2 & I & Q).
  destruct (has_about Q eq_refl) as (h & H). destruct (held_entry I H) as (y & C & _ & D & b' & p' & F & G).
  rewrite B in C. injection C as <-. cbn in F. rewrite <- (strong_now I F), <- (fits_chan G), <- (agrees_length (i_agree I)).
  cbn [step] in Q. rewrite H in Q. destruct h; try discriminate; cbn [chan_of].
  1,2: destruct (ref_upgrade (st_counts s1) x) as [[q' z]|] eqn:U;
    [assert (N : ref_upgrade (st_counts s1) x <> None) by congruence; rewrite ref_up in N; apply Nat.eqb_neq in N
    |assert (N := U); rewrite ref_up in N; apply Nat.eqb_eq in N]; rewrite N; injection Q as _ <-; reflexivity.
  destruct (weak_upgrade (st_counts s1) x) as [[q' z]|] eqn:U;
    [assert (N : weak_upgrade (st_counts s1) x <> None) by congruence; rewrite weak_up in N; apply Nat.eqb_neq in N
    |assert (N := U); rewrite weak_up in N; apply Nat.eqb_eq in N]; rewrite N; injection Q as _ <-; reflexivity.
Qed.

Lemma same_channel_is : forall tr1 k j r tr2 d d' a a' b b', tr = tr1 ++ (SameChannel k j, r) :: tr2 ->
  nth_error (book tr1) k = Some (mk_entry d a b) -> nth_error (book tr1) j = Some (mk_entry d' a' b') ->
  r = Did (SaysBool (a =? a')).
Proof.
  intros tr1 k j r tr2 d d' a a' b b' T B B'. destruct (at_point T) as (s1 & s2 & I & Q).
  cbn [step] in Q. destruct (held s1 k) as [h|] eqn:H; [|discriminate]. destruct (held s1 j) as [h'|] eqn:H'; [|discriminate].
  destruct (held_entry I H) as (y & C & _ & _ & x & p & F & G). rewrite B in C. injection C as <-.
  destruct (held_entry I H') as (y & C & _ & _ & x' & p' & F' & G'). rewrite B' in C. injection C as <-. cbn in F, F'.
  destruct (own_sender h) as [u|] eqn:U; [|discriminate]. destruct (own_sender h') as [u'|] eqn:U'; [|discriminate].
  injection Q as _ <-.
  assert (E : fits_sender u p) by (destruct h; try discriminate; injection U as <-; [apply G|exact G]).
  assert (E' : fits_sender u' p') by (destruct h'; try discriminate; injection U' as <-; [apply G'|exact G']).
  destruct (i_parts I F) as (_ & (b1 & P1) & _). destruct (i_parts I F') as (_ & (b2 & P2) & _).
  assert (p_chan p = p_id p + 1) by (rewrite P1; reflexivity).
  assert (p_chan p' = p_id p' + 1) by (rewrite P2; reflexivity).
  unfold fits_sender in E, E'. subst u u'.
  destruct (i_apart I F F') as [(-> & ->)|(N & L)].
  - rewrite Nat.eqb_refl. do 2 f_equal. destruct (p_bounded p'); cbn; apply Nat.eqb_refl.
  - do 2 f_equal. rewrite (proj2 (Nat.eqb_neq a a')) by congruence.
    destruct (p_bounded p), (p_bounded p'); cbn; try reflexivity; apply Nat.eqb_neq; lia.
Qed.

Lemma recipient_downgrade : forall tr1 k r tr2 a b, tr = tr1 ++ (Downgrade k, r) :: tr2 ->
  nth_error (book tr1) k = Some (mk_entry KRecipient a b) -> r = Panics.
Proof.
  intros tr1 k r tr2 a b T B. destruct (at_point T) as (s1 & s2 & I & Q).
  destruct (has_about Q eq_refl) as (h & H). destruct (held_entry I H) as (y & C & _ & D & _).
  rewrite B in C. injection C as <-. cbn [step] in Q. rewrite H in Q. cbn in D. destruct h; try discriminate.
  injection Q as _ <-. reflexivity.
Qed.

Lemma apart : forall o o' a a' p p', In (o, MadeActor a p) tr -> In (o', MadeActor a' p') tr -> a <> a' ->
  forall x, In x (parts_list p) -> ~ In x (parts_list p').
Proof.
  intros o o' a a' p p' H H' N x X X'. pose proof (inv_exec inv_init R) as I.
  destruct (i_apart I H H') as [(E & _)|(_ & L)]; [congruence|].
  destruct (i_parts I H) as (_ & (b1 & P1) & _). destruct (i_parts I H') as (_ & (b2 & P2) & _).
  rewrite P1 in X. rewrite P2 in X'. cbn in X, X'. lia.
Qed.

Lemma exec_more : forall os1 s1 s2 tr1 o r s3, exec s1 os1 = Some (s2, tr1) -> step s2 o = Some (s3, r) ->
  exec s1 (os1 ++ [o]) = Some (s3, tr1 ++ [(o, r)]).
Proof.
  induction os1 as [|x os1 IH]; cbn [exec app]; intros s1 s2 tr1 o r s3 H E.
  - injection H as <- <-. rewrite E. reflexivity.
  - destruct (step s1 x) as [[s4 r4]|]; [|discriminate]. destruct (exec s4 os1) as [[s5 tr5]|] eqn:Q; [|discriminate].
    injection H as <- <-. rewrite (IH _ _ _ _ _ _ Q E). reflexivity.
Qed.

Lemma entry_held : forall s1 tr1 k e, inv s1 tr1 -> nth_error (book tr1) k = Some e -> e_held e = true ->
  exists h, held s1 k = Some h /\ kind_of h = e_kind e.
Proof.
  intros s1 tr1 k e I. pose proof (i_agree I) as A. unfold held. revert k.
  induction A as [|x y l b X A IH]; intros [|k] H E; cbn in *; try discriminate.
  - injection H as ->. destruct x as [h|]; [|cbn in X; congruence]. exists h. split; [reflexivity|apply X].
  - apply IH; assumption.
Qed.

Lemma available : forall o k d a, about o = Some k -> nth_error (book tr) k = Some (mk_entry d a true) ->
  offers d o = true -> exists s' r, exec st_init (os ++ [o]) = Some (s', tr ++ [(o, r)]).
Proof.
  intros o k d a A E O. destruct (entry_held (inv_exec inv_init R) E eq_refl) as (h & H & K). cbn in K.
  assert (exists s' r, step s o = Some (s', r)) as (s' & r & Q).
  { destruct o; cbn in A; try discriminate; injection A as ->; cbn [step]; rewrite H; destruct h; cbn in K; subst d;
    try discriminate; cbn [clone_handle];
    repeat match goal with
    | |- context [match ?x with (_, _) => _ end] => destruct x
    | |- context [match ?x with Some _ => _ | None => _ end] => destruct x as [[? ?]|]
    end; unfold made, turned, did; eauto. }
  exists s', r. exact (exec_more R Q).
Qed.

End Run.

Lemma comparable : forall os s tr, exec st_init os = Some (s, tr) ->
  forall k j d d' a a', nth_error (book tr) k = Some (mk_entry d a true) ->
  nth_error (book tr) j = Some (mk_entry d' a' true) -> has_sender d -> has_sender d' ->
  exists s', exec st_init (os ++ [SameChannel k j]) = Some (s', tr ++ [(SameChannel k j, Did (SaysBool (a =? a')))]).
Proof.
  intros os s tr R k j d d' a a' E E' S S'.
  destruct (entry_held (inv_exec inv_init R) E eq_refl) as (h & H & K).
  destruct (entry_held (inv_exec inv_init R) E' eq_refl) as (h' & H' & K'). cbn in K, K'.
  assert (exists r, step s (SameChannel k j) = Some (s, r)) as (r & Q).
  { cbn [step]. rewrite H, H'. subst d d'. unfold has_sender in S, S'.
    destruct h, h'; cbn in S, S'; destruct S, S'; try discriminate; cbn [own_sender]; unfold did; eauto. }
  pose proof (exec_more R Q) as X.
  assert (r = Did (SaysBool (a =? a'))) as -> by (eapply same_channel_is; [exact X|reflexivity|exact E|exact E']).
  eauto.
Qed.


(** ** What the documentation says of the counts *)

Lemma strong_count_refuted : ~ (forall os s tr, exec st_init os = Some (s, tr) ->
  forall tr1 k n tr2 d a b, tr = tr1 ++ (StrongCount k, Did (SaysCount n)) :: tr2 ->
  nth_error (book tr1) k = Some (mk_entry d a b) ->
  n = kind_held (fun d => match d with KRef | KRecipient => true | _ => false end) (book tr1) a).
Proof.
  intros H.
  assert (X : option_map snd (exec st_init [Prepare true; Tell 0; StrongCount 0]) = Some ([(Prepare true, MadeActor 0 (made_at 0 true)); (Tell 0, Made 1)] ++ (StrongCount 0, Did (SaysCount 2)) :: [])) by reflexivity.
  destruct (exec st_init [Prepare true; Tell 0; StrongCount 0]) as [[s tr]|] eqn:E; [|discriminate X].
  injection X as T. specialize (H _ _ _ E [(Prepare true, MadeActor 0 (made_at 0 true)); (Tell 0, Made 1)] _ _ _ KRef 0 true T eq_refl). discriminate H.
Qed.

Lemma weak_count_refuted : ~ (forall os s tr, exec st_init os = Some (s, tr) ->
  forall tr1 k n tr2 d a b, tr = tr1 ++ (WeakCount k, Did (SaysCount n)) :: tr2 ->
  nth_error (book tr1) k = Some (mk_entry d a b) ->
  n = kind_held (fun d => match d with KWeak | KWeakRecipient => true | _ => false end) (book tr1) a).
Proof.
  intros H.
  assert (X : option_map snd (exec st_init [Prepare true; MakeLink 0; WeakCount 0]) = Some ([(Prepare true, MadeActor 0 (made_at 0 true)); (MakeLink 0, Made 1)] ++ (WeakCount 0, Did (SaysCount 1)) :: [])) by reflexivity.
  destruct (exec st_init [Prepare true; MakeLink 0; WeakCount 0]) as [[s tr]|] eqn:E; [|discriminate X].
  injection X as T. specialize (H _ _ _ E [(Prepare true, MadeActor 0 (made_at 0 true)); (MakeLink 0, Made 1)] _ _ _ KRef 0 true T eq_refl). discriminate H.
Qed.
