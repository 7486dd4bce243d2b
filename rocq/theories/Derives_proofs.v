(** Proofs about the derive macros. *)
From Coq Require Import Wf_nat Ascii String List Bool Permutation PeanoNat Lia.
Import ListNotations.
From Verif Require Import Errors Dyn Reply RemoteDispatch RemoteDispatch_proofs Derives Derives_spec Derives_examples.
Open Scope string_scope.
Open Scope list_scope.

(** ** Attributes *)

Lemma brackets_cons word a l : brackets_of word (a :: l) =
  match at_path a with
  | Some w => if string_dec w word then at_args a :: brackets_of word l else brackets_of word l
  | None => brackets_of word l
  end.
Proof. unfold brackets_of. cbn. destruct (at_path a); [destruct (string_dec _ _)|]; reflexivity. Qed.

Lemma find_some {A} word (parse : list token -> result A derr) l : forall x o,
  find_attr word parse (Some x) l = Ok o <-> brackets_of word l = [] /\ o = Some x.
Proof.
  induction l as [|a l IH]; intros x o; cbn [find_attr]; [cbn|rewrite brackets_cons].
  - split; [intros [= <-]; auto | intros [_ ->]; auto].
  - destruct (at_path a) as [w|]; [|apply IH].
    destruct (string_dec w word) as [->|N].
    + rewrite String.eqb_refl. split; [discriminate|]. intros [H _]. discriminate.
    + rewrite (proj2 (String.eqb_neq w word) N). apply IH.
Qed.

Lemma find_none {A} word (parse : list token -> result A derr) l : forall o,
  find_attr word parse None l = Ok o <->
  (brackets_of word l = [] /\ o = None)
  \/ (exists t x, brackets_of word l = [Some t] /\ parse t = Ok x /\ o = Some x).
Proof.
  induction l as [|a l IH]; intros o; cbn [find_attr]; [cbn|rewrite brackets_cons].
  - split.
    + intros [= <-]. left; auto.
    + intros [[_ ->]|(t & x & H & _)]; [reflexivity|discriminate].
  - destruct (at_path a) as [w|]; [|apply IH].
    destruct (string_dec w word) as [->|N].
    + rewrite String.eqb_refl. cbn. destruct (at_args a) as [toks|].
      * destruct (parse toks) as [x|e] eqn:P.
        -- rewrite find_some. split.
           ++ intros [B ->]. right. exists toks, x. rewrite B. auto.
           ++ intros [[H _]|(t & y & H & Q & ->)]; [discriminate|].
              injection H as <- B. split; auto. congruence.
        -- split; [discriminate|]. intros [[H _]|(t & y & H & Q & _)]; [discriminate|].
           injection H as <- _. congruence.
      * split; [discriminate|]. intros [[H _]|(t & y & H & _)]; discriminate.
    + rewrite (proj2 (String.eqb_neq w word) N). apply IH.
Qed.

(** ** [derive(Actor)] *)

Lemma parse_names_inv l : parse_names l = Some [] <-> l = [].
Proof.
  split; [|intros ->; reflexivity].
  destruct l as [|[w| | | |] [|[] [|[] l]]]; cbn; try discriminate; auto.
  destruct (String.eqb w "name"); [|discriminate].
  destruct l as [|[] l]; try discriminate. destruct (parse_names l); discriminate.
Qed.

Lemma parse_names_one l s : parse_names l = Some [s] <->
  l = [Word "name"; Equals; Lit s] \/ l = [Word "name"; Equals; Lit s; Comma].
Proof.
  split; [|intros [-> | ->]; reflexivity].
  destruct l as [|[w| | | |] [|[] [|[] l]]]; cbn; try discriminate.
  destruct (String.eqb w "name") eqn:E; [|discriminate]. apply String.eqb_eq in E. subst w.
  destruct l as [|[] l]; try discriminate.
  - intros [= ->]. auto.
  - destruct (parse_names l) as [r|] eqn:P; [|discriminate]. intros [= -> ->].
    apply parse_names_inv in P. subst l. auto.
Qed.

Lemma one_name_ok l o : one_name None l = Ok o <-> (l = [] /\ o = None) \/ (exists s, l = [s] /\ o = Some s).
Proof.
  destruct l as [|s [|s' l]]; cbn.
  - split; [intros [= <-]; auto|]. intros [[_ ->]|(s & H & _)]; [reflexivity|discriminate].
  - split; [intros [= <-]; eauto|]. intros [[H _]|(s' & [= <-] & ->)]; [discriminate|reflexivity].
  - split; [discriminate|]. intros [[H _]|(s'' & H & _)]; discriminate.
Qed.

Lemma parse_actor_ok l o : parse_actor_attrs l = Ok o <->
  (l = [] /\ o = None)
  \/ (exists s, (l = [Word "name"; Equals; Lit s] \/ l = [Word "name"; Equals; Lit s; Comma]) /\ o = Some s).
Proof.
  unfold parse_actor_attrs. destruct (parse_names l) as [ns|] eqn:P.
  - rewrite one_name_ok. split.
    + intros [[-> ->]|(s & -> & ->)].
      * left. split; auto. apply parse_names_inv; auto.
      * right. exists s. split; auto. apply parse_names_one; auto.
    + intros [[-> ->]|(s & H & ->)].
      * left. cbn in P. injection P as <-. auto.
      * right. exists s. split; auto. apply parse_names_one in H. congruence.
  - split; [discriminate|]. intros [[-> _]|(s & H & _)]; [discriminate|].
    apply parse_names_one in H. congruence.
Qed.

Lemma derive_name d s : derive_actor d = Ok s <-> named d s.
Proof.
  unfold derive_actor, named.
  destruct (find_attr "actor" parse_actor_attrs None (d_attrs d)) as [o|e] eqn:F.
  - apply find_none in F. destruct F as [[B ->]|(t & x & B & P & ->)].
    + rewrite B. split.
      * intros [= <-]. auto.
      * intros [[_ ->]|[H|H]]; [reflexivity|discriminate|discriminate].
    + rewrite B. apply parse_actor_ok in P. destruct P as [[-> ->]|(s' & [-> | ->] & ->)].
      * split; [intros [= <-]; auto|]. intros [[_ ->]|[H|H]]; [reflexivity|discriminate|discriminate].
      * split; [intros [= <-]; auto|]. intros [[[H|H] _]|[H|H]]; try discriminate. injection H as <-. reflexivity.
      * split; [intros [= <-]; auto|]. intros [[[H|H] _]|[H|H]]; try discriminate. injection H as <-. reflexivity.
  - split; [discriminate|].
    intros H. exfalso.
    assert (X : exists o, find_attr "actor" parse_actor_attrs None (d_attrs d) = Ok o).
    { destruct H as [[[B|B] ->]|[B|B]].
      - exists None. apply find_none. left. auto.
      - exists (Some None). apply find_none. right. exists [], None. split; [exact B|]. auto.
      - exists (Some (Some s)). apply find_none. right. eexists _, _. split; [exact B|]. split; reflexivity.
      - exists (Some (Some s)). apply find_none. right. eexists _, _. split; [exact B|]. split; reflexivity. }
    destruct X as [o X]. rewrite F in X. discriminate.
Qed.

(** Any other word in the brackets. *)
Lemma other_option d l w : In (Some l) (brackets_of "actor" (d_attrs d)) -> In (Word w) l -> w <> "name" ->
  exists e, derive_actor d = Err e.
Proof.
  intros B I N. destruct (derive_actor d) as [s|e] eqn:E; [|eauto]. exfalso.
  apply derive_name in E.
  assert (In (Word w) l -> l = [] \/ (exists s, l = [Word "name"; Equals; Lit s] \/ l = [Word "name"; Equals; Lit s; Comma]) -> False).
  { intros I' [-> | (x & [-> | ->])]; cbn in I'; intuition congruence. }
  apply H; auto.
  destruct E as [[[E|E] _]|[E|E]]; rewrite E in B; destruct B as [[= <-]|[]] || destruct B; eauto.
Qed.

(** ** [derive(RemoteActor)] *)

Lemma parse_remote_ok l s : parse_remote_attrs l = Ok s <-> l = [Word "id"; Equals; Lit s].
Proof.
  split; [|intros ->; reflexivity].
  destruct l as [|[w| | | |] [|[] [|[] [|]]]]; cbn; try discriminate.
  destruct (String.eqb w "id") eqn:E; [|discriminate]. apply String.eqb_eq in E. intros [= ->]. congruence.
Qed.

Lemma derive_remote d r : derive_remote_actor d = Ok r <-> remote_named d (ra_id r) /\ ra_static_params r = d_generics d.
Proof.
  unfold derive_remote_actor, remote_named.
  destruct (find_attr "remote_actor" parse_remote_attrs None (d_attrs d)) as [o|e] eqn:F.
  - apply find_none in F. destruct F as [[B ->]|(t & x & B & P & ->)].
    + rewrite B. split.
      * intros [= <-]. cbn. auto.
      * destruct r as [i ps]. cbn. intros [[H|[_ ->]] ->]; [discriminate|reflexivity].
    + rewrite B. apply parse_remote_ok in P. subst t. split.
      * intros [= <-]. cbn. auto.
      * destruct r as [i ps]. cbn. intros [[H|[H _]] ->]; [|discriminate]. injection H as <-. reflexivity.
  - split; [discriminate|]. intros [H _]. exfalso.
    assert (X : exists o, find_attr "remote_actor" parse_remote_attrs None (d_attrs d) = Ok o).
    { destruct H as [B|[B _]].
      - exists (Some (ra_id r)). apply find_none. right. eexists _, _. split; [exact B|]. split; reflexivity. 
      - exists None. apply find_none. left. auto. }
    destruct X as [o X]. rewrite F in X. discriminate.
Qed.

Lemma named_unique d s s' : remote_named d s -> remote_named d s' -> s = s'.
Proof.
  intros H H'. assert (A : derive_remote_actor d = Ok (mk_remote s (d_generics d))) by (apply derive_remote; auto).
  assert (B : derive_remote_actor d = Ok (mk_remote s' (d_generics d))) by (apply derive_remote; auto). congruence.
Qed.

Lemma default_inj m1 m2 i1 i2 : no_colon i1 -> no_colon i2 ->
  String.append m1 (String.append "::" i1) = String.append m2 (String.append "::" i2) -> m1 = m2 /\ i1 = i2.
Proof.
  intros N1 N2. revert m2. induction m1 as [|c m1 IH]; intros [|c2 m2]; cbn.
  - intros [= ->]. auto.
  - intros [= <- H]. exfalso. destruct m2 as [|c3 m2].
    + cbn in H. injection H as ->. cbn in N1. tauto.
    + cbn in H. injection H as <- ->. clear -N1.
      induction m2; cbn in N1; tauto.
  - intros [= -> H]. exfalso. destruct m1 as [|c3 m1].
    + cbn in H. injection H as <-. cbn in N2. tauto.
    + cbn in H. injection H as -> <-. clear -N2. induction m1; cbn in N2; tauto.
  - intros [= <- H]. apply IH in H. intuition congruence.
Qed.

(** ** Programs *)

Lemma actor_id_iff p n s : actor_id p n = Some s <->
  exists d, nth_error (pr_actors p) n = Some d /\ remote_named d s /\ d_generics d = [].
Proof.
  unfold actor_id. destruct (nth_error (pr_actors p) n) as [d|].
  - destruct (derive_remote_actor d) as [r|e] eqn:E.
    + apply derive_remote in E. destruct E as [R G]. rewrite G. destruct (d_generics d) eqn:D.
      * split.
        -- intros [= <-]. exists d. auto.
        -- intros (d' & [= <-] & H & _). f_equal. exact (named_unique _ _ _ R H).
      * split; [discriminate|]. intros (d' & [= <-] & _ & H). congruence.
    + split; [discriminate|]. intros (d' & [= <-] & H & _).
      assert (derive_remote_actor d = Ok (mk_remote s (d_generics d))) by (apply derive_remote; auto). congruence.
  - split; [discriminate|]. intros (d & H & _). discriminate.
Qed.

Lemma entry_iff p i k f : message_entry p i = Some (k, f) <->
  registers p i k f /\ ri_params i = [] /\ exists d, nth_error (pr_actors p) (ri_actor i) = Some d /\ d_generics d = [].
Proof.
  unfold message_entry, remote_message, registers.
  destruct k as [a s]. destruct f as [fa fm fr]. cbn [fst snd fn_actor fn_msg fn_reply].
  destruct (parse_message_attrs (ri_attr i)) as [s'|e] eqn:P.
  - assert (A : ri_attr i = [Lit s']).
    { destruct (ri_attr i) as [|[] [|]]; cbn in P; congruence. }
    rewrite A. destruct (ri_trait i) as [[m|]|].
    + cbn. destruct (ri_params i) eqn:G.
      * destruct (actor_id p (ri_actor i)) as [x|] eqn:I.
        -- apply actor_id_iff in I. destruct I as (d & D & R & Q). split.
           ++ intros [= <- <- <- <- <-]. split; [|split; eauto].
              split; [eauto|]. auto.
           ++ intros [((d' & D' & R') & [= <-] & -> & [= <-] & ->) _].
              rewrite D in D'. injection D' as <-. rewrite (named_unique _ _ _ R R'). reflexivity.
        -- split; [discriminate|]. intros [((d' & D' & R') & _) (_ & d & D & Q)]. exfalso.
           rewrite D in D'. injection D' as <-.
           assert (actor_id p (ri_actor i) = Some a) by (apply actor_id_iff; eauto). congruence.
      * split; [discriminate|]. intros [_ [H _]]. discriminate.
    + split; [discriminate|]. intros [(_ & _ & _ & H & _) _]. discriminate.
    + split; [discriminate|]. intros [(_ & _ & _ & H & _) _]. discriminate.
  - split; [discriminate|]. intros [(_ & H & _) _]. rewrite H in P. discriminate.
Qed.

Lemma all_some_iff {A B} (f : A -> option B) l r : all_some f l = Some r <-> Forall2 (fun x y => f x = Some y) l r.
Proof.
  revert r. induction l as [|x l IH]; intros r; cbn.
  - split; [intros [= <-]; constructor|]. intros H; inversion H; auto.
  - split.
    + destruct (f x) as [y|] eqn:E; [|discriminate]. destruct (all_some f l) as [r'|] eqn:F; [|discriminate].
      intros [= <-]. constructor; auto. apply IH. reflexivity.
    + intros H; inversion H; subst. rewrite H2. apply IH in H4. rewrite H4. reflexivity.
Qed.

Lemma all_some_total {A B} (f : A -> option B) l : (exists r, all_some f l = Some r) <-> forall x, In x l -> exists y, f x = Some y.
Proof.
  induction l as [|x l IH]; cbn.
  - split; [tauto|]. eauto.
  - split.
    + intros [r H]. destruct (f x) as [y|] eqn:E; [|discriminate]. destruct (all_some f l) as [r'|] eqn:F; [|discriminate].
      intros z [<- | I]; [eauto|]. apply IH; eauto.
    + intros H. destruct (H x (or_introl eq_refl)) as [y ->].
      destruct (proj2 IH) as [r ->]; [intros; apply H; auto|]. eauto.
Qed.

Lemma compile_iff p a m : compile p = Some (a, m) <-> actor_slice p = Some a /\ message_slice p = Some m.
Proof.
  unfold compile. destruct (actor_slice p), (message_slice p); split; try discriminate; intuition congruence.
Qed.

Lemma compiles_iff p : (exists o, compile p = Some o) <-> remotable p.
Proof.
  transitivity ((exists a, actor_slice p = Some a) /\ (exists m, message_slice p = Some m)).
  { unfold compile. split.
    - intros [o H]. destruct (actor_slice p), (message_slice p); try discriminate. eauto.
    - intros [[a ->] [m ->]]. eauto. }
  unfold actor_slice, message_slice, remotable. rewrite !all_some_total. split.
  - intros [A M].
    assert (A' : forall d, In d (pr_actors p) -> d_generics d = [] /\ exists s, remote_named d s).
    { intros d I. apply In_nth_error in I. destruct I as [n I].
      destruct (A n) as [y Y].
      { apply in_seq. split; [lia|]. apply nth_error_Some. congruence. }
      destruct (actor_id p n) as [s|] eqn:E; [|discriminate]. apply actor_id_iff in E.
      destruct E as (d' & D & R & G). rewrite I in D. injection D as <-. eauto. }
    split; auto. intros i I. destruct (M i I) as [[k f] E]. apply entry_iff in E.
    destruct E as [(_ & B & _ & C & _) (G & d & D & _)]. split; auto. split.
    + apply nth_error_Some. congruence.
    + eauto.
  - intros [A M]. split.
    + intros n I. apply in_seq in I. destruct (nth_error (pr_actors p) n) as [d|] eqn:D.
      * destruct (A d) as [G [s R]]; [eapply nth_error_In; eauto|].
        assert (E : actor_id p n = Some s) by (apply actor_id_iff; eauto). rewrite E. eauto.
      * apply nth_error_None in D. lia.
    + intros i I. destruct (M i I) as (G & L & s & t & B & C).
      destruct (nth_error (pr_actors p) (ri_actor i)) as [d|] eqn:D; [|apply nth_error_None in D; lia].
      destruct (A d) as [H [x R]]; [eapply nth_error_In; eauto|].
      exists ((x, s), mk_fns (ri_actor i) t (ri_reply i)). apply entry_iff. split; [|split; eauto].
      unfold registers. cbn. split; [eauto|]. auto.
Qed.

Lemma Forall2_nth {A B} (R : A -> B -> Prop) l r : Forall2 R l r ->
  forall n x, nth_error l n = Some x -> exists y, nth_error r n = Some y /\ R x y.
Proof.
  induction 1; intros [|n] z; cbn; try discriminate; eauto. intros [= <-]. eauto.
Qed.
Lemma Forall2_nth_r {A B} (R : A -> B -> Prop) l r : Forall2 R l r ->
  forall n y, nth_error r n = Some y -> exists x, nth_error l n = Some x /\ R x y.
Proof.
  induction 1; intros [|n] z; cbn; try discriminate; eauto. intros [= <-]. eauto.
Qed.

Lemma seq_nth_error n k : n < k -> nth_error (seq 0 k) n = Some n.
Proof.
  intros L. rewrite (nth_error_nth' _ 0); [|rewrite seq_length; auto]. rewrite seq_nth; auto.
Qed.

Lemma slices p a m : compile p = Some (a, m) ->
  Forall2 (fun i e => registers p i (fst e) (snd e)) (pr_impls p) m
  /\ (forall n d, nth_error (pr_actors p) n = Some d -> exists s, nth_error a n = Some (s, n) /\ remote_named d s)
  /\ (forall n e, nth_error a n = Some e -> snd e = n /\ exists d, nth_error (pr_actors p) n = Some d /\ remote_named d (fst e)).
Proof.
  intros H. apply compile_iff in H. destruct H as [A M]. split; [|split].
  - apply all_some_iff in M. induction M; constructor; auto. destruct y as [k f].
    apply entry_iff in H. tauto.
  - apply all_some_iff in A. intros n d D.
    assert (L : n < length (pr_actors p)) by (apply nth_error_Some; congruence).
    destruct (Forall2_nth _ _ _ A n n (seq_nth_error _ _ L)) as (e & E & I).
    destruct (actor_id p n) as [s|] eqn:F; [|discriminate]. injection I as <-. exists s. split; auto.
    apply actor_id_iff in F. destruct F as (d' & D' & R & _). congruence.
  - apply all_some_iff in A. intros n e E.
    destruct (Forall2_nth_r _ _ _ A n e E) as (n' & N & I).
    assert (L : n < length (pr_actors p)).
    { rewrite <- (seq_length (length (pr_actors p)) 0). apply nth_error_Some. congruence. }
    rewrite (seq_nth_error _ _ L) in N. injection N as <-.
    destruct (actor_id p n) as [s|] eqn:F; [|discriminate]. injection I as <-. split; auto.
    apply actor_id_iff in F. destruct F as (d' & D' & R & _). eauto.
Qed.

(** ** The tables *)

Lemma not_nodup {A} (dec : forall x y : A, {x = y} + {x <> y}) (l : list A) :
  ~ NoDup l <-> exists n1 n2 a, n1 <> n2 /\ nth_error l n1 = Some a /\ nth_error l n2 = Some a.
Proof.
  split.
  - induction l as [|x l IH]; intros H; [destruct H; constructor|].
    destruct (in_dec dec x l) as [I|I].
    + apply In_nth_error in I. destruct I as [n I]. exists 0, (S n), x. cbn. split; [discriminate|auto].
    + destruct IH as (n1 & n2 & a & N & Ha & Hb).
      { intros D. apply H. constructor; auto. }
      exists (S n1), (S n2), a. cbn. split; [congruence|auto].
  - intros (n1 & n2 & a & N & Ha & Hb) D. apply N. rewrite NoDup_nth_error in D. apply D.
    + apply nth_error_Some. congruence.
    + congruence.
Qed.

Lemma registers_key p i k k' f f' : registers p i k f -> registers p i k' f' -> k = k' /\ f = f'.
Proof.
  intros ((d & D & R) & A & B & C & E) ((d' & D' & R') & A' & B' & C' & E').
  destruct k, k', f, f'; cbn in *. rewrite D in D'. injection D' as <-.
  rewrite (named_unique _ _ _ R R'). split; congruence.
Qed.

Lemma perm_dups {K V} (l l' : list (K * V)) : Permutation l l' -> (NoDup (map fst l) <-> NoDup (map fst l')).
Proof.
  intros P. split; apply Permutation_NoDup; [|apply Permutation_sym]; apply Permutation_map; auto.
Qed.

Lemma lookup p a m m' tbl : compile p = Some (a, m) -> Permutation m m' -> messages_map m' = Some tbl ->
  forall k f, table_get key_eqb k tbl = Some f <-> exists i, In i (pr_impls p) /\ registers p i k f.
Proof.
  intros C P M k f. apply slices in C. destruct C as [C _].
  apply messages_map_some in M. destruct M as [N M].
  assert (L : forall e, In e tbl <-> exists i, In i (pr_impls p) /\ registers p i (fst e) (snd e)).
  { intros e. rewrite M. rewrite <- (Permutation_in' eq_refl P). split.
    - intros I. apply In_nth_error in I. destruct I as [n I].
      destruct (Forall2_nth_r _ _ _ C n e I) as (i & J & R). exists i. split; auto. eapply nth_error_In; eauto.
    - intros (i & I & R). apply In_nth_error in I. destruct I as [n I].
      destruct (Forall2_nth _ _ _ C n i I) as (e' & J & R').
      destruct e, e'. destruct (registers_key _ _ _ _ _ _ R R') as [X Y]. cbn in X, Y. subst. eapply nth_error_In; eauto. }
  split.
  - intros G. apply table_get_in in G. destruct G as (k' & I & E). apply key_eqb_spec in E. subst k'.
    apply L in I. exact I.
  - intros H. apply (L (k, f)) in H.
    destruct (table_get key_eqb k tbl) as [f'|] eqn:G.
    + apply table_get_in in G. destruct G as (k' & I & E). apply key_eqb_spec in E. subst k'.
      apply M in I, H. f_equal.
      assert (U : forall l, NoDup (map fst l) -> In (k, f') l -> In (k, f) l -> f' = f).
      { clear. induction l as [|[k0 f0] l IH]; cbn; [tauto|]. intros N. inversion N; subst.
        intros [[= -> ->]|I] [[= ->]|J]; auto.
        - exfalso. apply H1. change k with (fst (k, f)). apply in_map; auto.
        - subst. exfalso. apply H1. change k with (fst (k, f')). apply in_map; auto. }
      eapply U; eauto.
    + exfalso. pose proof (table_get_none _ _ _ G _ _ H) as X. rewrite key_eqb_refl in X. discriminate.
Qed.

Definition key_dec (x y : msg_key) : {x = y} + {x <> y}.
Proof. decide equality; apply string_dec. Defined.

Lemma clash p a m m' : compile p = Some (a, m) -> Permutation m m' ->
  (messages_map m' = None <-> two_with (fun i k => exists f, registers p i k f) (pr_impls p)).
Proof.
  intros C P. apply slices in C. destruct C as [C _].
  rewrite messages_map_none, <- (perm_dups _ _ P), (not_nodup key_dec). unfold two_with. split.
  - intros (n1 & n2 & k & N & A & B). rewrite nth_error_map in A, B.
    destruct (nth_error m n1) as [e1|] eqn:E1; [|discriminate]. destruct (nth_error m n2) as [e2|] eqn:E2; [|discriminate].
    cbn in A, B. injection A as <-. injection B as B.
    destruct (Forall2_nth_r _ _ _ C _ _ E1) as (i1 & I1 & R1). destruct (Forall2_nth_r _ _ _ C _ _ E2) as (i2 & I2 & R2).
    exists n1, n2, i1, i2, (fst e1). rewrite B in R2. split; [auto|]. split; [auto|]. split; [auto|]. split; eauto.
  - intros (n1 & n2 & i1 & i2 & k & N & A & B & [f1 R1] & [f2 R2]). exists n1, n2, k. split; auto.
    destruct (Forall2_nth _ _ _ C _ _ A) as (e1 & E1 & Q1). destruct (Forall2_nth _ _ _ C _ _ B) as (e2 & E2 & Q2).
    destruct (registers_key _ _ _ _ _ _ R1 Q1) as [-> _]. destruct (registers_key _ _ _ _ _ _ R2 Q2) as [X _].
    rewrite !nth_error_map, E1, E2. cbn. rewrite X. auto.
Qed.

Lemma dup_actor_none l : forall seen,
  duplicate_actor seen l = None <-> NoDup (map fst l) /\ forall k, In k (map fst l) -> ~ In k seen.
Proof.
  induction l as [|[k f] l IH]; intros seen; cbn.
  - split; [|auto]. intros _; split; [constructor | tauto].
  - destruct (existsb (String.eqb k) seen) eqn:E.
    + split; [discriminate|]. intros [_ H]. exfalso.
      apply existsb_exists in E. destruct E as (y & I & E). apply String.eqb_eq in E. subst y.
      exact (H k (or_introl eq_refl) I).
    + rewrite IH. split.
      * intros [N H]. split.
        -- constructor; auto. intros I. exact (H k I (or_introl eq_refl)).
        -- intros k' [<- | I]; [|intros J; exact (H k' I (or_intror J))].
           intros J. rewrite (proj2 (existsb_exists _ _)) in E; [discriminate|].
           exists k. split; auto. apply String.eqb_refl.
      * intros [N H]. inversion N; subst. split; auto.
        intros k' I [<- | J]; [tauto | exact (H k' (or_intror I) J)].
Qed.

Lemma in_collect_actors (l : list (string * nat)) : NoDup (map fst l) -> forall m e,
  (forall k, In k (map fst l) -> ~ In k (map fst m)) ->
  (In e (fold_left (fun m e => table_insert String.eqb (fst e) (snd e) m) l m) <-> In e l \/ In e m).
Proof.
  induction l as [|[k f] l IH]; cbn; intros N m e D; [tauto|].
  inversion N; subst.
  assert (F : filter (fun e => negb (String.eqb (fst e) k)) m = m).
  { assert (G : forall e, In e m -> fst e <> k).
    { intros x I Q. apply (D k (or_introl eq_refl)). rewrite <- Q. apply in_map. exact I. }
    clear - G. induction m as [|x m IH]; cbn; auto.
    destruct (String.eqb (fst x) k) eqn:E.
    - apply String.eqb_eq in E. destruct (G x (or_introl eq_refl) E).
    - cbn. rewrite IH; auto. intros; apply G; right; auto. }
  rewrite IH; auto.
  - unfold table_insert. rewrite F. cbn. intuition.
  - unfold table_insert. rewrite F. cbn. intros k' I [<- | J]; [tauto|].
    exact (D k' (or_intror I) J).
Qed.

Lemma actors_clash p a m a' : compile p = Some (a, m) -> Permutation a a' ->
  (actors_map a' = None <-> two_with remote_named (pr_actors p)).
Proof.
  intros C P. apply slices in C. destruct C as (_ & C & C').
  transitivity (~ NoDup (map fst a)).
  - rewrite (perm_dups _ _ P). unfold actors_map. destruct (duplicate_actor [] a') as [x|] eqn:E.
    + split; auto. intros _ N.
      assert (duplicate_actor [] a' = None); [|congruence].
      apply dup_actor_none. split; [auto|cbn; tauto].
    + apply dup_actor_none in E. split; [discriminate|tauto].
  - rewrite (not_nodup string_dec). split.
    + intros (n1 & n2 & k & N & A & B). rewrite nth_error_map in A, B.
      destruct (nth_error a n1) as [e1|] eqn:E1; [|discriminate]. destruct (nth_error a n2) as [e2|] eqn:E2; [|discriminate].
      cbn in A, B. injection A as <-. injection B as B.
      destruct (C' _ _ E1) as (_ & d1 & D1 & R1). destruct (C' _ _ E2) as (_ & d2 & D2 & R2).
      exists n1, n2, d1, d2, (fst e1). rewrite B in R2. auto.
    + intros (n1 & n2 & d1 & d2 & k & N & A & B & R1 & R2). exists n1, n2, k. split; auto.
      destruct (C _ _ A) as (s1 & E1 & Q1). destruct (C _ _ B) as (s2 & E2 & Q2).
      rewrite !nth_error_map, E1, E2. cbn. rewrite <- (named_unique _ _ _ R1 Q1), <- (named_unique _ _ _ R2 Q2). auto.
Qed.

Lemma actors_lookup p a m a' tbl : compile p = Some (a, m) -> Permutation a a' -> actors_map a' = Some tbl ->
  forall s n, table_get String.eqb s tbl = Some n <-> exists d, nth_error (pr_actors p) n = Some d /\ remote_named d s.
Proof.
  intros C P M s n. pose proof (actors_clash _ _ _ _ C P) as U.
  apply slices in C. destruct C as (_ & C & C').
  unfold actors_map in *. destruct (duplicate_actor [] a') as [x|] eqn:E; [discriminate|].
  injection M as <-. apply dup_actor_none in E. destruct E as [N _].
  assert (L : forall e, In e (fold_left (fun m e => table_insert String.eqb (fst e) (snd e) m) a' []) <->
                        exists d, nth_error (pr_actors p) (snd e) = Some d /\ remote_named d (fst e)).
  { intros e. rewrite in_collect_actors; auto. rewrite <- (Permutation_in' eq_refl P). split.
    - intros [I|[]]. apply In_nth_error in I. destruct I as [k I].
      destruct (C' k e I) as (<- & d & J & R). eauto.
    - intros (d & D & R). left. destruct (C _ _ D) as (s' & I & R').
      rewrite <- (named_unique _ _ _ R R') in I. destruct e. eapply nth_error_In; eauto. }
  split.
  - intros G. apply table_get_in in G. destruct G as (k' & I & E). apply String.eqb_eq in E. subst k'.
    apply (L (s, n)) in I. exact I.
  - intros H. pose proof H as H'. apply (L (s, n)) in H.
    destruct (table_get String.eqb s _) as [n'|] eqn:G.
    + apply table_get_in in G. destruct G as (k' & I & E). apply String.eqb_eq in E. subst k'.
      apply (L (s, n')) in I. cbn in I. destruct (Nat.eq_dec n' n) as [->|X]; auto. exfalso.
      assert (W : two_with remote_named (pr_actors p)).
      { destruct H' as (d & D & R). destruct I as (d' & D' & R'). exists n, n', d, d', s. auto. }
      apply U in W. discriminate.
    + exfalso. pose proof (table_get_none _ _ _ G _ _ H) as X. rewrite String.eqb_refl in X. discriminate.
Qed.

(** ** Which error *)

Lemma names_written l ns : parse_names l = Some ns <-> written l ns.
Proof.
  split.
  - revert ns. induction l as [l IH] using (induction_ltof1 _ (@length token)). unfold ltof in IH. intros ns H.
    destruct l as [|t l]; [injection H as <-; constructor|]. destruct t as [w| | | |]; try discriminate.
    destruct l as [|t l]; [discriminate|]. destruct t; try discriminate.
    destruct l as [|t l]; [discriminate|]. destruct t as [| | |s|]; try discriminate.
    cbn in H. destruct (String.eqb_spec w "name") as [->|]; [|discriminate].
    destruct l as [|t l]; [injection H as <-; constructor|]. destruct t as [| | | |]; try discriminate.
    destruct (parse_names l) as [r|] eqn:E; [|discriminate]. injection H as <-. constructor. apply IH; [cbn; lia|exact E].
  - induction 1 as [|s|s l ns W IH]; [reflexivity|reflexivity|]. cbn. rewrite IH. reflexivity.
Qed.

Lemma one_name_err l e : one_name None l = Err e <-> 2 <= length l /\ e = NameAlreadySet.
Proof.
  destruct l as [|a [|b l]]; cbn; split; try discriminate; try (intros [X _]; lia).
  - intros [= <-]. split; [lia|reflexivity].
  - intros [_ ->]. reflexivity.
Qed.

Lemma actor_args_err l e : parse_actor_attrs l = Err e <-> actor_wrong l e.
Proof.
  unfold parse_actor_attrs. destruct (parse_names l) as [ns|] eqn:E.
  - rewrite one_name_err. split.
    + intros [L ->]. apply (aw_twice l ns); [apply names_written, E|exact L].
    + intros W. inversion W as [l' N|l' ns' N L]; subst.
      * destruct (N ns). apply names_written, E.
      * apply names_written in N. split; [congruence|reflexivity].
  - split.
    + intros [= <-]. constructor. intros ns W. apply names_written in W. congruence.
    + intros W. inversion W as [l' N|l' ns' N L]; subst; [reflexivity|]. apply names_written in N. congruence.
Qed.

Lemma remote_args_err l e : parse_remote_attrs l = Err e <-> remote_wrong l e.
Proof.
  split.
  - intros H. assert (X : e = ExpectedId).
    { unfold parse_remote_attrs in H.
      repeat match type of H with context [match ?x with _ => _ end] => destruct x; try congruence end. }
    subst e. constructor. intros s ->. discriminate.
  - intros W. inversion W as [l' N]; subst. destruct (parse_remote_attrs l) as [s|e] eqn:E.
    + apply parse_remote_ok in E. destruct (N s E).
    + revert E. unfold parse_remote_attrs.
      repeat match goal with |- context [match ?x with _ => _ end] => destruct x; try congruence end.
Qed.

Lemma find_again {A} word (parse : list token -> result A derr) l : forall x e,
  find_attr word parse (Some x) l = Err e <-> brackets_of word l <> [] /\ e = AlreadySpecified.
Proof.
  induction l as [|a l IH]; intros x e.
  - cbn. split; [discriminate|intros [X _]; congruence].
  - rewrite brackets_cons. cbn. destruct (at_path a) as [w|]; [|apply IH].
    destruct (String.eqb_spec w word) as [->|N].
    + destruct (string_dec word word) as [_|]; [|congruence]. cbn. split; [intros [= <-]; split; [discriminate|reflexivity]|].
      intros [_ ->]. reflexivity.
    + destruct (string_dec w word) as [|_]; [congruence|]. cbn. apply IH.
Qed.

Lemma find_err {A} word (parse : list token -> result A derr) wrong l : (forall l e, parse l = Err e <-> wrong l e) ->
  forall e, find_attr word parse None l = Err e <-> attrs_wrong wrong (brackets_of word l) e.
Proof.
  intros P. induction l as [|a l IH]; intros e.
  - cbn. split; [discriminate|intros W; inversion W].
  - rewrite brackets_cons. cbn. destruct (at_path a) as [w|]; [|apply IH].
    destruct (String.eqb_spec w word) as [->|N].
    2: { destruct (string_dec w word) as [|_]; [congruence|]. cbn. apply IH. }
    destruct (string_dec word word) as [_|]; [|congruence]. cbn. destruct (at_args a) as [toks|].
    2: { split; [intros [= <-]; constructor|]. intros W. inversion W; reflexivity. }
    destruct (parse toks) as [x|e'] eqn:E.
    + rewrite find_again. split.
      * intros [Nb ->]. destruct (brackets_of word l) as [|b r]; [congruence|]. apply at_again.
        intros e0 W. apply P in W. congruence.
      * intros W. inversion W as [|l' e0 r W'|l' b r W' X]; subst.
        -- apply P in W'. congruence.
        -- split; [congruence|reflexivity].
    + split.
      * intros [= <-]. constructor. apply P, E.
      * intros W. inversion W as [|l' e0 r W'|l' b r W' X]; subst.
        -- apply P in W'. congruence.
        -- apply P in E. destruct (W' _ E).
Qed.

Lemma name_error d e : derive_actor d = Err e <-> attrs_wrong actor_wrong (brackets_of "actor" (d_attrs d)) e.
Proof.
  rewrite <- (find_err "actor" parse_actor_attrs actor_wrong (d_attrs d) actor_args_err e).
  unfold derive_actor. destruct (find_attr _ _ _ _) as [[[s|]|]|e']; split; congruence.
Qed.

Lemma remote_id_error d e : derive_remote_actor d = Err e <->
  attrs_wrong remote_wrong (brackets_of "remote_actor" (d_attrs d)) e.
Proof.
  rewrite <- (find_err "remote_actor" parse_remote_attrs remote_wrong (d_attrs d) remote_args_err e).
  unfold derive_remote_actor. destruct (find_attr _ _ _ _) as [o|e']; split; congruence.
Qed.

Lemma message_lit l s : parse_message_attrs l = Ok s <-> l = [Lit s].
Proof.
  split; [|intros ->; reflexivity]. unfold parse_message_attrs.
  repeat match goal with |- context [match ?x with _ => _ end] => destruct x; try discriminate end. congruence.
Qed.

Lemma message_error i e : remote_message i = Err e <-> impl_wrong i e.
Proof.
  unfold remote_message. destruct (parse_message_attrs (ri_attr i)) as [s|e'] eqn:E.
  - pose proof (proj1 (message_lit _ _) E) as A. destruct (ri_trait i) as [[m|]|] eqn:T; split; try discriminate.
    + intros W. inversion W as [N|s' _ T'|s' _ T']; try congruence; destruct (N _ A).
    + intros [= <-]. exact (iw_bare i s A T).
    + intros W. inversion W as [N|s' _ T'|s' _ T']; try congruence; destruct (N _ A).
    + intros [= <-]. exact (iw_plain i s A T).
    + intros W. inversion W as [N|s' _ T'|s' _ T']; try congruence; destruct (N _ A).
  - assert (X : e' = BadArgs).
    { revert E. unfold parse_message_attrs.
      repeat match goal with |- context [match ?x with _ => _ end] => destruct x; try congruence end. }
    subst e'. assert (N : forall s, ri_attr i <> [Lit s]) by (intros s A; apply message_lit in A; congruence). split.
    + intros [= <-]. exact (iw_args i N).
    + intros W. inversion W as [_|s' A _|s' A _]; [reflexivity|destruct (N _ A)|destruct (N _ A)].
Qed.
