(** Proofs about remote requests. *)
From Coq Require Import List Bool PeanoNat String Lia Eqdep_dec.
Import ListNotations.
From Verif Require Import Errors Dyn Reply Requests Requests_spec Requests_proofs RemoteDispatch RemoteDispatch_spec.

(** ** The map of messages *)

Lemma key_eqb_spec x y : key_eqb x y = true <-> x = y.
Proof.
  destruct x, y; unfold key_eqb; cbn. rewrite andb_true_iff, !String.eqb_eq.
  split; [intros [-> ->] | intros [= -> ->]]; auto.
Qed.

Lemma key_eqb_refl x : key_eqb x x = true.
Proof. apply key_eqb_spec; reflexivity. Qed.

Lemma find_duplicate_none l : forall seen,
  find_duplicate seen l = None <-> NoDup (map fst l) /\ forall k, In k (map fst l) -> ~ In k seen.
Proof.
  induction l as [|[k f] l IH]; intros seen; cbn.
  - split; [|auto]. intros _; split; [constructor | tauto].
  - destruct (existsb (key_eqb k) seen) eqn:E.
    + split; [discriminate|]. intros [_ H]. exfalso.
      apply existsb_exists in E. destruct E as (y & I & E). apply key_eqb_spec in E. subst y.
      exact (H k (or_introl eq_refl) I).
    + rewrite IH. split.
      * intros [N H]. split.
        -- constructor; auto. intros I. exact (H k I (or_introl eq_refl)).
        -- intros k' [<- | I]; [|intros J; exact (H k' I (or_intror J))].
           intros J. rewrite (proj2 (existsb_exists _ _)) in E; [discriminate|].
           exists k. split; auto. apply key_eqb_refl.
      * intros [N H]. inversion N; subst. split; auto.
        intros k' I [<- | J]; [tauto | exact (H k' (or_intror I) J)].
Qed.

Lemma table_get_in {K V} (eqb : K -> K -> bool) k (l : list (K * V)) v :
  table_get eqb k l = Some v -> exists k', In (k', v) l /\ eqb k' k = true.
Proof.
  induction l as [|[k' v'] l IH]; cbn; [discriminate|].
  destruct (eqb k' k) eqn:E.
  - intros [= ->]. eauto.
  - intros H. destruct (IH H) as (x & I & F). eauto.
Qed.

Lemma table_get_none {K V} (eqb : K -> K -> bool) k (l : list (K * V)) :
  table_get eqb k l = None -> forall k' v, In (k', v) l -> eqb k' k = false.
Proof.
  induction l as [|[k' v'] l IH]; cbn; [tauto|].
  destruct (eqb k' k) eqn:E; [discriminate|].
  intros H x v [[= <- <-] | I]; eauto.
Qed.

Lemma in_collect (l : list (msg_key * msg_fns)) : NoDup (map fst l) -> forall m e,
  (forall k, In k (map fst l) -> ~ In k (map fst m)) ->
  (In e (fold_left (fun m e => table_insert key_eqb (fst e) (snd e) m) l m) <-> In e l \/ In e m).
Proof.
  induction l as [|[k f] l IH]; cbn; intros N m e D; [tauto|].
  inversion N; subst.
  assert (F : filter (fun e => negb (key_eqb (fst e) k)) m = m).
  { assert (G : forall e, In e m -> fst e <> k).
    { intros x I Q. apply (D k (or_introl eq_refl)). rewrite <- Q. apply in_map. exact I. }
    clear - G. induction m as [|x m IH]; cbn; auto.
    destruct (key_eqb (fst x) k) eqn:E.
    - apply key_eqb_spec in E. destruct (G x (or_introl eq_refl) E).
    - cbn. rewrite IH; auto. intros; apply G; right; auto. }
  rewrite IH; auto.
  - unfold table_insert. rewrite F. cbn. intuition.
  - unfold table_insert. rewrite F. cbn. intros k' I [<- | J]; [tauto|].
    exact (D k' (or_intror I) J).
Qed.

Lemma messages_map_some l m : messages_map l = Some m -> NoDup (map fst l) /\ forall e, In e m <-> In e l.
Proof.
  unfold messages_map. destruct (find_duplicate [] l) eqn:E; [discriminate|].
  intros [= <-]. apply find_duplicate_none in E. destruct E as [N _]. split; auto.
  intros e. unfold collect_messages. rewrite in_collect; auto. cbn. tauto.
Qed.

Lemma messages_map_none l : messages_map l = None <-> ~ NoDup (map fst l).
Proof.
  unfold messages_map. destruct (find_duplicate [] l) eqn:E.
  - split; auto. intros _ N. assert (find_duplicate [] l = None).
    { apply find_duplicate_none. split; [exact N|cbn; tauto]. } congruence.
  - apply find_duplicate_none in E. split; [discriminate | tauto].
Qed.

(** ** Local requests *)

Section Local.
Variable user : nat -> Type.

(** Positions a tell (an ask) can be in. *)
Definition pos_ok {m r k} (p : rq_pc user m r k) : Prop :=
  match p with
  | RqSend | RqFailed _ => True
  | RqWait => is_tell k = false
  | RqDone o => if is_tell k then o = OutSent else o <> OutSent
  end.

Lemma reply_wait_tell k : is_tell k || is_ask k = true ->
  match reply_wait k with Some _ => is_tell k = false | None => is_tell k = true end.
Proof. destruct k; cbn; auto. Qed.

Lemma await_not_sent N r t f ch o : await_reply (user := user) (N := N) (r := r) t f ch = Ready o -> o <> OutSent.
Proof.
  unfold await_reply. destruct ch.
  - destruct (t && f); intros [= <-]; discriminate.
  - intros [= <-]. destruct (receive N r v); discriminate.
  - intros [= <-]. discriminate.
Qed.

Lemma pos_ok_step m r k (msg : den user m) chn within (s s' : rq_state user m r k) e os :
  is_tell k || is_ask k = true -> pos_ok (rq_pos s) ->
  rq_step msg chn within s e = Some (s', os) -> pos_ok (rq_pos s').
Proof.
  intros K P. pose proof (reply_wait_tell _ K) as W. unfold rq_step. destruct e.
  - destruct (rq_pos s) eqn:Ep; [| | discriminate | discriminate].
    + destruct (push_of _ _ _ _) as [|[b x]]; [intros [= <- <-]; rewrite Ep; exact Logic.I|].
      destruct x; intros [= <- <-]; cbn; auto.
      destruct (reply_wait k); cbn; auto. rewrite W. reflexivity.
    + destruct (reply_wait k) as [tr|]; [|discriminate].
      destruct (await_reply _ _ _) eqn:A; intros [= <- <-]; [rewrite Ep; exact W|].
      cbn. rewrite W. eapply await_not_sent; eauto.
  - destruct (env_ok _ _); intros [= <- <-]; exact P.
  - destruct (rq_ch s); intros [= <- <-]; exact P.
  - destruct (rq_ch s); intros [= <- <-]; exact P.
Qed.

Lemma pos_ok_run m r k (msg : den user m) chn within : is_tell k || is_ask k = true ->
  forall es (s s' : rq_state user m r k) os,
  pos_ok (rq_pos s) -> rq_exec msg chn within s es = Some (s', os) -> pos_ok (rq_pos s').
Proof.
  intros K. induction es as [|e es IH]; intros s s' os P; cbn.
  - intros [= <- <-]. exact P.
  - destruct (rq_step _ _ _ s e) as [[s1 o1]|] eqn:E; [|discriminate].
    destruct (rq_exec _ _ _ s1 es) as [[s2 o2]|] eqn:F; [|discriminate].
    intros [= <- <-]. eapply IH; [|exact F]. eapply pos_ok_step; eauto.
Qed.

Lemma rq_exec_app m r k (msg : den user m) chn within : forall es1 es2 (s : rq_state user m r k),
  rq_exec msg chn within s (es1 ++ es2) =
  match rq_exec msg chn within s es1 with
  | None => None
  | Some (s1, o1) => match rq_exec msg chn within s1 es2 with
                     | None => None | Some (s2, o2) => Some (s2, o1 ++ o2) end
  end.
Proof.
  induction es1 as [|e es1 IH]; intros; cbn.
  - destruct (rq_exec _ _ _ s es2) as [[? ?]|]; auto.
  - destruct (rq_step _ _ _ s e) as [[s1 o1]|]; auto. rewrite IH.
    destruct (rq_exec _ _ _ s1 es1) as [[s2 o2]|]; auto.
    destruct (rq_exec _ _ _ s2 es2) as [[s3 o3]|]; auto. rewrite app_assoc. reflexivity.
Qed.

End Local.

(** ** Serving a request *)

Section Serve.
Variable user : nat -> Type.
Variable id bytes : Type.
Variable w : world user id bytes.
Variable chn : nat.

Lemma method_family (q : request id bytes) : is_tell (method_of q) || is_ask (method_of q) = true.
Proof. unfold method_of. destruct (q_ask q), (q_immediate q); reflexivity. Qed.
Lemma method_tell (q : request id bytes) : is_tell (method_of q) = negb (q_ask q).
Proof. unfold method_of. destruct (q_ask q), (q_immediate q); reflexivity. Qed.

Lemma ended_result m r k (H : error_msg k m (r_ok (r_value r)) = m) (p : rq_pc user m r k) o :
  ended H p = Some o -> o <> OutPanic -> local_result p o.
Proof.
  destruct p as [| |o'|x]; cbn; try discriminate.
  - intros [= ->] _. constructor.
  - destruct x as [|e|]; intros [= <-] N; try (destruct (N eq_refl); fail).
    constructor. clear N. revert e H. generalize (error_msg k m (r_ok (r_value r))).
    intros t e H. destruct H. reflexivity.
Qed.

Lemma ended_none m r k (H : error_msg k m (r_ok (r_value r)) = m) (p : rq_pc user m r k) :
  ended H p = None -> p = RqSend \/ p = RqWait.
Proof. destruct p as [| | |x]; cbn; auto; try discriminate. destruct x; discriminate. Qed.

Lemma d_exec_app q : forall es1 es2 (n : node user q),
  d_exec w chn q n (es1 ++ es2) =
  match d_exec w chn q n es1 with
  | None => None
  | Some (n1, o1) => match d_exec w chn q n1 es2 with
                     | None => None | Some (n2, o2) => Some (n2, o1 ++ o2) end
  end.
Proof.
  induction es1 as [|e es1 IH]; intros; cbn.
  - destruct (d_exec _ _ _ n es2) as [[? ?]|]; auto.
  - destruct (d_step _ _ _ n e) as [[n1 o1]|]; auto. rewrite IH.
    destruct (d_exec _ _ _ n1 es1) as [[n2 o2]|]; auto.
    destruct (d_exec _ _ _ n2 es2) as [[n3 o3]|]; auto. rewrite app_assoc. reflexivity.
Qed.

(** A finished task stays as it is. *)
Lemma done_stays q : forall es (n n' : node user q) os,
  (exists r, n_pc n = DDone r) \/ n_pc n = DPanic ->
  d_exec w chn q n es = Some (n', os) -> n_pc n' = n_pc n /\ os = [].
Proof.
  induction es as [|e es IH]; intros n n' os D; cbn.
  - intros [= <- <-]. auto.
  - destruct (d_step w chn q n e) as [[n1 o1]|] eqn:E; [|discriminate].
    assert (S1 : n_pc n1 = n_pc n /\ o1 = []).
    { unfold d_step in E. destruct e.
      - destruct D as [[r D] | D]; rewrite D in E; discriminate.
      - injection E as <- <-. auto.
      - destruct (env_ok _ _); [|discriminate]. injection E as <- <-; auto.
      - destruct D as [[r D] | D]; rewrite D in E; discriminate.
      - destruct D as [[r D] | D]; rewrite D in E; discriminate. }
    destruct S1 as [S1 ->].
    destruct (d_exec w chn q n1 es) as [[n2 o2]|] eqn:F; [|discriminate].
    intros [= <- <-]. rewrite <- S1 in D |- *. destruct (IH _ _ _ D F) as [-> ->]. auto.
Qed.

(** While it runs, the task is the local request. *)
Definition at_local q f a (msg : den user (fn_msg f)) (n : node user q)
  (s : rq_state user (fn_msg f) (reply_of q f) (method_of q)) : Prop :=
  match ended (method_error q (fn_msg f) _) (rq_pos s) with
  | None => n_pc n = DRun f a msg (rq_ch s) (rq_pos s) /\ n_box n a = rq_box s
  | Some o => n_pc n = match finish_local w q f o with Some r => DDone r | None => DPanic end
  end.

Lemma run_local q f a (msg : den user (fn_msg f)) : forall es (n n' : node user q) s os,
  ended (method_error q (fn_msg f) _) (rq_pos s) = None ->
  n_pc n = DRun f a msg (rq_ch s) (rq_pos s) -> n_box n a = rq_box s ->
  d_exec w chn q n es = Some (n', os) ->
  exists es' s' os', rq_exec msg chn false s es' = Some (s', os') /\ os = map (pair a) os' /\
    at_local q f a msg n' s'.
Proof.
  induction es as [|e es IH]; intros n n' s os E P B; cbn.
  - intros [= <- <-]. exists [], s, []. cbn. repeat split; auto.
    unfold at_local. rewrite E. auto.
  - destruct (d_step w chn q n e) as [[n1 o1]|] eqn:D; [|discriminate].
    destruct (d_exec w chn q n1 es) as [[n2 o2]|] eqn:F; [|discriminate].
    intros [= <- <-]. unfold d_step in D. destruct e as [mt rt|reg|x b|v|].
    + rewrite P in D.
      replace (mk_rq (n_box n a) (rq_ch s) (rq_pos s)) with s in D by (rewrite B; destruct s; reflexivity).
      destruct (rq_step msg chn false s (RPoll mt rt)) as [[s1 p1]|] eqn:R; [|discriminate].
      injection D as <- <-.
      destruct (ended (method_error q (fn_msg f) _) (rq_pos s1)) as [o|] eqn:E1.
      * assert (Q : n_pc n2 = match finish_local w q f o with Some r => DDone r | None => DPanic end /\ o2 = []).
        { match type of F with d_exec _ _ _ ?n1 _ = _ =>
            assert (Q : n_pc n1 = match finish_local w q f o with Some r => DDone r | None => DPanic end)
              by (cbn; unfold after_local; rewrite E1; reflexivity);
            rewrite <- Q; eapply done_stays; [|exact F] end.
          rewrite Q. destruct (finish_local w q f o); eauto. }
        destruct Q as [Q ->].
        exists [RPoll mt rt], s1, (p1 ++ []). cbn [rq_exec]. rewrite R. cbn [rq_exec]. split; auto.
        rewrite !app_nil_r. split; auto. unfold at_local. rewrite E1. exact Q.
      * apply (IH _ _ s1 _ E1) in F; cycle 1.
        { cbn. unfold after_local. rewrite E1. reflexivity. }
        { cbn. unfold set_box. rewrite Nat.eqb_refl. reflexivity. }
        destruct F as (es' & s' & os' & X & -> & L).
        exists (RPoll mt rt :: es'), s', (p1 ++ os'). cbn [rq_exec]. rewrite R. cbn [rq_exec]. rewrite X, map_app. auto.
    + injection D as <- <-. apply (IH _ _ s) in F; auto.
    + destruct (env_ok (n_box n x) b) eqn:Ok; [|discriminate]. injection D as <- <-.
      destruct (Nat.eq_dec x a) as [-> | N].
      * apply (IH _ _ (mk_rq b (rq_ch s) (rq_pos s)) _ E) in F; cycle 1.
        { exact P. } { cbn. unfold set_box. rewrite Nat.eqb_refl. reflexivity. }
        destruct F as (es' & s' & os' & X & -> & L). exists (REnv b :: es'), s', os'. cbn. rewrite <- B, Ok, X. auto.
      * apply (IH _ _ s) in F; auto.
        cbn. unfold set_box. rewrite (proj2 (Nat.eqb_neq a x)); auto.
    + rewrite P in D. destruct (rq_ch s) eqn:C; try discriminate. injection D as <- <-.
      apply (IH _ _ (mk_rq (rq_box s) (OValue v) (rq_pos s)) _ E) in F; cycle 1.
      { reflexivity. } { exact B. }
      destruct F as (es' & s' & os' & X & -> & L). exists (RReply v :: es'), s', os'. cbn. rewrite C, X. auto.
    + rewrite P in D. destruct (rq_ch s) eqn:C; try discriminate. injection D as <- <-.
      apply (IH _ _ (mk_rq (rq_box s) ODropped (rq_pos s)) _ E) in F; cycle 1.
      { reflexivity. } { exact B. }
      destruct F as (es' & s' & os' & X & -> & L). exists (RReplyDrop :: es'), s', os'. cbn. rewrite C, X. auto.
Qed.

(** The response corresponds to the local result. *)
Lemma finish_answers q f es b s os o :
  forall (msg : den user (fn_msg f)),
  rq_exec msg chn false (rq_start (fn_msg f) (reply_of q f) (method_of q) b) es = Some (s, os) ->
  ended (method_error q (fn_msg f) _) (rq_pos s) = Some o ->
  match finish_local w q f o with
  | Some r => answers w q o r /\ o <> OutPanic
  | None => o = OutPanic /\ rq_pos s = RqDone OutPanic
  end.
Proof.
  intros msg X E.
  assert (P : pos_ok user (rq_pos s)).
  { eapply pos_ok_run; [apply method_family | | exact X]. exact Logic.I. }
  assert (Fl : forall x, rq_pos s = RqFailed x -> exists vd e, x = NotSent e /\ error_is user vd e msg).
  { intros x Fx. destruct (failed_tell_ask _ _ _ _ _ _ _ _ _ _ _ _ X Fx (method_family q))
      as (_ & _ & _ & _ & _ & _ & vd & e & _ & _ & _ & -> & G). eauto. }
  clear X. destruct (rq_pos s) as [| |o'|x]; cbn in E; try discriminate.
  - clear Fl. injection E as ->. unfold pos_ok in P. rewrite method_tell in P.
    revert o P. unfold finish_local, answers, reply_of. destruct (q_ask q); cbn.
    + intros o P. destruct o as [|v|e|]; cbn; [destruct (P eq_refl) | | | split; auto].
      * split; [|discriminate]. destruct (w_encode w _ v) eqn:Ev; eexists; (split; [reflexivity|]);
          [apply aa_value | apply aa_value_bad]; exact Ev.
      * split; [|discriminate]. unfold serialise_error. destruct e as [v| |v|h|v]; cbn;
          try (eexists; split; [reflexivity|]; constructor).
        destruct (w_encode w _ h) eqn:Eh; eexists; (split; [reflexivity|]);
          [apply aa_handler | apply aa_handler_bad]; exact Eh.
    + intros o ->. cbn. split; [|discriminate]. eexists; split; [reflexivity|constructor].
  - destruct (Fl x eq_refl) as (vd & e & -> & G). cbn in E. injection E as <-. clear Fl P.
    revert e G. unfold method_error, finish_local, answers, reply_of, method_of.
    destruct (q_ask q), (q_immediate q); cbn; intros e G; destruct vd, e as [v| |v|h|[v|]]; cbn in *;
      try contradiction; split; try discriminate; eexists; (split; [reflexivity|]); constructor.
Qed.

(** Runs from the start. *)
Lemma lookup_verdict q : ids_unique w ->
  lookup_fns w q = DDone (refusal_response (user := user) q UnknownMessage) /\ (forall f, ~ handles w q f)
  \/ exists f, lookup_fns w q = DLock f /\ handles w q f.
Proof.
  intros U. unfold lookup_fns. destruct (messages_map (w_messages w)) as [m|] eqn:M.
  - apply messages_map_some in M. destruct M as [_ M].
    destruct (table_get key_eqb (q_key q) m) as [f|] eqn:G.
    + right. exists f. split; auto. apply table_get_in in G. destruct G as (k & I & K).
      apply key_eqb_spec in K. subst k. apply M in I. exact I.
    + left. split.
      * unfold refuse, refusal_response. destruct (q_ask q); reflexivity.
      * intros f I. apply M in I. pose proof (table_get_none _ _ _ G _ _ I) as N.
        change (q_actor q, q_msg q) with (q_key q) in N. rewrite key_eqb_refl in N. discriminate.
  - apply messages_map_none in M. destruct (M U).
Qed.

Lemma check_verdict q f reg : handles w q f ->
  (exists z, refused w q reg z /\ check w q f reg = DDone (refusal_response q z))
  \/ (exists a msg, accepted w q reg f a msg /\ check w q f reg = DRun f a msg OEmpty RqSend).
Proof.
  intros H. unfold check. destruct (table_get (w_eqb w) (q_id q) reg) as [x|] eqn:G.
  - apply table_get_in in G. destruct (en_type x =? fn_actor f) eqn:T.
    + apply Nat.eqb_eq in T. destruct (w_decode w (fn_msg f) (q_payload q)) as [msg|s] eqn:D.
      * right. exists (en_actor x), msg. split; auto. exists x. repeat split; auto.
      * left. exists (Undecodable s). split.
        -- eapply ref_payload; eauto.
        -- unfold refuse, refusal_response. destruct (q_ask q); reflexivity.
    + apply Nat.eqb_neq in T. left. exists WrongType. split.
      * eapply ref_type; eauto.
      * unfold refuse, refusal_response. destruct (q_ask q); reflexivity.
  - left. exists NotRunning. split.
    + eapply ref_actor; eauto. exact (table_get_none _ _ _ G).
    + unfold refuse, refusal_response. destruct (q_ask q); reflexivity.
Qed.

(** A run that has not looked at the table yet. *)
Lemma run_prefix q (U : ids_unique w) : forall es (n n' : node user q) os,
  n_pc n = DStart \/ (exists f, n_pc n = DLock f /\ handles w q f) ->
  d_exec w chn q n es = Some (n', os) ->
  (os = [] /\ (n_pc n' = DStart \/ exists f, n_pc n' = DLock f /\ handles w q f))
  \/ exists es1 mt rt es2 n1,
       es = es1 ++ DPoll mt rt :: es2 /\ d_exec w chn q n es1 = Some (n1, []) /\
       ((exists z, refused w q (n_reg n1) z /\ n_pc n' = DDone (refusal_response q z) /\ os = [])
        \/ (exists f a msg es' s os', accepted w q (n_reg n1) f a msg /\
              rq_exec msg chn false (rq_start (fn_msg f) (reply_of q f) (method_of q) (n_box n1 a)) es'
                = Some (s, os') /\ os = map (pair a) os' /\ at_local q f a msg n' s)).
Proof.
  induction es as [|e es IH]; intros n n' os P; cbn.
  - intros [= <- <-]. left. auto.
  - destruct (d_step w chn q n e) as [[n1 o1]|] eqn:D; [|discriminate].
    destruct (d_exec w chn q n1 es) as [[n2 o2]|] eqn:F; [|discriminate].
    intros [= <- <-].
    assert (Cont : o1 = [] -> (n_pc n1 = DStart \/ exists f, n_pc n1 = DLock f /\ handles w q f) ->
      (o1 ++ o2 = [] /\ (n_pc n2 = DStart \/ exists f, n_pc n2 = DLock f /\ handles w q f))
      \/ exists es1 mt rt es2 m1,
       e :: es = es1 ++ DPoll mt rt :: es2 /\ d_exec w chn q n es1 = Some (m1, []) /\
       ((exists z, refused w q (n_reg m1) z /\ n_pc n2 = DDone (refusal_response q z) /\ o1 ++ o2 = [])
        \/ (exists f a msg es' s os', accepted w q (n_reg m1) f a msg /\
              rq_exec msg chn false (rq_start (fn_msg f) (reply_of q f) (method_of q) (n_box m1 a)) es'
                = Some (s, os') /\ o1 ++ o2 = map (pair a) os' /\ at_local q f a msg n2 s))).
    { intros -> P1. destruct (IH _ _ _ P1 F) as [[-> Q] | (es1 & mt & rt & es2 & m1 & -> & X & Q)].
      - left. auto.
      - right. exists (e :: es1), mt, rt, es2, m1. cbn. rewrite D, X. auto. }
    unfold d_step in D. destruct e as [mt rt|reg|x b|v|].
    + destruct P as [P | (f & P & H)]; rewrite P in D; injection D as <- <-.
      * destruct (lookup_verdict q U) as [[L N] | (f & L & H)].
        -- assert (Q : n_pc n2 = DDone (refusal_response q UnknownMessage) /\ o2 = []).
           { eapply (done_stays q) in F; [|left; cbn; rewrite L; eauto]. cbn in F. rewrite L in F. exact F. }
           destruct Q as [Q ->].
           right. exists [], mt, rt, es, n. cbn. split; auto. split; auto.
           left. exists UnknownMessage. repeat split; auto. constructor. exact N.
        -- apply Cont; auto. right. exists f. cbn. auto.
      * destruct (check_verdict q f (n_reg n) H) as [(z & R & L) | (a & msg & A & L)].
        -- assert (Q : n_pc n2 = DDone (refusal_response q z) /\ o2 = []).
           { eapply (done_stays q) in F; [|left; cbn; rewrite L; eauto]. cbn in F. rewrite L in F. exact F. }
           destruct Q as [Q ->].
           right. exists [], mt, rt, es, n. cbn. split; auto. split; auto. left. eauto.
        -- right. exists [], mt, rt, es, n. cbn. split; auto. split; auto. right.
           apply (run_local q f a msg es _ n2 (rq_start (fn_msg f) (reply_of q f) (method_of q) (n_box n a)) o2) in F;
             cycle 1.
           { reflexivity. } { cbn. rewrite L. reflexivity. } { reflexivity. }
           destruct F as (es' & s' & os' & X & -> & LL).
           exists f, a, msg, es', s', os'. auto.
    + injection D as <- <-. apply Cont; auto.
    + destruct (env_ok _ _); [|discriminate]. injection D as <- <-. apply Cont; auto.
    + destruct P as [P | (f & P & H)]; rewrite P in D; discriminate.
    + destruct P as [P | (f & P & H)]; rewrite P in D; discriminate.
Qed.

Theorem served : forall q es reg0 box0 (n : node user q) os,
  ids_unique w -> d_exec w chn q (mk_node reg0 box0 DStart) es = Some (n, os) ->
  (os = [] /\ (n_pc n = DStart \/ exists f, n_pc n = DLock f /\ handles w q f))
  \/ exists es1 mt rt es2 n1,
       es = es1 ++ DPoll mt rt :: es2 /\
       d_exec w chn q (mk_node reg0 box0 DStart) es1 = Some (n1, []) /\
       ((exists z, refused w q (n_reg n1) z /\ n_pc n = DDone (refusal_response q z) /\ os = [])
        \/ (exists f a msg es' s os', accepted w q (n_reg n1) f a msg /\
              rq_exec msg chn false (rq_start (fn_msg f) (reply_of q f) (method_of q) (n_box n1 a)) es'
                = Some (s, os') /\ os = map (pair a) os' /\
              ((n_pc n = DRun f a msg (rq_ch s) (rq_pos s) /\ n_box n a = rq_box s /\
                (rq_pos s = RqSend \/ rq_pos s = RqWait))
               \/ (exists o r, local_result (rq_pos s) o /\ answers w q o r /\ n_pc n = DDone r)
               \/ (rq_pos s = RqDone OutPanic /\ n_pc n = DPanic)))).
Proof.
  intros q es reg0 box0 n os U X.
  destruct (run_prefix q U _ (mk_node reg0 box0 DStart) _ _ (or_introl eq_refl) X)
    as [L | (es1 & mt & rt & es2 & n1 & -> & Y & [R | (f & a & msg & es' & s & os' & A & Z & -> & L)])];
    [left; exact L | |].
  - right. exists es1, mt, rt, es2, n1. auto.
  - right. exists es1, mt, rt, es2, n1. split; auto. split; auto. right.
    exists f, a, msg, es', s, os'. split; auto. split; auto. split; auto.
    unfold at_local in L. destruct (ended _ (rq_pos s)) as [o|] eqn:E.
    + right. pose proof (finish_answers _ _ _ _ _ _ _ _ Z E) as FA.
      destruct (finish_local w q f o) as [r|].
      * destruct FA as [FA N]. left. exists o, r. split; auto. eapply ended_result; eauto.
      * destruct FA as [_ FA]. right. auto.
    + left. destruct L as [L1 L2]. split; auto. split; auto. eapply ended_none; eauto.
Qed.


(** The verdict is unique. *)
Lemma handles_unique q f f' : ids_unique w -> handles w q f -> handles w q f' -> f = f'.
Proof.
  unfold ids_unique, handles. generalize (q_actor q, q_msg q). generalize (w_messages w).
  induction l as [|[k g] l IH]; cbn; [tauto|]. intros k' N. inversion N; subst.
  intros [[= -> ->] | I] [[= E] | J]; auto; try (subst k).
  - destruct H1. change k' with (fst (k', f')). apply in_map. exact J.
  - subst g. destruct H1. change k' with (fst (k', f)). apply in_map. exact I.
  - eauto.
Qed.

Theorem verdicts_exclusive q reg : ids_unique w -> one_entry w reg ->
  (forall z z', refused w q reg z -> refused w q reg z' -> z = z') /\
  (forall z f a msg, refused w q reg z -> ~ accepted w q reg f a msg) /\
  (forall f a msg f' a' msg', accepted w q reg f a msg -> accepted w q reg f' a' msg' ->
     a = a' /\ existT (fun g => den user (fn_msg g)) f msg = existT _ f' msg').
Proof.
  intros U O.
  assert (HU := fun f f' => handles_unique q f f' U).
  assert (AB : forall x, absent w reg (q_id q) -> registered w reg (q_id q) x -> False).
  { intros x A (k & I & K). rewrite (A k x I) in K. discriminate. }
  split; [|split].
  - intros z z' R R'. destruct R as [N|f H A|f x H G T|f x s H G T D], R' as [N'|f' H' A'|f' x' H' G' T'|f' x' s' H' G' T' D'];
      auto; try (destruct (N _ H')); try (destruct (N' _ H)); try (exfalso; eauto; fail); pose proof (HU _ _ H H'); subst f'; pose proof (O _ _ _ G G'); subst x';
      try contradiction. rewrite D in D'. congruence.
  - intros z f a msg R (x & H & G & T & Ea & D). destruct R as [N|f' H' A'|f' x' H' G' T'|f' x' s' H' G' T' D'].
    + exact (N f H).
    + eauto.
    + pose proof (HU _ _ H H'); subst f'. pose proof (O _ _ _ G G'); subst x'. contradiction.
    + pose proof (HU _ _ H H'); subst f'. congruence.
  - intros f a msg f' a' msg' (x & H & G & T & Ea & D) (x' & H' & G' & T' & Ea' & D').
    pose proof (HU _ _ H H'); subst f'. pose proof (O _ _ _ G G'); subst x'.
    split; [congruence|]. rewrite D in D'. injection D' as ->. reflexivity.
Qed.

Theorem verdict_exists q reg : ids_unique w ->
  (exists z, refused w q reg z) \/ (exists f a msg, accepted w q reg f a msg).
Proof.
  intros U. destruct (lookup_verdict q U) as [[_ N] | (f & _ & H)].
  - left. exists UnknownMessage. constructor. exact N.
  - destruct (check_verdict q f reg H) as [(z & R & _) | (a & msg & A & _)]; eauto.
Qed.

(** What is enqueued. *)
Theorem enqueued : forall q es reg0 box0 (n : node user q) os,
  ids_unique w -> d_exec w chn q (mk_node reg0 box0 DStart) es = Some (n, os) ->
  os = [] \/
  exists es1 n1 f a msg, (exists mt rt es2, es = es1 ++ DPoll mt rt :: es2) /\
    d_exec w chn q (mk_node reg0 box0 DStart) es1 = Some (n1, []) /\
    accepted w q (n_reg n1) f a msg /\
    os = [(a, GMsg (existT _ (fn_msg f) msg) (if q_ask q then Some chn else None) false)].
Proof.
  intros q es reg0 box0 n os U X.
  destruct (served _ _ _ _ _ _ U X)
    as [[-> _] | (es1 & mt & rt & es2 & n1 & -> & Y & [(z & _ & _ & ->) | (f & a & msg & es' & s & os' & A & Z & -> & _)])];
    auto.
  pose proof (accounted_run _ _ _ _ _ _ _ _ _ _ _ Z) as Ac. unfold accounted in Ac.
  assert (M : message_signal user (method_of q) (fn_msg f) msg chn false
              = GMsg (existT _ (fn_msg f) msg) (if q_ask q then Some chn else None) false).
  { unfold message_signal. rewrite method_tell. destruct (q_ask q); reflexivity. }
  destruct (rq_pos s); subst os'; auto; right; exists es1, n1, f, a, msg; rewrite <- M; repeat split; eauto.
Qed.

(** The task touches only mailboxes at their back. *)
Theorem poll_effect : forall q (n n' : node user q) mt rt os,
  d_step w chn q n (DPoll mt rt) = Some (n', os) ->
  n_reg n' = n_reg n /\ forall x, appended user (n_box n x) (n_box n' x) (into x os).
Proof.
  intros q n n' mt rt os. unfold d_step.
  assert (R : forall b, appended user b b []).
  { intros b. unfold appended. rewrite app_nil_r. auto. }
  destruct (n_pc n) as [|f|f a msg ch p|r|]; try discriminate.
  - intros [= <- <-]. cbn. auto.
  - intros [= <- <-]. cbn. auto.
  - destruct (rq_step msg chn false (mk_rq (n_box n a) ch p) (RPoll mt rt)) as [[s p1]|] eqn:E; [|discriminate].
    intros [= <- <-]. cbn [n_reg n_box]. split; auto. intros x.
    pose proof (poll_appends _ _ _ _ _ _ _ _ _ _ _ _ E) as [Ap _]. cbn [rq_box] in Ap.
    assert (I1 : into a (map (pair a) p1) = p1).
    { clear. induction p1; cbn; auto. rewrite Nat.eqb_refl, IHp1. reflexivity. }
    unfold set_box. destruct (Nat.eqb_spec x a) as [-> | N].
    + rewrite I1. exact Ap.
    + assert (I2 : into x (map (pair a) p1) = []).
      { clear - N. induction p1; cbn; auto. destruct (Nat.eqb_spec a x); [congruence|auto]. }
      rewrite I2. apply R.
Qed.

(** An acceptable request whose actor has room in its mailbox is enqueued. *)
Lemma accepted_at : forall q reg box0 f a msg m1 r1 m2 r2 m3 r3,
  ids_unique w -> one_entry w reg -> accepted w q reg f a msg ->
  mopen (box0 a) = true -> ~ full user (box0 a) ->
  exists n, d_exec w chn q (mk_node reg box0 DStart) [DPoll m1 r1; DPoll m2 r2; DPoll m3 r3]
    = Some (n, [(a, GMsg (existT _ (fn_msg f) msg) (if q_ask q then Some chn else None) false)]) /\
    n_pc n = after_local w q f a msg OEmpty (if is_tell (method_of q) then RqDone OutSent else RqWait).
Proof.
  intros q reg box0 f a msg m1 r1 m2 r2 m3 r3 U O A Op Fu.
  destruct (verdicts_exclusive q reg U O) as (_ & NR & UA).
  cbn [d_exec d_step n_pc n_reg n_box].
  destruct (lookup_verdict q U) as [[L N] | (f' & L & H)].
  { destruct A as (x & H & _). destruct (N f H). }
  rewrite L. cbn [d_exec d_step n_pc n_reg n_box].
  destruct (check_verdict q f' reg H) as [(z & R & Ck) | (a' & msg' & A' & Ck)].
  { destruct (NR _ _ _ _ R A). }
  destruct (UA _ _ _ _ _ _ A A') as [<- Em].
  assert (f = f') by (apply (f_equal (@projT1 _ _)) in Em; exact Em). subst f'.
  rewrite Ck. cbn [n_pc n_reg n_box].
  pose proof (poll_tell_ask user (fn_msg f) (reply_of q f) (method_of q) msg' chn false
    (rq_start (fn_msg f) (reply_of q f) (method_of q) (box0 a)) m3 r3 VSent eq_refl (method_family q)
    (ex_sent _ _ _ _ Op Fu)) as (b' & _ & St).
  unfold rq_start in St. cbn [d_exec d_step n_pc n_box n_reg]. rewrite St. eexists.
  assert (Em' : message_signal user (method_of q) (fn_msg f) msg' chn false
     = GMsg (existT _ (fn_msg f) msg) (if q_ask q then Some chn else None) false).
  { unfold message_signal. rewrite method_tell.
    assert (existT (den user) (fn_msg f) msg' = existT (den user) (fn_msg f) msg).
    { apply (f_equal (fun p => existT (den user) (fn_msg (projT1 p)) (projT2 p))) in Em. symmetry. exact Em. }
    rewrite H0. destruct (q_ask q); reflexivity. }
  cbn. rewrite Em'. split; [reflexivity|].
  exact (f_equal (fun p => after_local w q (projT1 p) a (projT2 p) OEmpty
                             (if is_tell (method_of q) then RqDone OutSent else RqWait)) (eq_sym Em)).
Qed.

Theorem accepted_enqueued : forall q reg box0 f a msg m1 r1 m2 r2 m3 r3,
  ids_unique w -> one_entry w reg -> accepted w q reg f a msg ->
  mopen (box0 a) = true -> ~ full user (box0 a) ->
  exists n, d_exec w chn q (mk_node reg box0 DStart) [DPoll m1 r1; DPoll m2 r2; DPoll m3 r3]
    = Some (n, [(a, GMsg (existT _ (fn_msg f) msg) (if q_ask q then Some chn else None) false)]).
Proof.
  intros q reg box0 f a msg m1 r1 m2 r2 m3 r3 U O A Op Fu.
  destruct (accepted_at q reg box0 f a msg m1 r1 m2 r2 m3 r3 U O A Op Fu) as (n & D & _). eauto.
Qed.

(** A tell is then over; an ask is over once its reply is there. *)
Theorem accepted_told : forall q reg box0 f a msg m1 r1 m2 r2 m3 r3, q_ask q = false ->
  ids_unique w -> one_entry w reg -> accepted w q reg f a msg ->
  mopen (box0 a) = true -> ~ full user (box0 a) ->
  exists n, d_exec w chn q (mk_node reg box0 DStart) [DPoll m1 r1; DPoll m2 r2; DPoll m3 r3]
    = Some (n, [(a, GMsg (existT _ (fn_msg f) msg) None false)]) /\ n_pc n = DDone (RespTell (Ok tt)).
Proof.
  intros q reg box0 f a msg m1 r1 m2 r2 m3 r3 Q U O A Op Fu.
  destruct (accepted_at q reg box0 f a msg m1 r1 m2 r2 m3 r3 U O A Op Fu) as (n & D & Pc).
  rewrite Q in D. exists n. split; [exact D|]. rewrite Pc. clear - Q.
  destruct q as [ask i ac mi pl mt rt imm]; cbn in Q; subst ask. destruct imm; reflexivity.
Qed.

Theorem accepted_asked : forall q reg box0 f a msg m1 r1 m2 r2 m3 r3 m4 r4 (y : den user (r_ok (fn_reply f))) p,
  q_ask q = true -> ids_unique w -> one_entry w reg -> accepted w q reg f a msg ->
  mopen (box0 a) = true -> ~ full user (box0 a) -> w_encode w _ y = Ok p ->
  exists n, d_exec w chn q (mk_node reg box0 DStart)
      [DPoll m1 r1; DPoll m2 r2; DPoll m3 r3; DReply (Ok (box user y)); DPoll m4 r4]
    = Some (n, [(a, GMsg (existT _ (fn_msg f) msg) (Some chn) false)]) /\ n_pc n = DDone (RespAsk (Ok p)).
Proof.
  intros q reg box0 f a msg m1 r1 m2 r2 m3 r3 m4 r4 y p Q U O A Op Fu En.
  destruct (accepted_at q reg box0 f a msg m1 r1 m2 r2 m3 r3 U O A Op Fu) as (n & D & Pc).
  rewrite Q in D.
  change [DPoll m1 r1; DPoll m2 r2; DPoll m3 r3; DReply (Ok (box user y)); DPoll m4 r4]
    with ([DPoll m1 r1; DPoll m2 r2; DPoll m3 r3] ++ [@DReply user id (Ok (box user y)); DPoll m4 r4]).
  rewrite d_exec_app, D. clear D.
  assert (G : exists n', d_exec w chn q n [DReply (Ok (box user y)); DPoll m4 r4] = Some (n', []) /\
                n_pc n' = DDone (RespAsk (Ok p))); [|destruct G as (n' & -> & G); rewrite app_nil_r; eauto].
  clear A Op Fu O U. destruct q as [ask i ac mi pl mt rt imm]; cbn in Q; subst ask. destruct n as [nr nb pc]; cbn [n_pc] in Pc; subst pc.
  destruct imm; cbn; unfold downcast_ok; rewrite Errors_proofs.unbox_box; cbn; eexists; (split; [reflexivity|]); cbn; rewrite En; reflexivity.
Qed.

(** Duplicate ids. *)
Theorem duplicates_panic : forall q es reg0 box0 (n : node user q) os mt rt,
  ~ ids_unique w -> d_exec w chn q (mk_node reg0 box0 DStart) (DPoll mt rt :: es) = Some (n, os) ->
  n_pc n = DPanic /\ os = [].
Proof.
  intros q es reg0 box0 n os mt rt U. cbn [d_exec d_step n_pc].
  assert (L : lookup_fns w q = DPanic).
  { unfold lookup_fns. rewrite (proj2 (messages_map_none _) U). reflexivity. }
  rewrite L. destruct (d_exec w chn q _ es) as [[n2 o2]|] eqn:F; [|discriminate].
  intros [= <- <-]. apply done_stays in F; [|cbn; auto]. destruct F as [F ->]. auto.
Qed.

(** ** Round trips *)
Theorem ask_round_trip : forall q i actor mid f (v : den user (fn_msg f)) mt rt imm es reg0 box0 (n : node user q) os resp,
  ids_unique w -> In ((actor, mid), f) (w_messages w) ->
  round_trip w (fn_msg f) -> round_trip w (r_ok (fn_reply f)) -> round_trip w (r_err (fn_reply f)) ->
  build w true true i actor mid (fn_msg f) v mt rt imm = Command q ->
  d_exec w chn q (mk_node reg0 box0 DStart) es = Some (n, os) -> n_pc n = DDone resp ->
  exists es1 n1, d_exec w chn q (mk_node reg0 box0 DStart) es1 = Some (n1, []) /\
    (exists mt rt es2, es = es1 ++ DPoll mt rt :: es2) /\
    ((absent w (n_reg n1) i /\ os = [] /\ receive_ask w (fn_reply f) (Some resp) = RemoteErr RActorNotRunning)
     \/ (exists x, registered w (n_reg n1) i x /\ en_type x <> fn_actor f /\ os = [] /\
           receive_ask w (fn_reply f) (Some resp) = RemoteErr RBadActorType)
     \/ (exists x es' s os' o, registered w (n_reg n1) i x /\ en_type x = fn_actor f /\
           rq_exec v chn false (rq_start (fn_msg f) (fn_reply f) (if imm then MAskTry rt else MAsk mt rt)
                                  (n_box n1 (en_actor x))) es' = Some (s, os') /\
           os = map (pair (en_actor x)) os' /\ local_result (rq_pos s) o /\
           ask_result w o (receive_ask w (fn_reply f) (Some resp)))).
Proof.
  intros q i actor mid f v mt rt imm es reg0 box0 n os resp U I Rm Ro Re B X D.
  unfold build in B. destruct (w_encode w (fn_msg f) v) as [p|] eqn:Ev; [|discriminate].
  injection B as <-.
  destruct (served _ _ _ _ _ _ U X)
    as [[_ [L | (g & L & _)]] | (es1 & m1 & r1 & es2 & n1 & -> & Y & V)];
    [rewrite D in L; discriminate | rewrite D in L; discriminate |].
  exists es1, n1. split; auto. split; eauto.
  destruct V as [(z & R & E & ->) | (g & a & msg & es' & s & os' & A & Z & -> & V)].
  - rewrite D in E. injection E as ->.
    destruct R as [N|g H Ab|g x H G T|g x s H G T Dec].
    + destruct (N f I).
    + left. auto.
    + right. left. exists x. pose proof (handles_unique _ _ _ U H I). subst g. auto.
    + pose proof (handles_unique _ _ _ U H I). subst g. cbn in Dec. rewrite (Rm _ _ Ev) in Dec. discriminate.
  - right. right. destruct A as (x & H & G & T & <- & Dec).
    pose proof (handles_unique _ _ _ U H I). subst g. cbn in Dec.
    rewrite (Rm _ _ Ev) in Dec. injection Dec as <-.
    destruct V as [(L & _) | [(o & r & LR & An & L) | (_ & L)]]; rewrite D in L; try discriminate.
    injection L as ->. exists x, es', s, os', o. repeat split; auto.
    clear LR. unfold answers in An. cbn in An. destruct An as (an & -> & An).
    cbn in o. change (ask_answer w (r := fn_reply f) o an) in An.
    destruct An; cbn.
    + rewrite (Ro _ _ H0). econstructor; eauto.
    + eapply ar_value_bad; eauto.
    + rewrite (Re _ _ H0). cbn. apply ar_error; [constructor|]. intros y [= <-]. eauto.
    + eapply ar_handler_bad; eauto.
    + apply ar_error; [constructor|discriminate].
    + apply ar_error; [constructor|discriminate].
    + apply ar_error; [constructor|discriminate].
    + apply ar_error; [constructor|discriminate].
Qed.

Theorem tell_round_trip : forall q i actor mid f (v : den user (fn_msg f)) mt rt imm es reg0 box0 (n : node user q) os resp,
  ids_unique w -> In ((actor, mid), f) (w_messages w) -> round_trip w (fn_msg f) ->
  build w false true i actor mid (fn_msg f) v mt rt imm = Command q ->
  d_exec w chn q (mk_node reg0 box0 DStart) es = Some (n, os) -> n_pc n = DDone resp ->
  exists es1 n1, d_exec w chn q (mk_node reg0 box0 DStart) es1 = Some (n1, []) /\
    (exists mt rt es2, es = es1 ++ DPoll mt rt :: es2) /\
    ((absent w (n_reg n1) i /\ os = [] /\ receive_tell (Some resp) = RemoteErr RActorNotRunning)
     \/ (exists x, registered w (n_reg n1) i x /\ en_type x <> fn_actor f /\ os = [] /\
           receive_tell (Some resp) = RemoteErr RBadActorType)
     \/ (exists x es' s os' o, registered w (n_reg n1) i x /\ en_type x = fn_actor f /\
           rq_exec v chn false (rq_start (fn_msg f) (RPlain TUnit) (if imm then MTellTry else MTell mt)
                                  (n_box n1 (en_actor x))) es' = Some (s, os') /\
           os = map (pair (en_actor x)) os' /\ local_result (rq_pos s) o /\
           tell_result o (receive_tell (Some resp)))).
Proof.
  intros q i actor mid f v mt rt imm es reg0 box0 n os resp U I Rm B X D.
  unfold build in B. destruct (w_encode w (fn_msg f) v) as [p|] eqn:Ev; [|discriminate].
  injection B as <-.
  destruct (served _ _ _ _ _ _ U X)
    as [[_ [L | (g & L & _)]] | (es1 & m1 & r1 & es2 & n1 & -> & Y & V)];
    [rewrite D in L; discriminate | rewrite D in L; discriminate |].
  exists es1, n1. split; auto. split; eauto.
  destruct V as [(z & R & E & ->) | (g & a & msg & es' & s & os' & A & Z & -> & V)].
  - rewrite D in E. injection E as ->.
    destruct R as [N|g H Ab|g x H G T|g x s H G T Dec].
    + destruct (N f I).
    + left. auto.
    + right. left. exists x. pose proof (handles_unique _ _ _ U H I). subst g. auto.
    + pose proof (handles_unique _ _ _ U H I). subst g. cbn in Dec. rewrite (Rm _ _ Ev) in Dec. discriminate.
  - right. right. destruct A as (x & H & G & T & <- & Dec).
    pose proof (handles_unique _ _ _ U H I). subst g. cbn in Dec.
    rewrite (Rm _ _ Ev) in Dec. injection Dec as <-.
    destruct V as [(L & _) | [(o & r & LR & An & L) | (_ & L)]]; rewrite D in L; try discriminate.
    injection L as ->. exists x, es', s, os', o. repeat split; auto.
    clear LR. unfold answers in An. cbn in An. destruct An as (an & -> & An).
    destruct An; constructor.
Qed.

(** The caller panics when its reply sender is dropped or the response is of another
    kind. *)
Theorem ask_panics r x : receive_ask w r x = RemotePanic <->
  match x with None => True | Some (RespAsk _) | Some (RespFailure _) => False | _ => True end.
Proof.
  destruct x as [[[p|e]| | |e]|]; cbn; try tauto; try (split; [discriminate|tauto]).
  destruct (w_decode w _ p); split; try discriminate; tauto.
Qed.
Theorem tell_panics (x : option (response user bytes)) : receive_tell x = RemotePanic <->
  match x with None => True | Some (RespTell _) | Some (RespFailure _) => False | _ => True end.
Proof.
  destruct x as [[ |[u|e]| |e]|]; cbn; try tauto; split; try discriminate; tauto.
Qed.

Theorem bad_reply r p s : w_decode w (r_ok r) p = Err s ->
  receive_ask w r (Some (RespAsk (Ok p))) = RemoteErr (RDeserializeMessage s) /\
  receive_ask w r (Some (RespAsk (Err (RDeserializeMessage s)))) = RemoteErr (RDeserializeMessage s).
Proof. intros H. cbn. rewrite H. auto. Qed.

(** What the caller makes of the response. *)
Theorem ask_ok r x v : receive_ask w r x = RemoteOk v <->
  exists p, x = Some (RespAsk (Ok p)) /\ w_decode w (r_ok r) p = Ok v.
Proof.
  split.
  - destruct x as [[[p|e]| | |e]|]; cbn; try discriminate.
    destruct (w_decode w (r_ok r) p) eqn:D; intros H; [|discriminate]. injection H as <-. eauto.
  - intros (p & -> & D). cbn. now rewrite D.
Qed.
Theorem ask_handler_error r x e : receive_ask w r x = RemoteErr (RHandlerError e) <->
  exists p, x = Some (RespAsk (Err (RHandlerError p))) /\ w_decode w (r_err r) p = Ok e.
Proof.
  split.
  - destruct x as [[[p|y]| | |y]|]; cbn; try discriminate.
    + destruct (w_decode w (r_ok r) p); discriminate.
    + destruct y; cbn; try discriminate. destruct (w_decode w (r_err r) _) eqn:D; cbn; [|discriminate].
      intros H. injection H as <-. eauto.
    + destruct y as [ | | | | | | |z| | | | | | | | | | | ]; try discriminate. destruct z.
  - intros (p & -> & D). cbn. now rewrite D.
Qed.
Theorem ask_bad_error r p s : w_decode w (r_err r) p = Err s ->
  receive_ask w r (Some (RespAsk (Err (RHandlerError p)))) = RemoteErr (RDeserializeHandlerError s).
Proof. intros D. cbn. now rewrite D. Qed.
Theorem tell_ok (x : option (response user bytes)) u : receive_tell x = RemoteOk u <-> x = Some (RespTell (Ok u)).
Proof.
  split; [|intros ->; reflexivity].
  destruct x as [[ |[v|e]| |e]|]; cbn; intros H; try discriminate. now injection H as <-.
Qed.

End Serve.

(** * What is sent back over the network *)
Lemma response_fits : forall user id bytes (w : world user id bytes) chn q es reg0 box0 (n : node user q) os r,
  ids_unique w -> d_exec w chn q (mk_node reg0 box0 DStart) es = Some (n, os) -> n_pc n = DDone r ->
  fits_wire q r.
Proof.
  intros user id bytes w chn q es reg0 box0 n os r U H D.
  destruct (served _ _ _ w chn q es reg0 box0 n os U H)
    as [(_ & [P|(f & P & _)])|(es1 & mt & rt & es2 & n1 & _ & _ & [(z & _ & P & _)|(f & a & msg & es' & s & os' & _ & _ & _ & C)])];
    try congruence.
  - rewrite P in D. injection D as <-. unfold refusal_response. destruct (q_ask q) eqn:Q; cbn; destruct z; auto.
  - destruct C as [(P & _)|[(o & x & _ & A & P)|(_ & P)]]; try congruence.
    rewrite P in D. injection D as <-. unfold answers in A.
    destruct (q_ask q) eqn:Q; destruct A as (b & -> & A); cbn; destruct A; cbn; auto.
Qed.
