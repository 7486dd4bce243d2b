(** Proofs about calls between nodes. *)
From Coq Require Import List Bool Arith PeanoNat Lia Permutation Init.Byte Strings.Byte.
From Verif Require Import ActorId Swarm Swarm_spec Swarm_proofs Cluster Cluster_spec.
Import ListNotations.
Local Open Scope nat_scope.

(** ** More about one node *)
Section Node.
Variable T : swarm_types.
Variable me : peer (st_peers T).

Ltac obs2 :=
  repeat match goal with
  | H : In _ [] |- _ => destruct H
  | H : In _ [_] |- _ => destruct H as [H|[]]
  | H : In _ [_; _] |- _ => destruct H as [H|[H|[]]]
  | H : In _ (snd (handler_panic _ _)) |- _ =>
      apply panic_obs in H; destruct H as [H|(? & H)]
  end; try discriminate.

Ltac hcb := cbn [h_alive h_cmds h_gets h_puts h_reqs h_tasks h_store h_next_caller h_next_query h_next_request
    h_next_task set_cmds set_store set_gets set_puts set_reqs set_tasks start_get start_put start_request
    spawn_task handler_panic fst] in *.

(** A run, seen from its end. *)
Lemma run_app : forall es es2 (h : handler T), run me h (es ++ es2) =
  let '(h1, tr1) := run me h es in let '(h2, tr2) := run me h1 es2 in (h2, tr1 ++ tr2).
Proof.
  induction es as [|e es IH]; intros es2 h; cbn [run app].
  - destruct (run me h es2); reflexivity.
  - destruct (step me h e) as [h1 o]. rewrite IH.
    destruct (run me h1 es) as [h2 tr1]; destruct (run me h2 es2); reflexivity.
Qed.

Lemma run_fst : forall es (h : handler T) h' tr, run me h es = (h', tr) -> map fst tr = es.
Proof.
  induction es as [|e es IH]; cbn [run]; intros h h' tr R.
  - injection R as <- <-; reflexivity.
  - destruct (step me h e) as [h1 o]; destruct (run me h1 es) as [h2 tr2] eqn:E.
    injection R as <- <-; cbn; f_equal; eauto.
Qed.

Lemma seen_app : forall (a b : list (event T * list (obs T))), seen (a ++ b) = seen a ++ seen b.
Proof. intros; unfold seen; apply flat_map_app. Qed.

(** Every entry of the trace is a step from a state reached before. *)
Lemma run_at : forall es (h : handler T) h' tr e o, run me h es = (h', tr) -> In (e, o) tr ->
  exists es1 h1 tr1 h2 tr2, run me h es1 = (h1, tr1) /\ step me h1 e = (h2, o) /\
    tr = tr1 ++ (e, o) :: tr2.
Proof.
  induction es as [|e0 es IH]; cbn [run]; intros h h' tr e o R I.
  - injection R as <- <-; destruct I.
  - destruct (step me h e0) as [h1 o0] eqn:St; destruct (run me h1 es) as [h2 tr2] eqn:E.
    injection R as <- <-. destruct I as [[= <- <-]|I].
    + exists [], h, [], h1, tr2; cbn; auto.
    + destruct (IH _ _ _ _ _ E I) as (es1 & k1 & t1 & k2 & t2 & A & B & C).
      exists (e0 :: es1), k1, ((e0, o0) :: t1), k2, t2.
      cbn [run]. rewrite St, A. split; [reflexivity|]. split; [assumption|]. cbn; now rewrite C.
Qed.

Lemma new_inbound : forall (h : handler T) e h' o t ch q, trans T me h e h' o -> In (OServePeer t ch q) o ->
  t = h_next_task h /\ h_next_task h' = S t /\ e = ENet (NRequest ch q) /\ o = [OServePeer t ch q].
Proof.
  intros h e h' o t ch q Tr I; destruct Tr; obs2; hcb.
  injection I as <- <- <-; repeat split; reflexivity.
Qed.

(** Tasks for peers and the responses they lead to. *)
Record inbound (h : handler T) (tr : list (event T * list (obs T))) : Prop := mk_inbound {
  b_seen : forall t ch q, In (OServePeer t ch q) (seen tr) ->
    t < h_next_task h /\ In (ENet (NRequest ch q), [OServePeer t ch q]) tr;
  b_fun : forall t ch q ch' q', In (OServePeer t ch q) (seen tr) -> In (OServePeer t ch' q') (seen tr) ->
    ch = ch' /\ q = q';
  b_apart : forall t ch q c q', In (OServePeer t ch q) (seen tr) -> In (OServe t c q') (seen tr) -> False;
  b_tasks : forall t ch q, In (t, TInbound ch q) (h_tasks h) -> In (OServePeer t ch q) (seen tr);
  b_cmds : forall ch k v, In (QRespond ch k v) (h_cmds h) -> exists t q,
    k = request_kind q /\ In (OServePeer t ch q) (seen tr) /\ In (ETask t (Some v)) (map fst tr);
  b_resp : forall ch x, In (ORespond ch x) (seen tr) -> exists t q v,
    x = RResult (request_kind q) v /\ In (OServePeer t ch q) (seen tr) /\ In (ETask t (Some v)) (map fst tr)
}.

Lemma serve_lt : forall (h : handler T) os t c q, inv T me h os -> In (OServe t c q) os -> t < h_next_task h.
Proof. intros h os t c q V I; apply (v_serve _ _ _ _ V) in I; tauto. Qed.

Lemma respond_come : forall (h : handler T) e h' o ch k v, trans T me h e h' o ->
  In (QRespond ch k v) (h_cmds h') -> In (QRespond ch k v) (h_cmds h) \/
  exists t q, e = ETask t (Some v) /\ k = request_kind q /\ In (t, TInbound ch q) (h_tasks h).
Proof.
  intros h e h' o ch k v Tr I; destruct Tr; hcb; auto;
    try (left; match goal with E : h_cmds _ = _ |- _ => rewrite E; now right end);
    try (exfalso; exact I).
  - apply in_app_or in I as [I|[I|[]]]; [now left|discriminate].
  - apply in_app_or in I as [I|[I|[]]]; [now left|].
    injection I as <- <- <-. right; exists t, q; repeat split; eapply ttake_in; eauto.
Qed.

Lemma new_respond : forall (h : handler T) e h' o ch x, trans T me h e h' o -> In (ORespond ch x) o ->
  exists k v, x = RResult k v /\ In (QRespond ch k v) (h_cmds h).
Proof.
  intros h e h' o ch x Tr I; destruct Tr; obs2; hcb.
  injection I as <- <-. exists k, r; split; [reflexivity|]. rewrite H0; now left.
Qed.

Lemma inbound_new : inbound handler_new [].
Proof. constructor; cbn; intros; tauto. Qed.

Lemma inbound_step : forall (h : handler T) e h' o tr, trans T me h e h' o -> inv T me h (seen tr) ->
  inbound h tr -> inbound h' (tr ++ [(e, o)]).
Proof.
  intros h e h' o tr Tr V B.
  pose proof (counters _ _ _ _ _ _ Tr) as (_ & _ & Ct & _).
  assert (SE : seen (tr ++ [(e, o)]) = seen tr ++ o) by (rewrite seen_app; cbn; now rewrite app_nil_r).
  assert (FE : map fst (tr ++ [(e, o)]) = map fst tr ++ [e]) by (rewrite map_app; reflexivity).
  constructor; rewrite ?SE, ?FE.
  - intros t ch q I; apply in_app_or in I as [I|I].
    + destruct (b_seen _ _ B _ _ _ I); split; [lia|apply in_or_app; now left].
    + destruct (new_inbound _ _ _ _ _ _ _ Tr I) as (-> & E & -> & ->); split; [lia|].
      apply in_or_app; right; now left.
  - intros t ch q ch' q' I J; apply in_app_or in I; apply in_app_or in J; destruct I as [I|I], J as [J|J].
    + eapply B; eauto.
    + apply (b_seen _ _ B) in I; destruct (new_inbound _ _ _ _ _ _ _ Tr J) as (-> & _); lia.
    + apply (b_seen _ _ B) in J; destruct (new_inbound _ _ _ _ _ _ _ Tr I) as (-> & _); lia.
    + destruct (new_inbound _ _ _ _ _ _ _ Tr I) as (_ & _ & _ & ->).
      destruct J as [[= -> ->]|[]]; auto.
  - intros t ch q c q' I J; apply in_app_or in I; apply in_app_or in J; destruct I as [I|I], J as [J|J].
    + eapply B; eauto.
    + apply (b_seen _ _ B) in I; destruct (new_serve _ _ _ _ _ _ _ _ _ Tr J) as (-> & _); lia.
    + apply (serve_lt _ _ _ _ _ V) in J; destruct (new_inbound _ _ _ _ _ _ _ Tr I) as (-> & _); lia.
    + destruct (new_inbound _ _ _ _ _ _ _ Tr I) as (_ & _ & _ & ->).
      destruct J as [J|[]]; discriminate.
  - intros t ch q I; apply in_or_app; destruct (tasks_come _ _ _ _ _ _ _ _ Tr I) as [J|[_ J]]; auto.
    left; apply B, J.
  - intros ch k v I; destruct (respond_come _ _ _ _ _ _ _ Tr I) as [J|(t & q & -> & -> & J)].
    + destruct (b_cmds _ _ B _ _ _ J) as (t & q & K & A & D).
      exists t, q; split; [assumption|]. split; apply in_or_app; now left.
    + exists t, q; split; [reflexivity|]. split; apply in_or_app; [left; apply B, J|right; now left].
  - intros ch x I; apply in_app_or in I as [I|I].
    + destruct (b_resp _ _ B _ _ I) as (t & q & v & K & A & D).
      exists t, q, v; split; [assumption|]. split; apply in_or_app; now left.
    + destruct (new_respond _ _ _ _ _ _ Tr I) as (k & v & -> & J).
      destruct (b_cmds _ _ B _ _ _ J) as (t & q & -> & A & D).
      exists t, q, v; split; [reflexivity|]. split; apply in_or_app; now left.
Qed.

Lemma run_inbound : forall es (h : handler T) tr h' tr2, inv T me h (seen tr) -> inbound h tr ->
  run me h es = (h', tr2) -> inbound h' (tr ++ tr2).
Proof.
  induction es as [|e es IH]; cbn [run]; intros h tr h' tr2 V B R.
  - injection R as <- <-; now rewrite app_nil_r.
  - destruct (step me h e) as [h1 o] eqn:St; destruct (run me h1 es) as [h2 tr3] eqn:E.
    injection R as <- <-. apply step_trans in St.
    change ((e, o) :: tr3) with ([(e, o)] ++ tr3). rewrite app_assoc.
    eapply IH; [|eapply inbound_step; eauto|exact E].
    rewrite seen_app; cbn [seen flat_map snd]; rewrite app_nil_r; eapply inv_step; eauto.
Qed.

Lemma reach_inbound : forall es h tr, run me handler_new es = (h, tr) -> inbound h tr.
Proof.
  intros es h tr R. apply (run_inbound es handler_new [] h tr); auto using inbound_new.
  apply inv_new.
Qed.

(** Where a task comes from. *)
Lemma tasks_seen : forall es h tr t k, run me handler_new es = (h, tr) -> In (t, k) (h_tasks h) ->
  t < h_next_task h /\
  match k with TLocal c q => In (OServe t c q) (seen tr) | TInbound ch q => In (OServePeer t ch q) (seen tr) end.
Proof.
  intros es h tr t k R I; split.
  - destruct (v_keyed _ _ _ _ (reach_inv _ _ _ _ _ R)) as (_ & _ & _ & K). eapply K; eauto.
  - destruct k; [apply (v_tasks _ _ _ _ (reach_inv _ _ _ _ _ R)), I|
      apply (b_tasks _ _ (reach_inbound _ _ _ R)), I].
Qed.

(** A task that ended does not come back. *)
Lemma task_gone : forall (h : handler T) e h' o t k, trans T me h e h' o -> t < h_next_task h ->
  In (t, k) (h_tasks h') -> In (t, k) (h_tasks h).
Proof.
  intros h e h' o t k Tr L I; destruct Tr; hcb; auto; try (eapply ttake_sub; eassumption).
  - destruct I as [[= <- <-]|I]; [lia|assumption].
  - destruct I as [[= <- <-]|I]; [lia|assumption].
Qed.

Lemma ttake_gone : forall t (m : list (nat * task T)) x r, NoDup (map fst m) -> take_task t m = Some (x, r) ->
  ~ In t (map fst r).
Proof.
  induction m as [|[k y] m IH]; cbn [take_task map fst]; intros x r N E; [discriminate|].
  inversion N as [|? ? N1 N2]; subst.
  destruct (Nat.eqb_spec t k) as [->|H].
  - injection E as <- <-; assumption.
  - destruct (take_task t m) as [[d r']|] eqn:Tk; [|discriminate].
    injection E as <- <-. cbn. intros [<-|I]; [congruence|]. eapply IH; eauto.
Qed.

Lemma end_gone : forall (h : handler T) t r h' o, keyed T h -> step me h (ETask t r) = (h', o) ->
  ~ In t (map fst (h_tasks h')).
Proof.
  intros h t r h' o (_ & _ & _ & (N & _)) St. cbn [step] in St. unfold finish_task in St.
  destruct (take_task t (h_tasks h)) as [[k m]|] eqn:E.
  - assert (G : ~ In t (map fst m)) by (eapply ttake_gone; eauto).
    destruct k, r; [| |destruct (h_alive h)|]; injection St as <- <-; hcb; assumption.
  - injection St as <- <-. intros I. apply in_map_iff in I as ([k x] & Ek & I); cbn in Ek; subst k.
    destruct (ttake_found _ _ _ _ N I) as [r' F]. congruence.
Qed.

End Node.

(** ** The cluster *)
Section Nodes.
Variable T : swarm_types.
Notation peer_t := (peer (st_peers T)).

Lemma peer_refl : forall p : peer_t, peer_eqb (st_peers T) p p = true.
Proof. intros; now apply peer_eqb_eq. Qed.

Lemma peer_neq : forall p q : peer_t, p <> q -> peer_eqb (st_peers T) p q = false.
Proof.
  intros p q N; destruct (peer_eqb (st_peers T) p q) eqn:E; [|reflexivity].
  apply peer_eqb_eq in E; congruence.
Qed.

Lemma peer_dec : forall p q : peer_t, p = q \/ p <> q.
Proof.
  intros p q; destruct (peer_eqb (st_peers T) p q) eqn:E; [left; now apply peer_eqb_eq|right].
  intros ->; rewrite peer_refl in E; discriminate.
Qed.

Lemma at_app : forall p (a b : list (happened T)), at_node p (a ++ b) = at_node p a ++ at_node p b.
Proof.
  induction a as [|x a IH]; intros b; cbn [at_node app]; [reflexivity|].
  rewrite IH; destruct (peer_eqb _ _ _); reflexivity.
Qed.

Lemma at_in : forall p e os (hist : list (happened T)), In (e, os) (at_node p hist) <->
  exists x, In x hist /\ doer x = (p, (e, os)).
Proof.
  intros p e os; induction hist as [|x h IH]; cbn [at_node].
  - split; [intros []|intros (x & [] & _)].
  - destruct (peer_eqb (st_peers T) (fst (doer x)) p) eqn:E.
    + apply peer_eqb_eq in E. cbn [In]. rewrite IH. split.
      * intros [H|(y & A & B)].
        -- exists x; split; [now left|]. destruct (doer x); cbn in *; congruence.
        -- exists y; split; [now right|assumption].
      * intros (y & [<-|A] & B); [left; rewrite B; reflexivity|right; eauto].
    + rewrite IH. split.
      * intros (y & A & B); exists y; split; [now right|assumption].
      * intros (y & [<-|A] & B); [|eauto].
        rewrite B in E; cbn in E; rewrite peer_refl in E; discriminate.
Qed.

Lemma saw_in : forall hist p (o : obs T), saw hist p o <->
  exists x e os, In x hist /\ doer x = (p, (e, os)) /\ In o os.
Proof.
  intros hist p o; unfold saw, seen. rewrite in_flat_map. split.
  - intros ([e os] & A & B). apply at_in in A as (x & C & D). exists x, e, os; auto.
  - intros (x & e & os & A & B & C). exists (e, os); split; [apply at_in; eauto|assumption].
Qed.

Lemma did_in : forall hist p (e : event T), did hist p e <->
  exists x os, In x hist /\ doer x = (p, (e, os)).
Proof.
  intros hist p e; unfold did. rewrite in_map_iff. split.
  - intros ([e' os] & A & B); cbn in A; subst. apply at_in in B as (x & C & D). eauto.
  - intros (x & os & A & B). exists (e, os); split; [reflexivity|]. apply at_in; eauto.
Qed.

Lemma saw_app : forall a b p (o : obs T), saw (a ++ b) p o <-> saw a p o \/ saw b p o.
Proof. intros; unfold saw; rewrite at_app, seen_app; apply in_app_iff. Qed.

Lemma did_app : forall a b p (e : event T), did (a ++ b) p e <-> did a p e \/ did b p e.
Proof. intros; unfold did; rewrite at_app, map_app; apply in_app_iff. Qed.

(** *** One step *)

Lemma emit_node : forall p os (s : cluster T), cl_node (fold_left (emit p) os s) = cl_node s.
Proof.
  induction os as [|o os IH]; intros s; [reflexivity|]. cbn [fold_left]. rewrite IH.
  destruct o; try reflexivity. cbn [emit]. destruct (take_open ch (cl_open s)) as [[k r']|]; reflexivity.
Qed.

Lemma emit_next : forall p os (s : cluster T), cl_next (fold_left (emit p) os s) = cl_next s.
Proof.
  induction os as [|o os IH]; intros s; [reflexivity|]. cbn [fold_left]. rewrite IH.
  destruct o; try reflexivity. cbn [emit]. destruct (take_open ch (cl_open s)) as [[k r']|]; reflexivity.
Qed.

(** The packets among observations of [p]. *)
Fixpoint packets (p : peer_t) (os : list (obs T)) : list (packet T) :=
  match os with
  | [] => []
  | OWire _ rid dest q :: os' => mk_packet p rid dest q :: packets p os'
  | _ :: os' => packets p os'
  end.

Lemma packets_in : forall p k os, In k (packets p os) <->
  pk_from k = p /\ exists c, In (OWire c (pk_rid k) (pk_dest k) (pk_req k)) os.
Proof.
  intros p k os; induction os as [|o os IH].
  - cbn; split; [tauto|intros (_ & c & [])].
  - assert (Skip : (forall c rid d q, o <> OWire c rid d q) -> (In k (packets p os) <->
        pk_from k = p /\ exists c, In (OWire c (pk_rid k) (pk_dest k) (pk_req k)) (o :: os))).
    { intros N. rewrite IH. split.
      - intros (A & c & B); split; [assumption|exists c; now right].
      - intros (A & c & [B|B]); [exfalso; eapply N; eauto|split; eauto]. }
    destruct o; try (apply Skip; intros; discriminate).
    cbn [packets In]. rewrite IH. clear IH Skip. destruct k as [f r d z]; cbn. split.
    + intros [[= <- <- <- <-]|(A & c' & B)]; [split; [reflexivity|exists c; now left]|].
      split; [assumption|exists c'; now right].
    + intros (-> & c' & [[= <- <- <- <-]|B]); [now left|right; eauto].
Qed.

Lemma emit_wire : forall p os (s : cluster T), cl_wire (fold_left (emit p) os s) = cl_wire s ++ packets p os.
Proof.
  induction os as [|o os IH]; intros s; cbn [fold_left packets].
  - now rewrite app_nil_r.
  - rewrite IH. destruct o; try reflexivity; cbn [emit].
    + cbn [cl_wire]. now rewrite <- app_assoc.
    + destruct (take_open ch (cl_open s)) as [[k r']|]; reflexivity.
Qed.

Lemma open_in : forall ch l (k : packet T) r, take_open ch l = Some (k, r) ->
  In (ch, k) l /\ forall x, In x r -> In x l.
Proof.
  induction l as [|[c y] l IH]; cbn [take_open]; intros k r E; [discriminate|].
  destruct (Nat.eqb_spec ch c) as [->|N].
  - injection E as <- <-. split; [now left|intros; now right].
  - destruct (take_open ch l) as [[y' r']|] eqn:Tk; [|discriminate].
    injection E as <- <-. destruct (IH _ _ eq_refl) as [A B].
    split; [now right|]. intros x [<-|I]; [now left|right; auto].
Qed.

Lemma emit_open : forall p os (s : cluster T) x, In x (cl_open (fold_left (emit p) os s)) -> In x (cl_open s).
Proof.
  induction os as [|o os IH]; intros s x; cbn [fold_left]; [auto|].
  intros I; apply IH in I. destruct o; try exact I; cbn [emit] in I.
  destruct (take_open ch (cl_open s)) as [[k r']|] eqn:E; [|exact I].
  cbn [cl_open] in I. eapply open_in; eauto.
Qed.

Lemma emit_back : forall p os (s : cluster T) k r, In (k, r) (cl_back (fold_left (emit p) os s)) ->
  In (k, r) (cl_back s) \/ exists ch, In (ORespond ch r) os /\ In (ch, k) (cl_open s).
Proof.
  induction os as [|o os IH]; intros s k r; cbn [fold_left]; [auto|].
  intros I; apply IH in I.
  assert (K : In (k, r) (cl_back (emit p s o)) \/ exists ch, In (ORespond ch r) os /\ In (ch, k) (cl_open s)).
  { destruct I as [I|(ch & A & B)]; [now left|right]. exists ch; split; [assumption|].
    apply (emit_open p [o] s); exact B. }
  destruct K as [K|(ch & A & B)]; [|right; exists ch; split; [now right|assumption]].
  destruct o; try (left; exact K); cbn [emit] in K.
  destruct (take_open ch (cl_open s)) as [[k' r']|] eqn:E; [|now left].
  cbn [cl_back] in K. apply in_app_or in K as [K|[[= <- <-]|[]]]; [now left|].
  right; exists ch; split; [now left|]. exact (proj1 (open_in _ _ _ _ E)).
Qed.

Lemma pick_in : forall A k (l : list A) x r, pick k l = Some (x, r) ->
  exists a b, l = a ++ x :: b /\ r = a ++ b.
Proof.
  induction k as [|k IH]; intros [|y l] x r E; cbn in E; try discriminate.
  - injection E as <- <-. exists [], l; auto.
  - destruct (pick k l) as [[z r']|] eqn:P; [|discriminate].
    injection E as <- <-. destruct (IH _ _ _ P) as (a & b & -> & ->).
    exists (y :: a), b; auto.
Qed.

(** *** The invariant *)

Fixpoint deliveries (hist : list (happened T)) : list (packet T * (nat * list (obs T))) :=
  match hist with
  | [] => []
  | HDeliver k ch os :: h => (k, (ch, os)) :: deliveries h
  | _ :: h => deliveries h
  end.

Lemma deliveries_app : forall a b, deliveries (a ++ b) = deliveries a ++ deliveries b.
Proof. induction a as [|[] a IH]; intros b; cbn; rewrite ?IH; reflexivity. Qed.

Lemma deliveries_in : forall hist k ch os, In (k, (ch, os)) (deliveries hist) <-> In (HDeliver k ch os) hist.
Proof.
  induction hist as [|x h IH]; intros k ch os; [cbn; tauto|].
  destruct x; cbn [deliveries In]; rewrite IH; split; intros [H|H] || intros H; auto; try discriminate;
    try (destruct H as [H|H]; [discriminate|auto]); try (left; congruence).
Qed.

Definition pk_key (k : packet T) : peer_t * nat := (pk_from k, pk_rid k).

Record cinv (s : cluster T) (hist : list (happened T)) : Prop := mk_cinv {
  i_run : forall p, run p handler_new (map fst (at_node p hist)) = (cl_node s p, at_node p hist);
  i_own : forall p e os, In (HNode p e os) hist ->
    match e with ENet (NRequest _ _) | ENet (NResponse _ _) => False | _ => True end;
  i_sent : forall k, In k (cl_wire s ++ map fst (deliveries hist)) ->
    exists c, saw hist (pk_from k) (OWire c (pk_rid k) (pk_dest k) (pk_req k));
  i_once : NoDup (map pk_key (cl_wire s ++ map fst (deliveries hist)));
  i_chan : NoDup (map (fun x => fst (snd x)) (deliveries hist));
  i_lt : forall k ch os, In (HDeliver k ch os) hist -> ch < cl_next s;
  i_open : forall ch k, In (ch, k) (cl_open s) -> exists os, In (HDeliver k ch os) hist;
  i_back : forall k r, In (k, r) (cl_back s) -> exists ch os n,
    In (HDeliver k ch os) hist /\ saw hist n (ORespond ch r);
  i_answer : forall k r os, In (HAnswer k r os) hist -> exists ch os' n,
    In (HDeliver k ch os') hist /\ saw hist n (ORespond ch r)
}.

Lemma cinv_new : cinv cluster_new [].
Proof. constructor; cbn; try tauto; try constructor; intros; tauto. Qed.

(** The part of a step all events share: node [p] goes through [e]. *)
Lemma node_run : forall (s : cluster T) hist p e s' os x,
  (forall q, run q handler_new (map fst (at_node q hist)) = (cl_node s q, at_node q hist)) ->
  node_step s p e = (s', os) -> doer x = (p, (e, os)) ->
  forall q, run q handler_new (map fst (at_node q (hist ++ [x]))) = (cl_node s' q, at_node q (hist ++ [x])).
Proof.
  intros s hist p e s' os x R St D q. unfold node_step in St.
  destruct (step p (cl_node s p) e) as [h o] eqn:E. injection St as <- <-.
  rewrite emit_node; cbn [cl_node]. rewrite at_app, map_app, run_app, R. cbn [at_node]. rewrite D; cbn [fst snd].
  unfold set_node. destruct (peer_dec p q) as [->|N].
  - rewrite peer_refl. cbn [map run fst]. rewrite E. reflexivity.
  - rewrite (peer_neq _ _ N). rewrite (peer_neq q p) by congruence. cbn. now rewrite app_nil_r.
Qed.

(** A request is new when it is sent: its id is. *)
Lemma packets_new : forall (h : handler T) es tr p e h' os k, run p handler_new es = (h, tr) ->
  step p h e = (h', os) -> In k (packets p os) ->
  packets p os = [k] /\ pk_from k = p /\
  forall c d q, ~ In (OWire c (pk_rid k) d q) (seen tr).
Proof.
  intros h es tr p e h' os k R St I. apply step_trans in St.
  apply packets_in in I as (<- & c & I).
  destruct (new_wire _ _ _ _ _ _ _ _ _ _ St I) as (E & _ & _ & -> & _).
  split; [destruct k; reflexivity|]. split; [reflexivity|].
  intros c' d q J. apply (v_wire _ _ _ _ (reach_inv _ _ _ _ _ R)) in J. lia.
Qed.

Lemma saw_new : forall hist x p e os (o : obs T), doer x = (p, (e, os)) -> In o os -> saw (hist ++ [x]) p o.
Proof.
  intros hist x p e os o D I. apply saw_app; right. apply saw_in. exists x, e, os; repeat split; auto; now left.
Qed.

Lemma saw_old : forall hist x p (o : obs T), saw hist p o -> saw (hist ++ [x]) p o.
Proof. intros; apply saw_app; now left. Qed.

(** The packets of the node's event join those on their way. *)
Lemma once_step : forall (s : cluster T) hist p e s' os x W D,
  (forall q, run q handler_new (map fst (at_node q hist)) = (cl_node s q, at_node q hist)) ->
  node_step s p e = (s', os) -> doer x = (p, (e, os)) -> cl_wire s = W ->
  NoDup (map pk_key (W ++ D)) ->
  (forall k, In k (W ++ D) -> exists c, saw hist (pk_from k) (OWire c (pk_rid k) (pk_dest k) (pk_req k))) ->
  NoDup (map pk_key (cl_wire s' ++ D)) /\
  (forall k, In k (cl_wire s' ++ D) ->
     exists c, saw (hist ++ [x]) (pk_from k) (OWire c (pk_rid k) (pk_dest k) (pk_req k))).
Proof.
  intros s hist p e s' os x W D R St Dx EW N S1. unfold node_step in St.
  destruct (step p (cl_node s p) e) as [h o] eqn:E. injection St as <- <-.
  rewrite emit_wire; cbn [cl_wire]. rewrite EW.
  destruct (packets p o) as [|k l] eqn:P.
  - rewrite app_nil_r. split; [assumption|]. intros k I; destruct (S1 k I) as [c A]; exists c; now apply saw_old.
  - destruct (packets_new _ _ _ _ _ _ _ k (R p) E) as (Q & F & Fr); [rewrite P; now left|].
    assert (l = []) as -> by congruence.
    assert (Kn : exists c, saw (hist ++ [x]) (pk_from k) (OWire c (pk_rid k) (pk_dest k) (pk_req k))).
    { assert (I : In k (packets p o)) by (rewrite P; now left).
      apply packets_in in I as (_ & c & I). exists c. rewrite F. eapply saw_new; eauto. }
    split.
    + rewrite <- app_assoc; cbn [app]; rewrite map_app; cbn [map].
      apply NoDup_Add with (a := pk_key k) (l := map pk_key (W ++ D)); [rewrite map_app; apply Add_app|].
      split; [assumption|].
      intros J; apply in_map_iff in J as (k' & E1 & J); destruct (S1 k' J) as [c A].
      unfold pk_key in E1; injection E1 as E1 E2; rewrite E1, E2, F in A; eapply Fr; exact A.
    + intros k' J; rewrite <- app_assoc in J; apply in_app_or in J as [J|[<-|J]]; [|exact Kn|].
      * destruct (S1 k' (in_or_app _ _ _ (or_introl J))) as [c A]; exists c; now apply saw_old.
      * destruct (S1 k' (in_or_app _ _ _ (or_intror J))) as [c A]; exists c; now apply saw_old.
Qed.

(** What a node's event puts on its way back. *)
Lemma back_step : forall (s : cluster T) hist p e s' os x,
  node_step s p e = (s', os) -> doer x = (p, (e, os)) ->
  (forall ch k, In (ch, k) (cl_open s) -> exists os, In (HDeliver k ch os) (hist ++ [x])) ->
  (forall k r, In (k, r) (cl_back s) -> exists ch os n, In (HDeliver k ch os) (hist ++ [x]) /\
     saw (hist ++ [x]) n (ORespond ch r)) ->
  cl_next s' = cl_next s /\
  (forall ch k, In (ch, k) (cl_open s') -> exists os, In (HDeliver k ch os) (hist ++ [x])) /\
  (forall k r, In (k, r) (cl_back s') -> exists ch os n, In (HDeliver k ch os) (hist ++ [x]) /\
     saw (hist ++ [x]) n (ORespond ch r)).
Proof.
  intros s hist p e s' os x St D O B. unfold node_step in St.
  destruct (step p (cl_node s p) e) as [h o] eqn:E. injection St as <- <-.
  split; [rewrite emit_next; reflexivity|]. split.
  - intros ch k I. apply emit_open in I. eauto.
  - intros k r I. apply emit_back in I as [I|(ch & I & J)]; [eauto|].
    cbn [cl_open] in J. destruct (O _ _ J) as [os' A].
    exists ch, os', p; split; [assumption|]. eapply saw_new; eauto.
Qed.

Lemma deliver_old : forall (hist : list (happened T)) x k ch,
  (exists os, In (HDeliver k ch os) hist) -> exists os, In (HDeliver k ch os) (hist ++ [x]).
Proof. intros hist x k ch (os & I); exists os; apply in_or_app; now left. Qed.

Lemma back_old : forall (hist : list (happened T)) x k r,
  (exists ch os n, In (HDeliver k ch os) hist /\ saw hist n (ORespond ch r)) ->
  exists ch os n, In (HDeliver k ch os) (hist ++ [x]) /\ saw (hist ++ [x]) n (ORespond ch r).
Proof.
  intros hist x k r (ch & os & n & I & J); exists ch, os, n; split; [apply in_or_app; now left|now apply saw_old].
Qed.

Lemma nodup_snoc : forall A (l : list A) x, NoDup l -> ~ In x l -> NoDup (l ++ [x]).
Proof.
  intros A l x N I. apply Permutation_NoDup with (x :: l); [apply Permutation_cons_append|constructor; assumption].
Qed.

Lemma cinv_step : forall s e s' x hist, c_step s e = Some (s', x) -> cinv s hist -> cinv s' (hist ++ [x]).
Proof.
  intros s e s' x hist St V. destruct e as [p e|k|k]; cbn [c_step] in St.
  - destruct (own_event (cl_node s p) e) eqn:O; [|discriminate].
    destruct (node_step s p e) as [s1 os] eqn:N. injection St as <- <-.
    pose proof (node_run s hist p e s1 os (HNode p e os) (i_run _ _ V) N eq_refl) as R.
    destruct (once_step s hist p e s1 os (HNode p e os) _ (map fst (deliveries hist)) (i_run _ _ V) N eq_refl eq_refl
                (i_once _ _ V) (i_sent _ _ V)) as (On & Se).
    destruct (back_step s hist p e s1 os (HNode p e os) N eq_refl) as (Nx & Op & Ba).
    { intros ch k I; apply deliver_old, V, I. }
    { intros k r I; apply back_old, V, I. }
    assert (DE : deliveries (hist ++ [HNode p e os]) = deliveries hist)
      by (rewrite deliveries_app; apply app_nil_r).
    constructor; rewrite ?DE; auto.
    + intros p' e' os' I; apply in_app_or in I as [I|[[= <- <- <-]|[]]]; [exact (i_own _ _ V _ _ _ I)|].
      destruct e as [| |[]| |]; try exact I; discriminate.
    + apply V.
    + intros k ch os' I; apply in_app_or in I as [I|[I|[]]]; [|discriminate].
      rewrite Nx; eapply V; eauto.
    + intros k r os' I; apply in_app_or in I as [I|[I|[]]]; [|discriminate].
      apply back_old; exact (i_answer _ _ V _ _ _ I).
  - destruct (pick k (cl_wire s)) as [[pk rest]|] eqn:P; [|discriminate].
    apply pick_in in P as (a & b & W & ->).
    set (s0 := mk_cluster (cl_node s) (a ++ b) ((cl_next s, pk) :: cl_open s) (cl_back s) (S (cl_next s))) in *.
    destruct (node_step s0 (pk_dest pk) (ENet (NRequest (cl_next s) (pk_req pk)))) as [s1 os] eqn:N.
    injection St as <- <-. set (x := HDeliver pk (cl_next s) os).
    pose proof (node_run s0 hist _ _ s1 os x (i_run _ _ V) N eq_refl) as R.
    assert (DE : deliveries (hist ++ [x]) = deliveries hist ++ [(pk, (cl_next s, os))])
      by (rewrite deliveries_app; reflexivity).
    assert (PE : Permutation (cl_wire s ++ map fst (deliveries hist))
                   (cl_wire s0 ++ map fst (deliveries (hist ++ [x])))).
    { rewrite DE, map_app, W. cbn. rewrite <- !app_assoc. apply Permutation_app_head. cbn [app].
      rewrite app_assoc. apply Permutation_cons_append. }
    destruct (once_step s0 hist _ _ s1 os x (cl_wire s0) (map fst (deliveries (hist ++ [x]))) (i_run _ _ V) N eq_refl eq_refl)
      as (On & Se).
    { eapply Permutation_NoDup; [apply Permutation_map; exact PE|apply V]. }
    { intros k' I; apply (i_sent _ _ V). eapply Permutation_in; [apply Permutation_sym; exact PE|exact I]. }
    destruct (back_step s0 hist _ _ s1 os x N eq_refl) as (Nx & Op & Ba).
    { intros ch k' [[= <- <-]|I]; [exists os; apply in_or_app; right; now left|apply deliver_old, V, I]. }
    { intros k' r I; apply back_old, V, I. }
    constructor; auto.
    + intros p' e' os' I; apply in_app_or in I as [I|[I|[]]]; [eapply V; eauto|discriminate].
    + rewrite DE, map_app. apply nodup_snoc; [apply V|]. cbn. intros I.
      apply in_map_iff in I as ([k' [ch os']] & E & I). cbn in E; subst ch.
      apply deliveries_in in I. apply (i_lt _ _ V) in I. lia.
    + intros k' ch os' I. rewrite Nx; cbn. apply in_app_or in I as [I|[I|[]]].
      * apply (i_lt _ _ V) in I. lia.
      * injection I as <- <- <-. lia.
    + intros k' r os' I; apply in_app_or in I as [I|[I|[]]]; [|discriminate].
      apply back_old; exact (i_answer _ _ V _ _ _ I).
  - destruct (pick k (cl_back s)) as [[[pk r] rest]|] eqn:P; [|discriminate].
    apply pick_in in P as (a & b & W & ->).
    set (s0 := mk_cluster (cl_node s) (cl_wire s) (cl_open s) (a ++ b) (cl_next s)) in *.
    destruct (node_step s0 (pk_from pk) (ENet (NResponse (pk_rid pk) r))) as [s1 os] eqn:N.
    injection St as <- <-. set (x := HAnswer pk r os).
    pose proof (node_run s0 hist _ _ s1 os x (i_run _ _ V) N eq_refl) as R.
    destruct (once_step s0 hist _ _ s1 os x (cl_wire s0) (map fst (deliveries hist)) (i_run _ _ V) N eq_refl eq_refl
      (i_once _ _ V) (i_sent _ _ V)) as (On & Se).
    assert (BI : forall z, In z (a ++ b) -> In z (cl_back s)).
    { intros z I; rewrite W; apply in_app_or in I as [I|I]; apply in_or_app; [now left|right; now right]. }
    destruct (back_step s0 hist _ _ s1 os x N eq_refl) as (Nx & Op & Ba).
    { intros ch k' I; apply deliver_old, V, I. }
    { intros k' r' I; apply back_old, V, BI, I. }
    assert (DE : deliveries (hist ++ [x]) = deliveries hist) by (rewrite deliveries_app; apply app_nil_r).
    constructor; rewrite ?DE; auto.
    + intros p' e' os' I; apply in_app_or in I as [I|[I|[]]]; [eapply V; eauto|discriminate].
    + apply V.
    + intros k' ch os' I; apply in_app_or in I as [I|[I|[]]]; [|discriminate].
      rewrite Nx; eapply V; eauto.
    + intros k' r' os' I; apply back_old. apply in_app_or in I as [I|[[= <- <- <-]|[]]]; [exact (i_answer _ _ V _ _ _ I)|].
      apply (i_back _ _ V). rewrite W; apply in_or_app; right; now left.
Qed.

Lemma exec_cinv : forall es s hist s' hist', cinv s hist -> c_exec s es = Some (s', hist') -> cinv s' (hist ++ hist').
Proof.
  induction es as [|e es IH]; cbn [c_exec]; intros s hist s' hist' V E.
  - injection E as <- <-; now rewrite app_nil_r.
  - destruct (c_step s e) as [[s1 x]|] eqn:St; [|discriminate].
    destruct (c_exec s1 es) as [[s2 h2]|] eqn:Ex; [|discriminate]. injection E as <- <-.
    change (x :: h2) with ([x] ++ h2). rewrite app_assoc. eapply IH; [|exact Ex].
    eapply cinv_step; eauto.
Qed.

Lemma reach_cinv : forall es (s : cluster T) hist, c_exec cluster_new es = Some (s, hist) -> cinv s hist.
Proof. intros es s hist E; exact (exec_cinv _ _ [] _ _ cinv_new E). Qed.

Lemma exec_prefix : forall es (s s' : cluster T) h1 h2, c_exec s es = Some (s', h1 ++ h2) ->
  exists es1 es2 s1, es = es1 ++ es2 /\ c_exec s es1 = Some (s1, h1) /\ c_exec s1 es2 = Some (s', h2).
Proof.
  induction es as [|e es IH]; cbn [c_exec]; intros s s' h1 h2 E.
  - injection E as <- E. symmetry in E; apply app_eq_nil in E as [-> ->].
    exists [], [], s; auto.
  - destruct h1 as [|x h1].
    + exists [], (e :: es), s; auto.
    + destruct (c_step s e) as [[s1 y]|] eqn:St; [|discriminate].
      destruct (c_exec s1 es) as [[s2 h3]|] eqn:Ex; [|discriminate]. injection E as <- <- ->.
      destruct (IH _ _ _ _ Ex) as (es1 & es2 & s3 & -> & A & B).
      exists (e :: es1), es2, s3. cbn [c_exec]. rewrite St, A. auto.
Qed.

(** *** Theorems *)

Theorem nodes_run : forall es (s : cluster T) hist p, c_exec cluster_new es = Some (s, hist) ->
  run p handler_new (map fst (at_node p hist)) = (cl_node s p, at_node p hist).
Proof. intros es s hist p E; apply (i_run _ _ (reach_cinv _ _ _ E)). Qed.

Lemma one_of : forall A (f : A -> bool) l x y, length (filter f l) <= 1 -> In x l -> In y l ->
  f x = true -> f y = true -> x = y.
Proof.
  intros A f l x y L I J Fx Fy.
  assert (I' : In x (filter f l)) by (apply filter_In; auto).
  assert (J' : In y (filter f l)) by (apply filter_In; auto).
  destruct (filter f l) as [|a [|b m]]; cbn in *; try lia; destruct I' as [<-|[]], J' as [<-|[]]; reflexivity.
Qed.

Lemma one_start : forall s hist p c o o', cinv s hist -> saw hist p o -> saw hist p o' ->
  starts c o = true -> starts c o' = true -> o = o'.
Proof.
  intros s hist p c o o' V I J. apply one_of with (l := seen (at_node p hist)); auto.
  pose proof (started_once T p (map fst (at_node p hist)) c) as S1.
  rewrite (i_run _ _ V p) in S1. exact S1.
Qed.

Lemma nodup_right : forall A (a b : list A), NoDup (a ++ b) -> NoDup b.
Proof. induction a as [|x a IH]; cbn; intros b N; [assumption|]. inversion N; auto. Qed.

Lemma one_delivery : forall s hist k ch os ch' os', cinv s hist ->
  In (HDeliver k ch os) hist -> In (HDeliver k ch' os') hist -> ch = ch' /\ os = os'.
Proof.
  intros s hist k ch os ch' os' V I J. apply deliveries_in in I, J.
  pose proof (i_once _ _ V) as N. rewrite map_app in N. apply nodup_right in N.
  rewrite map_map in N.
  assert (E : (k, (ch, os)) = (k, (ch', os'))); [|injection E; auto].
  revert N I J. induction (deliveries hist) as [|z l IH]; [intros _ []|].
  cbn [map]. intros N. inversion N as [|? ? N1 N2]; subst.
  intros [->|I] [J|J]; auto.
  - exfalso; apply N1; apply in_map_iff; exists (k, (ch', os')); auto.
  - subst z. exfalso; apply N1; apply in_map_iff; exists (k, (ch, os)); auto.
Qed.

Lemma one_channel : forall s hist k k' ch os os', cinv s hist ->
  In (HDeliver k ch os) hist -> In (HDeliver k' ch os') hist -> k = k' /\ os = os'.
Proof.
  intros s hist k k' ch os os' V I J. apply deliveries_in in I, J.
  pose proof (i_chan _ _ V) as N.
  assert (E : (k, (ch, os)) = (k', (ch, os'))); [|injection E; auto].
  revert N I J. induction (deliveries hist) as [|z l IH]; [intros _ []|].
  cbn [map]. intros N. inversion N as [|? ? N1 N2]; subst.
  intros [->|I] [J|J]; auto.
  - exfalso; apply N1; apply in_map_iff; exists (k', (ch, os')); auto.
  - subst z. exfalso; apply N1; apply in_map_iff; exists (k, (ch, os)); auto.
Qed.

Lemma node_inbound : forall s hist p, cinv s hist -> inbound T (cl_node s p) (at_node p hist).
Proof. intros s hist p V; eapply reach_inbound; apply (i_run _ _ V). Qed.

Lemma node_inv : forall s hist p, cinv s hist -> inv T p (cl_node s p) (seen (at_node p hist)).
Proof. intros s hist p V; eapply reach_inv; apply (i_run _ _ V). Qed.

(** A task for a peer was started when its request was delivered. *)
Lemma inbound_delivered : forall s hist n t ch q, cinv s hist -> saw hist n (OServePeer t ch q) ->
  exists k, pk_dest k = n /\ pk_req k = q /\ In (HDeliver k ch [OServePeer t ch q]) hist.
Proof.
  intros s hist n t ch q V I.
  destruct (b_seen _ _ _ (node_inbound _ _ n V) _ _ _ I) as [_ J].
  apply at_in in J as (x & A & B). destruct x as [p e os|k c os|k r os]; cbn in B.
  - injection B as -> -> ->. destruct (i_own _ _ V _ _ _ A).
  - injection B as <- <- <- ->. exists k; auto.
  - discriminate.
Qed.

Lemma delivered_shape : forall s hist k ch os o, cinv s hist -> In (HDeliver k ch os) hist -> In o os ->
  exists t, o = OServePeer t ch (pk_req k) /\ os = [o] /\ saw hist (pk_dest k) o.
Proof.
  intros s hist k ch os o V I J.
  assert (A : In (ENet (NRequest ch (pk_req k)), os) (at_node (pk_dest k) hist)).
  { apply at_in; exists (HDeliver k ch os); auto. }
  destruct (run_at _ _ _ _ _ _ _ _ (i_run _ _ V (pk_dest k)) A) as (es1 & h1 & tr1 & h2 & tr2 & R & St & E).
  cbn [step handle_event] in St. destruct (h_alive h1); injection St as <- <-; [|destruct J].
  destruct J as [<-|[]]. exists (h_next_task h1). repeat split.
  apply saw_in. exists (HDeliver k ch [OServePeer (h_next_task h1) ch (pk_req k)]).
  do 2 eexists. split; [eassumption|]. split; [reflexivity|now left].
Qed.

Lemma serves_seen : forall s hist n t p c q, cinv s hist -> serves hist n t p c q ->
  (n = p /\ saw hist p (OServe t c q)) \/
  exists rid ch, saw hist p (OWire c rid n q) /\ In (HDeliver (mk_packet p rid n q) ch [OServePeer t ch q]) hist /\
    saw hist n (OServePeer t ch q).
Proof.
  intros s hist n t p c q V [-> A|rid ch os A B C]; [now left|right].
  exists rid, ch. destruct (delivered_shape _ _ _ _ _ _ V B C) as (t' & E & -> & S1).
  injection E as ->. auto.
Qed.

Theorem served_once : forall es (s : cluster T) hist n t p c q n' t' q', c_exec cluster_new es = Some (s, hist) ->
  serves hist n t p c q -> serves hist n' t' p c q' -> n = n' /\ t = t' /\ q = q'.
Proof.
  intros es s hist n t p c q n' t' q' E A B. apply reach_cinv in E as V.
  apply (serves_seen _ _ _ _ _ _ _ V) in A. apply (serves_seen _ _ _ _ _ _ _ V) in B.
  destruct A as [[-> A]|(rid & ch & A & D & F)], B as [[-> B]|(rid' & ch' & B & D' & F')].
  - pose proof (one_start _ _ _ c _ _ V A B (Nat.eqb_refl _) (Nat.eqb_refl _)) as X. injection X as -> ->. auto.
  - pose proof (one_start _ _ _ c _ _ V A B (Nat.eqb_refl _) (Nat.eqb_refl _)); discriminate.
  - pose proof (one_start _ _ _ c _ _ V A B (Nat.eqb_refl _) (Nat.eqb_refl _)); discriminate.
  - pose proof (one_start _ _ _ c _ _ V A B (Nat.eqb_refl _) (Nat.eqb_refl _)) as X. injection X as <- <- <-.
    destruct (one_delivery _ _ _ _ _ _ _ V D D') as [-> X]. injection X as ->. auto.
Qed.

Theorem serves_one : forall es (s : cluster T) hist n t p c q p' c' q', c_exec cluster_new es = Some (s, hist) ->
  serves hist n t p c q -> serves hist n t p' c' q' -> p = p' /\ c = c' /\ q = q'.
Proof.
  intros es s hist n t p c q p' c' q' E A B. apply reach_cinv in E as V.
  apply (serves_seen _ _ _ _ _ _ _ V) in A. apply (serves_seen _ _ _ _ _ _ _ V) in B.
  destruct A as [[-> A]|(rid & ch & A & D & F)], B as [[-> B]|(rid' & ch' & B & D' & F')].
  - destruct (v_serve_fun _ _ _ _ (node_inv _ _ _ V) _ _ _ _ _ A B) as [-> ->]. auto.
  - exfalso; eapply (b_apart _ _ _ (node_inbound _ _ _ V)); eauto.
  - exfalso; eapply (b_apart _ _ _ (node_inbound _ _ _ V)); eauto.
  - destruct (b_fun _ _ _ (node_inbound _ _ _ V) _ _ _ _ _ F F') as [<- <-].
    destruct (one_channel _ _ _ _ _ _ _ V D D') as [X _]. injection X as <- <-.
    destruct (v_wire_fun _ _ _ _ (node_inv _ _ _ V) _ _ _ _ _ _ _ A B) as (-> & _). auto.
Qed.

Theorem serves_own : forall es (s : cluster T) hist n t p c q, c_exec cluster_new es = Some (s, hist) ->
  serves hist n t p c q ->
  exists x dest, saw hist p (OSent c x) /\ means p x dest q /\ (n = dest \/ n = p).
Proof.
  intros es s hist n t p c q E A. apply reach_cinv in E as V.
  apply (serves_seen _ _ _ _ _ _ _ V) in A. destruct A as [[-> A]|(rid & ch & A & D & F)].
  - destruct (v_serve _ _ _ _ (node_inv _ _ _ V) _ _ _ A) as ((x & d & M & I) & _).
    exists x, d; auto.
  - destruct (v_wire _ _ _ _ (node_inv _ _ _ V) _ _ _ _ A) as ((x & M & I) & _).
    exists x, n; auto.
Qed.

(** Where a caller's response comes from. *)
Lemma response_own : forall s hist p c a, cinv s hist -> saw hist p (OReply c (AResponse a)) ->
  (exists n t q r, serves hist n t p c q /\ task_ended hist n t (Some r) /\ a = RResult (request_kind q) r) \/
  (exists rid dest q f e, saw hist p (OWire c rid dest q) /\ did hist p (ENet (NFailure rid f)) /\
     failure_means f e /\ a = RFailure e).
Proof.
  intros s hist p c a V I. unfold saw, seen in I. apply in_flat_map in I as ([e o] & I & J). cbn in J.
  destruct (run_at _ _ _ _ _ _ _ _ (i_run _ _ V p) I) as (es1 & h1 & tr1 & h2 & tr2 & R & St & E).
  destruct (replies_own _ _ _ _ _ _ _ _ _ _ R St J) as (x & Sx & Ow).
  assert (Be : forall o', In o' (seen tr1) -> saw hist p o').
  { intros o' K. unfold saw. rewrite E, seen_app. apply in_or_app; now left. }
  assert (De : did hist p e).
  { unfold did. rewrite E, map_app. apply in_or_app; right; now left. }
  inversion Ow; subst.
  - (* a response *)
    apply did_in in De as (y & os & A & B). destruct y as [p' e' os'|k ch os'|k r' os']; cbn in B.
    + injection B as -> -> ->. destruct (i_own _ _ V _ _ _ A).
    + discriminate.
    + injection B as Ep Er <- <-. subst. left.
      destruct (i_answer _ _ V _ _ _ A) as (ch & os2 & n & D & Re).
      destruct (b_resp _ _ _ (node_inbound _ _ n V) _ _ Re) as (t & q' & v & -> & Pe & Et).
      destruct (inbound_delivered _ _ _ _ _ _ V Pe) as (k' & Dk & Rk & D').
      destruct (one_channel _ _ _ _ _ _ _ V D D') as [<- ->].
      destruct (i_sent _ _ V k) as [c' W].
      { apply in_or_app; right. apply in_map_iff. exists (k, (ch, [OServePeer t ch q'])).
        split; [reflexivity|]. now apply deliveries_in. }
      destruct (v_wire_fun _ _ _ _ (node_inv _ _ _ V) _ _ _ _ _ _ _ W (Be _ H1)) as (-> & Ed & Eq).
      exists n, t, q', v. split; [|split; [exact Et|reflexivity]].
      eapply serves_there with (rid := pk_rid k) (ch := ch) (os := [OServePeer t ch q']).
      * rewrite <- Dk, <- Rk. exact W.
      * destruct k as [kf kr kd kq]; cbn in *; subst. exact D.
      * now left.
  - right. exists rid, p0, q, f, err. auto.
  - left. exists p, t, q, r. split; [apply serves_here; auto|]. split; [exact De|].
    match goal with M : means _ _ _ _ |- _ => pose proof (means_kind _ _ _ _ _ M) as K end. congruence.
Qed.

Theorem result_own : forall es (s : cluster T) hist p c k r, c_exec cluster_new es = Some (s, hist) ->
  saw hist p (OReply c (AResponse (RResult k r))) ->
  exists n t q, serves hist n t p c q /\ task_ended hist n t (Some r) /\ k = request_kind q.
Proof.
  intros es s hist p c k r E I. apply reach_cinv in E as V.
  destruct (response_own _ _ _ _ _ V I) as [(n & t & q & r' & A & B & X)|(rid & d & q & f & e & _ & _ & _ & X)].
  - injection X as -> ->. exists n, t, q; auto.
  - discriminate.
Qed.

Theorem failure_own : forall es (s : cluster T) hist p c e, c_exec cluster_new es = Some (s, hist) ->
  saw hist p (OReply c (AResponse (RFailure e))) ->
  exists rid dest q f, saw hist p (OWire c rid dest q) /\ did hist p (ENet (NFailure rid f)) /\ failure_means f e.
Proof.
  intros es s hist p c k E I. apply reach_cinv in E as V.
  destruct (response_own _ _ _ _ _ V I) as [(n & t & q & r' & A & B & X)|(rid & d & q & f & e & A & B & C & X)].
  - discriminate.
  - injection X as ->. exists rid, d, q, f; auto.
Qed.

(** The answer is of the kind the call wants. *)
Theorem right_kind : forall es (s : cluster T) hist p c x k a, c_exec cluster_new es = Some (s, hist) ->
  saw hist p (OSent c x) -> kind_wanted x = Some k -> saw hist p (OReply c (AResponse a)) ->
  client_request k (Some (AResponse a)) <> CallerPanic.
Proof.
  intros es s hist p c x k a E Sx K I. apply reach_cinv in E as V.
  destruct (response_own _ _ _ _ _ V I) as [(n & t & q & r' & A & B & ->)|(rid & d & q & f & e & _ & _ & _ & ->)];
    [|cbn; discriminate].
  destruct (serves_own _ _ _ _ _ _ _ _ E A) as (x' & d & Sx' & M & _).
  assert (x' = x) as -> by (eapply (v_sent_fun _ _ _ _ (node_inv _ _ _ V)); eauto).
  pose proof (means_kind _ _ _ _ _ M) as K'. assert (k = request_kind q) as -> by congruence.
  cbn. rewrite (proj2 (kind_eqb_eq _ _) eq_refl). discriminate.
Qed.

(** A task ends at most once, and only if it was started. *)
Lemma ends_step : forall es (s : cluster T) hist, c_exec cluster_new es = Some (s, hist) ->
  (forall n t r, task_ended hist n t r -> spawned hist n t /\ t < h_next_task (cl_node s n) /\
     ~ In t (map fst (h_tasks (cl_node s n)))) /\
  (forall n t, task_ends hist n t <= 1).
Proof.
  intros es; induction es as [|e es IH] using rev_ind; intros s hist E.
  - injection E as <- <-. split; [intros ? ? ? []|intros; cbn; lia].
  - assert (X : exists s1 h1 x, c_exec cluster_new es = Some (s1, h1) /\ c_step s1 e = Some (s, x) /\ hist = h1 ++ [x]).
    { clear IH. revert E. generalize (@cluster_new T). revert hist.
      induction es as [|e0 es IH]; cbn [c_exec app]; intros hist s0 E.
      - destruct (c_step s0 e) as [[s1 x]|] eqn:St; [|discriminate]. injection E as <- <-.
        exists s0, [], x; auto.
      - destruct (c_step s0 e0) as [[s1 x]|] eqn:St; [|discriminate].
        destruct (c_exec s1 (es ++ [e])) as [[s2 h2]|] eqn:Ex; [|discriminate]. injection E as <- <-.
        destruct (IH _ _ Ex) as (s3 & h3 & y & A & B & ->). rewrite A.
        exists s3, (x :: h3), y; auto. }
    destruct X as (s1 & h1 & x & E1 & St & ->). destruct (IH _ _ E1) as [I1 I2]. clear IH.
    apply reach_cinv in E1 as V1. apply reach_cinv in E as V.
    set (n0 := fst (doer x)). set (e0 := fst (snd (doer x))). set (os0 := snd (snd (doer x))).
    assert (Dx : doer x = (n0, (e0, os0))) by (unfold n0, e0, os0; destruct (doer x) as [? []]; reflexivity).
    assert (Ns : step n0 (cl_node s1 n0) e0 = (cl_node s n0, os0)).
    { pose proof (i_run _ _ V n0) as R. rewrite at_app, map_app, run_app, (i_run _ _ V1) in R.
      cbn [at_node] in R. rewrite Dx in R. cbn [fst snd] in R. rewrite peer_refl in R. cbn [map run fst] in R.
      destruct (step n0 (cl_node s1 n0) e0) as [h o] eqn:Es. injection R as R1 R2.
      apply app_inv_head in R2. congruence. }
    assert (No : forall n, n <> n0 -> cl_node s n = cl_node s1 n).
    { intros n N. pose proof (i_run _ _ V n) as R. rewrite at_app, map_app, run_app, (i_run _ _ V1) in R.
      cbn [at_node] in R. rewrite Dx in R. cbn [fst snd] in R. rewrite (peer_neq n0 n) in R by congruence.
      cbn in R. congruence. }
    assert (En : forall t r, e0 = ETask t r -> exists k, In (t, k) (h_tasks (cl_node s1 n0))).
    { intros t r He. destruct e as [p e|k|k]; cbn [c_step] in St.
      - destruct (own_event (cl_node s1 p) e) eqn:O; [|discriminate].
        destruct (node_step s1 p e) as [s2 os]. injection St as <- <-.
        subst n0 e0; cbn in *. subst e. cbn in O.
        destruct (take_task t (h_tasks (cl_node s1 p))) as [[k m]|] eqn:Tk; [|discriminate].
        exists k. eapply ttake_in; eauto.
      - destruct (pick k (cl_wire s1)) as [[pk rest]|]; [|discriminate].
        destruct (node_step _ _ _) as [s2 os]. injection St as <- <-. discriminate He.
      - destruct (pick k (cl_back s1)) as [[[pk r'] rest]|]; [|discriminate].
        destruct (node_step _ _ _) as [s2 os]. injection St as <- <-. discriminate He. }
    split.
    + intros n t r A. unfold task_ended in A. apply did_app in A as [A|A].
      * destruct (I1 _ _ _ A) as ((y & q & Sp) & L & G). split.
        { exists y, q. destruct Sp; [left|right]; now apply saw_old. }
        destruct (peer_dec n n0) as [->|N]; [|rewrite (No _ N); auto].
        apply step_trans in Ns. pose proof (counters _ _ _ _ _ _ Ns) as (_ & _ & Ct & _).
        split; [lia|]. intros J. apply in_map_iff in J as ([t' k] & Ek & J); cbn in Ek; subst t'.
        apply G, in_map_iff. exists (t, k); split; [reflexivity|]. eapply task_gone; eauto.
      * apply did_in in A as (y & os & [<-|[]] & B). rewrite Dx in B. injection B as <- He _.
        destruct (En _ _ He) as [k J].
        destruct (tasks_seen _ _ _ _ _ _ _ (i_run _ _ V1 n0) J) as [L K].
        split; [|split].
        -- destruct k as [c q|ch q]; exists c, q || exists ch, q; [left|right]; now apply saw_old.
        -- apply step_trans in Ns. pose proof (counters _ _ _ _ _ _ Ns) as (_ & _ & Ct & _). lia.
        -- rewrite He in Ns. eapply end_gone; eauto. apply (v_keyed _ _ _ _ (node_inv _ _ n0 V1)).
    + intros n t. unfold task_ends. rewrite at_app, map_app, filter_app, app_length.
      pose proof (I2 n t) as L2. unfold task_ends in L2.
      cbn [at_node]. rewrite Dx; cbn [fst snd].
      destruct (peer_eqb (st_peers T) n0 n) eqn:Pn; [|cbn; lia].
      apply peer_eqb_eq in Pn; subst n. cbn [map fst filter].
      destruct e0 as [| | |t' r'|] eqn:He; try (cbn; lia).
      destruct (Nat.eqb_spec t t') as [<-|N]; [|cbn; lia].
      destruct (filter _ (map fst (at_node n0 h1))) as [|z l] eqn:F; [cbn; lia|exfalso].
      assert (Z : In z (filter (fun e => match e with ETask t' _ => Nat.eqb t t' | _ => false end)
            (map fst (at_node n0 h1)))) by (rewrite F; now left).
      apply filter_In in Z as [Z1 Z2]. destruct z as [| | |t2 r2|]; try discriminate.
      apply Nat.eqb_eq in Z2; subst t2.
      destruct (I1 _ _ _ Z1) as (_ & _ & G). destruct (En _ _ eq_refl) as [k J].
      apply G, in_map_iff. exists (t, k); auto.
Qed.

Theorem ended_once : forall es (s : cluster T) hist n t, c_exec cluster_new es = Some (s, hist) -> task_ends hist n t <= 1.
Proof. intros es s hist n t E; apply (ends_step _ _ _ E). Qed.

Theorem ended_spawned : forall es (s : cluster T) hist n t r, c_exec cluster_new es = Some (s, hist) ->
  task_ended hist n t r -> spawned hist n t.
Proof. intros es s hist n t r E A; eapply (proj1 (ends_step _ _ _ E)); eauto. Qed.

(** A call made after the result of another arrived is served after it. *)
Theorem awaited : forall es (s : cluster T) h1 h2 n t p c q k r n' t' p' c' q',
  c_exec cluster_new es = Some (s, h1 ++ h2) ->
  serves (h1 ++ h2) n t p c q -> saw h1 p (OReply c (AResponse (RResult k r))) ->
  serves (h1 ++ h2) n' t' p' c' q' -> (forall x, ~ saw h1 p' (OSent c' x)) ->
  task_ended h1 n t (Some r) /\ ~ spawned h1 n' t'.
Proof.
  intros es s h1 h2 n t p c q k r n' t' p' c' q' E A Re B Ns.
  destruct (exec_prefix _ _ _ _ _ E) as (es1 & es2 & s1 & -> & E1 & _).
  destruct (result_own _ _ _ _ _ _ _ E1 Re) as (m & u & q2 & A2 & En & _).
  assert (Up : forall a b d f g, serves h1 a b d f g -> serves (h1 ++ h2) a b d f g).
  { intros a b d f g [-> X|rid ch os X Y Z]; [apply serves_here; auto; apply saw_app; now left|].
    eapply serves_there; eauto; [apply saw_app; left; exact X|apply in_or_app; now left]. }
  destruct (served_once _ _ _ _ _ _ _ _ _ _ _ E A (Up _ _ _ _ _ A2)) as (-> & -> & ->).
  split; [assumption|]. intros (y & z & Sp).
  apply reach_cinv in E as V. apply reach_cinv in E1 as V1.
  assert (B1 : exists p2 c2, serves h1 n' t' p2 c2 z).
  { destruct Sp as [Sp|Sp].
    - exists n', y. now apply serves_here.
    - destruct (inbound_delivered _ _ _ _ _ _ V1 Sp) as (kk & Dk & Rk & D').
      destruct (i_sent _ _ V1 kk) as [c2 W].
      { apply in_or_app; right. apply in_map_iff. exists (kk, (y, [OServePeer t' y z])).
        split; [reflexivity|]. now apply deliveries_in. }
      exists (pk_from kk), c2. eapply serves_there with (rid := pk_rid kk) (ch := y).
      + rewrite <- Dk, <- Rk; exact W.
      + destruct kk; cbn in *; subst; exact D'.
      + now left. }
  destruct B1 as (p2 & c2 & B1).
  destruct (serves_one _ _ _ _ _ _ _ _ _ _ _ E B (Up _ _ _ _ _ B1)) as (-> & -> & ->).
  destruct (serves_own _ _ _ _ _ _ _ _ E1 B1) as (x & d & Sx & _).
  eapply Ns; eauto.
Qed.

Lemma pick_last : forall A (l : list A) x, pick (length l) (l ++ [x]) = Some (x, l).
Proof. induction l as [|y l IH]; intros x; cbn; [reflexivity|]. now rewrite IH. Qed.

Lemma pick_some : forall A k (l : list A) x, nth_error l k = Some x -> exists r, pick k l = Some (x, r).
Proof.
  induction k as [|k IH]; intros [|y l] x E; cbn in E; try discriminate.
  - injection E as ->. cbn. eauto.
  - destruct (IH _ _ E) as [r P]. cbn. rewrite P. eauto.
Qed.

(** What is sent arrives if nothing fails, in four steps. *)
Lemma round_trip_steps : forall es (s : cluster T) hist c i p rid n q r,
  c_exec cluster_new es = Some (s, hist) -> nth_error (cl_wire s) i = Some (mk_packet p rid n q) ->
  saw hist p (OWire c rid n q) -> endings c (seen (at_node p hist)) = 0 ->
  ~ saw hist p OHandlerPanic -> ~ saw hist n OHandlerPanic -> h_cmds (cl_node s n) = [] ->
  let t := h_next_task (cl_node s n) in let ch := cl_next s in let pk := mk_packet p rid n q in
  exists s1 s2 s3 s4,
    c_step s (CDeliver i) = Some (s1, HDeliver pk ch [OServePeer t ch q]) /\
    take_task t (h_tasks (cl_node s1 n)) = Some (TInbound ch q, h_tasks (cl_node s n)) /\
    c_step s1 (CNode n (ETask t (Some r))) = Some (s2, HNode n (ETask t (Some r)) []) /\
    c_step s2 (CNode n (ECommand 0 true)) =
      Some (s3, HNode n (ECommand 0 true) [ORespond ch (RResult (request_kind q) r)]) /\
    c_step s3 (CAnswer (length (cl_back s))) =
      Some (s4, HAnswer pk (RResult (request_kind q) r) [OReply c (AResponse (RResult (request_kind q) r))]).
Proof.
  intros es s hist c i p rid n q r E W Sw Ne Ap An Cm. apply reach_cinv in E as V.
  intros t ch pk.
  assert (Aln : h_alive (cl_node s n) = true)
    by (eapply alive_or; [apply (node_inv _ _ n V)|exact An]).
  assert (Alp : h_alive (cl_node s p) = true)
    by (eapply alive_or; [apply (node_inv _ _ p V)|exact Ap]).
  assert (Rq : exists m, take rid (h_reqs (cl_node s p)) = Some (c, m)).
  { destruct (v_wire _ _ _ _ (node_inv _ _ p V) _ _ _ _ Sw) as (_ & _ & [I|I]); [|lia].
    apply take_found; [|assumption].
    destruct (v_keyed _ _ _ _ (node_inv _ _ p V)) as (_ & _ & (N & _) & _). exact N. }
  destruct Rq as [m Rq].
  destruct (pick_some _ _ _ _ W) as [rest P].
  set (h1 := spawn_task (cl_node s n) (TInbound ch q)).
  set (s1 := mk_cluster (set_node (cl_node s) n h1) rest ((ch, pk) :: cl_open s) (cl_back s) (S ch)).
  assert (X1 : c_step s (CDeliver i) = Some (s1, HDeliver pk ch [OServePeer t ch q])).
  { cbn [c_step]. rewrite P. unfold node_step, pk. cbn [cl_node pk_dest pk_req step].
    rewrite Aln. reflexivity. }
  assert (N1 : cl_node s1 n = h1) by (unfold s1, set_node; cbn; now rewrite peer_refl).
  set (h2 := set_tasks (set_cmds h1 [QRespond ch (request_kind q) r]) (h_tasks (cl_node s n))).
  set (s2 := mk_cluster (set_node (cl_node s1) n h2) rest ((ch, pk) :: cl_open s) (cl_back s) (S ch)).
  assert (X2 : c_step s1 (CNode n (ETask t (Some r))) = Some (s2, HNode n (ETask t (Some r)) [])).
  { assert (Tk : take_task t (h_tasks h1) = Some (TInbound ch q, h_tasks (cl_node s n)))
      by (unfold h1, t; cbn; now rewrite Nat.eqb_refl).
    assert (F : step n h1 (ETask t (Some r)) = (h2, [])).
    { cbn [step]. unfold finish_task. rewrite Tk.
      change (h_alive h1) with (h_alive (cl_node s n)). rewrite Aln.
      change (h_cmds h1) with (h_cmds (cl_node s n)). rewrite Cm. reflexivity. }
    cbn [c_step own_event]. rewrite N1, Tk. unfold node_step. rewrite N1, F. reflexivity. }
  assert (N2 : cl_node s2 n = h2) by (unfold s2, set_node; cbn; now rewrite peer_refl).
  set (h3 := set_cmds h2 []).
  set (s3 := mk_cluster (set_node (cl_node s2) n h3) rest (cl_open s)
               (cl_back s ++ [(pk, RResult (request_kind q) r)]) (S ch)).
  assert (X3 : c_step s2 (CNode n (ECommand 0 true)) =
    Some (s3, HNode n (ECommand 0 true) [ORespond ch (RResult (request_kind q) r)])).
  { assert (F : step n h2 (ECommand 0 true) = (h3, [ORespond ch (RResult (request_kind q) r)])).
    { cbn [step]. change (h_alive h2) with (h_alive (cl_node s n)). rewrite Aln. reflexivity. }
    cbn [c_step own_event]. unfold node_step. rewrite N2, F. cbn [fold_left emit cl_open].
    assert (To : take_open ch (cl_open s2) = Some (pk, cl_open s)) by (unfold s2; cbn; now rewrite Nat.eqb_refl).
    rewrite To. reflexivity. }
  assert (N3 : h_alive (cl_node s3 p) = true /\ h_reqs (cl_node s3 p) = h_reqs (cl_node s p)).
  { unfold s3, s2, s1, set_node; cbn [cl_node].
    destruct (peer_eqb (st_peers T) p n) eqn:Epn; [|auto].
    apply peer_eqb_eq in Epn; subst n. split; [exact Aln|reflexivity]. }
  destruct N3 as [A3 R3].
  destruct (c_step s3 (CAnswer (length (cl_back s)))) as [[s4 x4]|] eqn:X4.
  2:{ exfalso. cbn [c_step] in X4. unfold s3 in X4 at 1. cbn [cl_back] in X4. rewrite pick_last in X4.
      destruct (node_step _ _ _) in X4. discriminate. }
  assert (Y4 : x4 = HAnswer pk (RResult (request_kind q) r) [OReply c (AResponse (RResult (request_kind q) r))]).
  { assert (F : exists h4, step p (cl_node s3 p) (ENet (NResponse rid (RResult (request_kind q) r))) =
                (h4, [OReply c (AResponse (RResult (request_kind q) r))])).
    { eexists. cbn [step]. rewrite A3. cbn [handle_event]. rewrite R3, Rq. reflexivity. }
    destruct F as [h4 F].
    cbn [c_step] in X4. assert (Pl : pick (length (cl_back s)) (cl_back s3) =
      Some ((pk, RResult (request_kind q) r), cl_back s)) by apply pick_last.
    rewrite Pl in X4. unfold node_step in X4. cbn [cl_node] in X4.
    change (pk_from pk) with p in X4. change (pk_rid pk) with rid in X4. rewrite F in X4.
    injection X4 as _ <-. reflexivity. }
  subst x4. exists s1, s2, s3, s4. split; [exact X1|]. split; [|split; [exact X2|split; [exact X3|exact X4]]].
  rewrite N1. unfold h1, t. cbn. now rewrite Nat.eqb_refl.
Qed.

(** What is sent arrives if nothing fails. *)
Theorem round_trip : forall es (s : cluster T) hist c i p rid n q r,
  c_exec cluster_new es = Some (s, hist) -> nth_error (cl_wire s) i = Some (mk_packet p rid n q) ->
  saw hist p (OWire c rid n q) -> endings c (seen (at_node p hist)) = 0 ->
  ~ saw hist p OHandlerPanic -> ~ saw hist n OHandlerPanic -> h_cmds (cl_node s n) = [] ->
  exists t es2 s2 hist2, c_exec s es2 = Some (s2, hist2) /\
    serves (hist ++ hist2) n t p c q /\ task_ended hist2 n t (Some r) /\
    saw hist2 p (OReply c (AResponse (RResult (request_kind q) r))).
Proof.
  intros es s hist c i p rid n q r E W Sw Ne Ap An Cm.
  destruct (round_trip_steps _ _ _ _ _ _ _ _ _ r E W Sw Ne Ap An Cm) as (s1 & s2 & s3 & s4 & X1 & _ & X2 & X3 & X4).
  set (t := h_next_task (cl_node s n)) in *. set (ch := cl_next s) in *.
  exists t, [CDeliver i; CNode n (ETask t (Some r)); CNode n (ECommand 0 true); CAnswer (length (cl_back s))], s4.
  eexists. split; [cbn [c_exec]; rewrite X1, X2, X3, X4; reflexivity|]. split; [|split].
  - eapply serves_there with (rid := rid) (ch := ch) (os := [OServePeer t ch q]).
    + apply saw_app; now left.
    + apply in_or_app; right; now left.
    + now left.
  - apply did_in. eexists; eexists; split; [right; left; reflexivity|reflexivity].
  - apply saw_in. do 3 eexists. split; [do 3 right; left; reflexivity|]. split; [reflexivity|now left].
Qed.

End Nodes.
