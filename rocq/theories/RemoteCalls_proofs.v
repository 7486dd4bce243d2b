(** Proofs about remote asks and tells across nodes. *)
From Coq Require Import List Bool Arith PeanoNat Lia String.
From Verif Require Import ActorId Errors Dyn Reply Requests Requests_spec Requests_proofs.
From Verif Require Import Swarm Swarm_spec Swarm_proofs Cluster Cluster_spec Cluster_proofs.
From Verif Require Import RemoteCalls RemoteCalls_spec.
From Verif Require RemoteDispatch RemoteDispatch_spec RemoteDispatch_proofs.
Import ListNotations.
Local Open Scope nat_scope.
Local Open Scope list_scope.

(** ** Tasks of a cluster *)
Section Tasks.
Variable T : swarm_types.
Notation peer_t := (peer (st_peers T)).

(** Task [t] of node [n] was started for the request [q]. *)
Definition started_as (hist : list (happened T)) (n : peer_t) (t : nat) (q : request T) : Prop :=
  exists x, saw hist n (OServe t x q) \/ saw hist n (OServePeer t x q).

Lemma started_fun : forall es (s : cluster T) hist n t q q', c_exec cluster_new es = Some (s, hist) ->
  started_as hist n t q -> started_as hist n t q' -> q = q'.
Proof.
  intros es s hist n t q q' E [x A] [y B]. apply reach_cinv in E as V.
  destruct A as [A|A], B as [B|B].
  - apply (v_serve_fun _ _ _ _ (node_inv _ _ _ n V) _ _ _ _ _ A B).
  - exfalso; eapply (b_apart _ _ _ (node_inbound _ _ _ n V)); eauto.
  - exfalso; eapply (b_apart _ _ _ (node_inbound _ _ _ n V)); eauto.
  - apply (b_fun _ _ _ (node_inbound _ _ _ n V) _ _ _ _ _ A B).
Qed.

Lemma started_app : forall hist x n t q, started_as hist n t q -> started_as (hist ++ x) n t q.
Proof. intros hist x n t q [y [A|A]]; exists y; [left|right]; apply saw_app; left; exact A. Qed.

Lemma serves_started : forall es (s : cluster T) hist n t p c q, c_exec cluster_new es = Some (s, hist) ->
  serves hist n t p c q -> started_as hist n t q.
Proof.
  intros es s hist n t p c q E A. apply reach_cinv in E as V.
  destruct (serves_seen _ _ _ _ _ _ _ _ V A) as [[-> B]|(rid & ch & _ & _ & B)]; [exists c; now left|exists ch; now right].
Qed.

Lemma started_serves : forall es (s : cluster T) hist n t q, c_exec cluster_new es = Some (s, hist) ->
  started_as hist n t q -> exists p c, serves hist n t p c q.
Proof.
  intros es s hist n t q E [y Sp]. apply reach_cinv in E as V1. destruct Sp as [Sp|Sp].
  - exists n, y. now apply serves_here.
  - destruct (inbound_delivered _ _ _ _ _ _ _ V1 Sp) as (kk & Dk & Rk & D').
    destruct (i_sent _ _ _ V1 kk) as [c2 W].
    { apply in_or_app; right. apply in_map_iff. exists (kk, (y, [OServePeer t y q])).
      split; [reflexivity|]. now apply deliveries_in. }
    exists (pk_from kk), c2. eapply serves_there with (rid := pk_rid kk) (ch := y).
    + rewrite <- Dk, <- Rk; exact W.
    + destruct kk; cbn in *; subst; exact D'.
    + now left.
Qed.

Lemma task_started : forall es (s : cluster T) hist n t k m, c_exec cluster_new es = Some (s, hist) ->
  take_task t (h_tasks (cl_node s n)) = Some (k, m) ->
  started_as hist n t (match k with TLocal _ q => q | TInbound _ q => q end).
Proof.
  intros es s hist n t k m E F. apply reach_cinv in E as V. apply ttake_in in F.
  destruct (tasks_seen _ _ _ _ _ _ _ (i_run _ _ _ V n) F) as [_ A].
  destruct k as [c q|ch q]; [exists c; now left|exists ch; now right].
Qed.

Lemma exec_snoc : forall es e (s s1 s2 : cluster T) hist x, c_exec s es = Some (s1, hist) ->
  c_step s1 e = Some (s2, x) -> c_exec s (es ++ [e]) = Some (s2, hist ++ [x]).
Proof.
  induction es as [|e0 es IH]; cbn [c_exec app]; intros e s s1 s2 hist x A B.
  - injection A as <- <-. rewrite B. reflexivity.
  - destruct (c_step s e0) as [[s3 y]|]; [|discriminate].
    destruct (c_exec s3 es) as [[s4 h]|] eqn:C; [|discriminate]. injection A as <- <-.
    rewrite (IH _ _ _ _ _ _ C B). reflexivity.
Qed.

(** Only the end of a task ends it. *)
Lemma ended_snoc : forall hist (x : happened T) n t r, task_ended (hist ++ [x]) n t r ->
  task_ended hist n t r \/ exists os, x = HNode n (ETask t r) os.
Proof.
  intros hist x n t r A. unfold task_ended in *. apply did_in in A as (y & os & I & D).
  apply in_app_or in I as [I|[->|[]]]; [left; apply did_in; eauto|right].
  destruct y as [p e o|k ch o|k a o]; cbn in D; [|discriminate|discriminate].
  injection D as -> -> ->. eauto.
Qed.
End Tasks.
Arguments started_as {T} hist n t q.

(** ** The tasks for asks and tells *)
Section Calls.
Variable P : peers.
Variable user : nat -> Type.
Variable bytes reason : Type.
Variable prog : program user bytes.
Notation T := (call_types P user bytes reason).
Notation peer_t := (peer P).
Notation hist_t := (list (x_happened P user bytes reason)).

Lemma task_eqb_spec : forall x y : peer_t * nat, task_eqb x y = true <-> x = y.
Proof.
  intros [n t] [m u]. unfold task_eqb; cbn. rewrite andb_true_iff, Nat.eqb_eq, (peer_eqb_eq P).
  split; [intros [-> ->]|injection 1 as -> ->]; auto.
Qed.
Lemma task_refl : forall x : peer_t * nat, task_eqb x x = true.
Proof. intros; now apply task_eqb_spec. Qed.
Lemma task_dec : forall x y : peer_t * nat, x = y \/ task_eqb x y = false.
Proof. intros x y; destruct (task_eqb x y) eqn:E; [left; now apply task_eqb_spec|now right]. Qed.

Lemma find_set : forall k x y (l : list ((peer_t * nat) * running P user bytes)), find_run k l = Some y ->
  find_run k (set_run k x l) = Some x.
Proof.
  induction l as [|[k' z] l IH]; cbn; [discriminate|].
  destruct (task_eqb k' k) eqn:E; cbn; rewrite E; auto.
Qed.
Lemma find_set_other : forall k k' x (l : list ((peer_t * nat) * running P user bytes)), k <> k' ->
  find_run k' (set_run k x l) = find_run k' l.
Proof.
  intros k k' x l N. induction l as [|[k0 z] l IH]; cbn; [reflexivity|].
  destruct (task_eqb k0 k) eqn:E; cbn.
  - apply task_eqb_spec in E; subst k0. destruct (task_dec k k') as [ ?| -> ]; [contradiction|reflexivity].
  - now rewrite IH.
Qed.

(** What task [t] of node [n] went through. *)
Definition went (hist : hist_t) (n : peer_t) (t : nat) : list (RemoteDispatch.d_event user (actor_id P)) :=
  flat_map (fun x => match x with
                     | YRun n' t' e _ => if task_eqb (n', t') (n, t) then [e] else []
                     | _ => []
                     end) hist.

Lemma net_app : forall a b : hist_t, net (a ++ b) = net a ++ net b.
Proof. intros; apply flat_map_app. Qed.
Lemma puts_app : forall (a b : hist_t) n t, puts (a ++ b) n t = puts a n t ++ puts b n t.
Proof. intros; apply flat_map_app. Qed.
Lemma went_app : forall (a b : hist_t) n t, went (a ++ b) n t = went a n t ++ went b n t.
Proof. intros; apply flat_map_app. Qed.

(** The task is in the state its steps lead to. *)
Definition run_ok (hist : hist_t) (n : peer_t) (t : nat) (x : running P user bytes) : Prop :=
  let (b, d) := x in
  exists reg box q, In (YBegin n t reg box) hist /\
    RemoteDispatch.d_exec (world_at prog n) t b (RemoteDispatch.mk_node reg box RemoteDispatch.DStart) (went hist n t)
      = Some (d, puts hist n t) /\
    served q = Some b /\ started_as (net hist) n t q.

(** The task is over with this result. *)
Definition over (r : option (RemoteDispatch.response user bytes)) (x : running P user bytes) : Prop :=
  let (b, d) := x in
  match r with
  | Some v => RemoteDispatch.n_pc d = RemoteDispatch.DDone v
  | None => RemoteDispatch.n_pc d = RemoteDispatch.DPanic
  end.

Record xinv (s : calls P user bytes reason) (hist : hist_t) : Prop := mk_xinv {
  x_net : exists ces, c_exec cluster_new ces = Some (cs_net s, net hist);
  x_some : forall (n : peer_t) t x, find_run (n, t) (cs_runs s) = Some x -> run_ok hist n t x;
  x_none : forall (n : peer_t) t, find_run (n, t) (cs_runs s) = None -> went hist n t = [] /\ puts hist n t = [];
  x_over : forall (n : peer_t) t r q b, task_ended (net hist) n t r -> started_as (net hist) n t q -> served q = Some b ->
    exists x, find_run (n, t) (cs_runs s) = Some x /\ projT1 x = b /\ over r x
}.

Lemma over_step : forall r (x : running P user bytes) n t e d os, over r x ->
  RemoteDispatch.d_step (world_at prog n) t (projT1 x) (projT2 x) e = Some (d, os) ->
  over r (existT _ (projT1 x) d) /\ os = [].
Proof.
  intros r [b [reg box pc]] n t e d os O St. cbn [projT1 projT2] in *. unfold over in O.
  destruct r; cbn in O; subst pc; destruct e; cbn in St; try discriminate;
    try (injection St as <- <-; split; reflexivity);
    destruct (env_ok (box a) b0); try discriminate; injection St as <- <-; split; reflexivity.
Qed.

Lemma run_ok_app : forall hist y n t x, run_ok hist n t x ->
  went [y] n t = [] -> puts [y] n t = [] -> run_ok (hist ++ [y]) n t x.
Proof.
  intros hist y n t [b d] (reg & box & q & A & B & C & D) W1 W2. exists reg, box, q.
  rewrite went_app, puts_app, W1, W2, !app_nil_r, net_app. repeat split; auto.
  - apply in_or_app; now left.
  - now apply started_app.
Qed.

Lemma net_step_inv : forall (s : calls P user bytes reason) hist ces e c x, xinv s hist ->
  c_exec cluster_new ces = Some (cs_net s, net hist) ->
  c_step (cs_net s) e = Some (c, x) ->
  (forall n t r os q b, x = HNode n (ETask t r) os -> started_as (net hist) n t q -> served q = Some b ->
     exists y, find_run (n, t) (cs_runs s) = Some y /\ projT1 y = b /\ over r y) ->
  xinv (mk_calls c (cs_runs s)) (hist ++ [YNet x]).
Proof.
  intros s hist ces e c x V E St New.
  pose proof (exec_snoc _ _ _ _ _ _ _ _ E St) as E2.
  constructor; cbn [cs_net cs_runs].
  - exists (ces ++ [e]). rewrite net_app. exact E2.
  - intros n t y F. apply run_ok_app; auto. eapply x_some; eauto.
  - intros n t F. rewrite went_app, puts_app. cbn. rewrite !app_nil_r. eapply x_none; eauto.
  - intros n t r q b A B C. rewrite net_app in A, B. cbn [net flat_map app] in A, B.
    destruct (ended_snoc _ _ _ _ _ _ A) as [A'|[os ->]].
    + destruct (ended_spawned _ _ _ _ _ _ _ E A') as (y & q2 & Sp).
      assert (B2 : started_as (net hist) n t q2) by (exists y; exact Sp).
      rewrite (started_fun _ _ _ _ _ _ _ _ E2 B (started_app _ _ [x] _ _ _ B2)) in C.
      eapply x_over; eauto.
    + destruct (ended_spawned _ _ _ _ _ _ _ E2 A) as (y & q2 & Sp).
      (* the task was there before it ended *)
      assert (O : exists k m, take_task t (h_tasks (cl_node (cs_net s) n)) = Some (k, m)).
      { destruct e as [p e|k|k]; cbn in St.
        - destruct (own_event (cl_node (cs_net s) p) e) eqn:Ow; [|discriminate].
          destruct (node_step (cs_net s) p e) as [s' o]. injection St as <- -> -> ->.
          cbn in Ow. destruct (take_task t (h_tasks (cl_node (cs_net s) n))) as [[k m]|]; [eauto|discriminate].
        - destruct (pick k (cl_wire (cs_net s))) as [[pk rest]|]; [|discriminate].
          destruct (node_step _ _ _); discriminate.
        - destruct (pick k (cl_back (cs_net s))) as [[[pk rr] rest]|]; [|discriminate].
          destruct (node_step _ _ _); discriminate. }
      destruct O as (k & m & O). pose proof (task_started _ _ _ _ _ _ _ _ E O) as B3.
      rewrite (started_fun _ _ _ _ _ _ _ _ E2 B (started_app _ _ _ _ _ _ B3)) in C.
      eapply New; eauto.
Qed.

Lemma xinv_step : forall s hist e s' y, xinv s hist -> x_step prog s e = Some (s', y) -> xinv s' (hist ++ [y]).
Proof.
  intros s hist e s' y V St. destruct (x_net _ _ V) as [ces E].
  destruct e as [e|n t reg box|n t e|n t]; cbn [x_step] in St.
  - destruct (net_allowed (cs_net s) e) eqn:Al; [|discriminate].
    destruct (c_step (cs_net s) e) as [[c x]|] eqn:Cs; [|discriminate]. injection St as <- <-.
    eapply net_step_inv; eauto. intros n t r os q b -> B C. exfalso.
    destruct e as [p e|k|k]; cbn in Cs.
    + destruct (own_event (cl_node (cs_net s) p) e) eqn:Ow; [|discriminate].
      destruct (node_step (cs_net s) p e) as [s' o]. injection Cs as <- -> -> ->. cbn in Al, Ow.
      destruct (take_task t (h_tasks (cl_node (cs_net s) n))) as [[k m]|] eqn:O; [|discriminate].
      pose proof (task_started _ _ _ _ _ _ _ _ E O) as B3.
      rewrite (started_fun _ _ _ _ _ _ _ _ E B B3) in C. unfold task_request in Al. rewrite C in Al. discriminate.
    + destruct (pick k (cl_wire (cs_net s))) as [[pk rest]|]; [|discriminate].
      destruct (node_step _ _ _); discriminate.
    + destruct (pick k (cl_back (cs_net s))) as [[[pk rr] rest]|]; [|discriminate].
      destruct (node_step _ _ _); discriminate.
  - destruct (take_task t (h_tasks (cl_node (cs_net s) n))) as [[k m]|] eqn:O; [|discriminate].
    destruct (find_run (n, t) (cs_runs s)) eqn:F; [discriminate|].
    destruct (served (task_request k)) as [b|] eqn:Sv; [|discriminate]. injection St as <- <-.
    pose proof (task_started _ _ _ _ _ _ _ _ E O) as B3.
    constructor; cbn [cs_net cs_runs].
    + exists ces. rewrite net_app. cbn. rewrite app_nil_r. exact E.
    + intros n' t' x G. cbn [find_run] in G. destruct (task_dec (n, t) (n', t')) as [Eq|Nq].
      * injection Eq as <- <-. rewrite task_refl in G. injection G as <-.
        exists reg, box, (task_request k). rewrite went_app, puts_app, net_app.
        destruct (x_none _ _ V _ _ F) as [-> ->]. cbn. rewrite app_nil_r.
        split; [apply in_or_app; right; now left|]. split; [reflexivity|]. split; [exact Sv|exact B3].
      * rewrite Nq in G. apply run_ok_app; auto. eapply x_some; eauto.
    + intros n' t' G. cbn [find_run] in G. rewrite went_app, puts_app. cbn. rewrite !app_nil_r.
      destruct (task_eqb (n, t) (n', t')); [discriminate|]. eapply x_none; eauto.
    + intros n' t' r q b' A B C. rewrite net_app in A, B. cbn in A, B. rewrite app_nil_r in A, B.
      destruct (x_over _ _ V _ _ _ _ _ A B C) as (x & G & X). exists x. split; [|exact X].
      destruct (task_dec (n, t) (n', t')) as [Eq|Nq]; [|cbn [find_run]; rewrite Nq; exact G].
      injection Eq as <- <-. congruence.
  - destruct (find_run (n, t) (cs_runs s)) as [[b d]|] eqn:F; [|discriminate].
    destruct (RemoteDispatch.d_step (world_at prog n) t b d e) as [[d' os]|] eqn:Ds; [|discriminate].
    injection St as <- <-. constructor; cbn [cs_net cs_runs].
    + exists ces. rewrite net_app. cbn. rewrite app_nil_r. exact E.
    + intros n' t' x G. destruct (task_dec (n, t) (n', t')) as [Eq|Nq].
      * injection Eq as <- <-. rewrite (find_set _ _ _ _ F) in G. injection G as <-.
        destruct (x_some _ _ V _ _ _ F) as (reg & box & q & A & B & C & D).
        exists reg, box, q. rewrite went_app, puts_app, net_app. cbn [went puts net flat_map app]. rewrite task_refl, !app_nil_r.
        split; [apply in_or_app; now left|]. split; [|split; auto].
        rewrite RemoteDispatch_proofs.d_exec_app, B. cbn. rewrite Ds. now rewrite app_nil_r.
      * rewrite find_set_other in G by (intros Eq; rewrite Eq, task_refl in Nq; discriminate).
        apply run_ok_app; [eapply x_some; eauto| |]; cbn [went puts flat_map app]; rewrite Nq; reflexivity.
    + intros n' t' G. destruct (task_dec (n, t) (n', t')) as [Eq|Nq].
      * injection Eq as <- <-. rewrite (find_set _ _ _ _ F) in G. discriminate.
      * rewrite find_set_other in G by (intros Eq; rewrite Eq, task_refl in Nq; discriminate).
        rewrite went_app, puts_app. cbn [went puts flat_map app]. rewrite Nq, !app_nil_r. eapply x_none; eauto.
    + intros n' t' r q b' A B C. rewrite net_app in A, B. cbn in A, B. rewrite app_nil_r in A, B.
      destruct (x_over _ _ V _ _ _ _ _ A B C) as (x & G & X1 & X2).
      destruct (task_dec (n, t) (n', t')) as [Eq|Nq].
      * injection Eq as <- <-. rewrite F in G. injection G as <-.
        exists (existT _ b d'). split; [eapply find_set; eauto|]. split; [exact X1|].
        apply (over_step r (existT _ b d) n t e d' os X2 Ds).
      * exists x. rewrite find_set_other by (intros Eq; rewrite Eq, task_refl in Nq; discriminate). auto.
  - destruct (find_run (n, t) (cs_runs s)) as [[b d]|] eqn:F; [|discriminate].
    assert (R : exists r, over r (existT _ b d) /\
      match c_step (cs_net s) (@CNode T n (@ETask T t r)) with
      | Some (c, x) => Some (mk_calls c (cs_runs s), YNet x)
      | None => None
      end = Some (s', y)).
    { destruct (RemoteDispatch.n_pc d) eqn:Pc; try discriminate; [exists (Some r)|exists None];
        (split; [exact Pc|exact St]). }
    clear St. destruct R as (r & Ov & St).
    destruct (c_step (cs_net s) (@CNode T n (@ETask T t r))) as [[c x]|] eqn:Cs; [|discriminate].
    injection St as <- <-.
    eapply net_step_inv; eauto. intros n' t' r' os q b' -> B C. cbn in Cs.
    destruct (take_task t (h_tasks (cl_node (cs_net s) n))); [|discriminate].
    destruct (@node_step T (cs_net s) n (@ETask T t r)) as [s' o]. injection Cs as <- <- <- <- <-.
    destruct (x_some _ _ V _ _ _ F) as (reg & box & q2 & _ & _ & C2 & D2).
    rewrite (started_fun _ _ _ _ _ _ _ _ E B D2) in C.
    exists (existT _ b d). split; [exact F|]. split; [cbn; congruence|exact Ov].
Qed.

Lemma xinv_new : xinv calls_new [].
Proof.
  constructor; cbn.
  - exists []. reflexivity.
  - discriminate.
  - auto.
  - intros n t r q b [].
Qed.

Lemma exec_xinv : forall es s s' h1 h2, xinv s h1 -> x_exec prog s es = Some (s', h2) -> xinv s' (h1 ++ h2).
Proof.
  induction es as [|e es IH]; cbn [x_exec]; intros s s' h1 h2 V E.
  - injection E as <- <-. now rewrite app_nil_r.
  - destruct (x_step prog s e) as [[s1 y]|] eqn:St; [|discriminate].
    destruct (x_exec prog s1 es) as [[s2 h3]|] eqn:Ex; [|discriminate]. injection E as <- <-.
    replace (h1 ++ y :: h3) with ((h1 ++ [y]) ++ h3) by (rewrite <- app_assoc; reflexivity).
    eapply IH; eauto. eapply xinv_step; eauto.
Qed.

Lemma reach_xinv : forall es s hist, x_exec prog calls_new es = Some (s, hist) -> xinv s hist.
Proof. intros es s hist E. apply (exec_xinv _ _ _ _ _ xinv_new E). Qed.

Lemma x_prefix : forall es (s s' : calls P user bytes reason) h1 h2, x_exec prog s es = Some (s', h1 ++ h2) ->
  exists es1 es2 s1, es = es1 ++ es2 /\ x_exec prog s es1 = Some (s1, h1) /\ x_exec prog s1 es2 = Some (s', h2).
Proof.
  induction es as [|e es IH]; cbn [x_exec]; intros s s' h1 h2 E.
  - injection E as <- E. symmetry in E; apply app_eq_nil in E as [-> ->].
    exists [], [], s; auto.
  - destruct h1 as [|x h1].
    + exists [], (e :: es), s; auto.
    + destruct (x_step prog s e) as [[s1 y]|] eqn:St; [|discriminate].
      destruct (x_exec prog s1 es) as [[s2 h3]|] eqn:Ex; [|discriminate]. injection E as <- <- ->.
      destruct (IH _ _ _ _ Ex) as (es1 & es2 & s3 & -> & A & B).
      exists (e :: es1), es2, s3. cbn [x_exec]. rewrite St, A. auto.
Qed.

(** ** The theorems *)
Import RemoteDispatch RemoteDispatch_spec.
Notation crequest := (Swarm.request T).

Theorem cluster_runs : forall es (s : calls P user bytes reason) hist, x_exec prog calls_new es = Some (s, hist) ->
  exists ces, c_exec cluster_new ces = Some (cs_net s, net hist).
Proof. intros es s hist E. apply (x_net _ _ (reach_xinv _ _ _ E)). Qed.

Lemma call_served : forall (q : crequest) b, is_call q b -> served q = Some b.
Proof. intros q b [to [] A B|to [] A B]; cbn in *; subst; reflexivity. Qed.

Lemma run_found : forall (s : calls P user bytes reason) hist n t p c (q : crequest) b, xinv s hist ->
  serves (net hist) n t p c q -> served q = Some b ->
  (went hist n t = [] /\ puts hist n t = []) \/
  exists reg box d, In (YBegin n t reg box) hist /\
    d_exec (world_at prog n) t b (mk_node reg box DStart) (went hist n t) = Some (d, puts hist n t).
Proof.
  intros s hist n t p c q b V A B. destruct (x_net _ _ V) as [ces E].
  destruct (find_run (n, t) (cs_runs s)) as [[b0 d]|] eqn:F; [right|left; eapply x_none; eauto].
  destruct (x_some _ _ V _ _ _ F) as (reg & box & q0 & I & D & Sv & St).
  rewrite (started_fun _ _ _ _ _ _ _ _ E St (serves_started _ _ _ _ _ _ _ _ _ E A)) in Sv.
  rewrite B in Sv. injection Sv as <-. eauto.
Qed.

Lemma run_ended : forall (s : calls P user bytes reason) hist n t p c (q : crequest) b r, xinv s hist ->
  serves (net hist) n t p c q -> served q = Some b -> task_ended (net hist) n t (Some r) ->
  exists reg box d, In (YBegin n t reg box) hist /\
    d_exec (world_at prog n) t b (mk_node reg box DStart) (went hist n t) = Some (d, puts hist n t) /\
    n_pc d = DDone r.
Proof.
  intros s hist n t p c q b r V A B En. destruct (x_net _ _ V) as [ces E].
  destruct (x_over _ _ V _ _ _ _ _ En (serves_started _ _ _ _ _ _ _ _ _ E A) B) as ([b0 d] & F & Eb & Ov).
  cbn in Eb; subst b0. destruct (x_some _ _ V _ _ _ F) as (reg & box & q0 & I & D & Sv & St).
  exists reg, box, d. auto.
Qed.

(** The table seen by a task is one the node had while it ran. *)
Lemma reg_after : forall (n : peer_t) t (b : request (actor_id P) bytes) es (d d' : node user b) os,
  d_exec (world_at prog n) t b d es = Some (d', os) -> n_reg d' = n_reg d \/ In (DEnvReg (n_reg d')) es.
Proof.
  intros n t b. induction es as [|e es IH]; intros d d' os E; cbn in E.
  - injection E as <- <-. now left.
  - destruct (d_step (world_at prog n) t b d e) as [[d1 o1]|] eqn:St; [|discriminate].
    destruct (d_exec (world_at prog n) t b d1 es) as [[d2 o2]|] eqn:Ex; [|discriminate]. injection E as <- <-.
    destruct (IH _ _ _ Ex) as [->|I]; [|right; now right].
    assert (R : n_reg d1 = n_reg d \/ e = DEnvReg (n_reg d1)); [|destruct R as [->| <-]; [now left|right; now left]].
    unfold d_step in St. destruct e as [m r|reg|a bx|v|].
    + left. destruct (n_pc d) as [|f|f a msg ch pc|r0|]; try discriminate.
      * injection St as <- <-. reflexivity.
      * injection St as <- <-. reflexivity.
      * destruct (rq_step msg t false _ (RPoll m r)) as [[x1 x2]|]; [|discriminate]. injection St as <- <-. reflexivity.
    + right. injection St as <- <-. reflexivity.
    + left. destruct (env_ok (n_box d a) bx); [|discriminate]. injection St as <- <-. reflexivity.
    + left. destruct (n_pc d) as [|f|f a msg [] pc|r0|]; try discriminate. injection St as <- <-. reflexivity.
    + left. destruct (n_pc d) as [|f|f a msg [] pc|r0|]; try discriminate. injection St as <- <-. reflexivity.
Qed.

Lemma went_in : forall (hist : hist_t) n t e, In e (went hist n t) -> exists os, In (YRun n t e os) hist.
Proof.
  intros hist n t e I. unfold went in I. apply in_flat_map in I as (x & A & B).
  destruct x as [x|n' t' reg box|n' t' e' os]; try destruct B.
  destruct (task_eqb (n', t') (n, t)) eqn:Q; [|destruct B].
  apply task_eqb_spec in Q. injection Q as -> ->. destruct B as [->|[]]. eauto.
Qed.

Lemma table_had : forall (hist : hist_t) n t b reg box es1 rest (d : node user b) os,
  In (YBegin n t reg box) hist -> went hist n t = es1 ++ rest ->
  d_exec (world_at prog n) t b (mk_node reg box DStart) es1 = Some (d, os) -> had_table hist n t (n_reg d).
Proof.
  intros hist n t b reg box es1 rest d os I W E. destruct (reg_after _ _ _ _ _ _ _ E) as [->|J].
  - left. exists box. exact I.
  - right. apply went_in. rewrite W. apply in_or_app. now left.
Qed.

Lemma served_enqueued : forall es (s : calls P user bytes reason) hist n t p c (q : crequest) b,
  x_exec prog calls_new es = Some (s, hist) -> ids_unique (world_at prog n) ->
  serves (net hist) n t p c q -> served q = Some b ->
  puts hist n t = [] \/
  exists reg f a msg, had_table hist n t reg /\ accepted (world_at prog n) b reg f a msg /\
    puts hist n t = [(a, signal_of (q_ask b) t (fn_msg f) msg)].
Proof.
  intros es s hist n t p c q b E U A B. apply reach_xinv in E as V.
  destruct (run_found _ _ _ _ _ _ _ _ V A B) as [[_ ->]|(reg & box & d & I & D)]; [now left|].
  destruct (RemoteDispatch_proofs.enqueued _ _ _ _ _ _ _ _ _ _ _ U D) as [->|(es1 & n1 & f & a & msg & (m & r & es2 & W) & D1 & Ac & ->)];
    [now left|right].
  exists (n_reg n1), f, a, msg. split; [eapply table_had; eauto|]. split; [exact Ac|reflexivity].
Qed.

Theorem call_enqueued : forall es (s : calls P user bytes reason) hist n t p c (q : crequest) b,
  x_exec prog calls_new es = Some (s, hist) -> ids_unique (world_at prog n) ->
  serves (net hist) n t p c q -> is_call q b ->
  puts hist n t = [] \/
  exists reg f a msg, had_table hist n t reg /\ accepted (world_at prog n) b reg f a msg /\
    puts hist n t = [(a, signal_of (q_ask b) t (fn_msg f) msg)].
Proof. intros es s hist n t p c q b E U A B. eapply served_enqueued; eauto. now apply call_served. Qed.

Lemma only_served : forall es (s : calls P user bytes reason) hist n t,
  x_exec prog calls_new es = Some (s, hist) -> puts hist n t <> [] ->
  exists p c (q : crequest) b, serves (net hist) n t p c q /\ served q = Some b.
Proof.
  intros es s hist n t E A. apply reach_xinv in E as V. destruct (x_net _ _ V) as [ces Ec].
  destruct (find_run (n, t) (cs_runs s)) as [[b d]|] eqn:F.
  - destruct (x_some _ _ V _ _ _ F) as (reg & box & q & _ & _ & Sv & St).
    destruct (started_serves _ _ _ _ _ _ _ Ec St) as (p & c & Se). exists p, c, q, b; auto.
  - destruct (x_none _ _ V _ _ F) as [_ Z]. contradiction.
Qed.

Theorem only_calls : forall es (s : calls P user bytes reason) hist n t,
  x_exec prog calls_new es = Some (s, hist) -> puts hist n t <> [] ->
  exists p c to b, serves (net hist) n t p c (@QAsk T to b) \/ serves (net hist) n t p c (@QTell T to b).
Proof.
  intros es s hist n t E A. destruct (only_served _ _ _ _ _ E A) as (p & c & q & b & Se & Sv).
  destruct q as [to b0|to b0| | | ]; try discriminate; exists p, c, to, b0; auto.
Qed.

Lemma sent_one : forall es (s : calls P user bytes reason) hist p c x y, x_exec prog calls_new es = Some (s, hist) ->
  saw (net hist) p (OSent c x) -> saw (net hist) p (OSent c y) -> x = y.
Proof.
  intros es s hist p c x y E A B. destruct (cluster_runs _ _ _ E) as [ces Ec]. apply reach_cinv in Ec as V.
  eapply (v_sent_fun _ _ _ _ (node_inv _ _ _ p V)); eauto.
Qed.

(** The answer of a request: an error of the network, or the result of its task. *)
Lemma answered : forall es (s : calls P user bytes reason) hist p c x dest (q : crequest) b a,
  x_exec prog calls_new es = Some (s, hist) -> saw (net hist) p (OSent c x) ->
  (forall d q', means p x d q' -> d = dest /\ q' = q) -> served q = Some b ->
  saw (net hist) p (OReply c (AResponse a)) ->
  (exists e, a = RFailure e) \/
  exists n t k r reg box d, a = RResult k r /\ serves (net hist) n t p c q /\ (n = dest \/ n = p) /\
    In (YBegin n t reg box) hist /\
    d_exec (world_at prog n) t b (mk_node reg box DStart) (went hist n t) = Some (d, puts hist n t) /\
    n_pc d = DDone r.
Proof.
  intros es s hist p c x dest q b [k r|e] E Sx M Sv Re; [right|left; eauto].
  destruct (cluster_runs _ _ _ E) as [ces Ec].
  destruct (result_own _ _ _ _ _ _ _ _ Ec Re) as (n & t & q' & Se & En & _).
  destruct (serves_own _ _ _ _ _ _ _ _ _ Ec Se) as (x' & d' & Sx' & Mx & Pl).
  rewrite (sent_one _ _ _ _ _ _ _ E Sx' Sx) in Mx. apply M in Mx as [-> ->].
  destruct (run_ended _ _ _ _ _ _ _ _ _ (reach_xinv _ _ _ E) Se Sv En) as (reg & box & d & I & D & Pc).
  exists n, t, k, r, reg, box, d. auto 10.
Qed.

Lemma means_ask_one : forall (p dest : peer_t) to (b : st_body T) d q, @means T p (@CAsk T dest to b) d q ->
  d = dest /\ q = @QAsk T to b.
Proof. intros p dest to b d q M. inversion M; auto. Qed.
Lemma means_tell_one : forall (p dest : peer_t) to (b : st_body T) d q, @means T p (@CTell T dest to b) d q ->
  d = dest /\ q = @QTell T to b.
Proof. intros p dest to b d q M. inversion M; auto. Qed.

Lemma built_request : forall (p : peer_t) ask to actor mid m (v : den user m) mt rt imm b,
  build (world_at prog p) ask true to actor mid m v mt rt imm = Command b ->
  exists x, b = mk_request ask to actor mid x mt rt imm.
Proof.
  intros p ask to actor mid m v mt rt imm b H. unfold build in H. cbn in H.
  destruct (pr_encode prog m v) as [x|x]; [|discriminate]. injection H as <-. eauto.
Qed.

Theorem ask_answered : forall es (s : calls P user bytes reason) hist p c dest to b actor mid f
    (v : den user (fn_msg f)) mt rt imm a,
  x_exec prog calls_new es = Some (s, hist) -> ids_unique (world_at prog p) ->
  In ((actor, mid), f) (pr_messages prog) -> round_trip (world_at prog p) (fn_msg f) ->
  round_trip (world_at prog p) (r_ok (fn_reply f)) -> round_trip (world_at prog p) (r_err (fn_reply f)) ->
  build (world_at prog p) true true to actor mid (fn_msg f) v mt rt imm = Command b ->
  saw (net hist) p (@OSent T c (@CAsk T dest to b)) -> saw (net hist) p (@OReply T c (AResponse a)) ->
  let o := receive_ask (world_at prog p) (fn_reply f) (Some (as_response a)) in
  (exists e, network_error o e) \/
  exists n t reg, serves (net hist) n t p c (@QAsk T to b) /\ (n = dest \/ n = p) /\ had_table hist n t reg /\
    ((absent (world_at prog n) reg to /\ puts hist n t = [] /\ o = RemoteErr RActorNotRunning)
     \/ (exists x, registered (world_at prog n) reg to x /\ en_type x <> fn_actor f /\ puts hist n t = [] /\
           o = RemoteErr RBadActorType)
     \/ (exists x box es' s' os' o', registered (world_at prog n) reg to x /\ en_type x = fn_actor f /\
           rq_exec v t false (rq_start (fn_msg f) (fn_reply f) (if imm then MAskTry rt else MAsk mt rt) box) es'
             = Some (s', os') /\
           puts hist n t = map (pair (en_actor x)) os' /\ local_result (rq_pos s') o' /\
           ask_result (world_at prog n) o' o)).
Proof.
  intros es s hist p c dest to b actor mid f v mt rt imm a E U I R1 R2 R3 Bu Sx Re.
  destruct (built_request _ _ _ _ _ _ _ _ _ _ _ Bu) as [x0 Eb].
  assert (Sv : served (@QAsk T to b) = Some b) by (subst b; reflexivity).
  destruct (answered _ _ _ _ _ _ dest _ _ _ E Sx (fun d q M => means_ask_one _ _ _ _ _ _ M) Sv Re)
    as [[e ->]|(n & t & k & r & reg & box & d & -> & Se & Pl & Ib & D & Pc)].
  { left. exists e. destruct e; reflexivity. }
  right. destruct (RemoteDispatch_proofs.ask_round_trip _ _ _ (world_at prog n) t b to actor mid f v mt rt imm
    _ _ _ _ _ _ U I R1 R2 R3 Bu D Pc) as (es1 & n1 & D1 & (m1 & r1 & es2 & W) & Cs).
  exists n, t, (n_reg n1). split; [exact Se|]. split; [exact Pl|]. split; [eapply table_had; eauto|].
  destruct Cs as [Cs|[Cs|(x & es' & s' & os' & o' & C1 & C2 & C3 & C4 & C5 & C6)]]; [left; exact Cs|right; left; exact Cs|].
  right; right. exists x, (n_box n1 (en_actor x)), es', s', os', o'. auto 10.
Qed.

Theorem tell_answered : forall es (s : calls P user bytes reason) hist p c dest to b actor mid f
    (v : den user (fn_msg f)) mt rt imm a,
  x_exec prog calls_new es = Some (s, hist) -> ids_unique (world_at prog p) ->
  In ((actor, mid), f) (pr_messages prog) -> round_trip (world_at prog p) (fn_msg f) ->
  build (world_at prog p) false true to actor mid (fn_msg f) v mt rt imm = Command b ->
  saw (net hist) p (@OSent T c (@CTell T dest to b)) -> saw (net hist) p (@OReply T c (AResponse a)) ->
  let o := receive_tell (Some (as_response a)) in
  (exists e, network_error o e) \/
  exists n t reg, serves (net hist) n t p c (@QTell T to b) /\ (n = dest \/ n = p) /\ had_table hist n t reg /\
    ((absent (world_at prog n) reg to /\ puts hist n t = [] /\ o = RemoteErr RActorNotRunning)
     \/ (exists x, registered (world_at prog n) reg to x /\ en_type x <> fn_actor f /\ puts hist n t = [] /\
           o = RemoteErr RBadActorType)
     \/ (exists x, registered (world_at prog n) reg to x /\ en_type x = fn_actor f /\
           ((o = RemoteOk tt /\ puts hist n t = [(en_actor x, signal_of false t (fn_msg f) v)])
            \/ ((o = RemoteErr RActorNotRunning \/ o = RemoteErr RMailboxFull \/ o = RemoteErr RReplyTimeout) /\
                puts hist n t = [])))).
Proof.
  intros es s hist p c dest to b actor mid f v mt rt imm a E U I R1 Bu Sx Re.
  destruct (built_request _ _ _ _ _ _ _ _ _ _ _ Bu) as [x0 Eb].
  assert (Sv : served (@QTell T to b) = Some b) by (subst b; reflexivity).
  destruct (answered _ _ _ _ _ _ dest _ _ _ E Sx (fun d q M => means_tell_one _ _ _ _ _ _ M) Sv Re)
    as [[e ->]|(n & t & k & r & reg & box & d & -> & Se & Pl & Ib & D & Pc)].
  { left. exists e. destruct e; reflexivity. }
  right. destruct (RemoteDispatch_proofs.tell_round_trip _ _ _ (world_at prog n) t b to actor mid f v mt rt imm
    _ _ _ _ _ _ U I R1 Bu D Pc) as (es1 & n1 & D1 & (m1 & r1 & es2 & W) & Cs).
  exists n, t, (n_reg n1). split; [exact Se|]. split; [exact Pl|]. split; [eapply table_had; eauto|].
  destruct Cs as [Cs|[Cs|(x & es' & s' & os' & o' & C1 & C2 & C3 & C4 & C5 & C6)]]; [left; exact Cs|right; left; exact Cs|].
  right; right. exists x. split; [exact C1|]. split; [exact C2|].
  set (k0 := if imm then MTellTry else MTell mt) in *.
  assert (K : is_tell k0 = true) by (unfold k0; destruct imm; reflexivity).
  assert (K2 : is_tell k0 || is_ask k0 = true) by (rewrite K; reflexivity).
  assert (Ok1 : RemoteDispatch_proofs.pos_ok user (rq_pos s')).
  { eapply RemoteDispatch_proofs.pos_ok_run; [exact K2| |exact C3]. exact Logic.I. }
  pose proof (accounted_run _ _ _ _ _ _ _ _ _ _ _ C3) as Ac. unfold accounted in Ac.
  clearbody k0. rewrite C4.
  assert (G : exists z, z = receive_tell (Some r) /\ tell_result o' z) by eauto.
  destruct G as (z & Ez & Gz). change (receive_tell (Some (as_response (@RResult T k r)))) with (receive_tell (Some r)).
  rewrite <- Ez. clear Ez C6.
  destruct C5 as [o'|e e' Eq].
  - cbn in Ok1. rewrite K in Ok1. subst o'. left. inversion Gz. split; [reflexivity|].
    rewrite Ac. unfold message_signal, signal_of. rewrite K. reflexivity.
  - right. rewrite Ac. split; [|reflexivity]. inversion Gz; auto.
Qed.

Theorem ask_value : forall es (s : calls P user bytes reason) hist p c dest to b actor mid f
    (v : den user (fn_msg f)) mt rt imm a y,
  x_exec prog calls_new es = Some (s, hist) -> ids_unique (world_at prog p) ->
  In ((actor, mid), f) (pr_messages prog) -> round_trip (world_at prog p) (fn_msg f) ->
  round_trip (world_at prog p) (r_ok (fn_reply f)) -> round_trip (world_at prog p) (r_err (fn_reply f)) ->
  build (world_at prog p) true true to actor mid (fn_msg f) v mt rt imm = Command b ->
  saw (net hist) p (@OSent T c (@CAsk T dest to b)) -> saw (net hist) p (@OReply T c (AResponse a)) ->
  receive_ask (world_at prog p) (fn_reply f) (Some (as_response a)) = RemoteOk y ->
  exists n t reg x box es' s' os', serves (net hist) n t p c (@QAsk T to b) /\ (n = dest \/ n = p) /\
    had_table hist n t reg /\ registered (world_at prog n) reg to x /\ en_type x = fn_actor f /\
    puts hist n t = [(en_actor x, signal_of true t (fn_msg f) v)] /\
    rq_exec v t false (rq_start (fn_msg f) (fn_reply f) (if imm then MAskTry rt else MAsk mt rt) box) es'
      = Some (s', os') /\ rq_pos s' = RqDone (OutOk y).
Proof.
  intros es s hist p c dest to b actor mid f v mt rt imm a y E U I R1 R2 R3 Bu Sx Re Oy.
  destruct (ask_answered _ _ _ _ _ _ _ _ _ _ _ _ _ _ _ _ E U I R1 R2 R3 Bu Sx Re)
    as [[e Ne]|(n & t & reg & Se & Pl & Ht & Cs)].
  { rewrite Oy in Ne. destruct e; discriminate. }
  rewrite Oy in Cs. destruct Cs as [(_ & _ & Z)|[(x & _ & _ & _ & Z)|(x & box & es' & s' & os' & o' & C1 & C2 & C3 & C4 & C5 & C6)]];
    [discriminate|discriminate|].
  exists n, t, reg, x, box, es', s', os'. do 5 (split; [assumption|]).
  pose proof (accounted_run _ _ _ _ _ _ _ _ _ _ _ C3) as Ac. unfold accounted in Ac.
  assert (K : is_tell (if imm then MAskTry rt else MAsk mt rt) = false) by (destruct imm; reflexivity).
  rewrite C4. split; [|split; [exact C3|]].
  - destruct C5 as [o'|e e' Eq].
    + rewrite Ac. unfold message_signal, signal_of. rewrite K. reflexivity.
    + inversion C6.
  - destruct C5 as [o'|e e' Eq]; [|inversion C6]. inversion C6; subst; reflexivity.
Qed.

(** The end of a task leaves nothing to be put. *)
Lemma over_exec : forall es s (s' : calls P user bytes reason) h1 h2 n t r x, xinv s h1 ->
  x_exec prog s es = Some (s', h2) -> find_run (n, t) (cs_runs s) = Some x -> over r x -> puts h2 n t = [].
Proof.
  induction es as [|e es IH]; cbn [x_exec]; intros s s' h1 h2 n t r x V E F O.
  - injection E as <- <-. reflexivity.
  - destruct (x_step prog s e) as [[s1 y]|] eqn:St; [|discriminate].
    destruct (x_exec prog s1 es) as [[s2 h3]|] eqn:Ex; [|discriminate]. injection E as <- <-.
    pose proof (xinv_step _ _ _ _ _ V St) as V1.
    assert (G : exists x', find_run (n, t) (cs_runs s1) = Some x' /\ over r x' /\ puts [y] n t = []).
    { destruct e as [e|n' t' reg box|n' t' e|n' t']; cbn [x_step] in St.
      - destruct (net_allowed (cs_net s) e); [|discriminate].
        destruct (c_step (cs_net s) e) as [[c z]|]; [|discriminate]. injection St as <- <-. eauto.
      - destruct (take_task t' (h_tasks (cl_node (cs_net s) n'))) as [[k m]|]; [|discriminate].
        destruct (find_run (n', t') (cs_runs s)) eqn:F'; [discriminate|].
        destruct (served (task_request k)) as [b|]; [|discriminate]. injection St as <- <-.
        exists x. cbn [cs_runs find_run]. destruct (task_dec (n', t') (n, t)) as [Eq|Nq]; [congruence|].
        rewrite Nq. auto.
      - destruct (find_run (n', t') (cs_runs s)) as [[b d]|] eqn:F'; [|discriminate].
        destruct (d_step (world_at prog n') t' b d e) as [[d' os]|] eqn:Ds; [|discriminate]. injection St as <- <-.
        cbn [cs_runs puts flat_map app]. destruct (task_dec (n', t') (n, t)) as [Eq|Nq].
        + injection Eq as -> ->. rewrite F' in F. injection F as <-.
          destruct (over_step r (existT _ b d) n t e d' os O Ds) as [O' ->].
          exists (existT _ b d'). split; [eapply find_set; eauto|]. split; [exact O'|].
          rewrite task_refl. reflexivity.
        + exists x. rewrite Nq. rewrite find_set_other by (intros Eq; rewrite Eq, task_refl in Nq; discriminate). auto.
      - destruct (find_run (n', t') (cs_runs s)) as [[b d]|]; [|discriminate]. cbn zeta in St.
        destruct (match n_pc d with DDone r => Some (Some r) | DPanic => Some None | _ => None end) as [r'|]; [|discriminate].
        destruct (c_step _ _) as [[c z]|]; [|discriminate]. injection St as <- <-. eauto. }
    destruct G as (x' & F1 & O1 & Z). change (y :: h3) with ([y] ++ h3). rewrite puts_app, Z.
    eapply IH; eauto.
Qed.

Theorem awaited_calls : forall es (s : calls P user bytes reason) h1 h2 n t p c (q : crequest) b k r n' t' p' c' (q' : crequest),
  x_exec prog calls_new es = Some (s, h1 ++ h2) ->
  serves (net (h1 ++ h2)) n t p c q -> is_call q b -> saw (net h1) p (OReply c (AResponse (RResult k r))) ->
  serves (net (h1 ++ h2)) n' t' p' c' q' -> (forall x, ~ saw (net h1) p' (OSent c' x)) ->
  puts h2 n t = [] /\ puts h1 n' t' = [].
Proof.
  intros es s h1 h2 n t p c q b k r n' t' p' c' q' E A Sv Re B Ns. apply call_served in Sv.
  destruct (cluster_runs _ _ _ E) as [ces Ec]. rewrite net_app in A, B, Ec.
  destruct (awaited _ _ _ _ _ _ _ _ _ _ _ _ _ _ _ _ _ Ec A Re B Ns) as [En Nsp].
  destruct (x_prefix _ _ _ _ _ E) as (es1 & es2 & s1 & _ & E1 & E2). apply reach_xinv in E1 as V1.
  destruct (x_net _ _ V1) as [ces1 Ec1]. split.
  - destruct (ended_spawned _ _ _ _ _ _ _ Ec1 En) as (y & q2 & Sp).
    assert (Sp1 : started_as (net h1) n t q2) by (exists y; exact Sp).
    assert (q2 = q) as ->.
    { eapply started_fun; [exact Ec|apply started_app; exact Sp1|]. eapply serves_started; eauto. }
    destruct (x_over _ _ V1 _ _ _ _ _ En Sp1 Sv) as (x & F & _ & O).
    eapply over_exec; [exact V1|exact E2|exact F|exact O].
  - destruct (find_run (n', t') (cs_runs s1)) as [[b0 d]|] eqn:F; [exfalso|eapply x_none; eauto].
    destruct (x_some _ _ V1 _ _ _ F) as (reg & box & q2 & _ & _ & _ & (y & Sp)). apply Nsp. exists y, q2. exact Sp.
Qed.

Theorem right_node : forall es (s : calls P user bytes reason) hist n t p c x dest (q : crequest) b,
  x_exec prog calls_new es = Some (s, hist) -> ids_unique (world_at prog n) ->
  serves (net hist) n t p c q -> is_call q b ->
  saw (net hist) p (OSent c x) -> means p x dest q -> kind_peer P (Some p) (kind (q_id b)) = Some dest ->
  (forall reg i e, had_table hist n t reg -> In (i, e) reg -> kind_peer P (Some n) (kind i) = Some n) ->
  puts hist n t <> [] -> n = dest.
Proof.
  intros es s hist n t p c x dest q b E U A Sv Sx M Kd Tb Np.
  destruct (cluster_runs _ _ _ E) as [ces Ec].
  destruct (serves_own _ _ _ _ _ _ _ _ _ Ec A) as (x' & d' & Sx' & Mx & Pl).
  rewrite (sent_one _ _ _ _ _ _ _ E Sx' Sx) in Mx.
  assert (d' = dest) as -> by (inversion M; subst; inversion Mx; subst; congruence).
  destruct Pl as [Pl|Pl]; [exact Pl|]. subst p.
  destruct (call_enqueued _ _ _ _ _ _ _ _ _ E U A Sv) as [Z|(reg & f & a & msg & Ht & Ac & _)]; [contradiction|].
  destruct Ac as (e & _ & (i & Ii & Ie) & _). 
  apply andb_true_iff in Ie as [_ Ie].
  pose proof (Tb _ _ _ Ht Ii) as Z.
  assert (G : forall u v, u = Some n -> v = Some dest -> opt_peer_eqb P u v = true -> n = dest)
    by (intros u v -> -> H; now apply (peer_eqb_eq P) in H).
  exact (G _ _ Z Kd Ie).
Qed.

Theorem put_once : forall es (s : calls P user bytes reason) hist n t n' t' p c (q q' : crequest),
  x_exec prog calls_new es = Some (s, hist) -> ids_unique (world_at prog n) ->
  serves (net hist) n t p c q -> serves (net hist) n' t' p c q' ->
  (n', t') = (n, t) /\ List.length (puts hist n t) <= 1.
Proof.
  intros es s hist n t n' t' p c q q' E U A B. destruct (cluster_runs _ _ _ E) as [ces Ec].
  destruct (served_once _ _ _ _ _ _ _ _ _ _ _ _ Ec A B) as (<- & <- & _). split; [reflexivity|].
  destruct (puts hist n t) as [|z l] eqn:Z; [cbn; lia|].
  destruct (only_served _ _ _ n t E) as (p2 & c2 & q2 & b & Se & Sv); [rewrite Z; discriminate|].
  destruct (served_enqueued _ _ _ _ _ _ _ _ _ E U Se Sv) as [Y|(reg & f & a & msg & _ & _ & Y)]; rewrite Z in Y;
    [discriminate|]. rewrite Y. cbn. lia.
Qed.

(** ** Progress *)

(** Steps of a serving task only. *)
Lemma run_steps : forall des (c : cluster T) runs n t b d d' os,
  find_run (n, t) runs = Some (existT _ b d) ->
  d_exec (world_at prog n) t b d des = Some (d', os) ->
  exists runs' h, x_exec prog (mk_calls c runs) (map (XRun n t) des) = Some (mk_calls c runs', h) /\
    find_run (n, t) runs' = Some (existT _ b d') /\ net h = [] /\ puts h n t = os.
Proof.
  induction des as [|e des IH]; intros c runs n t b d d' os F D; cbn [d_exec] in D.
  - injection D as <- <-. exists runs, []. repeat split; assumption.
  - destruct (d_step (world_at prog n) t b d e) as [[d1 o1]|] eqn:St; [|discriminate].
    destruct (d_exec (world_at prog n) t b d1 des) as [[d2 o2]|] eqn:D2; [|discriminate].
    injection D as <- <-.
    destruct (IH c (set_run (n, t) (existT _ b d1) runs) n t b d1 d2 o2) as (runs' & h & X & F' & N & Pu);
      [eapply find_set; exact F|exact D2|].
    exists runs', (YRun n t e o1 :: h). cbn [map x_exec x_step cs_runs cs_net]. rewrite F, St, X.
    split; [reflexivity|]. split; [exact F'|]. split; [exact N|].
    cbn [puts flat_map]. rewrite task_refl. f_equal. exact Pu.
Qed.

Lemma x_exec_app : forall es1 es2 (s s1 : calls P user bytes reason) h1, x_exec prog s es1 = Some (s1, h1) ->
  x_exec prog s (es1 ++ es2) =
  match x_exec prog s1 es2 with Some (s2, h2) => Some (s2, h1 ++ h2) | None => None end.
Proof.
  induction es1 as [|e es1 IH]; intros es2 s s1 h1 E; cbn [x_exec app] in *.
  - injection E as <- <-. destruct (x_exec prog s es2) as [[? ?]|]; reflexivity.
  - destruct (x_step prog s e) as [[s0 y]|]; [|discriminate].
    destruct (x_exec prog s0 es1) as [[s3 h3]|] eqn:E3; [|discriminate]. injection E as <- <-.
    rewrite (IH es2 _ _ _ E3). destruct (x_exec prog s3 es2) as [[? ?]|]; reflexivity.
Qed.

(** A request on the way to a running node is served and answered if nothing fails. *)
Lemma delivers : forall es (s : calls P user bytes reason) hist c i (p : peer_t) rid (n : peer_t) (q : crequest) b
    (reg : registry (actor_id P)) box des r (os : nat -> _),
  x_exec prog calls_new es = Some (s, hist) ->
  nth_error (cl_wire (cs_net s)) i = Some (@mk_packet T p rid n q) ->
  saw (net hist) p (@OWire T c rid n q) -> endings c (seen (@at_node T p (net hist))) = 0 ->
  ~ saw (net hist) p (@OHandlerPanic T) -> ~ saw (net hist) n (@OHandlerPanic T) -> h_cmds (@cl_node T (cs_net s) n) = [] ->
  served q = Some b ->
  (forall t, exists d, d_exec (world_at prog n) t b (mk_node reg box DStart) des = Some (d, os t) /\ n_pc d = DDone r) ->
  exists t es2 s2 hist2, x_exec prog s es2 = Some (s2, hist2) /\ serves (net (hist ++ hist2)) n t p c q /\
    had_table hist2 n t reg /\ puts hist2 n t = os t /\
    saw (net hist2) p (@OReply T c (AResponse (@RResult T (request_kind q) r))).
Proof.
  intros es s hist c i p rid n q b reg box des r os E W Sw Ne Ap An Cm Sv D.
  apply reach_xinv in E as V. destruct (x_net _ _ V) as [ces Ec].
  destruct (@round_trip_steps T _ _ _ _ _ _ _ _ _ r Ec W Sw Ne Ap An Cm) as (c1 & c2 & c3 & c4 & X1 & Tk & X2 & X3 & X4).
  set (t := h_next_task (@cl_node T (cs_net s) n)) in *. destruct (D t) as (d & De & Pc).
  assert (Fn : find_run (n, t) (cs_runs s) = None).
  { destruct (find_run (n, t) (cs_runs s)) as [x|] eqn:F; [exfalso|reflexivity].
    destruct x as [b0 d0]. destruct (x_some _ _ V _ _ _ F) as (_ & _ & q0 & _ & _ & _ & y & [A|A]); apply reach_cinv in Ec as Vc.
    - pose proof (serve_lt _ _ _ _ _ _ _ (node_inv T _ _ n Vc) A). unfold t in *. lia.
    - destruct (b_seen _ _ _ (node_inbound T _ _ n Vc) _ _ _ A) as [L _]. unfold t in *. lia. }
  destruct (run_steps des c1 (((n, t), existT _ b (mk_node reg box DStart)) :: cs_runs s) n t b
    (mk_node reg box DStart) d (os t)) as (runs' & h & Xr & F' & Nh & Pu);
    [cbn [find_run]; rewrite task_refl; reflexivity|exact De|].
  exists t, (XNet (@CDeliver T i) :: XBegin n t reg box :: map (XRun n t) des ++
    [XEnd n t; XNet (@CNode T n (@ECommand T 0 true)); XNet (@CAnswer T (List.length (cl_back (cs_net s))))]),
    (mk_calls c4 runs').
  eexists. split.
  { cbn [x_exec x_step net_allowed]. rewrite X1. cbn [x_exec x_step cs_net cs_runs].
    rewrite Tk. cbn [task_request]. rewrite Fn, Sv.
    rewrite (x_exec_app _ _ _ _ _ Xr). cbn [x_exec x_step cs_net cs_runs]. rewrite F', Pc. 
    match goal with |- context [c_step c1 ?e] =>
      change (c_step c1 e) with (c_step c1 (@CNode T n (@ETask T t (@Some (st_result T) r)))) end.
    rewrite X2. cbn [x_exec x_step net_allowed cs_net cs_runs]. rewrite X3. cbn [x_exec x_step net_allowed cs_net cs_runs].
    rewrite X4. reflexivity. }
  set (pk := @mk_packet T p rid n q) in *. set (ch := cl_next (cs_net s)) in *.
  assert (Nn : forall h' : hist_t, net (YNet (@HDeliver T pk ch [@OServePeer T t ch q]) :: YBegin n t reg box :: h ++ h')
             = @HDeliver T pk ch [@OServePeer T t ch q] :: net h').
  { intros h'. change (net (YNet (@HDeliver T pk ch [@OServePeer T t ch q]) :: YBegin n t reg box :: h ++ h'))
      with (@HDeliver T pk ch [@OServePeer T t ch q] :: net (h ++ h')). rewrite net_app, Nh. reflexivity. }
  split; [|split; [|split]].
  - rewrite net_app, Nn. eapply serves_there with (rid := rid) (ch := ch).
    + apply saw_app; left; exact Sw.
    + apply in_or_app; right; now left.
    + now left.
  - left. exists box. right; now left.
  - change (puts (h ++ [YNet (@HNode T n (@ETask T t (Some r)) []); 
        YNet (@HNode T n (@ECommand T 0 true) [@ORespond T ch (@RResult T (request_kind q) r)]);
        YNet (@HAnswer T pk (@RResult T (request_kind q) r) [@OReply T c (AResponse (@RResult T (request_kind q) r))])]) n t = os t).
    rewrite puts_app, Pu. apply app_nil_r.
  - rewrite Nn. apply saw_in. do 3 eexists. split; [do 3 right; left; reflexivity|]. split; [reflexivity|now left].
Qed.

(** A tell to an actor registered at the node, with room in its mailbox. *)
Theorem tell_delivers : forall es (s : calls P user bytes reason) hist c i (p : peer_t) rid (n : peer_t) to b
    (reg : registry (actor_id P)) box f a msg,
  x_exec prog calls_new es = Some (s, hist) ->
  nth_error (cl_wire (cs_net s)) i = Some (@mk_packet T p rid n (@QTell T to b)) ->
  saw (net hist) p (@OWire T c rid n (@QTell T to b)) -> endings c (seen (@at_node T p (net hist))) = 0 ->
  ~ saw (net hist) p (@OHandlerPanic T) -> ~ saw (net hist) n (@OHandlerPanic T) ->
  h_cmds (@cl_node T (cs_net s) n) = [] -> is_call (@QTell T to b) b ->
  ids_unique (world_at prog n) -> one_entry (world_at prog n) reg -> accepted (world_at prog n) b reg f a msg ->
  mopen (box a) = true -> ~ full user (box a) ->
  exists t es2 s2 hist2 (x : Swarm.response T), x_exec prog s es2 = Some (s2, hist2) /\ serves (net (hist ++ hist2)) n t p c (@QTell T to b) /\
    had_table hist2 n t reg /\ puts hist2 n t = [(a, signal_of false t (fn_msg f) msg)] /\
    saw (net hist2) p (@OReply T c (AResponse x)) /\ receive_tell (Some (as_response x)) = RemoteOk tt.
Proof.
  intros es s hist c i p rid n to b reg box f a msg E W Sw Ne Ap An Cm Ic U O A Op Fu.
  assert (Qb : q_ask b = false) by (inversion Ic; assumption).
  destruct (delivers _ _ _ _ _ _ _ _ _ b reg box [DPoll false false; DPoll false false; DPoll false false]
    (RespTell (Ok tt)) (fun t => [(a, signal_of false t (fn_msg f) msg)]) E W Sw Ne Ap An Cm (call_served _ _ Ic))
    as (t & es2 & s2 & hist2 & X & Sv & Ht & Pu & Re).
  { intros t. exact (RemoteDispatch_proofs.accepted_told _ _ _ _ _ _ _ _ _ _ _ _ _ _ _ _ _ Qb U O A Op Fu). }
  exists t, es2, s2, hist2. eexists. repeat (split; [eassumption|]). reflexivity.
Qed.

(** An ask, once the actor has replied. *)
Theorem ask_delivers : forall es (s : calls P user bytes reason) hist c i (p : peer_t) rid (n : peer_t) to b
    (reg : registry (actor_id P)) box f a msg (y : den user (r_ok (fn_reply f))) pl,
  x_exec prog calls_new es = Some (s, hist) ->
  nth_error (cl_wire (cs_net s)) i = Some (@mk_packet T p rid n (@QAsk T to b)) ->
  saw (net hist) p (@OWire T c rid n (@QAsk T to b)) -> endings c (seen (@at_node T p (net hist))) = 0 ->
  ~ saw (net hist) p (@OHandlerPanic T) -> ~ saw (net hist) n (@OHandlerPanic T) ->
  h_cmds (@cl_node T (cs_net s) n) = [] -> is_call (@QAsk T to b) b ->
  ids_unique (world_at prog n) -> one_entry (world_at prog n) reg -> accepted (world_at prog n) b reg f a msg ->
  mopen (box a) = true -> ~ full user (box a) ->
  pr_encode prog _ y = Ok pl -> round_trip (world_at prog p) (r_ok (fn_reply f)) ->
  exists t es2 s2 hist2 (x : Swarm.response T), x_exec prog s es2 = Some (s2, hist2) /\ serves (net (hist ++ hist2)) n t p c (@QAsk T to b) /\
    had_table hist2 n t reg /\ puts hist2 n t = [(a, signal_of true t (fn_msg f) msg)] /\
    saw (net hist2) p (@OReply T c (AResponse x)) /\
    receive_ask (world_at prog p) (fn_reply f) (Some (as_response x)) = RemoteOk y.
Proof.
  intros es s hist c i p rid n to b reg box f a msg y pl E W Sw Ne Ap An Cm Ic U O A Op Fu En Rt.
  assert (Qb : q_ask b = true) by (inversion Ic; assumption).
  destruct (delivers _ _ _ _ _ _ _ _ _ b reg box
    [DPoll false false; DPoll false false; DPoll false false; DReply (Ok (Dyn.box user y)); DPoll false false]
    (RespAsk (Ok pl)) (fun t => [(a, signal_of true t (fn_msg f) msg)]) E W Sw Ne Ap An Cm (call_served _ _ Ic))
    as (t & es2 & s2 & hist2 & X & Sv & Ht & Pu & Re).
  { intros t. exact (RemoteDispatch_proofs.accepted_asked _ _ _ _ _ _ _ _ _ _ _ _ _ _ _ _ _ _ _ _ _ Qb U O A Op Fu En). }
  exists t, es2, s2, hist2. eexists. repeat (split; [eassumption|]).
  cbn. pose proof (Rt y pl En) as Rt'. cbn in Rt'. rewrite Rt'. reflexivity.
Qed.
End Calls.
