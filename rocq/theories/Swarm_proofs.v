(** Proofs about the swarm task. *)
From Coq Require Import List Bool Arith PeanoNat Lia Init.Byte Strings.Byte NArith.
From Verif Require Import ActorId ActorId_spec ActorId_proofs ActorId_text_proofs Swarm Swarm_spec.
Import ListNotations.
Local Open Scope nat_scope.

Section Proofs.
Variable T : swarm_types.
Variable me : peer (st_peers T).

Lemma peer_of_some : forall x : actor_id (st_peers T), exists p, peer_of me x = Some p.
Proof. intros [n [|p]]; unfold peer_of; cbn; eauto. Qed.

Lemma kind_eqb_eq : forall a b, kind_eqb a b = true <-> a = b.
Proof. intros [] []; cbn; split; congruence. Qed.

Lemma bytes_eqb_eq : forall x y, bytes_eqb x y = true <-> x = y.
Proof. intros; unfold bytes_eqb; destruct (list_eq_dec byte_eq_dec x y); split; congruence. Qed.

(** ** One step *)

Definition now (h : handler T) (n : nat) (ok : bool) (c : nat) (x : call T) (a : answer T) : Prop :=
  forall before, own_answer me (store_get (h_store h)) before (ECommand n ok) c x a.

Inductive trans (h : handler T) : event T -> handler T -> list (obs T) -> Prop :=
| T_nop : forall e, trans h e h []
| T_send : forall x, h_alive h = true ->
    trans h (ESend x)
      (mk_handler (h_alive h) (h_cmds h ++ [QCall (h_next_caller h) x]) (h_gets h) (h_puts h)
         (h_reqs h) (h_store h) (h_next_query h) (h_next_request h) (h_tasks h) (h_next_task h)
         (S (h_next_caller h)))
      [OSent (h_next_caller h) x]
| T_send_dead : forall x, h_alive h = false -> trans h (ESend x) h [OSendPanic]
| T_now : forall n ok c x l s a, h_alive h = true -> h_cmds h = QCall c x :: l -> now h n ok c x a ->
    trans h (ECommand n ok) (set_store (set_cmds h l) s) [OReply c a]
| T_get : forall n ok c k l, h_alive h = true -> h_cmds h = QCall c (CLookup k) :: l ->
    trans h (ECommand n ok) (start_get (set_cmds h l) c) [OGet c (h_next_query h) k]
| T_put : forall n ok c x k v l s, h_alive h = true -> h_cmds h = QCall c x :: l ->
    (x = CRegister k v \/ x = CUnregister k /\ v = []) ->
    trans h (ECommand n ok) (start_put (set_store (set_cmds h l) s) c) [OPut c (h_next_query h) k v]
| T_wire : forall n ok c x p q l, h_alive h = true -> h_cmds h = QCall c x :: l -> means me x p q ->
    trans h (ECommand n ok) (start_request (set_cmds h l) c) [OWire c (h_next_request h) p q]
| T_serve : forall ok c x p q l, h_alive h = true -> h_cmds h = QCall c x :: l -> means me x p q ->
    trans h (ECommand 0 ok) (spawn_task (set_cmds h l) (TLocal c q)) [OServe (h_next_task h) c q]
| T_panic : forall n ok c x l, h_alive h = true -> h_cmds h = QCall c x :: l ->
    ((exists k r, x = CLookupLocal k /\ store_get (h_store h) k = Some r /\
        reg_from_bytes (st_peers T) (rc_value r) = None) \/
     (exists k v, x = CRegister k v /\ ok = false) \/
     (exists k, x = CUnregister k /\ n <> 0 /\ ok = false)) ->
    trans h (ECommand n ok) (fst (handler_panic (set_cmds h l) c)) (snd (handler_panic (set_cmds h l) c))
| T_respond : forall n ok ch k r l, h_alive h = true -> h_cmds h = QRespond ch k r :: l ->
    trans h (ECommand n ok) (set_cmds h l) [ORespond ch (RResult k r)]
| T_found : forall qid v c m, h_alive h = true -> take qid (h_gets h) = Some (c, m) ->
    trans h (ENet (NFound qid v)) (set_gets h m) [OReply c (AFound v)]
| T_geterr : forall qid err c m, h_alive h = true -> take qid (h_gets h) = Some (c, m) ->
    trans h (ENet (NGetError qid err)) (set_gets h m) [OReply c (AGetError err)]
| T_stored : forall qid r c m, h_alive h = true -> take qid (h_puts h) = Some (c, m) ->
    trans h (ENet (NPut qid r)) (set_puts h m) [OReply c (AStored r)]
| T_response : forall rid r c m, h_alive h = true -> take rid (h_reqs h) = Some (c, m) ->
    trans h (ENet (NResponse rid r)) (set_reqs h m) [OReply c (AResponse r)]
| T_failure : forall rid f c m, h_alive h = true -> take rid (h_reqs h) = Some (c, m) ->
    trans h (ENet (NFailure rid f)) (set_reqs h m) [OReply c (AResponse (RFailure (map_failure f)))]
| T_inbound : forall ch q, h_alive h = true ->
    trans h (ENet (NRequest ch q)) (spawn_task h (TInbound ch q)) [OServePeer (h_next_task h) ch q]
| T_closed : forall p n, h_alive h = true -> trans h (ENet (NClosed p n)) h [OPeerLost p]
| T_done : forall t c q m r, take_task t (h_tasks h) = Some (TLocal c q, m) ->
    trans h (ETask t (Some r)) (set_tasks h m) [OReply c (AResponse (RResult (request_kind q) r))]
| T_local_panic : forall t c q m, take_task t (h_tasks h) = Some (TLocal c q, m) ->
    trans h (ETask t None) (set_tasks h m) [OTaskPanic t; ODrop c]
| T_peer_done : forall t ch q m r, h_alive h = true -> take_task t (h_tasks h) = Some (TInbound ch q, m) ->
    trans h (ETask t (Some r))
      (set_tasks (set_cmds h (h_cmds h ++ [QRespond ch (request_kind q) r])) m) []
| T_peer_panic : forall t ch q m r, take_task t (h_tasks h) = Some (TInbound ch q, m) ->
    trans h (ETask t r) (set_tasks h m) [OTaskPanic t]
| T_store : forall k r s, h_alive h = true -> trans h (EStore k r) (set_store h s) [].

Lemma set_store_id : forall h : handler T, set_store h (h_store h) = h.
Proof. intros []; reflexivity. Qed.

Lemma trans_request : forall h n ok c x p q l, h_alive h = true -> h_cmds h = QCall c x :: l ->
  outgoing me x = Some (Some p, q) -> means me x p q ->
  trans h (ECommand n ok)
    (fst (if Nat.eqb n 0 then
            (spawn_task (set_cmds h l) (TLocal c q), [OServe (h_next_task (set_cmds h l)) c q])
          else (start_request (set_cmds h l) c, [OWire c (h_next_request (set_cmds h l)) p q])))
    (snd (if Nat.eqb n 0 then
            (spawn_task (set_cmds h l) (TLocal c q), [OServe (h_next_task (set_cmds h l)) c q])
          else (start_request (set_cmds h l) c, [OWire c (h_next_request (set_cmds h l)) p q]))).
Proof.
  intros h n ok c x p q l Al E O M.
  destruct (Nat.eqb_spec n 0) as [->|N]; cbn [fst snd].
  - change (h_next_task (set_cmds h l)) with (h_next_task h). eapply T_serve; eauto.
  - change (h_next_request (set_cmds h l)) with (h_next_request h). eapply T_wire; eauto.
Qed.

Lemma step_trans : forall h e h' o, step me h e = (h', o) -> trans h e h' o.
Proof.
  intros h e h' o; destruct e as [x|n ok|e|t r|k r]; cbn [step].
  - unfold send_call; destruct (h_alive h) eqn:Al; intros [= <- <-].
    + rewrite <- Al; constructor; assumption.
    + constructor; assumption.
  - destruct (h_alive h) eqn:Al; [|intros [= <- <-]; constructor].
    destruct (h_cmds h) as [|[c x|ch k r] l] eqn:E; cbn [handle_command].
    + intros [= <- <-]; constructor.
    + destruct x; cbn [handle_call].
      * intros [= <- <-].
        rewrite <- (set_store_id (set_cmds h l)).
        eapply T_now; eauto; intros before; econstructor; eauto.
      * intros [= <- <-]; eapply T_get; eauto.
      * change (h_store (set_cmds h l)) with (h_store h).
        destruct (store_get (h_store h) k) as [r|] eqn:G.
        -- destruct (reg_from_bytes (st_peers T) (rc_value r)) as [g|] eqn:D.
           ++ intros [= <- <-]. rewrite <- (set_store_id (set_cmds h l)).
              eapply T_now; eauto; intros before; eapply own_local_some; eauto.
           ++ intros [= <- <-]. eapply (T_panic h n ok c); eauto.
              left; eauto.
        -- intros [= <- <-]. rewrite <- (set_store_id (set_cmds h l)).
           eapply T_now; eauto; intros before; eapply own_local_none; eauto.
      * destruct (Nat.eqb_spec n 0) as [->|N]; destruct ok; intros [= <- <-].
        -- eapply T_now; eauto; intros before; eapply own_register_alone; eauto.
        -- eapply (T_panic h 0 false c); eauto 6.
        -- change (h_next_query (set_cmds h l)) with (h_next_query h).
           eapply T_put; eauto.
        -- eapply (T_panic h n false c); eauto 6.
      * destruct (Nat.eqb_spec n 0) as [->|N]; [|destruct ok]; intros [= <- <-].
        -- eapply T_now; eauto; intros before; eapply own_unregister_alone; eauto.
        -- change (h_next_query (set_cmds h l)) with (h_next_query h).
           eapply T_put; eauto.
        -- eapply (T_panic h n false c); eauto 8.
      * intros F. eapply (trans_request h n ok) in E; eauto; [|reflexivity|constructor].
        cbn [outgoing] in F; rewrite F in E; exact E.
      * intros F. eapply (trans_request h n ok) in E; eauto; [|reflexivity|constructor].
        cbn [outgoing] in F; rewrite F in E; exact E.
      * destruct (peer_of_some sib) as [p Hp].
        intros F. eapply (trans_request h n ok) in E; eauto;
          [|cbn [outgoing]; rewrite Hp; reflexivity|constructor; exact Hp].
        cbn [outgoing] in F; rewrite Hp in F; rewrite F in E; exact E.
      * destruct (peer_of_some sib) as [p Hp].
        intros F. eapply (trans_request h n ok) in E; eauto;
          [|cbn [outgoing]; rewrite Hp; reflexivity|constructor; exact Hp].
        cbn [outgoing] in F; rewrite Hp in F; rewrite F in E; exact E.
      * destruct (peer_of_some notified) as [p Hp].
        intros F. eapply (trans_request h n ok) in E; eauto;
          [|cbn [outgoing]; rewrite Hp; reflexivity|constructor; exact Hp].
        cbn [outgoing] in F; rewrite Hp in F; rewrite F in E; exact E.
    + intros [= <- <-]; eapply T_respond; eauto.
  - destruct (h_alive h) eqn:Al; [|intros [= <- <-]; constructor].
    destruct e; cbn [handle_event];
      try (intros [= <- <-]; constructor; assumption);
      try (destruct (take _ _) as [[c m]|] eqn:E; intros [= <- <-]; constructor; assumption).
  - unfold finish_task; destruct (take_task t (h_tasks h)) as [[[c q|ch q] m]|] eqn:E.
    + destruct r; intros [= <- <-]; econstructor; eauto.
    + destruct r; [destruct (h_alive h) eqn:Al|]; intros [= <- <-].
      * eapply T_peer_done; eauto.
      * eapply T_peer_panic; eauto.
      * eapply T_peer_panic; eauto.
    + intros [= <- <-]; constructor.
  - destruct (h_alive h) eqn:Al; [|intros [= <- <-]; constructor].
    destruct r; intros [= <- <-]; constructor; assumption.
Qed.

(** ** Counting *)

Definition cnt (l : list nat) (c : nat) : nat := count_occ Nat.eq_dec l c.

Definition is (c d : nat) : nat := if Nat.eqb c d then 1 else 0.

Lemma cnt_cons : forall d l c, cnt (d :: l) c = is c d + cnt l c.
Proof.
  intros; unfold cnt, is; cbn; destruct (Nat.eq_dec d c); destruct (Nat.eqb_spec c d); lia.
Qed.

Lemma cnt_app : forall a b c, cnt (a ++ b) c = cnt a c + cnt b c.
Proof. intros; unfold cnt; apply count_occ_app. Qed.

Lemma cnt_in : forall l c, In c l -> 1 <= cnt l c.
Proof. intros l c H; apply (count_occ_In Nat.eq_dec) in H; unfold cnt; lia. Qed.

Lemma cnt_nil : forall c, cnt [] c = 0.
Proof. reflexivity. Qed.

Definition task_callers (l : list (nat * task T)) : list nat :=
  flat_map (fun p => match snd p with TLocal c _ => [c] | TInbound _ _ => [] end) l.

Lemma take_cnt : forall k m c r, take k m = Some (c, r) ->
  forall d, cnt (map snd m) d = is d c + cnt (map snd r) d.
Proof.
  induction m as [|[k' c'] m IH]; cbn [take]; [discriminate|]; intros c r F d.
  destruct (Nat.eqb k k').
  - injection F as <- <-; cbn [map snd]; now rewrite cnt_cons.
  - destruct (take k m) as [[c0 r0]|] eqn:E; [|discriminate].
    injection F as <- <-; cbn [map snd]; rewrite !cnt_cons, (IH _ _ eq_refl d); lia.
Qed.

Lemma take_in : forall k m c r, take k m = Some (c, r) -> In (k, c) m.
Proof.
  induction m as [|[k' c'] m IH]; cbn [take]; [discriminate|]; intros c r F.
  destruct (Nat.eqb_spec k k') as [->|N].
  - injection F as <- <-; now left.
  - destruct (take k m) as [[c0 r0]|] eqn:E; [|discriminate].
    injection F as <- <-; right; eauto.
Qed.

Lemma take_sub : forall k m c r, take k m = Some (c, r) -> forall x, In x r -> In x m.
Proof.
  induction m as [|[k' c'] m IH]; cbn [take]; [discriminate|]; intros c r F x I.
  destruct (Nat.eqb_spec k k') as [->|N].
  - injection F as <- <-; now right.
  - destruct (take k m) as [[c0 r0]|] eqn:E; [|discriminate].
    injection F as <- <-; destruct I as [<-|I]; [now left|right; eauto].
Qed.

Lemma take_rest : forall k m c r, take k m = Some (c, r) ->
  forall x, In x m -> x = (k, c) \/ In x r.
Proof.
  induction m as [|[k' c'] m IH]; cbn [take]; [discriminate|]; intros c r F x I.
  destruct (Nat.eqb_spec k k') as [->|N].
  - injection F as <- <-; destruct I as [<-|I]; auto.
  - destruct (take k m) as [[c0 r0]|] eqn:E; [|discriminate].
    injection F as <- <-; destruct I as [<-|I]; [right; now left|].
    destruct (IH _ _ eq_refl x I); [now left|right; now right].
Qed.

Lemma take_found : forall k c m, NoDup (map fst m) -> In (k, c) m -> exists r, take k m = Some (c, r).
Proof.
  induction m as [|[k' c'] m IH]; cbn [take In map fst]; [tauto|]; intros N I.
  inversion N as [|? ? N1 N2]; subst.
  destruct (Nat.eqb_spec k k') as [->|Ne].
  - destruct I as [[= <-]|I]; [eauto|].
    exfalso; apply N1; change k' with (fst (k', c)); now apply in_map.
  - destruct I as [[= <- <-]|I]; [congruence|].
    destruct (IH N2 I) as [r ->]; eauto.
Qed.

Lemma take_nodup : forall k m c r, take k m = Some (c, r) -> NoDup (map fst m) -> NoDup (map fst r).
Proof.
  induction m as [|[k' c'] m IH]; cbn [take]; [discriminate|]; intros c r F N.
  inversion N as [|? ? N1 N2]; subst.
  destruct (Nat.eqb_spec k k') as [->|Ne].
  - injection F as <- <-; assumption.
  - destruct (take k m) as [[c0 r0]|] eqn:E; [|discriminate].
    injection F as <- <-; cbn [map fst]; constructor; [|eauto].
    intros I; apply N1; apply in_map_iff in I as (y & Y & I); apply in_map_iff; exists y; split; auto.
    eapply take_sub; eauto.
Qed.

Lemma tcallers_cons : forall x l, task_callers (x :: l) = task_callers [x] ++ task_callers l.
Proof. intros; unfold task_callers; cbn; now rewrite app_nil_r. Qed.

Lemma ttake_cnt : forall k m t r, take_task (T:=T) k m = Some (t, r) ->
  forall d, cnt (task_callers m) d = cnt (task_callers [(k, t)]) d + cnt (task_callers r) d.
Proof.
  induction m as [|[k' c'] m IH]; cbn [take_task]; [discriminate|]; intros t r F d.
  destruct (Nat.eqb_spec k k') as [->|N].
  - injection F as <- <-. rewrite tcallers_cons, cnt_app; lia.
  - destruct (take_task k m) as [[c0 r0]|] eqn:E; [|discriminate].
    injection F as <- <-. specialize (IH _ _ eq_refl d).
    rewrite (tcallers_cons _ m), (tcallers_cons _ r0), !cnt_app; lia.
Qed.

Lemma ttake_in : forall k m c r, take_task (T:=T) k m = Some (c, r) -> In (k, c) m.
Proof.
  induction m as [|[k' c'] m IH]; cbn [take_task]; [discriminate|]; intros c r F.
  destruct (Nat.eqb_spec k k') as [->|N].
  - injection F as <- <-; now left.
  - destruct (take_task k m) as [[c0 r0]|] eqn:E; [|discriminate].
    injection F as <- <-; right; eauto.
Qed.

Lemma ttake_sub : forall k m c r, take_task (T:=T) k m = Some (c, r) -> forall x, In x r -> In x m.
Proof.
  induction m as [|[k' c'] m IH]; cbn [take_task]; [discriminate|]; intros c r F x I.
  destruct (Nat.eqb_spec k k') as [->|N].
  - injection F as <- <-; now right.
  - destruct (take_task k m) as [[c0 r0]|] eqn:E; [|discriminate].
    injection F as <- <-; destruct I as [<-|I]; [now left|right; eauto].
Qed.

Lemma ttake_rest : forall k m c r, take_task (T:=T) k m = Some (c, r) ->
  forall x, In x m -> x = (k, c) \/ In x r.
Proof.
  induction m as [|[k' c'] m IH]; cbn [take_task]; [discriminate|]; intros c r F x I.
  destruct (Nat.eqb_spec k k') as [->|N].
  - injection F as <- <-; destruct I as [<-|I]; auto.
  - destruct (take_task k m) as [[c0 r0]|] eqn:E; [|discriminate].
    injection F as <- <-; destruct I as [<-|I]; [right; now left|].
    destruct (IH _ _ eq_refl x I); [now left|right; now right].
Qed.

Lemma ttake_found : forall k c m, NoDup (map fst m) -> In (k, c) m ->
  exists r, take_task (T:=T) k m = Some (c, r).
Proof.
  induction m as [|[k' c'] m IH]; cbn [take_task In map fst]; [tauto|]; intros N I.
  inversion N as [|? ? N1 N2]; subst.
  destruct (Nat.eqb_spec k k') as [->|Ne].
  - destruct I as [[= <-]|I]; [eauto|].
    exfalso; apply N1; change k' with (fst (k', c)); now apply in_map.
  - destruct I as [[= <- <-]|I]; [congruence|].
    destruct (IH N2 I) as [r ->]; eauto.
Qed.

Lemma ttake_nodup : forall k m c r, take_task (T:=T) k m = Some (c, r) ->
  NoDup (map fst m) -> NoDup (map fst r).
Proof.
  induction m as [|[k' c'] m IH]; cbn [take_task]; [discriminate|]; intros c r F N.
  inversion N as [|? ? N1 N2]; subst.
  destruct (Nat.eqb_spec k k') as [->|Ne].
  - injection F as <- <-; assumption.
  - destruct (take_task k m) as [[c0 r0]|] eqn:E; [|discriminate].
    injection F as <- <-; cbn [map fst]; constructor; [|eauto].
    intros I; apply N1; apply in_map_iff in I as (y & Y & I); apply in_map_iff; exists y; split; auto.
    eapply ttake_sub; eauto.
Qed.

(** Where callers wait. *)
Definition pend (h : handler T) (c : nat) : nat :=
  cnt (command_callers (h_cmds h)) c + cnt (map snd (h_gets h)) c + cnt (map snd (h_puts h)) c
  + cnt (map snd (h_reqs h)) c + cnt (task_callers (h_tasks h)) c.

Lemma endings_app : forall c (a b : list (obs T)), endings c (a ++ b) = endings c a + endings c b.
Proof. intros; unfold endings; rewrite filter_app, app_length; reflexivity. Qed.

Lemma endings_cons : forall c (o : obs T) l, endings c (o :: l) = (if ends c o then 1 else 0) + endings c l.
Proof. intros; unfold endings; cbn; destruct (ends c o); reflexivity. Qed.

Lemma endings_nil : forall c, endings c ([] : list (obs T)) = 0.
Proof. reflexivity. Qed.

Lemma endings_drops : forall l c, endings c (map (@ODrop T) l) = cnt l c.
Proof.
  induction l as [|d l IH]; intros c; [reflexivity|].
  cbn [map]; rewrite endings_cons, cnt_cons, IH; unfold is; cbn [ends]; reflexivity.
Qed.

Lemma callers_app : forall a b : list (command T), command_callers (a ++ b) = command_callers a ++ command_callers b.
Proof. intros; unfold command_callers; apply flat_map_app. Qed.

Lemma callers_call : forall c (x : call T) l, command_callers (QCall c x :: l) = c :: command_callers l.
Proof. reflexivity. Qed.

Lemma callers_respond : forall ch k r (l : list (command T)), command_callers (QRespond ch k r :: l) = command_callers l.
Proof. reflexivity. Qed.

Definition born (h : handler T) (c : nat) : nat := if c <? h_next_caller h then 1 else 0.

(** A caller waits in exactly one place until its wait ends, once. *)
Definition counted (h : handler T) (os : list (obs T)) : Prop :=
  forall c, pend h c + endings c os = born h c.

Lemma counted_step : forall h e h' o os, trans h e h' o -> counted h os -> counted h' (os ++ o).
Proof.
  intros h e h' o os Tr C c; specialize (C c); rewrite endings_app.
  unfold pend, born in *.
  destruct Tr; cbn [h_cmds h_gets h_puts h_reqs h_tasks h_next_caller set_cmds set_store set_gets set_puts
    set_reqs set_tasks start_get start_put start_request spawn_task handler_panic fst snd];
  repeat match goal with
  | E : h_cmds h = _ |- _ => rewrite E in C; clear E
  | E : take _ (h_gets h) = _ |- _ => rewrite (take_cnt _ _ _ _ E c) in C; clear E
  | E : take _ (h_puts h) = _ |- _ => rewrite (take_cnt _ _ _ _ E c) in C; clear E
  | E : take _ (h_reqs h) = _ |- _ => rewrite (take_cnt _ _ _ _ E c) in C; clear E
  | E : take_task _ (h_tasks h) = _ |- _ => rewrite (ttake_cnt _ _ _ _ E c) in C; clear E
  end;
  rewrite ?callers_app, ?callers_call, ?callers_respond in *;
  rewrite ?endings_cons, ?endings_drops; cbn [ends map snd task_callers flat_map app];
  rewrite ?endings_nil, ?callers_call, ?callers_respond;
  cbn [ends map snd task_callers flat_map app] in C;
  rewrite ?cnt_app, ?cnt_cons, ?cnt_nil in *;
  fold (task_callers (h_tasks h)) in *;
  try solve [unfold is in *; try lia].
  - (* send *)
    change (cnt (command_callers []) c) with 0.
    unfold is.
    destruct (Nat.ltb_spec c (h_next_caller h)); destruct (Nat.ltb_spec c (S (h_next_caller h)));
      destruct (Nat.eqb_spec c (h_next_caller h)); lia.
  - change (cnt (command_callers []) c) with 0. rewrite !cnt_app; lia.
Qed.

(** ** What a step adds *)

Lemma panic_obs : forall (h : handler T) c o, In o (snd (handler_panic h c)) ->
  o = OHandlerPanic \/ exists d, o = ODrop d.
Proof.
  intros h c o [<-|I]; [now left|].
  apply in_map_iff in I as (d & <- & _); right; eauto.
Qed.

Ltac obs1 :=
  repeat match goal with
  | H : In _ [] |- _ => destruct H
  | H : In _ [_] |- _ => destruct H as [H|[]]
  | H : In _ [_; _] |- _ => destruct H as [H|[H|[]]]
  | H : In _ (snd (handler_panic _ _)) |- _ =>
      apply panic_obs in H; destruct H as [H|(? & H)]
  end; try discriminate.

Ltac hcbn := cbn [h_alive h_cmds h_gets h_puts h_reqs h_tasks h_store h_next_caller h_next_query h_next_request
    h_next_task set_cmds set_store set_gets set_puts set_reqs set_tasks start_get start_put start_request
    spawn_task handler_panic fst] in *.

Lemma counters : forall h e h' o, trans h e h' o ->
  h_next_query h <= h_next_query h' /\ h_next_request h <= h_next_request h' /\
  h_next_task h <= h_next_task h' /\ h_next_caller h <= h_next_caller h'.
Proof. intros h e h' o []; hcbn; lia. Qed.

Lemma new_sent : forall h e h' o c x, trans h e h' o -> In (OSent c x) o ->
  c = h_next_caller h /\ h_next_caller h' = S c /\ e = ESend x /\
  h_cmds h' = h_cmds h ++ [QCall c x] /\ o = [OSent c x].
Proof.
  intros h e h' o c x Tr I; destruct Tr; obs1; hcbn.
  injection I as <- <-; repeat split; reflexivity.
Qed.

Lemma new_get : forall h e h' o c q k, trans h e h' o -> In (OGet c q k) o ->
  q = h_next_query h /\ h_next_query h' = S q /\ In (q, c) (h_gets h') /\ o = [OGet c q k] /\
  exists l, h_cmds h = QCall c (CLookup k) :: l.
Proof.
  intros h e h' o c q k Tr I; destruct Tr; obs1; hcbn.
  injection I as <- <- <-; repeat split; eauto; now left.
Qed.

Lemma new_put : forall h e h' o c q k v, trans h e h' o -> In (OPut c q k v) o ->
  q = h_next_query h /\ h_next_query h' = S q /\ In (q, c) (h_puts h') /\ o = [OPut c q k v] /\
  exists x l, h_cmds h = QCall c x :: l /\ (x = CRegister k v \/ x = CUnregister k /\ v = []).
Proof.
  intros h e h' o c q k v Tr I; destruct Tr; obs1; hcbn.
  injection I as <- <- <- <-; repeat split; eauto; now left.
Qed.

Lemma new_wire : forall h e h' o c r p q, trans h e h' o -> In (OWire c r p q) o ->
  r = h_next_request h /\ h_next_request h' = S r /\ In (r, c) (h_reqs h') /\ o = [OWire c r p q] /\
  exists x l, h_cmds h = QCall c x :: l /\ means me x p q.
Proof.
  intros h e h' o c r p q Tr I; destruct Tr; obs1; hcbn.
  injection I as <- <- <- <-; repeat split; eauto; now left.
Qed.

Lemma new_serve : forall h e h' o t c q, trans h e h' o -> In (OServe t c q) o ->
  t = h_next_task h /\ h_next_task h' = S t /\ In (t, TLocal c q) (h_tasks h') /\ o = [OServe t c q] /\
  exists x p l, h_cmds h = QCall c x :: l /\ means me x p q.
Proof.
  intros h e h' o t c q Tr I; destruct Tr; obs1; hcbn.
  injection I as <- <- <-; repeat split; eauto 6; now left.
Qed.

Lemma new_panic : forall h e h' o, trans h e h' o -> In OHandlerPanic o ->
  h_alive h = true /\ h_alive h' = false /\ h_cmds h' = [] /\ h_gets h' = [] /\ h_puts h' = [] /\ h_reqs h' = [].
Proof.
  intros h e h' o Tr I; destruct Tr; obs1; hcbn; repeat split; auto.
Qed.

Lemma endings_reply : forall c (a : answer T), 1 <= endings c [OReply c a].
Proof. intros; unfold endings; cbn; rewrite Nat.eqb_refl; cbn; lia. Qed.

Lemma endings_in : forall c (o : obs T) l, In o l -> ends c o = true -> 1 <= endings c l.
Proof.
  intros c o l I E; unfold endings.
  assert (J : In o (filter (ends c) l)) by (apply filter_In; auto).
  destruct (filter (ends c) l); [destruct J|cbn; lia].
Qed.

Lemma panic_ends : forall (h : handler T) c d,
  In d (c :: map snd (h_gets h) ++ map snd (h_puts h) ++ map snd (h_reqs h) ++ command_callers (h_cmds h)) ->
  1 <= endings d (snd (handler_panic h c)).
Proof.
  intros h c d I; apply endings_in with (ODrop d).
  - right; now apply in_map.
  - cbn; apply Nat.eqb_refl.
Qed.

Lemma in_callers : forall c (x : call T) l, In (QCall c x) l -> In c (command_callers l).
Proof.
  intros c x l I; unfold command_callers; apply in_flat_map; exists (QCall c x); split; [assumption|now left].
Qed.

Lemma gets_stay : forall h e h' o q c, trans h e h' o -> In (q, c) (h_gets h) ->
  In (q, c) (h_gets h') \/ 1 <= endings c o.
Proof.
  intros h e h' o q c Tr I; destruct Tr; hcbn; try (left; assumption); try (left; right; assumption).
  - right; apply panic_ends; right; apply in_or_app; left; hcbn.
    apply (in_map snd) in I; exact I.
  - destruct (take_rest _ _ _ _ H0 _ I) as [E|E]; [injection E as -> ->; right; apply endings_reply|now left].
  - destruct (take_rest _ _ _ _ H0 _ I) as [E|E]; [injection E as -> ->; right; apply endings_reply|now left].
Qed.

Lemma puts_stay : forall h e h' o q c, trans h e h' o -> In (q, c) (h_puts h) ->
  In (q, c) (h_puts h') \/ 1 <= endings c o.
Proof.
  intros h e h' o q c Tr I; destruct Tr; hcbn; try (left; assumption); try (left; right; assumption).
  - right; apply panic_ends; right; apply in_or_app; right; apply in_or_app; left; hcbn.
    apply (in_map snd) in I; exact I.
  - destruct (take_rest _ _ _ _ H0 _ I) as [E|E]; [injection E as -> ->; right; apply endings_reply|now left].
Qed.

Lemma reqs_stay : forall h e h' o q c, trans h e h' o -> In (q, c) (h_reqs h) ->
  In (q, c) (h_reqs h') \/ 1 <= endings c o.
Proof.
  intros h e h' o q c Tr I; destruct Tr; hcbn; try (left; assumption); try (left; right; assumption).
  - right; apply panic_ends; right; apply in_or_app; right; apply in_or_app; right; apply in_or_app; left; hcbn.
    apply (in_map snd) in I; exact I.
  - destruct (take_rest _ _ _ _ H0 _ I) as [E|E]; [injection E as -> ->; right; apply endings_reply|now left].
  - destruct (take_rest _ _ _ _ H0 _ I) as [E|E]; [injection E as -> ->; right; apply endings_reply|now left].
Qed.

Lemma tasks_stay : forall h e h' o t c q, trans h e h' o -> In (t, TLocal c q) (h_tasks h) ->
  In (t, TLocal c q) (h_tasks h') \/ 1 <= endings c o.
Proof.
  intros h e h' o t c q Tr I; destruct Tr; hcbn; try (left; assumption); try (left; right; assumption).
  - destruct (ttake_rest _ _ _ _ H _ I) as [E|E]; [injection E as -> -> ->; right; apply endings_reply|now left].
  - destruct (ttake_rest _ _ _ _ H _ I) as [E|E]; [injection E as -> -> ->; right|now left].
    apply endings_in with (ODrop c0); [now right; left|cbn; apply Nat.eqb_refl].
  - destruct (ttake_rest _ _ _ _ H0 _ I) as [E|E]; [discriminate|now left].
  - destruct (ttake_rest _ _ _ _ H _ I) as [E|E]; [discriminate|now left].
Qed.

Lemma gets_come : forall h e h' o q c, trans h e h' o -> In (q, c) (h_gets h') ->
  In (q, c) (h_gets h) \/ exists k, In (OGet c q k) o.
Proof.
  intros h e h' o q c Tr I; destruct Tr; hcbn; auto; try (left; eapply take_sub; eassumption); try (exfalso; exact I).
  destruct I as [[= <- <-]|I]; [right; eexists; now left|now left].
Qed.

Lemma puts_come : forall h e h' o q c, trans h e h' o -> In (q, c) (h_puts h') ->
  In (q, c) (h_puts h) \/ exists k v, In (OPut c q k v) o.
Proof.
  intros h e h' o q c Tr I; destruct Tr; hcbn; auto; try (left; eapply take_sub; eassumption); try (exfalso; exact I).
  destruct I as [[= <- <-]|I]; [right; do 2 eexists; now left|now left].
Qed.

Lemma reqs_come : forall h e h' o q c, trans h e h' o -> In (q, c) (h_reqs h') ->
  In (q, c) (h_reqs h) \/ exists p r, In (OWire c q p r) o.
Proof.
  intros h e h' o q c Tr I; destruct Tr; hcbn; auto; try (left; eapply take_sub; eassumption); try (exfalso; exact I).
  destruct I as [[= <- <-]|I]; [right; do 2 eexists; now left|now left].
Qed.

Lemma tasks_come : forall h e h' o t k, trans h e h' o -> In (t, k) (h_tasks h') ->
  In (t, k) (h_tasks h) \/
  (h_next_task h' = S t /\ match k with TLocal c q => In (OServe t c q) o | TInbound ch q => In (OServePeer t ch q) o end).
Proof.
  intros h e h' o t k Tr I; destruct Tr; hcbn; auto; try (left; eapply ttake_sub; eassumption); try (exfalso; exact I).
  - destruct I as [[= <- <-]|I]; [right; split; auto; now left|now left].
  - destruct I as [[= <- <-]|I]; [right; split; auto; now left|now left].
Qed.

Lemma cmds_come : forall h e h' o c x, trans h e h' o -> In (QCall c x) (h_cmds h') ->
  In (QCall c x) (h_cmds h) \/ In (OSent c x) o.
Proof.
  intros h e h' o c x Tr I; destruct Tr; hcbn; auto; try (exfalso; exact I);
    try (match goal with E : h_cmds h = _ |- _ => rewrite E end; left; now right).
  - apply in_app_or in I as [I|[[= <- <-]|[]]]; [now left|right; now left].
  - apply in_app_or in I as [I|[I|[]]]; [now left|discriminate].
Qed.

Lemma cmds_stay : forall h e h' o c x, trans h e h' o -> In (QCall c x) (h_cmds h) ->
  In (QCall c x) (h_cmds h') \/ started c o.
Proof.
  intros h e h' o c x Tr I; destruct Tr; hcbn; try (left; assumption);
    try (match goal with E : h_cmds h = _ |- _ => rewrite E in I end;
         destruct I as [E|I];
         [try discriminate E; injection E; intros; subst|try (left; assumption)]);
    try (right; eexists; split; [now left|cbn; reflexivity]);
    try (left; apply in_or_app; now left).
  - right; exists (ODrop c); split; [right; now left|reflexivity].
  - right. exists (ODrop c); split; [|reflexivity]. right; apply in_map.
    right; apply in_or_app; right; apply in_or_app; right; apply in_or_app; right.
    hcbn; eapply in_callers; eauto.
Qed.

Definition ids_ok {A} (m : list (nat * A)) (n : nat) : Prop :=
  NoDup (map fst m) /\ forall k c, In (k, c) m -> k < n.

Lemma ids_cons : forall A (m : list (nat * A)) n c, ids_ok m n -> ids_ok ((n, c) :: m) (S n).
Proof.
  intros A m n c [N L]; split; cbn [map fst].
  - constructor; [|assumption].
    intros I; apply in_map_iff in I as ([k d] & E & I); cbn in E; subst.
    apply L in I; lia.
  - intros k d [[= <- <-]|I]; [lia|apply L in I; lia].
Qed.

Lemma ids_mono : forall A (m : list (nat * A)) n n', ids_ok m n -> n <= n' -> ids_ok m n'.
Proof. intros A m n n' [N L] H; split; [assumption|]; intros k c I; apply L in I; lia. Qed.

Lemma ids_nil : forall A n, ids_ok ([] : list (nat * A)) n.
Proof. intros; split; [constructor|intros ? ? []]. Qed.

Lemma ids_take : forall k m c r n, take k m = Some (c, r) -> ids_ok m n -> ids_ok r n.
Proof.
  intros k m c r n E [N L]; split; [eapply take_nodup; eauto|].
  intros k' c' I; eapply L, take_sub; eauto.
Qed.

Lemma ids_ttake : forall k m c r n, take_task (T:=T) k m = Some (c, r) -> ids_ok m n -> ids_ok r n.
Proof.
  intros k m c r n E [N L]; split; [eapply ttake_nodup; eauto|].
  intros k' c' I; eapply L, ttake_sub; eauto.
Qed.

(** The maps have distinct keys below the counters. *)
Definition keyed (h : handler T) : Prop :=
  ids_ok (h_gets h) (h_next_query h) /\ ids_ok (h_puts h) (h_next_query h) /\
  ids_ok (h_reqs h) (h_next_request h) /\ ids_ok (h_tasks h) (h_next_task h).

Lemma keyed_step : forall h e h' o, trans h e h' o -> keyed h -> keyed h'.
Proof.
  intros h e h' o Tr (G & P & R & K); destruct Tr; unfold keyed; hcbn; (split; [|split; [|split]]);
  eauto using ids_cons, ids_mono, ids_nil, ids_take, ids_ttake.
Qed.

Record inv (h : handler T) (os : list (obs T)) : Prop := mk_inv {
  v_count : counted h os;
  v_keyed : keyed h;
  v_sent_lt : forall c x, In (OSent c x) os -> c < h_next_caller h;
  v_sent_fun : forall c x y, In (OSent c x) os -> In (OSent c y) os -> x = y;
  v_cmds : forall c x, In (QCall c x) (h_cmds h) -> In (OSent c x) os;
  v_sent : forall c x, In (OSent c x) os -> In (QCall c x) (h_cmds h) \/ started c os;
  v_gets : forall q c, In (q, c) (h_gets h) -> exists k, In (OGet c q k) os;
  v_get : forall c q k, In (OGet c q k) os ->
    In (OSent c (CLookup k)) os /\ q < h_next_query h /\ (In (q, c) (h_gets h) \/ 1 <= endings c os);
  v_get_fun : forall c c' q k k', In (OGet c q k) os -> In (OGet c' q k') os -> c = c' /\ k = k';
  v_get_put : forall c c' q k k' v, In (OGet c q k) os -> In (OPut c' q k' v) os -> False;
  v_puts : forall q c, In (q, c) (h_puts h) -> exists k v, In (OPut c q k v) os;
  v_put : forall c q k v, In (OPut c q k v) os ->
    (In (OSent c (CRegister k v)) os \/ v = [] /\ In (OSent c (CUnregister k)) os) /\
    q < h_next_query h /\ (In (q, c) (h_puts h) \/ 1 <= endings c os);
  v_put_fun : forall c c' q k k' v v', In (OPut c q k v) os -> In (OPut c' q k' v') os ->
    c = c' /\ k = k' /\ v = v';
  v_reqs : forall r c, In (r, c) (h_reqs h) -> exists p q, In (OWire c r p q) os;
  v_wire : forall c r p q, In (OWire c r p q) os ->
    (exists x, means me x p q /\ In (OSent c x) os) /\ r < h_next_request h /\
    (In (r, c) (h_reqs h) \/ 1 <= endings c os);
  v_wire_fun : forall c c' r p p' q q', In (OWire c r p q) os -> In (OWire c' r p' q') os ->
    c = c' /\ p = p' /\ q = q';
  v_tasks : forall t c q, In (t, TLocal c q) (h_tasks h) -> In (OServe t c q) os;
  v_serve : forall t c q, In (OServe t c q) os ->
    (exists x p, means me x p q /\ In (OSent c x) os) /\ t < h_next_task h /\
    (In (t, TLocal c q) (h_tasks h) \/ 1 <= endings c os);
  v_serve_fun : forall t c c' q q', In (OServe t c q) os -> In (OServe t c' q') os -> c = c' /\ q = q';
  v_dead : h_alive h = false <-> In OHandlerPanic os;
  v_empty : h_alive h = false -> h_cmds h = [] /\ h_gets h = [] /\ h_puts h = [] /\ h_reqs h = []
}.

Lemma inv_new : inv handler_new [].
Proof.
  constructor; cbn; try tauto; try discriminate; try (intros; tauto).
  - intros c; reflexivity.
  - split; [|split; [|split]]; apply ids_nil.
  - split; [discriminate|tauto].
Qed.

Lemma started_app_l : forall c (a b : list (obs T)), started c a -> started c (a ++ b).
Proof. intros c a b (o & I & E); exists o; split; [apply in_or_app; now left|assumption]. Qed.

Lemma started_app_r : forall c (a b : list (obs T)), started c b -> started c (a ++ b).
Proof. intros c a b (o & I & E); exists o; split; [apply in_or_app; now right|assumption]. Qed.

Lemma ends_app : forall c (a b : list (obs T)), 1 <= endings c a \/ 1 <= endings c b -> 1 <= endings c (a ++ b).
Proof. intros c a b; rewrite endings_app; lia. Qed.

Lemma dead_quiet : forall h e h' o, trans h e h' o -> h_alive h = false ->
  h_alive h' = false /\ h_cmds h' = h_cmds h /\ h_gets h' = h_gets h /\ h_puts h' = h_puts h /\
  h_reqs h' = h_reqs h.
Proof.
  intros h e h' o Tr D; destruct Tr; hcbn; try congruence; auto.
Qed.

Lemma alive_step : forall h e h' o, trans h e h' o -> h_alive h = true -> h_alive h' = false -> In OHandlerPanic o.
Proof.
  intros h e h' o Tr D D'; destruct Tr; hcbn; try congruence; now left.
Qed.

Lemma inv_step : forall h e h' o os, trans h e h' o -> inv h os -> inv h' (os ++ o).
Proof.
  intros h e h' o os Tr V.
  pose proof (counters h e h' o Tr) as (Cq & Cr & Ct & Cc).
  assert (HO : forall x, In x os -> In x (os ++ o)) by (intros; apply in_or_app; now left).
  assert (HN : forall x, In x o -> In x (os ++ o)) by (intros; apply in_or_app; now right).
  constructor.
  - eapply counted_step; eauto; apply V.
  - eapply keyed_step; eauto; apply V.
  - intros c x I; apply in_app_or in I as [I|I].
    + apply (v_sent_lt _ _ V) in I; lia.
    + destruct (new_sent _ _ _ _ _ _ Tr I) as (-> & E & _); lia.
  - intros c x y I J; apply in_app_or in I; apply in_app_or in J; destruct I as [I|I], J as [J|J].
    + eapply V; eauto.
    + apply (v_sent_lt _ _ V) in I; destruct (new_sent _ _ _ _ _ _ Tr J) as (-> & E & _); lia.
    + apply (v_sent_lt _ _ V) in J; destruct (new_sent _ _ _ _ _ _ Tr I) as (-> & E & _); lia.
    + destruct (new_sent _ _ _ _ _ _ Tr I) as (_ & _ & -> & _).
      destruct (new_sent _ _ _ _ _ _ Tr J) as (_ & _ & E & _). now injection E.
  - intros c x I; destruct (cmds_come _ _ _ _ _ _ Tr I) as [J|J]; auto.
    apply HO, V, J.
  - intros c x I; apply in_app_or in I as [I|I].
    + destruct (v_sent _ _ V c x I) as [J|J]; [|right; now apply started_app_l].
      destruct (cmds_stay _ _ _ _ _ _ Tr J); [now left|right; now apply started_app_r].
    + destruct (new_sent _ _ _ _ _ _ Tr I) as (_ & _ & _ & -> & _).
      left; apply in_or_app; right; now left.
  - intros q c I; destruct (gets_come _ _ _ _ _ _ Tr I) as [J|(k & J)]; [|eauto].
    destruct (v_gets _ _ V _ _ J) as [k J']; eauto.
  - intros c q k I; apply in_app_or in I as [I|I].
    + destruct (v_get _ _ V _ _ _ I) as (A & B & D); split; [auto|split; [lia|]].
      destruct D as [D|D]; [|right; apply ends_app; now left].
      destruct (gets_stay _ _ _ _ _ _ Tr D); [now left|right; apply ends_app; now right].
    + destruct (new_get _ _ _ _ _ _ _ Tr I) as (-> & A & B & _ & l & E).
      split; [|split; [lia|now left]].
      apply HO, V; rewrite E; now left.
  - intros c c' q k k' I J; apply in_app_or in I; apply in_app_or in J; destruct I as [I|I], J as [J|J].
    + eapply V; eauto.
    + apply (v_get _ _ V) in I; destruct (new_get _ _ _ _ _ _ _ Tr J) as (-> & _); lia.
    + apply (v_get _ _ V) in J; destruct (new_get _ _ _ _ _ _ _ Tr I) as (-> & _); lia.
    + destruct (new_get _ _ _ _ _ _ _ Tr I) as (_ & _ & _ & -> & _).
      destruct J as [[= -> ->]|[]]; auto.
  - intros c c' q k k' v I J; apply in_app_or in I; apply in_app_or in J; destruct I as [I|I], J as [J|J].
    + eapply V; eauto.
    + apply (v_get _ _ V) in I; destruct (new_put _ _ _ _ _ _ _ _ Tr J) as (-> & _); lia.
    + apply (v_put _ _ V) in J; destruct (new_get _ _ _ _ _ _ _ Tr I) as (-> & _); lia.
    + destruct (new_get _ _ _ _ _ _ _ Tr I) as (_ & _ & _ & -> & _).
      destruct J as [J|[]]; discriminate.
  - intros q c I; destruct (puts_come _ _ _ _ _ _ Tr I) as [J|(k & v & J)]; [|eauto].
    destruct (v_puts _ _ V _ _ J) as (k & v & J'); eauto.
  - intros c q k v I; apply in_app_or in I as [I|I].
    + destruct (v_put _ _ V _ _ _ _ I) as (A & B & D); split; [|split; [lia|]].
      { destruct A as [A|[-> A]]; [left|right]; auto. }
      destruct D as [D|D]; [|right; apply ends_app; now left].
      destruct (puts_stay _ _ _ _ _ _ Tr D); [now left|right; apply ends_app; now right].
    + destruct (new_put _ _ _ _ _ _ _ _ Tr I) as (-> & A & B & _ & x & l & E & X).
      split; [|split; [lia|now left]].
      assert (J : In (OSent c x) (os ++ o)) by (apply HO, V; rewrite E; now left).
      destruct X as [-> | [-> ->]]; [left|right]; auto.
  - intros c c' q k k' v v' I J; apply in_app_or in I; apply in_app_or in J; destruct I as [I|I], J as [J|J].
    + eapply V; eauto.
    + apply (v_put _ _ V) in I; destruct (new_put _ _ _ _ _ _ _ _ Tr J) as (-> & _); lia.
    + apply (v_put _ _ V) in J; destruct (new_put _ _ _ _ _ _ _ _ Tr I) as (-> & _); lia.
    + destruct (new_put _ _ _ _ _ _ _ _ Tr I) as (_ & _ & _ & -> & _).
      destruct J as [[= -> -> ->]|[]]; auto.
  - intros q c I; destruct (reqs_come _ _ _ _ _ _ Tr I) as [J|(k & v & J)]; [|eauto].
    destruct (v_reqs _ _ V _ _ J) as (k & v & J'); eauto.
  - intros c r p q I; apply in_app_or in I as [I|I].
    + destruct (v_wire _ _ V _ _ _ _ I) as ((x & A1 & A2) & B & D); split; [eauto|split; [lia|]].
      destruct D as [D|D]; [|right; apply ends_app; now left].
      destruct (reqs_stay _ _ _ _ _ _ Tr D); [now left|right; apply ends_app; now right].
    + destruct (new_wire _ _ _ _ _ _ _ _ Tr I) as (-> & A & B & _ & x & l & E & X).
      split; [|split; [lia|now left]].
      exists x; split; auto. apply HO, V; rewrite E; now left.
  - intros c c' r p p' q q' I J; apply in_app_or in I; apply in_app_or in J; destruct I as [I|I], J as [J|J].
    + eapply V; eauto.
    + apply (v_wire _ _ V) in I; destruct (new_wire _ _ _ _ _ _ _ _ Tr J) as (-> & _); lia.
    + apply (v_wire _ _ V) in J; destruct (new_wire _ _ _ _ _ _ _ _ Tr I) as (-> & _); lia.
    + destruct (new_wire _ _ _ _ _ _ _ _ Tr I) as (_ & _ & _ & -> & _).
      destruct J as [[= -> -> ->]|[]]; auto.
  - intros t c q I; destruct (tasks_come _ _ _ _ _ _ Tr I) as [J|[_ J]]; auto.
    apply HO, V, J.
  - intros t c q I; apply in_app_or in I as [I|I].
    + destruct (v_serve _ _ V _ _ _ I) as ((x & p & A1 & A2) & B & D); split; [eauto 6|split; [lia|]].
      destruct D as [D|D]; [|right; apply ends_app; now left].
      destruct (tasks_stay _ _ _ _ _ _ _ Tr D); [now left|right; apply ends_app; now right].
    + destruct (new_serve _ _ _ _ _ _ _ Tr I) as (-> & A & B & _ & x & p & l & E & X).
      split; [|split; [lia|now left]].
      exists x, p; split; auto. apply HO, V; rewrite E; now left.
  - intros t c c' q q' I J; apply in_app_or in I; apply in_app_or in J; destruct I as [I|I], J as [J|J].
    + eapply V; eauto.
    + apply (v_serve _ _ V) in I; destruct (new_serve _ _ _ _ _ _ _ Tr J) as (-> & _); lia.
    + apply (v_serve _ _ V) in J; destruct (new_serve _ _ _ _ _ _ _ Tr I) as (-> & _); lia.
    + destruct (new_serve _ _ _ _ _ _ _ Tr I) as (_ & _ & _ & -> & _).
      destruct J as [[= -> ->]|[]]; auto.
  - destruct (h_alive h) eqn:Al.
    + split.
      * intros D; apply HN; eapply alive_step; eauto.
      * intros I; apply in_app_or in I as [I|I].
        -- apply (v_dead _ _ V) in I; congruence.
        -- apply (new_panic _ _ _ _ Tr I).
    + split; intros _.
      * apply HO, V, Al.
      * apply (dead_quiet _ _ _ _ Tr Al).
  - intros D. destruct (h_alive h) eqn:Al.
    + assert (I : In OHandlerPanic o) by (eapply alive_step; eauto).
      apply (new_panic _ _ _ _ Tr I).
    + destruct (dead_quiet _ _ _ _ Tr Al) as (_ & -> & -> & -> & ->).
      apply (v_empty _ _ V Al).
Qed.

Lemma run_inv : forall es h os h' tr, inv h os -> run me h es = (h', tr) -> inv h' (os ++ seen tr).
Proof.
  induction es as [|e es IH]; cbn [run]; intros h os h' tr V R.
  - injection R as <- <-; cbn; now rewrite app_nil_r.
  - destruct (step me h e) as [h1 o] eqn:St.
    destruct (run me h1 es) as [h2 tr2] eqn:Ru.
    injection R as <- <-. cbn [seen flat_map snd]. rewrite app_assoc.
    eapply IH; eauto. eapply inv_step; eauto using step_trans.
Qed.

Lemma reach_inv : forall es h tr, run me handler_new es = (h, tr) -> inv h (seen tr).
Proof. intros es h tr R; apply (run_inv _ _ [] _ _ inv_new R). Qed.

(** ** C48 *)

Theorem at_most_once : forall es c, endings c (seen (snd (run me handler_new es))) <= 1.
Proof.
  intros es c; destruct (run me handler_new es) as [h tr] eqn:R; cbn [snd].
  pose proof (v_count _ _ (reach_inv _ _ _ R) c) as C; unfold born in C.
  destruct (c <? h_next_caller h); lia.
Qed.

Lemma means_kind : forall x p q, means me x p q -> kind_wanted x = Some (request_kind q).
Proof. intros x p q []; reflexivity. Qed.

Lemma failure_ok : forall f, failure_means f (map_failure f).
Proof. intros []; constructor. Qed.

Theorem replies_own : forall es h tr e h' o c a,
  run me handler_new es = (h, tr) -> step me h e = (h', o) -> In (OReply c a) o ->
  exists x, In (OSent c x) (seen tr) /\ own_answer me (store_get (h_store h)) (seen tr) e c x a.
Proof.
  intros es h tr e h' o c a R St I.
  pose proof (reach_inv _ _ _ R) as V. apply step_trans in St.
  destruct St; obs1; injection I as <- <-.
  - exists x; split; [apply V; rewrite H0; now left|apply H1].
  - apply take_in in H0; destruct (v_gets _ _ V _ _ H0) as [k G].
    exists (CLookup k); split; [apply (v_get _ _ V _ _ _ G)|eapply own_found; eauto].
  - apply take_in in H0; destruct (v_gets _ _ V _ _ H0) as [k G].
    exists (CLookup k); split; [apply (v_get _ _ V _ _ _ G)|eapply own_not_found; eauto].
  - apply take_in in H0; destruct (v_puts _ _ V _ _ H0) as (k & v & G).
    destruct (v_put _ _ V _ _ _ _ G) as ([A|[-> A]] & _).
    + exists (CRegister k v); split; [assumption|eapply own_register; eauto].
    + exists (CUnregister k); split; [assumption|eapply own_unregister; eauto].
  - apply take_in in H0; destruct (v_reqs _ _ V _ _ H0) as (p & q & G).
    destruct (v_wire _ _ V _ _ _ _ G) as ((x & M & A) & _).
    exists x; split; [assumption|eapply own_response; eauto].
  - apply take_in in H0; destruct (v_reqs _ _ V _ _ H0) as (p & q & G).
    destruct (v_wire _ _ V _ _ _ _ G) as ((x & M & A) & _).
    exists x; split; [assumption|eapply own_failure; eauto using failure_ok].
  - apply ttake_in in H; apply (v_tasks _ _ V) in H.
    destruct (v_serve _ _ V _ _ _ H) as ((x & p & M & A) & _).
    exists x; split; [assumption|eapply own_served; eauto using means_kind].
Qed.

Theorem ids_unique : forall es h tr, run me handler_new es = (h, tr) ->
  (forall c x y, In (OSent c x) (seen tr) -> In (OSent c y) (seen tr) -> x = y) /\
  (forall c c' q k k', In (OGet c q k) (seen tr) -> In (OGet c' q k') (seen tr) -> c = c' /\ k = k') /\
  (forall c c' q k k' v v', In (OPut c q k v) (seen tr) -> In (OPut c' q k' v') (seen tr) ->
     c = c' /\ k = k' /\ v = v') /\
  (forall c c' q k k' v, In (OGet c q k) (seen tr) -> ~ In (OPut c' q k' v) (seen tr)) /\
  (forall c c' r p p' q q', In (OWire c r p q) (seen tr) -> In (OWire c' r p' q') (seen tr) ->
     c = c' /\ p = p' /\ q = q') /\
  (forall t c c' q q', In (OServe t c q) (seen tr) -> In (OServe t c' q') (seen tr) -> c = c' /\ q = q').
Proof.
  intros es h tr R; pose proof (reach_inv _ _ _ R) as V.
  split; [apply V|]. split; [apply V|]. split; [apply V|].
  split; [intros c c' q k k' v I J; exact (v_get_put _ _ V _ _ _ _ _ _ I J)|].
  split; apply V.
Qed.

(** A caller in the channel has not been started. *)
Lemma pend_cmds : forall (h : handler T) c x, In (QCall c x) (h_cmds h) -> 1 <= cnt (command_callers (h_cmds h)) c.
Proof. intros h c x I; apply cnt_in; eapply in_callers; eauto. Qed.

Lemma cnt_map : forall (m : list (nat * nat)) q c, In (q, c) m -> 1 <= cnt (map snd m) c.
Proof. intros m q c I; apply cnt_in; change c with (snd (q, c)); now apply in_map. Qed.

Lemma cnt_tasks : forall l t c q, In (t, TLocal c q) l -> 1 <= cnt (task_callers l) c.
Proof.
  intros l t c q I; apply cnt_in; unfold task_callers; apply in_flat_map.
  exists (t, TLocal c q); split; [assumption|now left].
Qed.

Lemma start_gone : forall h os c x, inv h os -> In (QCall c x) (h_cmds h) ->
  filter (starts c) os = [].
Proof.
  intros h os c x V I.
  destruct (filter (starts c) os) as [|o l] eqn:F; [reflexivity|exfalso].
  assert (J : In o (filter (starts c) os)) by (rewrite F; now left).
  apply filter_In in J as [J E].
  pose proof (v_count _ _ V c) as C; unfold pend, born in C.
  pose proof (pend_cmds _ _ _ I).
  destruct o as [? ?| |? ?|?|c' qid k|c' qid k v|c' rid p q|t c' q|? ? ?|? ?|?| |?]; cbn [starts] in E; try discriminate E;
    apply Nat.eqb_eq in E; subst c'.
  - destruct (v_get _ _ V _ _ _ J) as (_ & _ & [G|G]); [apply cnt_map in G|];
      destruct (c <? h_next_caller h); lia.
  - destruct (v_put _ _ V _ _ _ _ J) as (_ & _ & [G|G]); [apply cnt_map in G|];
      destruct (c <? h_next_caller h); lia.
  - destruct (v_wire _ _ V _ _ _ _ J) as (_ & _ & [G|G]); [apply cnt_map in G|];
      destruct (c <? h_next_caller h); lia.
  - destruct (v_serve _ _ V _ _ _ J) as (_ & _ & [G|G]); [apply cnt_tasks in G|];
      destruct (c <? h_next_caller h); lia.
Qed.

Lemma step_starts : forall h e h' o c, trans h e h' o ->
  filter (starts c) o = [] \/
  (length (filter (starts c) o) = 1 /\ exists x, In (QCall c x) (h_cmds h)).
Proof.
  intros h e h' o c Tr.
  destruct Tr; try (left; reflexivity); cbn [filter starts].
  - destruct (Nat.eqb_spec c c0) as [->|N]; [right|now left].
    split; [reflexivity|]; eexists; rewrite H0; now left.
  - destruct (Nat.eqb_spec c c0) as [->|N]; [right|now left].
    split; [reflexivity|]; eexists; rewrite H0; now left.
  - destruct (Nat.eqb_spec c c0) as [->|N]; [right|now left].
    split; [reflexivity|]; eexists; rewrite H0; now left.
  - destruct (Nat.eqb_spec c c0) as [->|N]; [right|now left].
    split; [reflexivity|]; eexists; rewrite H0; now left.
  - left. cbn [handler_panic snd filter starts].
    induction (c0 :: _) as [|d l' IH]; [reflexivity|exact IH].
Qed.

Lemma starts_run : forall es h os h' tr c, inv h os -> length (filter (starts c) os) <= 1 ->
  run me h es = (h', tr) -> length (filter (starts c) (os ++ seen tr)) <= 1.
Proof.
  induction es as [|e es IH]; cbn [run]; intros h os h' tr c V L R.
  - injection R as <- <-; cbn; now rewrite app_nil_r.
  - destruct (step me h e) as [h1 o] eqn:St.
    destruct (run me h1 es) as [h2 tr2] eqn:Ru.
    injection R as <- <-. cbn [seen flat_map snd]. rewrite app_assoc.
    apply step_trans in St.
    eapply IH; [eapply inv_step; eauto| |eassumption].
    rewrite filter_app, app_length.
    destruct (step_starts _ _ _ _ c St) as [-> | [-> (x & I)]]; [cbn; lia|].
    rewrite (start_gone _ _ _ _ V I); cbn; lia.
Qed.

Theorem started_once : forall es c, length (filter (starts c) (seen (snd (run me handler_new es)))) <= 1.
Proof.
  intros es c; destruct (run me handler_new es) as [h tr] eqn:R; cbn [snd].
  apply (starts_run es handler_new [] h tr c inv_new); [cbn; lia|exact R].
Qed.

Theorem one_reply : forall (h : handler T) e, replies (snd (step me h e)) <= 1.
Proof.
  intros h e; destruct (step me h e) as [h' o] eqn:St; apply step_trans in St; cbn [snd].
  destruct St; cbn; try lia.
  unfold replies; cbn [filter].
  match goal with |- context [map ODrop ?l] => induction l as [|d l' IH] end; cbn; lia.
Qed.

Lemma alive_or : forall h os, inv h os -> ~ In OHandlerPanic os -> h_alive h = true.
Proof.
  intros h os V N; destruct (h_alive h) eqn:A; [reflexivity|].
  exfalso; apply N, V, A.
Qed.

Theorem answered : forall es h tr c, run me handler_new es = (h, tr) -> endings c (seen tr) = 0 ->
  (forall t q r, In (OServe t c q) (seen tr) ->
     snd (step me h (ETask t (Some r))) = [OReply c (AResponse (RResult (request_kind q) r))]) /\
  (~ In OHandlerPanic (seen tr) ->
     (forall qid k v, In (OGet c qid k) (seen tr) ->
        snd (step me h (ENet (NFound qid v))) = [OReply c (AFound v)]) /\
     (forall qid k e, In (OGet c qid k) (seen tr) ->
        snd (step me h (ENet (NGetError qid e))) = [OReply c (AGetError e)]) /\
     (forall qid k v r, In (OPut c qid k v) (seen tr) ->
        snd (step me h (ENet (NPut qid r))) = [OReply c (AStored r)]) /\
     (forall rid p q r, In (OWire c rid p q) (seen tr) ->
        snd (step me h (ENet (NResponse rid r))) = [OReply c (AResponse r)]) /\
     (forall rid p q f e, In (OWire c rid p q) (seen tr) -> failure_means f e ->
        snd (step me h (ENet (NFailure rid f))) = [OReply c (AResponse (RFailure e))])).
Proof.
  intros es h tr c R E; pose proof (reach_inv _ _ _ R) as V.
  destruct (v_keyed _ _ V) as ((KG & _) & (KP & _) & (KR & _) & (KT & _)).
  split.
  { intros t q r I; destruct (v_serve _ _ V _ _ _ I) as (_ & _ & [G|G]); [|lia].
    cbn [step]; unfold finish_task.
    destruct (ttake_found _ _ _ KT G) as [m ->]; reflexivity. }
  intros N; pose proof (alive_or _ _ V N) as Al.
  split; [|split; [|split; [|split]]].
  - intros qid k v I; destruct (v_get _ _ V _ _ _ I) as (_ & _ & [G|G]); [|lia].
    cbn [step handle_event]; rewrite Al; destruct (take_found _ _ _ KG G) as [m ->]; reflexivity.
  - intros qid k e I; destruct (v_get _ _ V _ _ _ I) as (_ & _ & [G|G]); [|lia].
    cbn [step handle_event]; rewrite Al; destruct (take_found _ _ _ KG G) as [m ->]; reflexivity.
  - intros qid k v r I; destruct (v_put _ _ V _ _ _ _ I) as (_ & _ & [G|G]); [|lia].
    cbn [step handle_event]; rewrite Al; destruct (take_found _ _ _ KP G) as [m ->]; reflexivity.
  - intros rid p q r I; destruct (v_wire _ _ V _ _ _ _ I) as (_ & _ & [G|G]); [|lia].
    cbn [step handle_event]; rewrite Al; destruct (take_found _ _ _ KR G) as [m ->]; reflexivity.
  - intros rid p q f e I F; destruct (v_wire _ _ V _ _ _ _ I) as (_ & _ & [G|G]); [|lia].
    cbn [step handle_event]; rewrite Al; destruct (take_found _ _ _ KR G) as [m ->].
    destruct F; reflexivity.
Qed.

Theorem not_lost : forall es h tr c x, run me handler_new es = (h, tr) ->
  In (OSent c x) (seen tr) -> endings c (seen tr) = 0 ->
  (~ In OHandlerPanic (seen tr) /\ In (QCall c x) (h_cmds h)) \/
  (exists t q, In (OServe t c q) (seen tr)) \/
  (~ In OHandlerPanic (seen tr) /\
   ((exists qid k, In (OGet c qid k) (seen tr)) \/ (exists qid k v, In (OPut c qid k v) (seen tr)) \/
    (exists rid p q, In (OWire c rid p q) (seen tr)))).
Proof.
  intros es h tr c x R I E; pose proof (reach_inv _ _ _ R) as V.
  assert (ND : h_cmds h <> [] \/ h_gets h <> [] \/ h_puts h <> [] \/ h_reqs h <> [] -> ~ In OHandlerPanic (seen tr)).
  { intros H J; apply (v_dead _ _ V) in J; destruct (v_empty _ _ V J) as (A & B & C & D); tauto. }
  assert (NI : forall A (a : A) l, In a l -> l <> []) by (intros A a l J ->; destruct J).
  destruct (v_sent _ _ V _ _ I) as [J|(o & J & S)].
  - left; split; eauto.
  - destruct o; try contradiction; subst.
    + apply endings_in with (c := c) in J; [lia|cbn; apply Nat.eqb_refl].
    + apply endings_in with (c := c) in J; [lia|cbn; apply Nat.eqb_refl].
    + right; right; destruct (v_get _ _ V _ _ _ J) as (_ & _ & [G|G]); [|lia].
      split; eauto 6.
    + right; right; destruct (v_put _ _ V _ _ _ _ J) as (_ & _ & [G|G]); [|lia].
      split; eauto 7.
    + right; right; destruct (v_wire _ _ V _ _ _ _ J) as (_ & _ & [G|G]); [|lia].
      split; eauto 9.
    + right; left; eauto.
Qed.

Theorem dropped_because : forall es h tr e h' o c, run me handler_new es = (h, tr) ->
  step me h e = (h', o) -> In (ODrop c) o ->
  In OHandlerPanic o \/ exists t q, e = ETask t None /\ In (OServe t c q) (seen tr).
Proof.
  intros es h tr e h' o c R St I; pose proof (reach_inv _ _ _ R) as V.
  apply step_trans in St; destruct St; try (left; now left);
    try (destruct I as [I|[]]; discriminate I); try destruct I.
  - discriminate.
  - destruct H0 as [[= ->]|[]].
    apply ttake_in in H; apply (v_tasks _ _ V) in H; eauto.
Qed.

Theorem panics_iff : forall h e, In OHandlerPanic (snd (step me h e)) <->
  exists n ok c x l, e = ECommand n ok /\ h_alive h = true /\ h_cmds h = QCall c x :: l /\
    ((exists k r, x = CLookupLocal k /\ store_get (h_store h) k = Some r /\
        reg_from_bytes (st_peers T) (rc_value r) = None) \/
     (exists k v, x = CRegister k v /\ ok = false) \/
     (exists k, x = CUnregister k /\ n <> 0 /\ ok = false)).
Proof.
  intros h e; split.
  - destruct (step me h e) as [h' o] eqn:St; apply step_trans in St; cbn [snd]; intros I.
    destruct St; obs1. do 5 eexists; eauto.
  - intros (n & ok & c & x & l & -> & Al & E & D); cbn [step]; rewrite Al, E; cbn [handle_command].
    destruct D as [(k & r & -> & G & Z)|[(k & v & -> & ->)|(k & -> & N & ->)]]; cbn [handle_call].
    + change (h_store (set_cmds h l)) with (h_store h); rewrite G, Z; now left.
    + destruct (Nat.eqb n 0); now left.
    + destruct (Nat.eqb_spec n 0); [congruence|now left].
Qed.

Theorem dead_forever : forall es h tr es2 h2 tr2, run me handler_new es = (h, tr) ->
  In OHandlerPanic (seen tr) -> run me h es2 = (h2, tr2) ->
  (forall x, step me h2 (ESend x) = (h2, [OSendPanic])) /\
  (forall c x, In (OSent c x) (seen tr) -> endings c (seen tr) = 1 \/
     exists t q, In (OServe t c q) (seen tr)) /\
  (forall o, In o (seen tr2) ->
     match o with
     | OSendPanic | OTaskPanic _ => True
     | OReply c _ | ODrop c => exists t q, In (OServe t c q) (seen tr)
     | _ => False
     end).
Proof.
  intros es h tr es2 h2 tr2 R D R2; pose proof (reach_inv _ _ _ R) as V.
  assert (L : forall es2 h h2 tr2, h_alive h = false -> run me h es2 = (h2, tr2) ->
    h_alive h2 = false /\
    (forall o, In o (seen tr2) ->
     match o with
     | OSendPanic | OTaskPanic _ => True
     | OReply c _ | ODrop c => exists t q, In (t, TLocal c q) (h_tasks h)
     | _ => False
     end)).
  { clear; induction es2 as [|e es IH]; cbn [run]; intros h h2 tr2 Al R.
    - injection R as <- <-; split; [assumption|intros ? []].
    - destruct (step me h e) as [h1 o1] eqn:St; destruct (run me h1 es) as [h3 tr3] eqn:Ru.
      injection R as <- <-; apply step_trans in St.
      destruct (dead_quiet _ _ _ _ St Al) as (Al1 & _).
      destruct (IH _ _ _ Al1 Ru) as [A B]; split; [assumption|].
      intros o I; cbn [seen flat_map snd] in I; apply in_app_or in I as [I|I].
      + destruct St; try congruence; obs1; subst; try exact Logic.I.
        * apply ttake_in in H; eauto.
        * apply ttake_in in H; eauto.
      + apply B in I. destruct o; try exact I.
        * destruct I as (t & q & I); destruct (tasks_come _ _ _ _ _ _ St I) as [J|[_ J]]; [eauto|].
          destruct St; try congruence; obs1.
        * destruct I as (t & q & I); destruct (tasks_come _ _ _ _ _ _ St I) as [J|[_ J]]; [eauto|].
          destruct St; try congruence; obs1. }
  apply (v_dead _ _ V) in D.
  destruct (L _ _ _ _ D R2) as [A B].
  split; [|split].
  - intros x; cbn [step]; unfold send_call; now rewrite A.
  - intros c x I.
    destruct (Nat.eq_dec (endings c (seen tr)) 0) as [E|E].
    + right; destruct (not_lost _ _ _ _ _ R I E) as [[N _]|[H|[N _]]]; [|exact H|];
        exfalso; apply N, V, D.
    + left; pose proof (at_most_once es c) as M; rewrite R in M; cbn [snd] in M; lia.
  - intros o I; specialize (B o I); destruct o; try exact B;
      destruct B as (t & q & B); apply (v_tasks _ _ V) in B; eauto.
Qed.

(** A peer that answers with another kind makes the caller's future panic. *)
Theorem wrong_kind : forall x p q k k' r, means me x p q -> kind_wanted x = Some k -> k <> k' ->
  seen (snd (run me handler_new [ESend x; ECommand 1 true; ENet (NResponse 0 (RResult k' r))]))
    = [OSent 0 x; OWire 0 0 p q; OReply 0 (AResponse (RResult k' r))] /\
  client_request k (Some (AResponse (RResult (T:=T) k' r))) = CallerPanic.
Proof.
  intros x p q k k' r M K N; split.
  - destruct M; cbn; unfold peer_of; rewrite ?H; reflexivity.
  - cbn [client_request]; destruct (kind_eqb k k') eqn:E; [|reflexivity].
    apply kind_eqb_eq in E; contradiction.
Qed.

(** Calls are handled in the order they were sent. *)
Definition queued_late (h : handler T) (os : list (obs T)) : Prop :=
  (forall a c b, command_callers (h_cmds h) = a ++ c :: b -> Forall (lt c) b /\ c < h_next_caller h) /\
  (forall c d, In c (command_callers (h_cmds h)) -> started d os -> d < c) /\
  (forall d, started d os -> d < h_next_caller h).

Definition subject (o : obs T) : option nat :=
  match o with
  | OReply c _ | ODrop c | OGet c _ _ | OPut c _ _ _ | OWire c _ _ _ | OServe _ c _ => Some c
  | _ => None
  end.

Lemma started_subject : forall d os, started d os <-> exists o, In o os /\ subject o = Some d.
Proof.
  intros d os; split; intros (o & I & E); exists o; split; auto; destruct o; cbn in *; try contradiction;
    try discriminate; congruence.
Qed.

Lemma started_app : forall d (a b : list (obs T)), started d (a ++ b) <-> started d a \/ started d b.
Proof.
  intros d a b; rewrite !started_subject; split.
  - intros (o & I & E); apply in_app_or in I as [I|I]; [left|right]; eauto.
  - intros [(o & I & E)|(o & I & E)]; exists o; split; auto; apply in_or_app; auto.
Qed.

Lemma step_subject : forall h e h' o os d, trans h e h' o -> inv h os -> started d o ->
  h_cmds h' = [] \/ started d os \/ exists x l, h_cmds h = QCall d x :: l /\ h_cmds h' = l.
Proof.
  intros h e h' o os d Tr V Sd; apply started_subject in Sd as (w & I & E).
  destruct Tr; try (left; reflexivity); obs1; subst; cbn [subject] in E; try discriminate E;
    injection E as <-; hcbn;
    try (right; right; do 2 eexists; split; [eassumption|reflexivity]).
  - apply take_in in H0; destruct (v_gets _ _ V _ _ H0) as (k & G).
    right; left; apply started_subject; eexists; split; [exact G|reflexivity].
  - apply take_in in H0; destruct (v_gets _ _ V _ _ H0) as (k & G).
    right; left; apply started_subject; eexists; split; [exact G|reflexivity].
  - apply take_in in H0; destruct (v_puts _ _ V _ _ H0) as (k & v & G).
    right; left; apply started_subject; eexists; split; [exact G|reflexivity].
  - apply take_in in H0; destruct (v_reqs _ _ V _ _ H0) as (k & v & G).
    right; left; apply started_subject; eexists; split; [exact G|reflexivity].
  - apply take_in in H0; destruct (v_reqs _ _ V _ _ H0) as (k & v & G).
    right; left; apply started_subject; eexists; split; [exact G|reflexivity].
  - apply ttake_in in H; apply (v_tasks _ _ V) in H.
    right; left; apply started_subject; eexists; split; [exact H|reflexivity].
  - apply ttake_in in H; apply (v_tasks _ _ V) in H.
    right; left; apply started_subject; eexists; split; [exact H|reflexivity].
Qed.

Lemma step_queue : forall h e h' o, trans h e h' o ->
  h_next_caller h <= h_next_caller h' /\
  (command_callers (h_cmds h') = [] \/
   command_callers (h_cmds h') = command_callers (h_cmds h) \/
   (exists c, command_callers (h_cmds h) = c :: command_callers (h_cmds h')) \/
   (command_callers (h_cmds h') = command_callers (h_cmds h) ++ [h_next_caller h] /\
    h_next_caller h' = S (h_next_caller h) /\ exists x, o = [OSent (h_next_caller h) x])).
Proof.
  intros h e h' o Tr; destruct Tr; hcbn; (split; [lia|]); auto;
    try (match goal with E : h_cmds h = _ |- _ => rewrite E end; rewrite ?callers_call, ?callers_respond; eauto 6).
  - right; right; right; rewrite callers_app; split; [reflexivity|split; [reflexivity|eauto]].
  - right; left; rewrite callers_app; cbn; now rewrite app_nil_r.
Qed.

Lemma queued_late_step : forall h e h' o os, trans h e h' o -> inv h os -> queued_late h os ->
  queued_late h' (os ++ o).
Proof.
  intros h e h' o os Tr V (A & B & C).
  assert (S3 : forall d, started d o -> d < h_next_caller h).
  { intros d Sd; destruct (step_subject _ _ _ _ _ _ Tr V Sd) as [E|[E|(x & l & E & _)]]; [|auto|].
    - apply started_subject in Sd as (w & I & Q).
      destruct w; cbn in Q; try discriminate Q; injection Q as ->.
      + destruct Tr; obs1; hcbn; injection I as <- <-.
        * destruct (A [] c (command_callers l)); [rewrite H0; reflexivity|lia].
        * apply take_in in H0; destruct (v_gets _ _ V _ _ H0) as (k & G).
          apply C; apply started_subject; eexists; split; [exact G|reflexivity].
        * apply take_in in H0; destruct (v_gets _ _ V _ _ H0) as (k & G).
          apply C; apply started_subject; eexists; split; [exact G|reflexivity].
        * apply take_in in H0; destruct (v_puts _ _ V _ _ H0) as (k & v & G).
          apply C; apply started_subject; eexists; split; [exact G|reflexivity].
        * apply take_in in H0; destruct (v_reqs _ _ V _ _ H0) as (k & v & G).
          apply C; apply started_subject; eexists; split; [exact G|reflexivity].
        * apply take_in in H0; destruct (v_reqs _ _ V _ _ H0) as (k & v & G).
          apply C; apply started_subject; eexists; split; [exact G|reflexivity].
        * apply ttake_in in H; apply (v_tasks _ _ V) in H.
          apply C; apply started_subject; eexists; split; [exact H|reflexivity].
      + (* drops: the caller was waiting *)
        pose proof (counted_step _ _ _ _ _ Tr (v_count _ _ V) d) as CS.
        pose proof (v_count _ _ V d) as CV.
        assert (1 <= endings d o) by (apply endings_in with (ODrop d); [assumption|cbn; apply Nat.eqb_refl]).
        rewrite endings_app in CS. unfold born in CS, CV.
        assert (N : h_next_caller h' = h_next_caller h) by (destruct Tr; obs1; reflexivity).
        rewrite N in CS. destruct (Nat.ltb_spec d (h_next_caller h)); lia.
      + destruct (new_get _ _ _ _ _ _ _ Tr I) as (_ & _ & _ & _ & l & Q).
        destruct (A [] d (command_callers l)); [rewrite Q; reflexivity|lia].
      + destruct (new_put _ _ _ _ _ _ _ _ Tr I) as (_ & _ & _ & _ & x & l & Q & _).
        destruct (A [] d (command_callers l)); [rewrite Q; reflexivity|lia].
      + destruct (new_wire _ _ _ _ _ _ _ _ Tr I) as (_ & _ & _ & _ & x & l & Q & _).
        destruct (A [] d (command_callers l)); [rewrite Q; reflexivity|lia].
      + destruct (new_serve _ _ _ _ _ _ _ Tr I) as (_ & _ & _ & _ & x & p & l & Q & _).
        destruct (A [] d (command_callers l)); [rewrite Q; reflexivity|lia].
    - destruct (A [] d (command_callers l)); [rewrite E; reflexivity|lia]. }
  destruct (step_queue _ _ _ _ Tr) as (L & Q).
  assert (S2 : forall c d, In c (command_callers (h_cmds h')) -> c <> h_next_caller h -> started d o -> d < c).
  { intros c d I Ne Sd; destruct (step_subject _ _ _ _ _ _ Tr V Sd) as [E|[E|(x & l & E & E')]].
    - rewrite E in I; destruct I.
    - apply B; [|assumption].
      destruct Q as [Q|[Q|[(c0 & Q)|(Q & _)]]].
      + rewrite Q in I; destruct I.
      + rewrite <- Q; assumption.
      + rewrite Q; now right.
      + rewrite Q in I; apply in_app_or in I as [I|[I|[]]]; [assumption|congruence].
    - destruct (A [] d (command_callers l)) as [F _]; [rewrite E; reflexivity|].
      rewrite E' in I. rewrite Forall_forall in F; auto. }
  split; [|split].
  - intros a c b E; destruct Q as [Q|[Q|[(c0 & Q)|(Q & N & _)]]].
    + rewrite Q in E; destruct a; discriminate.
    + rewrite Q in E; destruct (A a c b E); split; [assumption|lia].
    + destruct (A (c0 :: a) c b); [rewrite Q, E; reflexivity|]; split; [assumption|lia].
    + rewrite Q in E; destruct b as [|c1 b0] using rev_ind.
      * apply app_inj_tail in E as [_ <-]; split; [constructor|lia].
      * clear IHb0. rewrite app_comm_cons, app_assoc in E. apply app_inj_tail in E as [E <-].
        destruct (A a c b0 E) as [F G]; split; [|lia].
        apply Forall_app; split; [assumption|constructor; [assumption|constructor]].
  - intros c d I Sd; apply started_app in Sd as [Sd|Sd].
    + destruct Q as [Q|[Q|[(c0 & Q)|(Q & N & _)]]].
      * rewrite Q in I; destruct I.
      * rewrite Q in I; eauto.
      * apply B; [rewrite Q; now right|assumption].
      * rewrite Q in I; apply in_app_or in I as [I|[<-|[]]]; [eauto|auto].
    + destruct (Nat.eq_dec c (h_next_caller h)) as [->|Ne]; [auto|eauto].
  - intros d Sd; apply started_app in Sd as [Sd|Sd]; [apply C in Sd; lia|apply S3 in Sd; lia].
Qed.

Lemma run_late : forall es h os h' tr, inv h os -> queued_late h os -> run me h es = (h', tr) ->
  queued_late h' (os ++ seen tr).
Proof.
  induction es as [|e es IH]; cbn [run]; intros h os h' tr V W R.
  - injection R as <- <-; cbn; now rewrite app_nil_r.
  - destruct (step me h e) as [h1 o] eqn:St.
    destruct (run me h1 es) as [h2 tr2] eqn:Ru.
    injection R as <- <-. cbn [seen flat_map snd]. rewrite app_assoc.
    apply step_trans in St.
    eapply IH; [eapply inv_step; eauto|eapply queued_late_step; eauto|eassumption].
Qed.

Theorem in_order : forall es c c' x x', let os := seen (snd (run me handler_new es)) in
  In (OSent c x) os -> In (OSent c' x') os -> c < c' -> started c' os -> started c os.
Proof.
  intros es c c' x x'; cbn zeta.
  destruct (run me handler_new es) as [h tr] eqn:R; cbn [snd]; intros I I' L St.
  pose proof (reach_inv _ _ _ R) as V.
  assert (W : queued_late h ([] ++ seen tr)).
  { apply (run_late es handler_new [] h tr inv_new); [|exact R].
    split; [|split].
    - intros [|? a] ? b E; discriminate E.
    - intros ? ? [].
    - intros d (o & [] & _). }
  destruct W as (_ & B & _); cbn [app] in B.
  destruct (v_sent _ _ V _ _ I) as [J|J]; [|assumption].
  apply in_callers in J. specialize (B _ _ J St); lia.
Qed.

(** Numbers are given in the order of sending. *)
Theorem numbers_in_order : forall es h tr e h' o c c' x x', run me handler_new es = (h, tr) ->
  step me h e = (h', o) -> In (OSent c x) (seen tr) -> In (OSent c' x') o -> c < c'.
Proof.
  intros es h tr e h' o c c' x x' R St I J; pose proof (reach_inv _ _ _ R) as V.
  apply step_trans in St. destruct (new_sent _ _ _ _ _ _ St J) as (-> & _).
  eapply V; eauto.
Qed.

(** ** C49 *)

Lemma table_find_none : forall m x, table_find (T:=T) me m x = None ->
  forall y e, In (y, e) m -> id_eqb (st_peers T) (Some me) y x = false.
Proof.
  induction m as [|[z f] m IH]; cbn [table_find]; intros x F y e I; [destruct I|].
  destruct (id_eqb (st_peers T) (Some me) z x) eqn:E; [discriminate|].
  destruct I as [[= -> ->]|I]; [assumption|eauto].
Qed.

Lemma table_find_some : forall m x e, table_find (T:=T) me m x = Some e ->
  exists y, In (y, e) m /\ id_eqb (st_peers T) (Some me) y x = true.
Proof.
  induction m as [|[z f] m IH]; cbn [table_find]; intros x e F; [discriminate|].
  destruct (id_eqb (st_peers T) (Some me) z x) eqn:E.
  - injection F as <-; exists z; split; [now left|assumption].
  - destruct (IH _ _ F) as (y & I & Q); exists y; split; [now right|assumption].
Qed.

Theorem lookup_local_verdict : forall h c k l n ok rid ty table,
  h_alive h = true -> h_cmds h = QCall c (CLookupLocal k) :: l ->
  local_verdict me rid ty table (store_get (h_store h) k)
    (client_lookup_local me rid ty table (answer_in c (snd (step me h (ECommand n ok))))).
Proof.
  intros h c k l n ok rid ty table Al E.
  cbn [step]; rewrite Al, E; cbn [handle_command handle_call].
  change (h_store (set_cmds h l)) with (h_store h).
  destruct (store_get (h_store h) k) as [r|] eqn:G.
  2:{ cbn; rewrite Nat.eqb_refl; constructor. }
  destruct (reg_from_bytes (st_peers T) (rc_value r)) as [g|] eqn:D.
  - cbn [snd answer_in]; rewrite Nat.eqb_refl; cbn [client_lookup_local].
    destruct (bytes_eqb rid (reg_remote g)) eqn:B.
    + apply bytes_eqb_eq in B; subst rid.
      destruct (table_find me table (reg_id g)) as [e|] eqn:F.
      * apply table_find_some in F as (y & I & Q).
        destruct (Nat.eqb_spec ty (en_rust_type e)) as [->|N].
        -- eapply lv_found; eauto.
        -- eapply lv_clash; eauto.
      * eapply lv_gone; eauto using table_find_none.
    + eapply lv_other_type; eauto.
      intros H; symmetry in H; apply (proj2 (bytes_eqb_eq rid (reg_remote g))) in H; congruence.
  - assert (Z : answer_in c (snd (handler_panic (set_cmds h l) c)) = None).
    { cbn [handler_panic snd answer_in].
      match goal with |- context [map ODrop ?l] => induction l as [|d l' IH]; [reflexivity|exact IH] end. }
    rewrite Z; cbn [client_lookup_local]; constructor; assumption.
Qed.

Theorem local_verdict_unique : forall rid ty table r a b,
  one_per_actor me table ->
  local_verdict (T:=T) me rid ty table r a -> local_verdict me rid ty table r b -> a = b.
Proof.
  assert (U : forall table x y1 e1 y2 e2, one_per_actor (T:=T) me table -> In (y1, e1) table -> In (y2, e2) table ->
    id_eqb (st_peers T) (Some me) y1 x = true -> id_eqb (st_peers T) (Some me) y2 x = true -> e1 = e2).
  { intros table x y1 e1 y2 e2 O I1 I2 E1 E2.
    apply In_nth_error in I1 as [i N1]; apply In_nth_error in I2 as [j N2].
    assert (Q : id_eqb (st_peers T) (Some me) y1 y2 = true).
    { apply id_eqb_spec; apply id_eqb_spec in E1; apply id_eqb_spec in E2.
      unfold same_actor in *; congruence. }
    pose proof (O _ _ _ _ _ _ N1 N2 Q); subst j; congruence. }
  intros rid ty table r a b O A B; destruct A; inversion B; subst; try reflexivity; try congruence;
    try (exfalso; match goal with
      | N : forall y e, In (y, e) table -> _, I : In (?y, ?e) table |- _ =>
          pose proof (N _ _ I) end; congruence);
    match goal with
    | D1 : reg_from_bytes _ _ = Some ?g1, D2 : reg_from_bytes _ _ = Some ?g2 |- _ =>
        rewrite D1 in D2; injection D2 as ->
    end;
    try (match goal with
      | I1 : In (?y1, ?e1) table, I2 : In (?y2, ?e2) table,
        E1 : id_eqb _ _ ?y1 _ = true, E2 : id_eqb _ _ ?y2 _ = true |- _ =>
          pose proof (U _ _ _ _ _ _ O I1 I2 E1 E2); subst end);
    try reflexivity; try congruence;
    try (exfalso; match goal with
      | N : forall y e, In (y, e) table -> _, I : In (?y, ?e) table |- _ =>
          pose proof (N _ _ I) end; congruence).
Qed.

Lemma store_get_del : forall (s : list (list byte * record T)) k k',
  store_get (store_del s k) k' = if bytes_eqb k k' then None else store_get s k'.
Proof.
  induction s as [|[k0 r] s IH]; intros k k'; cbn [store_del filter fst store_get].
  - destruct (bytes_eqb k k'); reflexivity.
  - destruct (bytes_eqb k0 k) eqn:E; cbn [negb store_get].
    + fold (store_del s k); rewrite IH; apply bytes_eqb_eq in E; subst k0.
      destruct (bytes_eqb k k'); reflexivity.
    + fold (store_del s k); rewrite IH.
      destruct (bytes_eqb k0 k') eqn:F; [|reflexivity].
      destruct (bytes_eqb k k') eqn:Q; [|reflexivity].
      apply bytes_eqb_eq in F; apply bytes_eqb_eq in Q; subst.
      rewrite (proj2 (bytes_eqb_eq k' k') eq_refl) in E; discriminate.
Qed.

Lemma store_get_put : forall (s : list (list byte * record T)) k r k',
  store_get (store_put s k r) k' = if bytes_eqb k k' then Some r else store_get s k'.
Proof.
  intros s k r k'; unfold store_put; cbn [store_get].
  destruct (bytes_eqb k k') eqn:E; [reflexivity|]. rewrite store_get_del, E; reflexivity.
Qed.

Lemma bytes_eqb_refl : forall k, bytes_eqb k k = true.
Proof. intros; now apply bytes_eqb_eq. Qed.

Lemma opt_peer_eqb_me : opt_peer_eqb (st_peers T) (Some me) (Some me) = true.
Proof. cbn; now apply peer_eqb_eq. Qed.

(** What each event does to the record stored under a name. *)
Theorem store_after : forall h e k, h_alive h = true ->
  store_get (h_store (fst (step me h e))) k =
  match e with
  | EStore k' r => if bytes_eqb k' k then r else store_get (h_store h) k
  | ECommand n ok =>
      match h_cmds h with
      | QCall _ (CRegister k' v) :: _ =>
          if (bytes_eqb k' k && ok)%bool
          then Some (mk_rec v (if Nat.eqb n 0 then None else Some me))
          else store_get (h_store h) k
      | QCall _ (CUnregister k') :: _ =>
          if bytes_eqb k' k then
            if Nat.eqb n 0 then
              match store_get (h_store h) k with
              | Some r =>
                  if opt_peer_eqb (st_peers T) (rc_publisher r) (Some me) then None else Some r
              | None => None
              end
            else if ok then None else store_get (h_store h) k
          else store_get (h_store h) k
      | _ => store_get (h_store h) k
      end
  | _ => store_get (h_store h) k
  end.
Proof.
  intros h e k Al; destruct e as [x|n ok|e|t r|k' r]; cbn [step]; rewrite ?Al.
  - unfold send_call; rewrite Al; reflexivity.
  - destruct (h_cmds h) as [|[c x|ch kd r] l] eqn:E; cbn [handle_command]; try reflexivity.
    destruct x; cbn [handle_call]; try reflexivity.
    + change (h_store (set_cmds h l)) with (h_store h).
      destruct (store_get (h_store h) k0); [|reflexivity].
      destruct (reg_from_bytes _ _); reflexivity.
    + destruct (Nat.eqb n 0), ok; cbn [fst set_store h_store start_put set_cmds handler_panic];
        rewrite ?andb_true_r, ?andb_false_r, ?store_get_put; reflexivity.
    + destruct (Nat.eqb n 0); [|destruct ok]; cbn [fst set_store h_store start_put set_cmds handler_panic].
      * unfold remove_record; destruct (bytes_eqb k0 k) eqn:B.
        -- apply bytes_eqb_eq in B; subst k0.
           destruct (store_get (h_store h) k) as [r|] eqn:G; [|assumption].
           destruct (opt_peer_eqb _ _ _); [|assumption].
           rewrite store_get_del, bytes_eqb_refl; reflexivity.
        -- destruct (store_get (h_store h) k0) as [r|]; [|reflexivity].
           destruct (opt_peer_eqb _ _ _); [|reflexivity].
           rewrite store_get_del, B; reflexivity.
      * unfold remove_record; rewrite store_get_put, bytes_eqb_refl.
        cbn [rc_publisher]; rewrite opt_peer_eqb_me, store_get_del, store_get_put.
        destruct (bytes_eqb k0 k); reflexivity.
      * destruct (bytes_eqb k0 k); reflexivity.
    + cbn [outgoing]; destruct (Nat.eqb n 0); reflexivity.
    + cbn [outgoing]; destruct (Nat.eqb n 0); reflexivity.
    + cbn [outgoing]; destruct (Nat.eqb n 0); [reflexivity|]; destruct (peer_of me sib); reflexivity.
    + cbn [outgoing]; destruct (Nat.eqb n 0); [reflexivity|]; destruct (peer_of me sib); reflexivity.
    + cbn [outgoing]; destruct (Nat.eqb n 0); [reflexivity|]; destruct (peer_of me notified); reflexivity.
  - destruct e; cbn [handle_event]; try reflexivity;
      destruct (take _ _) as [[c m]|]; reflexivity.
  - unfold finish_task; destruct (take_task t (h_tasks h)) as [[[c q|ch q] m]|]; try reflexivity;
      destruct r; try reflexivity. rewrite Al; reflexivity.
  - destruct r; cbn [fst set_store h_store]; [apply store_get_put|apply store_get_del].
Qed.

(** Registered, in the table, not overwritten: found. *)
Theorem registered_found : forall x rid ty a pub table,
  id_ok (st_peers T) x -> is_text rid ->
  one_per_actor me table -> In (x, mk_entry ty a) table ->
  local_verdict (T:=T) me rid ty table
    (Some (mk_rec (reg_into_bytes (st_peers T) (Some me) (mk_reg x rid)) pub)) (Value (inl (Some a))).
Proof.
  intros x rid ty a pub table OK U O I. apply utf8_valid_iff in U.
  destruct (reg_roundtrip (st_peers T) me (Some me) (mk_reg x rid) OK U) as (g & D & Rm & Dn).
  cbn [reg_remote reg_id] in *.
  eapply (lv_found T me rid ty table _ g x (mk_entry ty a)); eauto.
  apply id_eqb_spec; unfold same_actor; symmetry; exact Dn.
Qed.

(** With no peers, unregistering answers Ok and the name stays. *)
Theorem unregister_alone : forall k v g n ok ok', reg_from_bytes (st_peers T) v = Some g ->
  seen (snd (run me handler_new
    [ESend (CRegister k v); ECommand 0 true; ESend (CUnregister k); ECommand 0 ok;
     ESend (CLookupLocal k); ECommand n ok'])) =
  [OSent 0 (CRegister k v); OReply 0 (AStored PrOk); OSent 1 (CUnregister k); OReply 1 (AStored PrOk);
   OSent 2 (CLookupLocal k); OReply 2 (ALocal (Some g))].
Proof.
  intros k v g n ok ok' D.
  set (h3 := mk_handler true [] [] [] [] [(k, mk_rec v None)] 0 0 [] 0 2 : handler T).
  assert (E : step me (mk_handler true [QCall 1 (CUnregister k)] [] [] [] [(k, mk_rec v None)] 0 0 [] 0 2)
                (ECommand 0 ok) = (h3, [OReply 1 (AStored PrOk)])).
  { cbn -[bytes_eqb]. unfold remove_record; cbn -[bytes_eqb].
    rewrite bytes_eqb_refl; reflexivity. }
  assert (F : step me (mk_handler true [QCall 2 (CLookupLocal k)] [] [] [] [(k, mk_rec v None)] 0 0 [] 0 3)
                (ECommand n ok') =
              (mk_handler true [] [] [] [] [(k, mk_rec v None)] 0 0 [] 0 3, [OReply 2 (ALocal (Some g))])).
  { cbn -[bytes_eqb reg_from_bytes]. rewrite bytes_eqb_refl; cbn -[reg_from_bytes]. rewrite D; reflexivity. }
  cbn [run].
  change (step me handler_new (ESend (CRegister k v))) with
    (mk_handler true [QCall 0 (CRegister k v)] [] [] [] [] 0 0 [] 0 1 : handler T, [OSent 0 (CRegister (T:=T) k v)]).
  cbv iota beta.
  change (step me (mk_handler true [QCall 0 (CRegister k v)] [] [] [] [] 0 0 [] 0 1) (ECommand 0 true)) with
    (mk_handler true [] [] [] [] [(k, mk_rec v None)] 0 0 [] 0 1 : handler T, [OReply 0 (AStored (T:=T) PrOk)]).
  cbv iota beta.
  change (step me (mk_handler true [] [] [] [] [(k, mk_rec v None)] 0 0 [] 0 1) (ESend (CUnregister k))) with
    (mk_handler true [QCall 1 (CUnregister k)] [] [] [] [(k, mk_rec v None)] 0 0 [] 0 2 : handler T,
     [OSent 1 (CUnregister (T:=T) k)]).
  cbv iota beta. rewrite E. cbv iota beta.
  change (step me h3 (ESend (CLookupLocal k))) with
    (mk_handler true [QCall 2 (CLookupLocal k)] [] [] [] [(k, mk_rec v None)] 0 0 [] 0 3 : handler T,
     [OSent 2 (CLookupLocal (T:=T) k)]).
  cbv iota beta. rewrite F. reflexivity.
Qed.

(** A record that does not parse, put into the node's store by a peer, stops the swarm
    task at the next local lookup of the name. *)
Theorem garbage_kills : forall es h tr k r n ok,
  run me handler_new es = (h, tr) -> ~ In OHandlerPanic (seen tr) -> h_cmds h = [] ->
  reg_from_bytes (st_peers T) (rc_value r) = None ->
  In OHandlerPanic (seen (snd (run me h [EStore k (Some r); ESend (CLookupLocal k); ECommand n ok]))).
Proof.
  intros es h tr k r n ok R N E D; pose proof (reach_inv _ _ _ R) as V.
  pose proof (alive_or _ _ V N) as Al.
  set (h1 := fst (step me h (EStore k (Some r)))).
  assert (S1 : step me h (EStore k (Some r)) = (h1, [])) by (unfold h1; cbn [step]; rewrite Al; reflexivity).
  assert (A1 : h_alive h1 = true) by (unfold h1; cbn [step]; rewrite Al; exact Al).
  assert (C1 : h_cmds h1 = []) by (unfold h1; cbn [step]; rewrite Al; exact E).
  assert (G1 : store_get (h_store h1) k = Some r).
  { unfold h1; cbn [step]; rewrite Al; cbn [fst set_store h_store]. rewrite store_get_put, bytes_eqb_refl; reflexivity. }
  cbn [run]. rewrite S1.
  destruct (step me h1 (ESend (CLookupLocal k))) as [h2 o2] eqn:S2.
  cbn [step] in S2; unfold send_call in S2; rewrite A1, C1 in S2. injection S2 as E2 <-.
  assert (Z : In OHandlerPanic (snd (step me h2 (ECommand n ok)))).
  { apply panics_iff. exists n, ok, (h_next_caller h1), (CLookupLocal k), []. rewrite <- E2; cbn.
    split; [reflexivity|]; split; [reflexivity|]; split; [reflexivity|].
    left; exists k, r; auto. }
  destruct (step me h2 (ECommand n ok)) as [h3 o3]; cbn [snd seen flat_map app].
  right; apply in_or_app; now left.
Qed.

Theorem lookup_verdict : forall rid v,
  remote_verdict (T:=T) rid v
    (client_lookup rid (Some (match v with inl b => AFound b | inr e => AGetError e end))).
Proof.
  intros rid [v|e]; cbn [client_lookup].
  - destruct v as [|b v]; [constructor|].
    destruct (reg_from_bytes (st_peers T) (b :: v)) as [g|] eqn:D.
    + destruct (bytes_eqb rid (reg_remote g)) eqn:B.
      * apply bytes_eqb_eq in B; eapply rv_found; eauto.
      * eapply rv_other_type; eauto. intros H; subst; rewrite bytes_eqb_refl in B; discriminate.
    + constructor; [discriminate|assumption].
  - destruct e; constructor.
Qed.

Theorem remote_verdict_unique : forall rid v a b,
  remote_verdict (T:=T) rid v a -> remote_verdict rid v b -> a = b.
Proof.
  intros rid v a b A B; destruct A; inversion B; subst; try reflexivity; try congruence;
    try (match goal with
         | H : reg_from_bytes _ [] = Some _ |- _ => rewrite reg_empty_panics in H; discriminate H
         end).
Qed.

(** A name registered on another node is looked up as that node's actor. *)
Theorem lookup_denotes : forall p x rid, id_ok (st_peers T) x -> is_text rid ->
  exists y, client_lookup (T:=T) rid (Some (AFound (reg_into_bytes (st_peers T) (Some p) (mk_reg x rid))))
            = Value (inl (Some y)) /\
    denotes (st_peers T) (Some me) y = denotes (st_peers T) (Some p) x.
Proof.
  intros p x rid OK U. apply utf8_valid_iff in U.
  destruct (reg_roundtrip (st_peers T) p (Some me) (mk_reg x rid) OK U) as (g & D & Rm & Dn).
  cbn [reg_remote reg_id] in *. exists (reg_id g); split; [|exact Dn].
  unfold client_lookup.
  destruct (reg_into_bytes (st_peers T) (Some p) (mk_reg x rid)) as [|b v] eqn:E.
  - rewrite reg_empty_panics in D; discriminate.
  - rewrite D, Rm, bytes_eqb_refl; reflexivity.
Qed.

Theorem unregister_keeps_table : forall m a, snd (client_stored (T:=T) m None a) = m.
Proof. intros m [[| | |[]| |]|]; reflexivity. Qed.

Theorem register_fills_table : forall m e a,
  (fst (client_stored (T:=T) m (Some e) a) = Value (inl tt) -> snd (client_stored m (Some e) a) = e :: m) /\
  (fst (client_stored (T:=T) m (Some e) a) <> Value (inl tt) -> snd (client_stored m (Some e) a) = m).
Proof. intros m e [[| | |[]| |]|]; cbn; split; congruence. Qed.

(** Every closed connection starts a task for its peer, and nothing else does. *)
Theorem closed_starts : forall h p left, h_alive h = true ->
  step me h (ENet (NClosed p left)) = (h, [OPeerLost (T:=T) p]).
Proof. intros h p left A. cbn [step handle_event]. rewrite A. reflexivity. Qed.

Theorem only_closed_starts : forall h e h' o p, step me h e = (h', o) -> In (OPeerLost (T:=T) p) o ->
  exists left, e = ENet (NClosed p left).
Proof.
  intros h e h' o p S1 I. apply step_trans in S1.
  destruct S1; repeat (destruct I as [I|I]; [try discriminate I|]); try (destruct I; fail).
  all: try (apply in_map_iff in I; destruct I as (? & I & _); discriminate I).
  all: try (injection I as ->; eauto).
Qed.

End Proofs.
