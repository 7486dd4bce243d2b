(** Properties of links between actors of different nodes (C54, C55). *)
From Coq Require Import List Bool Arith PeanoNat.
From Verif Require Import RemoteLinks RemoteLinks_spec RemoteLinks_proofs RemoteLinks_line_proofs
  RemoteLinks_more_proofs RemoteLinks_examples.
Import ListNotations.

(** ** C54 *)

(** An actor has a link exactly if the last thing that happened to it was to gain it. *)
Theorem C54_links_history : forall known es w t x y, exec known fresh es = Some (w, t) ->
  (linked w x y <-> link_after x y false t = true).
Proof. exact map_history. Qed.
Print Assumptions C54_links_history.

(** A call that returns Ok has changed the caller's links, then the sibling's. *)
Theorem C54_order : forall known o es1 w1 t1 x y rid es2 w2 t2,
  exec known fresh es1 = Some (w1, t1) -> exec known w1 (Call o x y rid :: es2) = Some (w2, t2) -> x <> y ->
  In (OReturned (length (w_calls w1)) Success) t2 ->
  let i := length (w_calls w1) in
  In (mark i o x y) t2 /\ In (mark i o y x) t2
  /\ in_order [mark i o x y; mark i o y x; OReturned i Success] (t1 ++ t2).
Proof. exact success_later. Qed.
Print Assumptions C54_order.

(** After Ok from [link_remote] both have the link until something takes it away. *)
Theorem C54_mutual : forall known es1 w1 t1 x y rid es2 w2 t2,
  exec known fresh es1 = Some (w1, t1) -> exec known w1 (Call OpLink x y rid :: es2) = Some (w2, t2) -> x <> y ->
  In (OReturned (length (w_calls w1)) Success) t2 -> keeps x y t2 -> keeps y x t2 ->
  linked w2 x y /\ linked w2 y x.
Proof. exact mutual. Qed.
Print Assumptions C54_mutual.

(** After Ok from [unlink_remote] neither has it until something links them again. *)
Theorem C54_severed : forall known es1 w1 t1 x y rid es2 w2 t2,
  exec known fresh es1 = Some (w1, t1) -> exec known w1 (Call OpUnlink x y rid :: es2) = Some (w2, t2) -> x <> y ->
  In (OReturned (length (w_calls w1)) Success) t2 ->
  (forall i, ~ In (OLinked i x y) t2) -> (forall i, ~ In (OLinked i y x) t2) ->
  ~ linked w2 x y /\ ~ linked w2 y x.
Proof. exact severed. Qed.
Print Assumptions C54_severed.

(** After Ok from [link_remote] the caller's actor is in the table of its node, where the
    sibling's link death looks for it, until it leaves the table itself. *)
Theorem C54_in_table : forall known es1 w1 t1 x y rid es2 w2 t2,
  exec known fresh es1 = Some (w1, t1) -> exec known w1 (Call OpLink x y rid :: es2) = Some (w2, t2) -> x <> y ->
  In (OReturned (length (w_calls w1)) Success) t2 -> ~ In (OLeft x) t2 ->
  exists a, w_actors w2 x = Some a /\ a_table a = true.
Proof. exact tabled. Qed.
Print Assumptions C54_in_table.

(** A call that returns an error has changed the caller's links all the same. Unless the
    error is one of the network the sibling's links are untouched, and either the swarm
    was not bootstrapped when the call asked for it, or the actor was refused for a reason
    that held when the request was looked up. *)
Theorem C54_refused : forall known o es1 w1 t1 x y rid w2 o2 es2 w3 t3 r,
  exec known fresh es1 = Some (w1, t1) -> step known w1 (Call o x y rid) = Some (w2, o2) ->
  exec known w2 es2 = Some (w3, t3) -> x <> y -> let i := length (w_calls w1) in
  In (OReturned i r) t3 -> r <> Success ->
  In (mark i o x y) t3
  /\ (r = Failure
      \/ ~ In (mark i o y x) t3
         /\ ((r = NotBootstrapped /\ exists es3 es4 w4 t4 b, es2 = es3 ++ Poll i b :: es4
                /\ exec known w2 es3 = Some (w4, t4) /\ w_boot w4 (home x) = false)
             \/ exists es3 es4 w4 t4 n, es2 = es3 ++ Find i :: es4 /\ exec known w2 es3 = Some (w4, t4)
                /\ (n = home x \/ n = home y) /\ refusal known w4 n y rid r)).
Proof. exact refused. Qed.
Print Assumptions C54_refused.

(** An error does not mean that nothing was linked: both sides may have the link. *)
Theorem C54_failed_link_refuted : exists known es w t x y rid,
  exec known fresh es = Some (w, t) /\ x <> y /\
  w_calls w = [mk_call OpLink false (home x) x rid y rid (Returned Failure) (Served Success) (home y)]
  /\ In (OReturned 0 Failure) t /\ linked w x y /\ linked w y x.
Proof.
  exists rl_known, rl_failed, (fst rl_r6), (snd rl_r6), rl_a, rl_b, 7.
  split; [exact (rl_some (exec rl_known fresh rl_failed) eq_refl)|].
  split; [discriminate|]. split; [reflexivity|]. split; [vm_compute; tauto|].
  split; eexists; exists 7; (split; [reflexivity|]); now left.
Qed.
Print Assumptions C54_failed_link_refuted.

Example C54_case :
  exec rl_known fresh rl_setup = Some (fst rl_r0, snd rl_r0)
  /\ exec rl_known (fst rl_r0) (Call OpLink rl_a rl_b 7 :: rl_link 0) = Some (fst rl_r1, snd rl_r1)
  /\ rl_a <> rl_b /\ In (OReturned (length (w_calls (fst rl_r0))) Success) (snd rl_r1)
  /\ keeps rl_a rl_b (snd rl_r1) /\ keeps rl_b rl_a (snd rl_r1) /\ ~ In (OLeft rl_a) (snd rl_r1)
  /\ linked (fst rl_r1) rl_a rl_b /\ linked (fst rl_r1) rl_b rl_a
  /\ link_after rl_a rl_b false (snd rl_r0 ++ snd rl_r1) = true
  /\ link_after rl_a rl_c false (snd rl_r0 ++ snd rl_r1) = false.
Proof.
  split; [exact (rl_some (exec rl_known fresh rl_setup) eq_refl)|].
  split; [exact (rl_some (exec rl_known (fst rl_r0) (Call OpLink rl_a rl_b 7 :: rl_link 0)) eq_refl)|].
  split; [discriminate|]. split; [vm_compute; tauto|].
  split; [vm_compute; intuition discriminate|]. split; [vm_compute; intuition discriminate|].
  split; [vm_compute; intuition discriminate|].
  split; [eexists; exists 7; split; [reflexivity|now left]|].
  split; [eexists; exists 7; split; [reflexivity|now left]|].
  split; reflexivity.
Qed.

Example C54_severed_case :
  exec rl_known fresh rl_linked = Some (fst rl_r2, snd rl_r2)
  /\ exec rl_known (fst rl_r2) (Call OpUnlink rl_b rl_a 7 :: rl_unlink 1) = Some (fst rl_r3, snd rl_r3)
  /\ In (OReturned (length (w_calls (fst rl_r2))) Success) (snd rl_r3)
  /\ (forall i, ~ In (OLinked i rl_b rl_a) (snd rl_r3)) /\ (forall i, ~ In (OLinked i rl_a rl_b) (snd rl_r3))
  /\ linked (fst rl_r2) rl_a rl_b /\ linked (fst rl_r2) rl_b rl_a.
Proof.
  split; [exact (rl_some (exec rl_known fresh rl_linked) eq_refl)|].
  split; [exact (rl_some (exec rl_known (fst rl_r2) (Call OpUnlink rl_b rl_a 7 :: rl_unlink 1)) eq_refl)|].
  split; [vm_compute; tauto|]. split; [vm_compute; intuition discriminate|].
  split; [vm_compute; intuition discriminate|].
  split; eexists; exists 7; (split; [reflexivity|]); now left.
Qed.

Example C54_refused_case :
  exec rl_known fresh rl_setup_wrong = Some (rl_w8, [])
  /\ step rl_known rl_w8 (Call OpLink rl_a rl_b 7) = Some (rl_w9, [])
  /\ exec rl_known rl_w9 rl_refused = Some (fst rl_r9, snd rl_r9)
  /\ In (OReturned (length (w_calls rl_w8)) BadActorType) (snd rl_r9)
  /\ linked (fst rl_r9) rl_a rl_b /\ ~ linked (fst rl_r9) rl_b rl_a.
Proof.
  split; [reflexivity|]. split; [reflexivity|].
  split; [exact (rl_some (exec rl_known rl_w9 rl_refused) eq_refl)|].
  split; [vm_compute; tauto|].
  split; [eexists; exists 7; split; [reflexivity|now left]|].
  intros (b & rid & E & I0). injection E as <-. destruct I0.
Qed.

(** [link_remote] and [unlink_remote] of a reference to a remote actor ask both nodes at
    once. If both requests are answered with Ok, so that the call returns Ok, both have
    the link until something takes it away. *)
Theorem C54_remote_mutual : forall known es1 w1 t1 me x rx y ry es2 w2 t2,
  exec known fresh es1 = Some (w1, t1) ->
  exec known w1 (Half OpLink me x rx y ry :: Half OpLink me y ry x rx :: es2) = Some (w2, t2) ->
  let i := length (w_calls w1) in
  In (OReturned i Success) t2 -> In (OReturned (S i) Success) t2 -> keeps x y t2 -> keeps y x t2 ->
  linked w2 x y /\ linked w2 y x.
Proof. exact pair_mutual. Qed.
Print Assumptions C54_remote_mutual.

(** And neither has it once unlinking has returned Ok. *)
Theorem C54_remote_severed : forall known es1 w1 t1 me x rx y ry es2 w2 t2,
  exec known fresh es1 = Some (w1, t1) ->
  exec known w1 (Half OpUnlink me x rx y ry :: Half OpUnlink me y ry x rx :: es2) = Some (w2, t2) ->
  let i := length (w_calls w1) in
  In (OReturned i Success) t2 -> In (OReturned (S i) Success) t2 ->
  (forall j, ~ In (OLinked j x y) t2) -> (forall j, ~ In (OLinked j y x) t2) ->
  ~ linked w2 x y /\ ~ linked w2 y x.
Proof. exact pair_severed. Qed.
Print Assumptions C54_remote_severed.

(** A request of such a call that is refused has touched no links, and was refused by the
    caller's node or that of the actor, for a reason that held there. *)
Theorem C54_remote_refused : forall known o es1 w1 t1 me x own y rid w2 o2 es2 w3 t3 r,
  exec known fresh es1 = Some (w1, t1) -> step known w1 (Half o me x own y rid) = Some (w2, o2) ->
  exec known w2 es2 = Some (w3, t3) ->
  let i := length (w_calls w1) in
  In (OReturned i r) t3 -> r <> Success ->
  r = Failure
  \/ ~ In (mark i o y x) t3
     /\ ((r = NotBootstrapped /\ exists es3 es4 w4 t4 b, es2 = es3 ++ Poll i b :: es4
            /\ exec known w2 es3 = Some (w4, t4) /\ w_boot w4 me = false)
         \/ exists es3 es4 w4 t4 n, es2 = es3 ++ Find i :: es4 /\ exec known w2 es3 = Some (w4, t4)
            /\ (n = me \/ n = home y) /\ refusal known w4 n y rid r).
Proof. exact half_refused. Qed.
Print Assumptions C54_remote_refused.

(** When one of the two is refused the call returns that error, but the other request is
    already on its way: one actor is left with a link that the other does not have. *)
Theorem C54_remote_onesided_refuted : exists known es0 me x rx y ry es w t r,
  exec known fresh (es0 ++ Half OpLink me x rx y ry :: Half OpLink me y ry x rx :: es) = Some (w, t)
  /\ in_order [OReturned 1 r; OLinked 0 y x] t /\ r <> Success /\ linked w y x /\ ~ linked w x y.
Proof.
  exists rl_known, (rl_setup ++ [Boot 3]), 3, rl_a, 7, rl_b, 7,
    [Poll 0 false; Poll 1 false; Find 1; Answer 1; Find 0; Apply 0],
    (fst rl_r17), (snd rl_r17), ActorNotRunning.
  split; [exact (rl_some (exec rl_known fresh rl_oneside) eq_refl)|].
  split; [exists [], [OLinked 0 rl_b rl_a]; split; [reflexivity|exists [], []; split; [reflexivity|exact I]]|].
  split; [discriminate|].
  split; [eexists; exists 7; split; [reflexivity|now left]|].
  intros (b & rid & E & I0). injection E as <-. destruct I0.
Qed.
Print Assumptions C54_remote_onesided_refuted.

Example C54_remote_case :
  exec rl_known fresh rl_setup3 = Some (fst rl_r13, snd rl_r13)
  /\ exec rl_known (fst rl_r13) (rl_pair OpLink ++ rl_both 0) = Some (fst rl_r14, snd rl_r14)
  /\ In (OReturned (length (w_calls (fst rl_r13))) Success) (snd rl_r14)
  /\ In (OReturned (S (length (w_calls (fst rl_r13)))) Success) (snd rl_r14)
  /\ keeps rl_a rl_b (snd rl_r14) /\ keeps rl_b rl_a (snd rl_r14)
  /\ exec rl_known fresh rl_linked3 = Some (fst rl_r15, snd rl_r15)
  /\ exec rl_known (fst rl_r15) (rl_pair OpUnlink ++ rl_both 2) = Some (fst rl_r16, snd rl_r16)
  /\ In (OReturned (length (w_calls (fst rl_r15))) Success) (snd rl_r16)
  /\ In (OReturned (S (length (w_calls (fst rl_r15)))) Success) (snd rl_r16)
  /\ (forall j, ~ In (OLinked j rl_a rl_b) (snd rl_r16)) /\ (forall j, ~ In (OLinked j rl_b rl_a) (snd rl_r16)).
Proof.
  split; [exact (rl_some (exec rl_known fresh rl_setup3) eq_refl)|].
  split; [exact (rl_some (exec rl_known (fst rl_r13) (rl_pair OpLink ++ rl_both 0)) eq_refl)|].
  split; [vm_compute; tauto|]. split; [vm_compute; tauto|].
  split; [vm_compute; intuition discriminate|]. split; [vm_compute; intuition discriminate|].
  split; [exact (rl_some (exec rl_known fresh rl_linked3) eq_refl)|].
  split; [exact (rl_some (exec rl_known (fst rl_r15) (rl_pair OpUnlink ++ rl_both 2)) eq_refl)|].
  split; [vm_compute; tauto|]. split; [vm_compute; tauto|].
  split; vm_compute; intuition discriminate.
Qed.

Example C54_remote_refused_case :
  exec rl_known fresh (rl_setup ++ [Boot 3; Half OpLink 3 rl_a 7 rl_b 7; Half OpLink 3 rl_b 7 rl_a 7;
    Poll 1 false; Find 1; Answer 1]) <> None
  /\ In (OReturned 1 ActorNotRunning) (snd rl_r17).
Proof. split; [discriminate|vm_compute; tauto]. Qed.

(** A call that has not returned and whose future was not dropped never gets stuck: it returns
    if only its own future and the node that serves it go on. *)
Theorem C54_returns : forall known es w t i, exec known fresh es = Some (w, t) -> i < length (w_calls w) ->
  (forall r, ~ In (OReturned i r) t) -> ~ In (Drop i) es ->
  exists es' w' t' r, forallb (piece i) es' = true /\ exec known w es' = Some (w', t') /\ In (OReturned i r) t'.
Proof. exact returns. Qed.
Print Assumptions C54_returns.

(** And with Ok, if the caller's swarm is bootstrapped and the sibling is in the table of its
    node with the type of the reference. *)
Theorem C54_succeeds : forall known o w x a y b rid, w_actors w x = Some a -> x <> y -> w_boot w (home x) = true ->
  w_actors w y = Some b -> a_table b = true -> a_rid b = rid -> known (home y) rid = true ->
  exists es w' t, forallb (piece (length (w_calls w))) es = true
  /\ exec known w (Call o x y rid :: es) = Some (w', t) /\ In (OReturned (length (w_calls w)) Success) t.
Proof. exact succeeds. Qed.
Print Assumptions C54_succeeds.

(** Linking an actor with itself, or unlinking it, returns Ok at once and changes nothing. *)
Theorem C54_self : forall known w o x rid a alone, w_actors w x = Some a ->
  exists w', exec known w [Call o x x rid; Poll (length (w_calls w)) alone]
             = Some (w', [OReturned (length (w_calls w)) Success])
  /\ w_actors w' = w_actors w.
Proof. exact self_call. Qed.
Print Assumptions C54_self.

(** A node has a swarm from the moment it is bootstrapped. *)
Theorem C54_booted : forall known es w t n, exec known fresh es = Some (w, t) -> w_boot w n = true <-> In (Boot n) es.
Proof. exact boot_when. Qed.
Print Assumptions C54_booted.

(** An actor is in the table of its node exactly if it was registered or began to link itself to
    another actor, and has not left since. *)
Theorem C54_table : forall known es w t x a, exec known fresh es = Some (w, t) -> w_actors w x = Some a ->
  (a_table a = true <-> in_table x es).
Proof. exact table_when. Qed.
Print Assumptions C54_table.

(** A call can be dropped exactly until it returns. *)
Theorem C54_drop : forall known es w t i, exec known fresh es = Some (w, t) ->
  (step known w (Drop i) <> None <->
   i < length (calls_made es) /\ (forall r, ~ In (OReturned i r) t) /\ ~ In (Drop i) es).
Proof. exact droppable. Qed.
Print Assumptions C54_drop.

(** The link call puts its actor into the table with its first step; an actor that was neither
    registered nor linked is not there; one that left is not there. *)
Example C54_table_case :
  in_table rl_a [Spawn rl_a 7; Call OpLink rl_a rl_b 7; Poll 0 false]
  /\ (exists a, w_actors (fst rl_r0) rl_a = Some a /\ a_table a = false)
  /\ (exists a, w_actors (fst rl_r2) rl_a = Some a /\ a_table a = true)
  /\ (exists a, w_actors (fst rl_r5) rl_b = Some a /\ a_table a = false)
  /\ step rl_known (fst rl_r31) (Drop 0) <> None /\ step rl_known (fst rl_r2) (Drop 0) = None.
Proof.
  split.
  { exists [Spawn rl_a 7; Call OpLink rl_a rl_b 7], (Poll 0 false), []. split; [reflexivity|].
    split; [|intros []]. right. exists 0, false, rl_b, 7. split; [reflexivity|]. split; [reflexivity|].
    split; [discriminate|]. intros b [X|[X|[]]]; discriminate. }
  split; [eexists; split; reflexivity|]. split; [eexists; split; reflexivity|]. split; [eexists; split; reflexivity|].
  split; [vm_compute; discriminate|reflexivity].
Qed.

Example C54_returns_case :
  exec rl_known fresh (rl_setup ++ [Call OpUnlink rl_a rl_b 7; Poll 0 false]) = Some (fst rl_r31, snd rl_r31)
  /\ 0 < length (w_calls (fst rl_r31)) /\ snd rl_r31 = [OUnlinked 0 rl_a rl_b]
  /\ option_map snd (exec rl_known (fst rl_r31) [Poll 0 false; Find 0; Apply 0; Answer 0])
     = Some [OUnlinked 0 rl_b rl_a; OReturned 0 Success]
  /\ w_boot (fst rl_r0) 1 = true /\ w_boot (fst rl_r0) 3 = false
  /\ (exists b, w_actors (fst rl_r0) rl_b = Some b /\ a_table b = true /\ a_rid b = 7)
  /\ option_map snd (exec rl_known (fst rl_r0) [Call OpLink rl_c rl_c 7; Poll 0 true]) = Some [OReturned 0 Success].
Proof.
  split; [exact (rl_some (exec rl_known fresh (rl_setup ++ [Call OpUnlink rl_a rl_b 7; Poll 0 false])) eq_refl)|].
  split; [vm_compute; auto|]. split; [reflexivity|]. split; [reflexivity|]. split; [reflexivity|]. split; [reflexivity|].
  split; [eexists; split; [reflexivity|split; reflexivity]|reflexivity].
Qed.

(** ** C55 *)

(** A link death is only sent for an actor that stopped, for its reason, to an actor it
    had a link to when it took its links out. *)
Theorem C55_sound : forall known es w t x d r t1 t2, exec known fresh es = Some (w, t) ->
  t = t1 ++ OGot x d r :: t2 -> exists l, In (ODrained d r l) t1 /\ In x l.
Proof. exact got_sound. Qed.
Print Assumptions C55_sound.

(** And at most once to each. *)
Theorem C55_once : forall known es w t x d, exec known fresh es = Some (w, t) -> length (deaths x d t) <= 1.
Proof. exact got_once. Qed.
Print Assumptions C55_once.

(** If an actor stops while it has a link to a running actor in the table of its node, and
    all links to that one were made with its type, there is a notification for it. As long
    as that actor neither stops nor the sender believes to be alone, the notification is
    never refused, and unless the sender's on_stop panics it has put the link death into
    the mailbox or its pieces alone do so. *)
Theorem C55_told : forall known es1 w1 t1 x a y r es2 w2 t2,
  exec known fresh es1 = Some (w1, t1) -> w_actors w1 x = Some a -> a_table a = true -> a_phase a = Alive ->
  known (home x) (a_rid a) = true -> linked w1 y x -> w_boot w1 (home y) = true ->
  (forall c rid, In (Call c y x rid) es1 -> rid = a_rid a) ->
  (forall c me own rid, In (Half c me x own y rid) es1 -> own = a_rid a) ->
  exec known w1 (Stop y r :: es2) = Some (w2, t2) ->
  ~ In (Leave x) es2 -> ~ In (Crash x) es2 -> ~ In (Vanish x) es2 ->
  exists k, notifies w2 k x y r /\ (~ In (Send k true) es2 ->
    (forall out, In (ONoted k out) t2 -> out = Success /\ In (OGot x y r) t2)
    /\ (~ In (Crash y) es2 -> In (OGot x y r) t2 \/
         exists es3 w3 t3, forallb (carries k) es3 = true /\ exec known w2 es3 = Some (w3, t3)
           /\ In (OGot x y r) t3)).
Proof. exact told. Qed.
Print Assumptions C55_told.

(** An actor that took its links out without this one tells it nothing, ever. *)
Theorem C55_not_told : forall known es w t x d r l, exec known fresh es = Some (w, t) ->
  In (ODrained d r l) t -> ~ In x l -> deaths x d t = [].
Proof. exact never_told. Qed.
Print Assumptions C55_not_told.

(** An on_stop that panics before any of the notifications was sent keeps them all from
    being sent. *)
Theorem C55_panic_silent : forall known w d es w' o w2 t2,
  (forall n, In n (w_notes w) -> n_dead n = d -> n_req n = Unsent) ->
  step known w (Crash d) = Some (w', o) -> exec known w' es = Some (w2, t2) -> forall x, deaths x d t2 = [].
Proof. exact silent. Qed.
Print Assumptions C55_panic_silent.

(** An actor whose on_start fails tells nobody. *)
Theorem C55_start_silent : forall known es1 w t d es w' o w2 t2, exec known fresh es1 = Some (w, t) ->
  step known w (Vanish d) = Some (w', o) -> exec known w' es = Some (w2, t2) -> forall x, deaths x d (t ++ t2) = [].
Proof. exact silent_start. Qed.
Print Assumptions C55_start_silent.

(** Ok from [link_remote] does not mean that the sibling's end will be reported: it may
    have taken its links out before the request was carried out. *)
Theorem C55_late_link_refuted : exists known es w t x y r l,
  exec known fresh es = Some (w, t) /\ in_order [ODrained y r l; OReturned 0 Success] t
  /\ linked w x y /\ linked w y x
  /\ forall es2 w2 t2, exec known w es2 = Some (w2, t2) -> deaths x y (t ++ t2) = [].
Proof.
  exists rl_known, rl_late, (fst rl_r7), (snd rl_r7), rl_a, rl_b, 5, [].
  pose proof (rl_some (exec rl_known fresh rl_late) eq_refl : exec rl_known fresh rl_late = Some (fst rl_r7, snd rl_r7)) as E.
  split; [exact E|].
  split; [exists [OLinked 0 rl_a rl_b], [OLinked 0 rl_b rl_a; OReturned 0 Success]; split;
          [reflexivity|exists [OLinked 0 rl_b rl_a], []; split; [reflexivity|exact I]]|].
  split; [eexists; exists 7; split; [reflexivity|now left]|].
  split; [eexists; exists 7; split; [reflexivity|now left]|].
  intros es2 w2 t2 E2. apply (C55_not_told rl_known (rl_late ++ es2) w2 (snd rl_r7 ++ t2) rl_a rl_b 5 []).
  - rewrite exec_app, E, E2. reflexivity.
  - apply in_or_app. left. vm_compute. tauto.
  - intros [].
Qed.
Print Assumptions C55_late_link_refuted.

(** Nor need a sibling linked on both sides be told if on_stop panics. *)
Theorem C55_panic_refuted : exists known es w t x y r l w' o,
  exec known fresh es = Some (w, t) /\ In (ODrained y r l) t /\ In x l /\ step known w (Crash y) = Some (w', o)
  /\ forall es2 w2 t2, exec known w' es2 = Some (w2, t2) -> deaths x y (t ++ o ++ t2) = [].
Proof.
  exists rl_known, rl_crash, (fst rl_r10), (snd rl_r10), rl_a, rl_b, 5, [rl_a], (fst rl_r11), (snd rl_r11).
  split; [exact (rl_some (exec rl_known fresh rl_crash) eq_refl)|].
  split; [vm_compute; tauto|]. split; [now left|].
  pose proof (rl_some (step rl_known (fst rl_r10) (Crash rl_b)) eq_refl
    : step rl_known (fst rl_r10) (Crash rl_b) = Some (fst rl_r11, snd rl_r11)) as E.
  split; [exact E|]. intros es2 w2 t2 E2.
  assert (U : forall n, In n (w_notes (fst rl_r10)) -> n_dead n = rl_b -> n_req n = Unsent).
  { intros n [<-|[]] _. reflexivity. }
  rewrite !deaths_app, (C55_panic_silent _ _ _ _ _ _ _ _ U E E2). reflexivity.
Qed.
Print Assumptions C55_panic_refuted.

(** An actor whose end is normal leaves the table of running actors, and so its waiters and the
    rest of its end, after every one of its notifications has been sent and is done with. *)
Theorem C55_leaves_last : forall known es w t x w' o k y r, exec known fresh es = Some (w, t) ->
  step known w (Leave x) = Some (w', o) -> notifies w k y x r ->
  In (Over k) es /\ exists alone, In (Send k alone) es.
Proof. exact leaves_last. Qed.
Print Assumptions C55_leaves_last.

(** What becomes of a notification is decided when it is looked up or put into the mailbox: it
    is refused for a reason that holds then, refused because the actor found has ended, or it is
    accepted. *)
Theorem C55_outcome : forall known es w t e w' o k out, exec known fresh es = Some (w, t) ->
  step known w e = Some (w', o) -> In (ONoted k out) o ->
  exists n, nth_error (w_notes w) k = Some n
  /\ ((e = FindNote k /\ out <> Success /\ refusal known w (n_node n) (n_to n) (n_rid n) out
       /\ o = [ONoted k out])
      \/ (e = Signal k /\ exists a, w_actors w (n_to n) = Some a
          /\ ((a_phase a = Gone /\ out = ActorNotRunning /\ o = [ONoted k out])
              \/ (a_phase a <> Gone /\ out = Success
                  /\ o = [OGot (n_to n) (n_dead n) (n_reason n); ONoted k out])))).
Proof. exact noted. Qed.
Print Assumptions C55_outcome.

(** And every notification that is looked up or put into a mailbox is decided: if no reason to
    refuse it holds it is found, and what is found is accepted or refused. *)
Theorem C55_all_noted : forall known es w t k w' o, exec known fresh es = Some (w, t) ->
  (step known w (FindNote k) = Some (w', o) -> exists n, nth_error (w_notes w) k = Some n
     /\ ((exists out, out <> Success /\ refusal known w (n_node n) (n_to n) (n_rid n) out /\ o = [ONoted k out])
         \/ ((forall out, ~ refusal known w (n_node n) (n_to n) (n_rid n) out) /\ o = [])))
  /\ (step known w (Signal k) = Some (w', o) -> exists n a, nth_error (w_notes w) k = Some n /\ w_actors w (n_to n) = Some a
     /\ ((a_phase a = Gone /\ o = [ONoted k ActorNotRunning])
         \/ (a_phase a <> Gone /\ o = [OGot (n_to n) (n_dead n) (n_reason n); ONoted k Success]))).
Proof. exact all_noted. Qed.
Print Assumptions C55_all_noted.

(** The link deaths an actor accepted are those it handled followed by those still in its
    mailbox, in the order they came. *)
Theorem C55_mailbox : forall known es w t x a, exec known fresh es = Some (w, t) -> w_actors w x = Some a ->
  exists pre, got x t = pre ++ a_box a /\ map fst pre = forgot x t.
Proof. exact box_when. Qed.
Print Assumptions C55_mailbox.

(** A running actor can always handle the first one it has not handled. *)
Theorem C55_handles : forall known es w t x a y r, exec known fresh es = Some (w, t) -> w_actors w x = Some a ->
  a_phase a = Alive -> nth_error (got x t) (length (forgot x t)) = Some (y, r) ->
  exists w', step known w (Handle x) = Some (w', [OForgot x y]).
Proof. exact handle_when. Qed.
Print Assumptions C55_handles.

(** And nothing else is handled. *)
Theorem C55_handles_only : forall known es w t x w' o, exec known fresh es = Some (w, t) ->
  step known w (Handle x) = Some (w', o) ->
  exists a y r, w_actors w x = Some a /\ a_phase a = Alive
  /\ nth_error (got x t) (length (forgot x t)) = Some (y, r) /\ o = [OForgot x y].
Proof. exact handle_only. Qed.
Print Assumptions C55_handles_only.

(** An actor runs until it stops or its on_start fails. *)
Theorem C55_running : forall known es w t x a, exec known fresh es = Some (w, t) -> w_actors w x = Some a ->
  a_phase a = Alive <-> (forall r, ~ In (Stop x r) es) /\ ~ In (Vanish x) es.
Proof. exact alive_when. Qed.
Print Assumptions C55_running.

(** An actor that has taken its links out gets through its end by itself: it is enough that its
    notifications are sent and end. *)
Theorem C55_ends : forall known w x a, w_actors w x = Some a -> a_phase a = Drained ->
  exists es w' t a', (forall e, In e es -> winds_up w x e) /\ exec known w es = Some (w', t)
  /\ w_actors w' x = Some a' /\ a_phase a' = Gone /\ In (OLeft x) t.
Proof. exact ends. Qed.
Print Assumptions C55_ends.

(** An actor ends in the order given by [next], and can always take each next step, except that
    it leaves the table only when its notifications are over. *)
Theorem C55_end_steps : forall known es w t x a e, exec known fresh es = Some (w, t) ->
  w_actors w x = Some a -> end_of x e = true ->
  (step known w e <> None <->
   next x (filter (end_of x) es) e /\ (e = Leave x -> forall k y r, notifies w k y x r -> In (Over k) es)).
Proof. exact end_steps. Qed.
Print Assumptions C55_end_steps.

Example C55_end_steps_case :
  filter (end_of rl_b) rl_all = [Stop rl_b 5; Leave rl_b; Exit rl_b]
  /\ filter (end_of rl_b) rl_crash = [Stop rl_b 5] /\ next rl_b [Stop rl_b 5] (Crash rl_b)
  /\ step rl_known (fst rl_r10) (Crash rl_b) <> None
  /\ notifies (fst rl_r10) 0 rl_a rl_b 5 /\ step rl_known (fst rl_r10) (Leave rl_b) = None.
Proof.
  split; [reflexivity|]. split; [reflexivity|]. split; [constructor|]. split; [vm_compute; discriminate|].
  split; [eexists; repeat split; reflexivity|reflexivity].
Qed.

Example C55_handles_case :
  exec rl_known fresh (rl_linked ++ Stop rl_b 5 :: firstn 3 rl_stop) = Some (fst rl_r32, snd rl_r32)
  /\ got rl_a (snd rl_r32) = [(rl_b, 5)] /\ forgot rl_a (snd rl_r32) = []
  /\ (exists a, w_actors (fst rl_r32) rl_a = Some a /\ a_phase a = Alive)
  /\ (exists b, w_actors (fst rl_r32) rl_b = Some b /\ a_phase b = Drained)
  /\ notifies (fst rl_r32) 0 rl_a rl_b 5
  /\ option_map snd (exec rl_known (fst rl_r32) [Handle rl_a; Over 0; Leave rl_b; Exit rl_b])
     = Some [OForgot rl_a rl_b; OLeft rl_b].
Proof.
  split; [exact (rl_some (exec rl_known fresh (rl_linked ++ Stop rl_b 5 :: firstn 3 rl_stop)) eq_refl)|].
  split; [reflexivity|]. split; [reflexivity|].
  split; [eexists; split; reflexivity|]. split; [eexists; split; reflexivity|].
  split; [eexists; split; [reflexivity|split; [reflexivity|split; reflexivity]]|reflexivity].
Qed.

(** The actor ended between being found and being told. *)
Example C55_outcome_case :
  exec rl_known fresh (rl_linked ++ [Stop rl_b 5; Send 0 false; FindNote 0; Vanish rl_a]) = Some (fst rl_r33, snd rl_r33)
  /\ option_map snd (step rl_known (fst rl_r33) (Signal 0)) = Some [ONoted 0 ActorNotRunning]
  /\ match exec rl_known fresh (rl_linked ++ [Stop rl_b 5; Send 0 false; Stop rl_a 6; Send 1 false; FindNote 1; Signal 1; Over 1; Leave rl_a]) with
     | Some (w, _) => option_map snd (step rl_known w (FindNote 0)) = Some [ONoted 0 ActorNotRunning]
     | None => False
     end.
Proof.
  split; [exact (rl_some (exec rl_known fresh (rl_linked ++ [Stop rl_b 5; Send 0 false; FindNote 0; Vanish rl_a])) eq_refl)|].
  split; [reflexivity|]. vm_compute. reflexivity.
Qed.

Example C55_case :
  exec rl_known fresh rl_all = Some (fst rl_r5, snd rl_r5)
  /\ deaths rl_a rl_b (snd rl_r5) = [5] /\ deaths rl_b rl_a (snd rl_r5) = []
  /\ In (ODrained rl_c 4 []) (snd rl_r5) /\ ~ linked (fst rl_r5) rl_a rl_b.
Proof.
  split; [exact (rl_some (exec rl_known fresh rl_all) eq_refl)|].
  split; [reflexivity|]. split; [reflexivity|]. split; [vm_compute; tauto|].
  intros (b & rid & E & I0). injection E as <-. destruct I0.
Qed.

Example C55_told_case :
  exec rl_known fresh rl_linked = Some (fst rl_r2, snd rl_r2)
  /\ (exists a, w_actors (fst rl_r2) rl_a = Some a /\ a_table a = true /\ a_phase a = Alive
        /\ rl_known (home rl_a) (a_rid a) = true
        /\ (forall c rid, In (Call c rl_b rl_a rid) rl_linked -> rid = a_rid a)
        /\ forall c me own rid, In (Half c me rl_a own rl_b rid) rl_linked -> own = a_rid a)
  /\ linked (fst rl_r2) rl_b rl_a /\ w_boot (fst rl_r2) (home rl_b) = true
  /\ exec rl_known (fst rl_r2) (Stop rl_b 5 :: rl_stop) = Some (fst rl_r4, snd rl_r4)
  /\ ~ In (Leave rl_a) rl_stop /\ ~ In (Crash rl_a) rl_stop /\ ~ In (Vanish rl_a) rl_stop
  /\ ~ In (Send 0 true) rl_stop /\ ~ In (Crash rl_b) rl_stop /\ In (ONoted 0 Success) (snd rl_r4).
Proof.
  split; [exact (rl_some (exec rl_known fresh rl_linked) eq_refl)|].
  split; [eexists; split; [reflexivity|]; repeat (split; [reflexivity|]); split; vm_compute; intuition discriminate|].
  split; [eexists; exists 7; split; [reflexivity|now left]|]. split; [reflexivity|].
  split; [exact (rl_some (exec rl_known (fst rl_r2) (Stop rl_b 5 :: rl_stop)) eq_refl)|].
  repeat split; vm_compute; intuition discriminate.
Qed.

Example C55_start_case :
  linked (fst rl_r2) rl_b rl_a
  /\ step rl_known (fst rl_r2) (Vanish rl_b) = Some (fst rl_r12, snd rl_r12)
  /\ exec rl_known (fst rl_r12) [Call OpLink rl_a rl_c 7; Poll 1 false] <> None.
Proof.
  split; [eexists; exists 7; split; [reflexivity|now left]|].
  split; [exact (rl_some (step rl_known (fst rl_r2) (Vanish rl_b)) eq_refl)|]. discriminate.
Qed.

Example C55_leaves_case :
  exec rl_known fresh (rl_linked ++ Stop rl_b 5 :: firstn 4 rl_stop) = Some (fst rl_r30, snd rl_r30)
  /\ step rl_known (fst rl_r30) (Leave rl_b) <> None /\ notifies (fst rl_r30) 0 rl_a rl_b 5
  /\ step rl_known (fst (rl_get (exec rl_known fresh (rl_linked ++ Stop rl_b 5 :: firstn 3 rl_stop)))) (Leave rl_b) = None.
Proof.
  split; [exact (rl_some (exec rl_known fresh (rl_linked ++ Stop rl_b 5 :: firstn 4 rl_stop)) eq_refl)|].
  split; [vm_compute; discriminate|]. split; [|vm_compute; reflexivity].
  exists (nth 0 (w_notes (fst rl_r30)) (mk_note rl_a rl_a 0 0 Unsent 0 false)). repeat split; vm_compute; reflexivity.
Qed.
