(** Property theorems about actors that wait for each other (C70). *)
From Coq Require Import List Bool PeanoNat.
From Verif Require Import Waiting Waiting_spec Waiting_proofs Waiting_more_proofs Waiting_served_proofs Waiting_examples.
Import ListNotations.

(** ** C70 *)

(** In a deadlock every actor that the wait of [a] leads to waits for the same actor for ever,
    whatever else happens: only a timeout of one of them, or a kill of one whose loop runs, could
    help. Kills in [on_start] and stop signals, which are messages, do not. *)
Theorem C70_forever : forall w a es w' x,
  reached w -> deadlocked w a -> exec w es = Some w' ->
  (forall y, (y = a \/ waits_on w a y) -> unhelped w es y) ->
  x = a \/ waits_on w a x -> exists b, target w x = Some b /\ target w' x = Some b.
Proof. exact deadlock_forever. Qed.
Print Assumptions C70_forever.

Example C70_forever_ex : after (small 1) ring (fun w =>
  deadlocked w 2 /\ target w 2 = Some 0 /\ target w 0 = Some 1 /\ target w 1 = Some 0 /\
  after w ring_more (fun w' => target w' 2 = Some 0 /\ target w' 0 = Some 1 /\ target w' 1 = Some 0)).
Proof.
  run. split; [exists 0; split; [right|]; on|]. do 3 (split; [look|]). run. look.
Qed.

(** In [on_start] not even a kill ends the wait. *)
Example C70_forever_start_ex : after (small 1) start_self (fun w =>
  deadlocked w 0 /\ unhelped w start_more 0 /\ after w start_more (fun w' => target w' 0 = Some 0)).
Proof.
  run. split; [exists 0; split; [left; reflexivity|on]|]. split; [|run; look]. split.
  - cbn. intuition congruence.
  - intros [r K]. vm_compute in K. discriminate.
Qed.

(** The wait of an actor can end without such help exactly if it is in no deadlock. *)
Theorem C70_iff : forall w a, reached w ->
  ((exists es w', exec w es = Some w' /\ waits (w' a) = None /\
      forall y, (y = a \/ waits_on w a y) -> unhelped w es y)
   <-> ~ deadlocked w a).
Proof. exact deadlock_iff. Qed.
Print Assumptions C70_iff.

Example C70_iff_ex : after (small 1) chain (fun w =>
  waits (w 2) = Some (ForReply 1) /\ waits_on w 2 0 /\
  after w chain_more (fun w' => waits (w' 2) = None /\ waits (w' 1) = None)).
Proof.
  run. split; [look|]. split; [on|]. run. look.
Qed.

(** An actor in no deadlock goes on as soon as the actors go on with what is in their mailboxes:
    nobody has to send anything, give up or be killed. *)
Theorem C70_settles : forall w a, reached w -> ~ deadlocked w a ->
  exists es w', Forall settles es /\ exec w es = Some w' /\ waits (w' a) = None.
Proof. exact deadlock_free. Qed.
Print Assumptions C70_settles.

Example C70_settles_ex : Forall settles chain_more /\
  after (small 1) chain (fun w => waits (w 2) <> None /\ after w chain_more (fun w' => waits (w' 2) = None)).
Proof.
  split; [repeat constructor|]. run. split; [look|run; look].
Qed.

(** An actor is in a deadlock or it is not. *)
Theorem C70_decided : forall w a, reached w -> deadlocked w a \/ ~ deadlocked w a.
Proof. exact deadlock_decides. Qed.
Print Assumptions C70_decided.

Example C70_decided_ex : after (small 1) ring (fun w => deadlocked w 0 /\ ~ deadlocked w 3).
Proof.
  run. split; [exists 0; split; [left; reflexivity|on]|]. intros D. destruct (deadlocked_next _ _ D) as (b & T & _). vm_compute in T. discriminate.
Qed.

(** Actors that await requests to actors of lower rank only are never in a deadlock. *)
Theorem C70_ranked : forall rank caps sc es w a,
  (forall b, caps b <> Some 0) -> Forall (downwards rank) es -> exec (fresh caps sc) es = Some w -> ~ deadlocked w a.
Proof. exact ranked_free. Qed.
Print Assumptions C70_ranked.

Example C70_ranked_ex : Forall (downwards (fun a => a)) chain /\ after (small 1) chain (fun w => waits_on w 2 0) /\
  ~ Forall (downwards (fun a => a)) ring.
Proof.
  split; [repeat constructor|]. split; [run; on|]. intros F. rewrite Forall_forall in F.
  assert (H : downwards (fun a => a) (Ask 0 1)) by (apply F; cbn; tauto). cbn in H. inversion H.
Qed.

(** Deadlocks come from requests only: an actor that gets into one waits, over others or not, for
    an actor that has just sent a request, and that one waits for itself or has sent it to an
    actor in a deadlock. *)
Theorem C70_closed_by_request : forall w e w' a, reached w -> step w e = Some w' -> ~ deadlocked w a -> deadlocked w' a ->
  exists c b, (e = Ask c b \/ e = Tell c b) /\ waits (w c) = None /\ target w' c = Some b /\
              (a = c \/ waits_on w' a c) /\ (waits_on w' c c \/ deadlocked w b).
Proof. exact closed_by_request. Qed.
Print Assumptions C70_closed_by_request.

Example C70_closed_by_request_ex : after (small 1) (removelast ring) (fun w =>
  ~ deadlocked w 2 /\ after w [Ask 1 0] (fun w' => deadlocked w' 2)).
Proof.
  run. split.
  - apply ends_not_deadlocked. do 2 (eapply ends_next; [vm_compute; reflexivity|]). apply ends_here. look.
  - run. exists 0. split; [right|]; on.
Qed.

(** One timeout, or one kill of an actor whose loop runs, is enough for all that wait over it. *)
Theorem C70_one_is_enough : forall w e w' y a, reached w -> step w e = Some w' ->
  e = GiveUp y \/ (e = Kill y /\ killable w y) ->
  a = y \/ waits_on w a y -> ~ deadlocked w' a.
Proof. exact one_is_enough. Qed.
Print Assumptions C70_one_is_enough.

Example C70_one_is_enough_ex : after (small 1) ring (fun w =>
  deadlocked w 2 /\ waits_on w 2 1 /\ killable w 1 /\
  after w [GiveUp 1; Finish 1; Take 1; Finish 1; Finish 0; Take 0; Finish 0] (fun w' => waits (w' 2) = None) /\
  after w [Kill 1; End_ 1; Finish 0; Take 0; Finish 0] (fun w' => waits (w' 2) = None /\ does (w' 1) = Gone)).
Proof.
  run. split; [exists 0; split; [right|]; on|]. split; [on|]. split; [eexists; look|]. split; run; look.
Qed.

(** An actor that awaits an [ask] to itself is in a deadlock. *)
Theorem C70_self_ask : forall w a w', reached w -> step w (Ask a a) = Some w' -> deadlocked w' a.
Proof. exact self_ask. Qed.
Print Assumptions C70_self_ask.

Example C70_self_ask_ex : after (small 2) [Finish 0; Outside 0 true; Take 0; Ask 0 0] (fun w =>
  box (w 0) = [Some 0] /\ target w 0 = Some 0).
Proof.
  run. look.
Qed.

(** A [tell] to the actor itself is one exactly if its mailbox is full; otherwise it returns. *)
Theorem C70_self_tell : forall w a w', reached w -> step w (Tell a a) = Some w' ->
  (full w a -> deadlocked w' a) /\ (~ full w a -> waits (w' a) = None).
Proof. exact self_tell. Qed.
Print Assumptions C70_self_tell.

Example C70_self_tell_ex : after (small 2) self_fill (fun w =>
  waits (w 0) = None /\ full w 0 /\ after w [Tell 0 0] (fun w' => target w' 0 = Some 0)).
Proof.
  run. split; [look|]. split; [exists 2; look|]. run. look.
Qed.

(** A [tell] waits exactly if the mailbox is full and the actor's receiver is there. *)
Theorem C70_tell_waits : forall w a b w', reached w -> step w (Tell a b) = Some w' ->
  (waits (w' a) <> None <-> full w b /\ does (w b) <> Gone).
Proof. exact tell_waits. Qed.
Print Assumptions C70_tell_waits.

Example C70_tell_waits_ex : after (small 1) [Tell 0 1; Tell 0 1] (fun w =>
  waits (w 0) = Some (ForRoom 1) /\ after w [Finish 1; Take 1] (fun w' => waits (w' 0) = None)).
Proof.
  run. split; [look|]. run. look.
Qed.

(** An [ask] waits for the actor it is sent to, also if it first waits for room, until its message
    is done with there or the actor's mailbox is dropped; else only a timeout or a kill of the
    asking actor ends it. *)
Theorem C70_ask_served : forall w a b w0 es w', reached w -> step w (Ask a b) = Some w0 -> does (w b) <> Gone -> exec w0 es = Some w' ->
  target w' a = Some b \/ In (GiveUp a) es \/ In (Kill a) es \/ exists w1 e w2, happens w0 es w1 e w2 /\ answers w1 e b a.
Proof. exact ask_served. Qed.
Print Assumptions C70_ask_served.

Example C70_ask_served_ex : after (small 1) [Tell 0 1; Ask 0 1] (fun w =>
  waits (w 0) = Some (ForRoom 1) /\
  after w [Finish 1; Take 1; Finish 1] (fun w' => waits (w' 0) = Some (ForReply 1) /\
  after w' [Take 1] (fun w1 => answers w1 (Finish 1) 1 0 /\ waits (w1 0) = Some (ForReply 1) /\
  after w1 [Finish 1] (fun w2 => waits (w2 0) = None)))).
Proof.
  run. split; [look|]. run. split; [look|]. run. split; [left; split; [look|left; reflexivity]|]. split; [look|]. run. look.
Qed.

(** A [tell] that waits does so for room only, until the actor takes a message and it is its turn,
    or the actor's mailbox is dropped. *)
Theorem C70_tell_served : forall w a b w0 es w', reached w -> step w (Tell a b) = Some w0 -> waits (w0 a) <> None -> exec w0 es = Some w' ->
  waits (w' a) = Some (ForRoom b) \/ In (GiveUp a) es \/ In (Kill a) es \/
  exists w1 e w2, happens w0 es w1 e w2 /\ waits (w2 a) = None /\ (e = Take b \/ e = End_ b).
Proof. exact tell_served. Qed.
Print Assumptions C70_tell_served.

Example C70_tell_served_ex : after (small 1) [Tell 0 1] (fun w => after w [Tell 0 1] (fun w0 =>
  waits (w0 0) = Some (ForRoom 1) /\
  after w0 [Outside 1 true; Finish 1] (fun w1 => waits (w1 0) = Some (ForRoom 1) /\
  after w1 [Take 1] (fun w2 => waits (w2 0) = None)) /\
  after w0 [Leave 1] (fun w1 => waits (w1 0) = Some (ForRoom 1) /\
  after w1 [End_ 1] (fun w2 => waits (w2 0) = None)))).
Proof.
  run. run. split; [look|]. split; run; (split; [look|]); run; look.
Qed.

(** An actor that was neither stopped nor killed and does not wait can be stopped, whatever it does,
    and that ends it. *)
Theorem C70_stops : forall caps sc es w a, exec (fresh caps sc) es = Some w -> waits (w a) = None ->
  ~ In (Leave a) es -> ~ In (Kill a) es -> exists w', exec w [Leave a; End_ a] = Some w' /\ does (w' a) = Gone.
Proof. exact stops. Qed.
Print Assumptions C70_stops.

(** It stops once. *)
Theorem C70_stops_once : forall caps sc es1 es2 w a, exec (fresh caps sc) (es1 ++ Leave a :: es2) = Some w -> step w (Leave a) = None.
Proof. exact stops_once. Qed.
Print Assumptions C70_stops_once.

(** 0 asks 1 and waits; 1, 2 (idle) and 3 (starting) can be stopped, 0 cannot. *)
Example C70_stops_ex : after (small 1) [Finish 1; Finish 2; Ask 0 1; Take 1] (fun w =>
  waits (w 0) = Some (ForReply 1) /\ step w (Leave 0) = None /\ does (w 1) = Busy (Some 0) /\ does (w 2) = Idle /\ does (w 3) = Starting /\
  after w [Leave 1; End_ 1] (fun w' => does (w' 1) = Gone /\ waits (w' 0) = None /\ step w' (Leave 1) = None) /\
  after w [Leave 2; End_ 2] (fun w' => does (w' 2) = Gone) /\ after w [Leave 3; End_ 3] (fun w' => does (w' 3) = Gone)).
Proof.
  run. do 5 (split; [look|]). split; [run; repeat split; look|]. split; run; look.
Qed.

(** What debug builds warn of: an [ask] of an actor to itself, and a [tell] to itself if the mailbox
    is bounded, from code whose task has the actor's id. *)
Theorem C70_warns_iff : forall w e, warns w e = true <->
  exists a, scoped (w a) = true /\ (e = Ask a a \/ (e = Tell a a /\ cap (w a) <> None)).
Proof. exact warns_iff. Qed.
Print Assumptions C70_warns_iff.

Example C70_warns_iff_ex : warns (small 1) (Ask 0 0) = true /\ warns large (Ask 0 0) = true /\
  warns (small 1) (Tell 0 0) = true /\ warns large (Tell 0 0) = false /\ warns (small 1) (Ask 0 1) = false.
Proof. repeat split. Qed.

(** An [ask] that is warned of is a deadlock; a [tell] that is warned of is one exactly if the mailbox is full. *)
Theorem C70_warned : forall w e w', reached w -> step w e = Some w' -> warns w e = true ->
  exists a, (e = Ask a a /\ deadlocked w' a) \/ (e = Tell a a /\ cap (w a) <> None /\ (deadlocked w' a <-> full w a)).
Proof. exact warned. Qed.
Print Assumptions C70_warned.

Example C70_warned_ex : after (small 2) (removelast self_fill) (fun w =>
  warns w (Tell 0 0) = true /\ warns w (Ask 0 0) = true /\
  after w [Tell 0 0] (fun w' => waits (w' 0) = None) /\ after w [Ask 0 0] (fun w' => target w' 0 = Some 0)).
Proof.
  run. split; [look|]. split; [look|]. split; run; look.
Qed.

(** Refuted: every deadlock is warned of. *)
Theorem C70_all_warned_refuted : exists es w, exec (fresh (fun _ => None) (fun _ => true)) es = Some w /\
  unwarned (fresh (fun _ => None) (fun _ => true)) es = true /\ deadlocked w 0 /\ deadlocked w 1.
Proof. exact unwarned_deadlock. Qed.
Print Assumptions C70_all_warned_refuted.

(** Nor in code run by [PreparedActor::run] in a task of one's own. *)
Example C70_all_warned_refuted_ex : unwarned (fresh (fun _ => None) (fun _ => false)) [Ask 0 0] = true /\
  after (fresh (fun _ => None) (fun _ => false)) [Ask 0 0] (fun w => deadlocked w 0).
Proof.
  split; [look|]. run. exists 0. split; [left; reflexivity|on].
Qed.
