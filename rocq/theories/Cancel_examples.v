(** Runs of actors whose task is dropped. *)
From Coq Require Import List Bool PeanoNat.
Import ListNotations.
From Verif Require Import Lifecycle Lifecycle_spec Lifecycle_room_spec Cancel Cancel_spec Cancel_proofs.

(** A mailbox of four places, a spawned task, one reference. *)
Definition ca_conf : config := mk_config (Some 4) true false 1.

Definition ca_run (es : list event) : actor * list obs :=
  match exec (init ca_conf) es with Some r => r | None => (init ca_conf, []) end.
Definition ca_drop (s : actor) : actor * list obs :=
  match drop_task s with Some r => r | None => (s, []) end.

(** Everything about a run with a drop, if both go through. *)
Definition ca_all (es1 es2 : list event) (P : actor -> list obs -> actor -> list obs -> actor -> list obs -> Prop) : Prop :=
  match exec (init ca_conf) es1 with
  | Some (s1, t1) =>
      match drop_task s1 with
      | Some (s2, t2) => match exec s2 es2 with Some (s3, t3) => P s1 t1 s2 t2 s3 t3 | None => False end
      | None => False
      end
  | None => False
  end.

Definition ca_started : list event := [AStart; AStartDone HookOk; ASetStartup; ASignal; ADowngrade].

(** Registered, linked, and dropped while a handler runs for the first of two requests. *)
Definition ca_busy : list event :=
  ERegister :: ELink 7 :: ca_started ++ [APoll; ARecv; ESend false true; ESend false true; ARecv; AYield].

(** The reply sender of the first request was handed to another task before. *)
Definition ca_lent : list event :=
  ca_started ++ [APoll; ARecv; ESend false true; ESend false true; ARecv; ATakeReply; AYield].

(** Dropped while the second of two linked actors is being told. *)
Definition ca_telling : list event :=
  ELink 7 :: ELink 8 :: ca_started ++ [APoll; ARecv; EStop; ARecv; ADrainLinks; AStopDone HookOk; ANotify 7 true].

(** Dropped in [on_stop]. *)
Definition ca_stopping : list event := ELink 7 :: ca_started ++ [APoll; ARecv; EStop; ARecv; ADrainLinks].

Definition ca_stop1 : actor * list obs := Eval vm_compute in ca_run ca_stopping.
Definition ca_stop2 : actor * list obs := Eval vm_compute in ca_drop (fst ca_stop1).
Lemma ca_stop1_is : exec (init ca_conf) ca_stopping = Some (fst ca_stop1, snd ca_stop1).
Proof. vm_compute. reflexivity. Qed.
Lemma ca_stop2_is : drop_task (fst ca_stop1) = Some (fst ca_stop2, snd ca_stop2).
Proof. vm_compute. reflexivity. Qed.
Lemma ca_not_ended : forall res, ~ In (OStopHookEnd res) (snd ca_stop1).
Proof. intros res. cbn. intuition discriminate. Qed.

Lemma untold_for_ever : exists c es1 s1 t1 s2 t2,
  exec (init c) es1 = Some (s1, t1) /\ drop_task s1 = Some (s2, t2) /\ In (ELink 7) es1
  /\ In (OStartEnd HookOk) t1 /\ In (OStopHook Normal) t1
  /\ forall es2 s3 t3 r d, exec s2 es2 = Some (s3, t3) -> ~ In (ONotify 7 r d) (t1 ++ t2 ++ t3).
Proof.
  exists ca_conf, ca_stopping, (fst ca_stop1), (snd ca_stop1), (fst ca_stop2), (snd ca_stop2).
  split; [exact ca_stop1_is|]. split; [exact ca_stop2_is|].
  split; [left; reflexivity|]. split; [cbn; tauto|]. split; [cbn; tauto|].
  intros es2 s3 t3 r d E3 I.
  destruct (dropped_told _ _ _ _ _ _ _ _ _ (Build_dropped _ _ _ _ _ _ _ _ _ ca_stop1_is ca_stop2_is E3) _ _ _ I) as (_ & res & J).
  exact (ca_not_ended _ J).
Qed.

(** [on_start] has succeeded, its end is in the mailbox and not read. *)
Definition ca_begun1 : actor * list obs := Eval vm_compute in ca_run ca_started.
Definition ca_begun2 : actor * list obs := Eval vm_compute in ca_drop (fst ca_begun1).
Lemma ca_begun1_is : exec (init ca_conf) ca_started = Some (fst ca_begun1, snd ca_begun1).
Proof. vm_compute. reflexivity. Qed.
Lemma ca_begun2_is : drop_task (fst ca_begun1) = Some (fst ca_begun2, snd ca_begun2).
Proof. vm_compute. reflexivity. Qed.
Lemma ca_unread : 0 < ext (fst ca_begun1) /\ ~ can_happen (fst ca_begun1) EWaitStartup.
Proof. split; [cbn; apply le_S, le_n|]. intros (s & o & S). discriminate S. Qed.

Lemma unstarted_for_ever : exists c es1 s1 t1 s2 t2,
  exec (init c) es1 = Some (s1, t1) /\ drop_task s1 = Some (s2, t2) /\ In (OStartEnd HookOk) t1 /\ 0 < ext s1
  /\ forall es2 s3 t3 v, exec s2 es2 = Some (s3, t3) -> ~ In (OSawStartup v) t3.
Proof.
  destruct ca_unread as (X & N).
  exists ca_conf, ca_started, (fst ca_begun1), (snd ca_begun1), (fst ca_begun2), (snd ca_begun2).
  split; [exact ca_begun1_is|]. split; [exact ca_begun2_is|]. split; [cbn; tauto|]. split; [exact X|]. intros es2 s3 t3 v E3.
  exact (dropped_unstarted _ _ _ _ _ _ _ _ _ (Build_dropped _ _ _ _ _ _ _ _ _ ca_begun1_is ca_begun2_is E3) X N v).
Qed.
