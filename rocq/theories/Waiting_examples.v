(** Runs of actors that wait for each other. *)
From Coq Require Import List Bool PeanoNat.
From Verif Require Import Waiting Waiting_spec.
Import ListNotations.

(** Actors with mailboxes of [n] places whose tasks know the actor's id. *)
Definition small (n : nat) : world := fresh (fun _ => Some n) (fun _ => true).
Definition large : world := fresh (fun _ => None) (fun _ => true).

(** [P] holds after the run. *)
Definition after (w : world) (es : list event) (P : world -> Prop) : Prop :=
  match exec w es with Some w' => P w' | None => False end.

Definition live (w : world) (es : list event) : bool := match exec w es with Some _ => true | None => false end.
Definition final (w : world) (es : list event) : world := match exec w es with Some w' => w' | None => w end.

Lemma after_final : forall w es (P : world -> Prop), live w es = true -> P (final w es) -> after w es P.
Proof. unfold live, final, after. intros w es P. destruct (exec w es); [auto|discriminate]. Qed.

Lemma after_reached : forall n es w, n <> 0 -> exec (small n) es = Some w -> reached w.
Proof. intros n es w Hn H. exists (fun _ => Some n), (fun _ => true), es. split; [intros _; congruence|exact H]. Qed.

(** Handlers of the actors 0 and 1 ask the other actor; [on_start] of actor 2 asks actor 0. *)
Definition ring : list event :=
  [Finish 0; Finish 1; Outside 0 true; Outside 1 true; Take 0; Take 1; Ask 0 1; Ask 2 0; Ask 1 0].

(** Messages to them, a kill of actor 2 in its [on_start], the end of another actor. *)
Definition ring_more : list event := [Outside 0 true; Kill 2; Outside 1 false; Leave 3; Kill 2; End_ 3].

(** [on_start] of an actor asks the actor itself, and it is killed. *)
Definition start_self : list event := [Ask 0 0].
Definition start_more : list event := [Kill 0; Outside 0 true; Kill 0].

(** Actor 2 waits for 1, 1 waits for 0. *)
Definition chain : list event := [Ask 2 1; Ask 1 0].
Definition chain_more : list event := [Finish 0; Take 0; Finish 0; Finish 1; Take 1; Finish 1].

(** The handler of actor 0 fills its own mailbox of two places. *)
Definition self_fill : list event := [Finish 0; Outside 0 true; Take 0; Tell 0 0; Tell 0 0].

Ltac run := apply after_final; [vm_compute; reflexivity|].
Ltac on := first [apply waits_direct; vm_compute; reflexivity | eapply waits_through; [vm_compute; reflexivity|on]].
Ltac look := vm_compute; repeat split; try discriminate; try reflexivity.
