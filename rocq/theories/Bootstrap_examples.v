(** Example runs of bootstrapping. *)
From Coq Require Import List.
From Verif Require Import Bootstrap Bootstrap_spec.
Import ListNotations.

(** Three calls race: the second inserts its swarm between the first's check and its
    insertion; the third comes later. A command is sent before there is a swarm, two
    after; the handler takes the first of them and is dropped. *)
Definition race : list event :=
  [Enter Identity 7; Enter Given 8; Get; Send 1; Go 0 true; Go 0 true; Go 1 true; Get; Go 0 true; Go 0 true;
   Send 2; Go 1 true; Send 3; Take; Enter Manual 9; Go 2 true; Lose; Send 4; Get].

(** The second call's swarm. *)
Definition s8 : swarm := mk_swarm 1 8.

Definition race_h1 : list obs := [OGet None; ONone 1; OGet (Some s8); OEnd 0 (Already s8 true); OAccepted 2;
  OEnd 1 (Started s8); OAccepted 3; OTaken 2; OEnd 2 Refused].
Definition race_h2 : list obs := [OSendPanic 4; OGet (Some s8)].

Example race_runs : exists p, exec boot race = Some (p, race_h1 ++ OLost 3 :: race_h2).
Proof. eexists. vm_compute. reflexivity. Qed.

(** Two calls have been made, neither has inserted its swarm. *)
Definition racing : list event := [Enter Identity 7; Enter Given 8; Go 0 true; Go 0 true].
