(** Concrete runs used beside the theorems of P_RemoteRefs. *)
From Coq Require Import List Bool PeanoNat.
Import ListNotations.
From Verif Require Import Lifecycle Lifecycle_spec Lifecycle_examples RemoteRefs RemoteRefs_spec.

(** [P] holds of the final state and trace of the run [es], which is possible. *)
Definition wruns (c : config) (es : list RemoteRefs.event) (P : world -> list RemoteRefs.obs -> Prop) : Prop :=
  match wexec (winit c) es with Some (w, t) => P w t | None => False end.

(** link_remote without a swarm: it fails, then the caller drops the last reference. *)
Definition ex_failed_link : list RemoteRefs.event :=
  map Life started ++ [Call Link 7 false; Poll 0 NoSwarm Done; Poll 0 NoSwarm Done; Poll 0 NoSwarm Done;
                       Life EDrop].

(** link_remote, answered, unlink_remote, answered, last reference dropped. *)
Definition ex_link_unlink : list RemoteRefs.event :=
  map Life started ++
  [Call Link 7 false; Poll 0 Running Done; Poll 0 Running Done; Poll 0 Running Done; Poll 0 Running Done;
   Call Unlink 7 false; Poll 1 Running Done; Poll 1 Running Done; Poll 1 Running (Refused 3); Life EDrop].

(** Afterwards somebody finds the actor in the table and stops it. *)
Definition ex_found_and_stopped : list RemoteRefs.event :=
  map Life ([EAcquire; EStop; ARecv] ++ finish).

(** A link_remote after the actor has ended. *)
Definition ex_late : list RemoteRefs.event :=
  map Life (started ++ [EStop; ARecv] ++ finish)
  ++ [Call Link 7 false; Poll 0 Running Done; Drop 0; Life EDrop].
