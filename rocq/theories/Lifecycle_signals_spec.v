(** Messages and notifications of links together (C01), in terms of what is seen of a run. *)
From Coq Require Import List.
Import ListNotations.
From Verif Require Import Lifecycle Lifecycle_spec.

(** Signals that call code of the actor: a message its handler, the death of a linked actor
    [on_link_died]. *)
Definition calls_code (sg : signal) : bool :=
  match sg with SMsg _ | SLinkDied _ _ => true | SStartup | SStop => false end.

(** Those accepted, in order. *)
Definition entered (tr : list obs) : list signal := filter calls_code (accepted_signals tr).

(** Those for which the handler or [on_link_died] was called, in order. *)
Definition begun (tr : list obs) : list signal :=
  flat_map (fun o => match o with
                     | OHandle m => [SMsg m]
                     | OLinkHook id r => [SLinkDied id r]
                     | _ => []
                     end) tr.

(** Notifications of links only. *)
Definition is_note (sg : signal) : bool := match sg with SLinkDied _ _ => true | _ => false end.
