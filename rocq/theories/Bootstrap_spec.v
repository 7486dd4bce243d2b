(** Vocabulary of the property of bootstrapping (C64). *)
From Coq Require Import List Bool.
From Verif Require Import Bootstrap.
Import ListNotations.

(** The calls made, in order: function and peer id. *)
Definition entered (es : list event) : list (method * nat) :=
  flat_map (fun e => match e with Enter m peer => [(m, peer)] | _ => [] end) es.

(** The call got the process its swarm. *)
Definition wins (r : outcome) (s : swarm) : Prop := r = Started s \/ r = Handed s.

(** The observation shows swarm [s]. *)
Inductive shows : obs -> swarm -> Prop :=
| sh_get : forall s, shows (OGet (Some s)) s
| sh_started : forall i s, shows (OEnd i (Started s)) s
| sh_handed : forall i s, shows (OEnd i (Handed s)) s
| sh_already : forall i s own, shows (OEnd i (Already s own)) s.

(** The observation shows that there is no swarm. *)
Inductive shows_none : obs -> Prop :=
| sn_get : shows_none (OGet None)
| sn_send : forall c, shows_none (ONone c).

(** What each function may return. *)
Inductive may_end : method -> outcome -> Prop :=
| me_started : forall m s, m <> Manual -> may_end m (Started s)
| me_panicked : forall m, m <> Manual -> may_end m Panicked
| me_already : forall m s, m <> Manual -> may_end m (Already s true)
| me_checked : forall m s, m = Identity \/ m = Behaviour -> may_end m (Already s false)
| me_behaviour : forall m, m = Identity \/ m = Behaviour -> may_end m NoBehaviour
| me_handed : forall s, may_end Manual (Handed s)
| me_refused : may_end Manual Refused.

(** The commands accepted, taken by the handler, and lost with it, in order. *)
Definition accepted (h : list obs) : list nat :=
  flat_map (fun o => match o with OAccepted c => [c] | _ => [] end) h.
Definition taken (h : list obs) : list nat :=
  flat_map (fun o => match o with OTaken c => [c] | _ => [] end) h.
Definition lost (h : list obs) : list nat :=
  flat_map (fun o => match o with OLost c => [c] | _ => [] end) h.

(** The observation shows that the handler is gone. *)
Inductive shows_gone : obs -> Prop :=
| sg_send : forall c, shows_gone (OSendPanic c)
| sg_lost : forall c, shows_gone (OLost c)
| sg_panic : forall i, shows_gone (OEnd i Panicked).

(** The observation shows a handler at work, or a new swarm. *)
Inductive shows_alive : obs -> Prop :=
| sa_accepted : forall c, shows_alive (OAccepted c)
| sa_taken : forall c, shows_alive (OTaken c)
| sa_wins : forall i r s, wins r s -> shows_alive (OEnd i r).

(** How often call [i] ended. *)
Definition ends (h : list obs) (i : nat) : nat :=
  length (filter (fun o => match o with OEnd j _ => Nat.eqb i j | _ => false end) h).
