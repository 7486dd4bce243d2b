(** A mailbox two senders see differently (C66). *)
From Coq Require Import List Bool PeanoNat.
From Verif Require Import Mailbox Mailbox_spec Mailbox_examples MailboxView_spec.
From Verif Require Errors Requests.
Import ListNotations.

(** Signals by number. *)
Definition written (s : signal) : Requests.gsignal (fun _ => unit) :=
  match s with
  | Stop => Requests.GStop
  | StartupFinished => Requests.GOther 0
  | LinkDied n => Requests.GOther (S n)
  | Message n => Requests.GMsg (existT _ (Dyn.TUser 0) tt) (Some n) false
  end.

(** One place, taken; a send waits for it; the signal in it is taken out. *)
Definition handed_over : calls :=
  [(OClone, RDone); (OClone, RDone); (OSend 1 (Message 10), RDone); (OSend 2 Stop, RPending);
   (ORecv, RGot (Message 10))].
Definition handed_box : mailbox :=
  mkMailbox (SBounded 1 0 false [mkWait 2 Stop true]) [] 3 3 0 true false.

Lemma handed_used : used (Bounded 1) handed_over handed_box.
Proof.
  change handed_over with ([] ++ handed_over).
  apply (play_used (map fst handed_over) _ _ (mkMailbox (SBounded 1 1 false []) [] 1 1 0 true false));
    [now apply used_new|reflexivity].
Qed.
