(** A bounded mailbox with a send that waits, and the actor that owns it (C66). *)
From Coq Require Import List Bool PeanoNat Lia.
Import ListNotations.
From Verif Require Import Lifecycle Lifecycle_spec Lifecycle_proofs MailboxActor_spec MailboxActor_proofs MailboxActor_own_proofs.
From Verif Require Mailbox Mailbox_examples.

(** Three references outside, room for one signal. *)
Definition one_place : config := mk_config (Some 1) true false 3.

(** A message enters, the actor starts and finds no room for the startup signal. *)
Definition before_recv : list event :=
  [ESend false false; EDrop; AStart; AStartDone HookOk; ASetStartup; ASignal; ADowngrade; APoll; ARecv].
Definition loaded : actor := Eval vm_compute in
  match exec (init one_place) before_recv with Some (s, _) => s | None => init one_place end.
(** As calls on the mailbox, and a second message that waits. *)
Definition box_calls : list (Mailbox.op * Mailbox.res) :=
  [(Mailbox.OClone, Mailbox.RDone); (Mailbox.OClone, Mailbox.RDone); (Mailbox.OClone, Mailbox.RDone);
   (Mailbox.OSend 1 (Mailbox.Message 10), Mailbox.RDone);
   (Mailbox.OSend 2 (Mailbox.Message 11), Mailbox.RPending);
   (Mailbox.OClone, Mailbox.RDone);
   (Mailbox.OTrySend Mailbox.StartupFinished, Mailbox.RFull Mailbox.StartupFinished);
   (Mailbox.ODrop, Mailbox.RDone)].
Definition box : Mailbox.mailbox :=
  Mailbox.mkMailbox (Mailbox.SBounded 1 0 false [Mailbox.mkWait 2 (Mailbox.Message 11) false])
    [Mailbox.Message 10] 4 2 0 true false.

Lemma loaded_runs : exists tr, exec (init one_place) before_recv = Some (loaded, tr).
Proof. eexists. vm_compute. reflexivity. Qed.

Lemma box_used : Mailbox.used (kind_of (cap loaded)) box_calls box.
Proof.
  change box_calls with ([] ++ box_calls).
  apply (Mailbox_examples.play_used (map fst box_calls) _ _ (Mailbox.mkMailbox (Mailbox.SBounded 1 1 false []) [] 1 1 0 true false));
    [now apply Mailbox.used_new|reflexivity].
Qed.

Lemma box_mirrors : mirrors loaded box.
Proof.
  constructor; try reflexivity.
  - repeat constructor.
  - intros _. vm_compute. lia.
Qed.

(** The message is received: the place goes to the send that waits. *)
Definition handling : actor := Eval vm_compute in
  match exec loaded [ARecv; EReserve] with Some (s, _) => s | None => loaded end.
Definition box_granted : Mailbox.mailbox :=
  Mailbox.mkMailbox (Mailbox.SBounded 1 0 false [Mailbox.mkWait 2 (Mailbox.Message 11) true]) [] 4 3 0 true false.

Lemma granted_used : Mailbox.used (kind_of (cap handling))
  (box_calls ++ [(Mailbox.ORecv, Mailbox.RGot (Mailbox.Message 10))]) box_granted.
Proof. eapply Mailbox.used_step; [exact box_used|reflexivity]. Qed.

Lemma granted_mirrors : mirrors handling box_granted.
Proof.
  constructor; try reflexivity.
  - constructor.
  - intros _. vm_compute. lia.
Qed.

(** There is something to receive. *)
Lemma loaded_recv : step loaded ARecv <> None.
Proof. vm_compute. discriminate. Qed.
