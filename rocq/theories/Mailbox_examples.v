(** Runs of mailboxes used as concrete cases (C66). *)
From Coq Require Import List Bool PeanoNat.
From Verif Require Import Mailbox Mailbox_spec Mailbox_proofs.
Import ListNotations.

(** src/mailbox.rs 27-428: the calls one after the other, with their results. *)
Fixpoint play (m : mailbox) (os : list op) : option (calls * mailbox) :=
  match os with
  | [] => Some ([], m)
  | o :: os =>
      match step o m with
      | None => None
      | Some (r, m) => match play m os with None => None | Some (h, m) => Some ((o, r) :: h, m) end
      end
  end.

Lemma play_used : forall os k h m h' m', used k h m -> play m os = Some (h', m') -> used k (h ++ h') m'.
Proof.
  induction os as [|o os IH]; intros k h m h' m' U P; cbn in P.
  - injection P as <- <-. now rewrite app_nil_r.
  - destruct (step o m) as [[r m1]|] eqn:T; [|discriminate].
    destruct (play m1 os) as [[h1 m2]|] eqn:Q; [|discriminate]. injection P as <- <-.
    replace (h ++ (o, r) :: h1) with ((h ++ [(o, r)]) ++ h1) by now rewrite <- app_assoc.
    apply (IH k _ m1); [|exact Q]. now apply (used_step _ _ m).
Qed.

(** src/mailbox.rs 27-40: from a new mailbox. *)
Definition plays (k : kind) (os : list op) : option calls :=
  match create k with
  | None => None
  | Some m => option_map fst (play m os)
  end.

Lemma plays_possible : forall k os h, plays k os = Some h -> possible k h.
Proof.
  intros k os h P. unfold plays in P. destruct (create k) as [m|] eqn:C; [|discriminate].
  destruct (play m os) as [[h' m']|] eqn:Q; [|discriminate]. cbn in P. injection P as <-.
  exists m'. apply (play_used os k [] m); [now apply used_new|exact Q].
Qed.

(** A mailbox of two: three sends, the third waits; a signal is taken, the third enters. *)
Definition busy : calls :=
  [(OClone, RDone); (OClone, RDone); (OClone, RDone);
   (OSend 0 (Message 10), RDone); (OSend 1 Stop, RDone); (OSend 2 (Message 12), RPending);
   (OPoll 2, RPending); (OTrySend StartupFinished, RFull StartupFinished);
   (ORecv, RGot (Message 10)); (OStrongCount HReceiver, RCount 4);
   (OTrySend StartupFinished, RFull StartupFinished); (OPoll 2, RDone);
   (ORecvMany 5, RMany [Stop; Message 12]); (ORecv, RPending)].
Lemma busy_possible : possible (Bounded 2) busy.
Proof. apply (plays_possible _ (map fst busy)). reflexivity. Qed.

(** One that is closed with a signal in it, a send that had a place and one that had none. *)
Definition shutting : calls :=
  [(OClone, RDone); (OClone, RDone); (OClone, RDone);
   (OSend 0 (Message 10), RDone); (OSend 1 (Message 11), RPending); (OSend 2 Stop, RPending);
   (ORecv, RGot (Message 10)); (OClose, RDone); (OSenderIsClosed, RBool true);
   (ORecv, RPending); (OSend 3 Stop, RRefused Stop); (OPoll 2, RRefused Stop); (ORecv, RPending);
   (OPoll 1, RRefused (Message 11)); (ORecv, ROver); (OTryRecv true, ROver); (OTryRecv false, REmpty);
   (OTrySend Stop, RRefused Stop); (ORecv, ROver)].
Lemma shutting_possible : possible (Bounded 1) shutting.
Proof. apply (plays_possible _ (map fst shutting)). reflexivity. Qed.

(** The senders are dropped: what is queued is still received; a queued message is a sender. *)
Definition leaving : calls :=
  [(OClone, RDone); (ODowngrade, RDone); (OSend 0 (Message 10), RDone); (OSend 1 (LinkDied 4), RDone);
   (ODrop, RDone); (OStrongCount HWeak, RCount 1); (OReceiverIsClosed, RBool false);
   (OUpgrade, RDone); (ODrop, RDone);
   (ORecv, RGot (Message 10)); (ODrop, RDone); (OUpgrade, ROver); (OReceiverIsClosed, RBool true);
   (OIsEmpty, RBool false); (OLen, RCount 1); (OTryRecv false, RGot (LinkDied 4)); (ORecv, ROver);
   (OWeakCount HWeak, RCount 1); (ODropReceiver, RDropped [])].
Lemma leaving_possible : possible (Bounded 2) leaving.
Proof. apply (plays_possible _ (map fst leaving)). reflexivity. Qed.
Lemma leaving_unbounded : possible Unbounded leaving.
Proof. apply (plays_possible _ (map fst leaving)). reflexivity. Qed.

(** The receiver goes with signals in the mailbox. *)
Definition abandoned : calls :=
  [(OClone, RDone); (OClone, RDone); (OSend 0 (Message 10), RDone); (OSend 1 Stop, RDone);
   (OSend 2 (Message 12), RPending); (OStrongCount HSender, RCount 3);
   (ODropReceiver, RDropped [Message 10; Stop]);
   (OStrongCount HSender, RCount 2); (OCancel 2, RDone); (OStrongCount HSender, RCount 1);
   (OPollClosed, RDone); (OTrySend StartupFinished, RRefused StartupFinished)].
Lemma abandoned_possible : possible (Bounded 2) abandoned.
Proof. apply (plays_possible _ (map fst abandoned)). reflexivity. Qed.

(** A send that waited enters after one that began later. *)
Definition overtaken : calls :=
  [(OSend 0 Stop, RDone); (OSend 1 Stop, RDone); (OSend 2 (LinkDied 1), RPending);
   (ORecv, RGot Stop); (ORecv, RGot Stop); (OSend 3 (LinkDied 2), RDone); (OPoll 2, RDone);
   (ORecv, RGot (LinkDied 2)); (ORecv, RGot (LinkDied 1))].
Lemma overtaken_possible : possible (Bounded 2) overtaken.
Proof. apply (plays_possible _ (map fst overtaken)). reflexivity. Qed.

(** A mailbox that is closed and empty, on which [recv] is not ready. *)
Definition unfinished : calls :=
  [(OSend 0 Stop, RDone); (OSend 1 Stop, RPending); (ORecv, RGot Stop); (OClose, RDone); (ORecv, RPending)].
Lemma unfinished_possible : possible (Bounded 1) unfinished.
Proof. apply (plays_possible _ (map fst unfinished)). reflexivity. Qed.

Lemma closed_empty_refuted : ~ forall k h r, possible k (h ++ [(ORecv, r)]) ->
  shut (seen k h) = true -> unread (seen k h) = [] -> r = ROver.
Proof.
  intros F.
  specialize (F (Bounded 1) [(OSend 0 Stop, RDone); (OSend 1 Stop, RPending); (ORecv, RGot Stop); (OClose, RDone)]
    RPending unfinished_possible eq_refl eq_refl). discriminate.
Qed.

Lemma in_turn_refuted : ~ forall k h1 i s h2 j t h3, possible k (h1 ++ (OSend i s, RPending) :: h2 ++ (OSend j t, RDone) :: h3) ->
  ~ In (OCancel i, RDone) h2 -> In (OPoll i, RDone) h2.
Proof.
  intros F.
  specialize (F (Bounded 2) [(OSend 0 Stop, RDone); (OSend 1 Stop, RDone)] 2 (LinkDied 1)
    [(ORecv, RGot Stop); (ORecv, RGot Stop)] 3 (LinkDied 2)
    [(OPoll 2, RDone); (ORecv, RGot (LinkDied 2)); (ORecv, RGot (LinkDied 1))] overtaken_possible).
  assert (N : ~ In (OCancel 2, RDone) [(ORecv, RGot Stop); (ORecv, RGot Stop)]).
  { intros [E|[E|E]]; [discriminate|discriminate|contradiction]. }
  destruct (F N) as [E|[E|E]]; [discriminate|discriminate|contradiction].
Qed.
