(** Property theorems about the handles of actors (C58). A program is any sequence of
    operations on the handles it holds; its history says what each of them returned; the book
    says of every handle ever made its kind, its actor and whether it is still held. *)
From Coq Require Import List Bool Arith Lia.
Import ListNotations.
From Verif Require Import Refs Refs_spec Refs_proofs Refs_examples.

(** ** C58 *)
Theorem C58_usable : forall os s tr, exec st_init os = Some (s, tr) ->
  forall tr1 o r tr2 k, tr = tr1 ++ (o, r) :: tr2 -> about o = Some k ->
  exists d a b p, nth_error (book tr1) k = Some (mk_entry d a true) /\ In (Prepare b, MadeActor a p) tr1.
Proof. exact used. Qed.
Print Assumptions C58_usable.

Theorem C58_available : forall os s tr, exec st_init os = Some (s, tr) ->
  forall o k d a, about o = Some k -> nth_error (book tr) k = Some (mk_entry d a true) ->
  offers d o = true -> exists s' r, exec st_init (os ++ [o]) = Some (s', tr ++ [(o, r)]).
Proof. exact available. Qed.
Print Assumptions C58_available.

Example C58_book_case : option_map snd (exec st_init rf_ops) = Some rf_history /\ book rf_history = rf_book.
Proof. split; vm_compute; reflexivity. Qed.

Theorem C58_acts : forall os s tr, exec st_init os = Some (s, tr) ->
  forall tr1 o r tr2 k d a b p x, tr = tr1 ++ (o, r) :: tr2 -> about o = Some k ->
  nth_error (book tr1) k = Some (mk_entry d a b) -> In (x, MadeActor a p) tr1 ->
  forall e, acts_on o p = Some e -> r = Did e.
Proof. exact acts. Qed.
Print Assumptions C58_acts.

Theorem C58_apart : forall os s tr, exec st_init os = Some (s, tr) ->
  forall o o' a a' p p', In (o, MadeActor a p) tr -> In (o', MadeActor a' p') tr -> a <> a' ->
  forall x, In x (parts_list p) -> ~ In x (parts_list p').
Proof. exact apart. Qed.
Print Assumptions C58_apart.

Theorem C58_strong_count : forall os s tr, exec st_init os = Some (s, tr) ->
  forall tr1 k r tr2 d a b, tr = tr1 ++ (StrongCount k, r) :: tr2 ->
  nth_error (book tr1) k = Some (mk_entry d a b) -> r = Did (SaysCount (strong_held (book tr1) a)).
Proof. exact strong_count. Qed.
Print Assumptions C58_strong_count.

Theorem C58_weak_count : forall os s tr, exec st_init os = Some (s, tr) ->
  forall tr1 k r tr2 d a b, tr = tr1 ++ (WeakCount k, r) :: tr2 ->
  nth_error (book tr1) k = Some (mk_entry d a b) -> r = Did (SaysCount (weak_held (book tr1) a)).
Proof. exact weak_count. Qed.
Print Assumptions C58_weak_count.

Theorem C58_upgrade : forall os s tr, exec st_init os = Some (s, tr) ->
  forall tr1 k r tr2 d a b, tr = tr1 ++ (Upgrade k, r) :: tr2 ->
  nth_error (book tr1) k = Some (mk_entry d a b) ->
  r = (if strong_held (book tr1) a =? 0 then NotUpgraded else Made (length (book tr1))).
Proof. exact upgrade. Qed.
Print Assumptions C58_upgrade.

Theorem C58_same_channel : forall os s tr, exec st_init os = Some (s, tr) ->
  forall tr1 k j r tr2 d d' a a' b b', tr = tr1 ++ (SameChannel k j, r) :: tr2 ->
  nth_error (book tr1) k = Some (mk_entry d a b) -> nth_error (book tr1) j = Some (mk_entry d' a' b') ->
  r = Did (SaysBool (a =? a')).
Proof. exact same_channel_is. Qed.
Print Assumptions C58_same_channel.

(** Two live references or mailbox senders can be compared. *)
Theorem C58_compare : forall os s tr, exec st_init os = Some (s, tr) ->
  forall k j d d' a a', nth_error (book tr) k = Some (mk_entry d a true) ->
  nth_error (book tr) j = Some (mk_entry d' a' true) -> has_sender d -> has_sender d' ->
  exists s', exec st_init (os ++ [SameChannel k j]) = Some (s', tr ++ [(SameChannel k j, Did (SaysBool (a =? a')))]).
Proof. exact comparable. Qed.
Print Assumptions C58_compare.

Example C58_compare_case : exists s tr, exec st_init [Prepare true; Prepare false; TakeSender 1] = Some (s, tr)
  /\ book tr = [mk_entry KRef 0 true; mk_entry KRef 1 true; mk_entry KSender 1 true]
  /\ (exists s', exec st_init ([Prepare true; Prepare false; TakeSender 1] ++ [SameChannel 2 1])
                 = Some (s', tr ++ [(SameChannel 2 1, Did (SaysBool true))]))
  /\ (exists s', exec st_init ([Prepare true; Prepare false; TakeSender 1] ++ [SameChannel 0 2])
                 = Some (s', tr ++ [(SameChannel 0 2, Did (SaysBool false))])).
Proof.
  eexists _, _. split; [vm_compute; reflexivity|]. split; [vm_compute; reflexivity|].
  split; eexists; vm_compute; reflexivity.
Qed.

(** The context, the handler's reference and the sender count as strong, the weak reference and
    the link as weak; the reference taken in a handler kills the first actor and waits for its
    end; the weak reference can be upgraded. *)
Example C58_use_case : option_map snd (exec st_init rf_use) = Some (rf_history ++
  [(StrongCount 2, Did (SaysCount 3)); (WeakCount 7, Did (SaysCount 2)); (Kill 7, Did (Aborts 2));
   (ShutdownResult 7, Did (AwaitsClosedReads 1 6)); (Upgrade 2, Made 10); (SameChannel 9 7, Did (SaysBool true));
   (SameChannel 9 3, Did (SaysBool false))]).
Proof. vm_compute. reflexivity. Qed.

(** With nothing strong left neither of them can. *)
Example C58_end_case : option_map snd (exec st_init rf_end) = Some (rf_history ++
  [(DropIt 6, Dropped); (DropIt 7, Dropped); (DropIt 9, Dropped); (Upgrade 2, NotUpgraded); (Upgrade 8, NotUpgraded)]).
Proof. vm_compute. reflexivity. Qed.

Theorem C58_recipient_downgrade : forall os s tr, exec st_init os = Some (s, tr) ->
  forall tr1 k r tr2 a b, tr = tr1 ++ (Downgrade k, r) :: tr2 ->
  nth_error (book tr1) k = Some (mk_entry KRecipient a b) -> r = Panics.
Proof. exact recipient_downgrade. Qed.
Print Assumptions C58_recipient_downgrade.

Example C58_recipient_case : option_map snd (exec st_init [Prepare true; ToRecipient 0; Downgrade 1])
  = Some [(Prepare true, MadeActor 0 rf_parts); (ToRecipient 0, Made 1); (Downgrade 1, Panics)].
Proof. vm_compute. reflexivity. Qed.

(** [strong_count] is not the number of [ActorRef] and [Recipient] handles (a message in the
    mailbox counts), [weak_count] not that of [WeakActorRef] handles (a link counts). *)
Theorem C58_strong_count_refuted : ~ (forall os s tr, exec st_init os = Some (s, tr) ->
  forall tr1 k n tr2 d a b, tr = tr1 ++ (StrongCount k, Did (SaysCount n)) :: tr2 ->
  nth_error (book tr1) k = Some (mk_entry d a b) ->
  n = kind_held (fun d => match d with KRef | KRecipient => true | _ => false end) (book tr1) a).
Proof. exact strong_count_refuted. Qed.
Print Assumptions C58_strong_count_refuted.

Theorem C58_weak_count_refuted : ~ (forall os s tr, exec st_init os = Some (s, tr) ->
  forall tr1 k n tr2 d a b, tr = tr1 ++ (WeakCount k, Did (SaysCount n)) :: tr2 ->
  nth_error (book tr1) k = Some (mk_entry d a b) ->
  n = kind_held (fun d => match d with KWeak | KWeakRecipient => true | _ => false end) (book tr1) a).
Proof. exact weak_count_refuted. Qed.
Print Assumptions C58_weak_count_refuted.
