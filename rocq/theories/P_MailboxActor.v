(** Property theorems about the mailbox an actor owns (C66): the one in the model of an actor,
    which the lifecycle properties are about, is a mailbox of the kind the calls are made on. *)
From Coq Require Import List Bool PeanoNat.
From Verif Require Import Lifecycle Lifecycle_spec MailboxActor_spec MailboxActor_proofs MailboxActor_own_proofs
  MailboxActor_examples.
From Verif Require Mailbox.
Import ListNotations.

(** ** C66: whatever others call on the handles of an actor's mailbox - sends that wait, are
    polled again or dropped, and all the rest - is for the actor a number of signals sent,
    references made or dropped and permits taken or returned; the signals that entered are
    those whose sends returned Ok. *)
Theorem C66_calls_of_others : forall s m h o r m',
  Mailbox.used (kind_of (cap s)) h m -> mirrors s m -> by_others s m o ->
  Mailbox.step o m = Some (r, m') ->
  exists es s' tr, exec s es = Some (s', tr) /\ Forall (fun e => outside_event e = true) es
    /\ mirrors s' m' /\ Forall2 same_signal (accepted_signals tr) (put_in m o r)
    /\ ph s' = ph s /\ cap s' = cap s.
Proof. exact simulate_outside. Qed.
Print Assumptions C66_calls_of_others.

(** A send that waited was given the place that got free while the handler runs, and enters
    when it is polled. *)
Example C66_calls_of_others_case : exists tr,
  exec loaded [ARecv; EReserve] = Some (handling, tr) /\
  Mailbox.used (kind_of (cap handling)) (box_calls ++ [(Mailbox.ORecv, Mailbox.RGot (Mailbox.Message 10))]) box_granted /\
  mirrors handling box_granted /\ by_others handling box_granted (Mailbox.OPoll 2) /\
  option_map fst (Mailbox.step (Mailbox.OPoll 2) box_granted) = Some Mailbox.RDone /\
  put_in box_granted (Mailbox.OPoll 2) Mailbox.RDone = [Mailbox.Message 11].
Proof.
  eexists. split; [vm_compute; reflexivity|]. split; [exact granted_used|]. split; [exact granted_mirrors|].
  split; [|split; reflexivity]. cbn. intros w E. injection E as <-. discriminate.
Qed.
Print Assumptions C66_calls_of_others_case.

(** ** C66: each step of the actor is a receive, the startup signal offered without waiting,
    a clone, or drops and at the end the drop of the receiver; what these calls return is what
    the actor goes on with. If a signal was taken and a send waits, the place is handed to it. *)
Theorem C66_calls_of_actor : forall c es s tr m h e s' o, exec (init c) es = Some (s, tr) ->
  Mailbox.used (kind_of (cap s)) h m -> mirrors s m -> outside_event e = false ->
  step s e = Some (s', o) ->
  exists l m' s'', calls m l m' /\ own_calls s e s' l
    /\ (s'' = s' \/ own_kind s e = KTakes /\ step s' EReserve = Some (s'', [])) /\ mirrors s'' m'.
Proof. exact simulate_own_run. Qed.
Print Assumptions C66_calls_of_actor.

(** The message is received and its handler starts; the place goes to the send that waits. *)
Example C66_calls_of_actor_case : (exists tr, exec (init one_place) before_recv = Some (loaded, tr)) /\
  Mailbox.used (kind_of (cap loaded)) box_calls box /\ mirrors loaded box /\
  own_kind loaded ARecv = KTakes /\
  option_map snd (step loaded ARecv) = Some [OHandle (mk_msg 0 false false)].
Proof. exact (conj loaded_runs (conj box_used (conj box_mirrors (conj eq_refl eq_refl)))). Qed.
Print Assumptions C66_calls_of_actor_case.

(** ** C66: the actor waits for its mailbox exactly if a receive is pending. *)
Theorem C66_actor_waits : forall c es s tr m h, exec (init c) es = Some (s, tr) ->
  Mailbox.used (kind_of (cap s)) h m -> mirrors s m ->
  ph s = PLoop LRecv -> polling s = true ->
  (step s ARecv = None <-> Mailbox.step Mailbox.ORecv m = Some (Mailbox.RPending, m)).
Proof. exact simulate_pending_run. Qed.
Print Assumptions C66_actor_waits.

Example C66_actor_waits_case : ph loaded = PLoop LRecv /\ polling loaded = true /\
  Mailbox.used (kind_of (cap loaded)) box_calls box /\ mirrors loaded box /\ step loaded ARecv <> None.
Proof. exact (conj eq_refl (conj eq_refl (conj box_used (conj box_mirrors loaded_recv)))). Qed.
Print Assumptions C66_actor_waits_case.

(** ** C66: an actor starts with such a mailbox, made with its capacity and cloned for each
    reference there is. *)
Theorem C66_actor_starts : forall c, c_cap c <> Some 0 ->
  exists m l m', Mailbox.create (kind_of (c_cap c)) = Some m /\ calls m l m' /\ only_clones l
    /\ mirrors (init c) m'.
Proof. exact simulate_init. Qed.
Print Assumptions C66_actor_starts.

Example C66_actor_starts_case : c_cap one_place <> Some 0 /\ strong (init one_place) = 4.
Proof. split; [discriminate|reflexivity]. Qed.
Print Assumptions C66_actor_starts_case.
