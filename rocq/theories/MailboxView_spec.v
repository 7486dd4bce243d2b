(** What one sender sees of a mailbox (C66), and what it may conclude: the mailbox that the
    models of requests use (Requests.v) against the mailbox with all its handles, waiting sends
    and permits (Mailbox.v). Requests.v lets anything happen to the mailbox between two polls of
    a request, so it is the calls of the request itself that have to agree. *)
From Coq Require Import List Bool PeanoNat.
From Verif Require Mailbox Requests.
Import ListNotations.

(** Permits that tokio has handed to sends other than [i] which have not used them yet. *)
Definition handed (i : nat) (x : Mailbox.semaphore) : nat :=
  length (filter (fun w => Mailbox.w_granted w && negb (Nat.eqb (Mailbox.w_id w) i))
            (Mailbox.waits_of x)).

(** The mailbox as the future [i] sees it; [conv] is how signals are written there. *)
Definition shown (user : nat -> Type) (conv : Mailbox.signal -> Requests.gsignal user)
  (k : Mailbox.kind) (i : nat) (m : Mailbox.mailbox) : Requests.mailbox user :=
  Requests.mk_mailbox
    (match k with Mailbox.Bounded c => Some c | Mailbox.Unbounded => None end)
    (map conv (Mailbox.queue m)) (handed i (Mailbox.sem m))
    (negb (Mailbox.sem_closed (Mailbox.sem m))).

(** The signal a waiting send holds. *)
Definition carried (i : nat) (m : Mailbox.mailbox) (s : Mailbox.signal) : Prop :=
  exists w, In w (Mailbox.waits_of (Mailbox.sem m)) /\ Mailbox.w_id w = i /\ Mailbox.w_signal w = s.

(** What a call on the mailbox returns and leaves, told by what the same call gives on the
    mailbox that is shown. *)
Definition matches (user : nat -> Type) (conv : Mailbox.signal -> Requests.gsignal user)
  (k : Mailbox.kind) (i : nat) (s : Mailbox.signal) (m m' : Mailbox.mailbox) (r : Mailbox.res)
  (p : Requests.poll (Errors.result (Requests.mailbox user) (Requests.chan_error user))) : Prop :=
  match p with
  | Requests.Pending => r = Mailbox.RPending /\
      shown user conv k i m' = shown user conv k i m
  | Requests.Ready (Errors.Ok b) => r = Mailbox.RDone /\ shown user conv k i m' = b
  | Requests.Ready (Errors.Err (Requests.CClosed x)) =>
      r = Mailbox.RRefused s /\ x = conv s /\ shown user conv k i m' = shown user conv k i m
  | Requests.Ready (Errors.Err (Requests.CFull x)) =>
      r = Mailbox.RFull s /\ x = conv s /\ m' = m
  | Requests.Ready (Errors.Err (Requests.CTimeout _)) => False
  end.
