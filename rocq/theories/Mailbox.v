(** Model of the mailbox API: src/mailbox.rs 22-40 (constructors), 45-159 ([MailboxSender]),
    176-233 ([WeakMailboxSender]), 247-428 ([MailboxReceiver]), 441-496 ([Signal], the
    startup signal's [try_send]). An overridden [Actor::next] is given the receiver
    (src/actor.rs 259-265), so all of its methods are public behaviour.

    Every method of mailbox.rs is a match on the kind of the mailbox that calls the method of
    the same name of tokio's bounded or unbounded channel. tokio 1.44 is not part of the
    repository; its two channels are written here after its documentation and source: one
    queue with a reference counted sending side, and a semaphore, which for a bounded channel
    is a fair counting semaphore (permits are given to the sends that wait in the order in
    which they began to) and for an unbounded one a counter of the signals in the queue.

    Simplified: each call is one step (tokio's operations are linearizable); wakers are not
    modelled, a future is polled whenever the environment likes; the number of permits has no
    upper limit; the blocking variants ([blocking_recv], [blocking_recv_many]) are loops of
    the polled ones. Signals are told apart by a number. *)
From Coq Require Import List Bool PeanoNat.
Import ListNotations.

(** src/mailbox.rs 441-454: [Signal]; only [Signal::Message] carries a strong reference. *)
Inductive signal :=
| StartupFinished
| Message (n : nat)
| LinkDied (n : nat)
| Stop.

(** src/mailbox.rs 443-448: the [actor_ref] in a message is one more [MailboxSender]. *)
Definition holds (s : signal) : nat := match s with Message _ => 1 | _ => 0 end.
(** src/mailbox.rs 443-448: the references in several signals. *)
Fixpoint held (l : list signal) : nat :=
  match l with [] => 0 | s :: l => holds s + held l end.

(** src/mailbox.rs 27, 37: the two kinds of mailbox. *)
Inductive kind := Bounded (capacity : nat) | Unbounded.

(** src/mailbox.rs 59-64: a [send] on a bounded mailbox that has been polled and waits for a
    permit: which future, its signal, and whether a permit was assigned to it since. *)
Record wait := mkWait { w_id : nat; w_signal : signal; w_granted : bool }.

(** src/mailbox.rs 28, 38: the semaphore of the channel (tokio's [bounded::Semaphore] and
    [unbounded::Semaphore]). *)
Inductive semaphore :=
| SBounded (bound free : nat) (closed : bool) (waits : list wait)
| SUnbounded (count : nat) (closed : bool).

(** src/mailbox.rs 45-50, 176-181, 247-252: the channel that all handles of a mailbox share.
    [strong] is tokio's count of senders; [loose] are those of them not inside a signal;
    [weak] the weak senders; [receiver] the receiver was not dropped; [rx_closed] is the
    receiver's own flag. *)
Record mailbox := mkMailbox {
  sem : semaphore; queue : list signal; strong : nat; loose : nat; weak : nat;
  receiver : bool; rx_closed : bool }.

(** src/mailbox.rs 27-40: [bounded] and [unbounded]; [None]: tokio panics on capacity 0. *)
Definition create (k : kind) : option mailbox :=
  match k with
  | Bounded 0 => None
  | Bounded n => Some (mkMailbox (SBounded n n false []) [] 1 1 0 true false)
  | Unbounded => Some (mkMailbox (SUnbounded 0 false) [] 1 1 0 true false)
  end.

(** src/mailbox.rs 87-92: tokio's [is_closed] of the semaphore. *)
Definition sem_closed (x : semaphore) : bool :=
  match x with SBounded _ _ c _ => c | SUnbounded _ c => c end.
(** src/mailbox.rs 263-264: tokio's [is_idle] of the semaphore. *)
Definition sem_idle (x : semaphore) : bool :=
  match x with SBounded b f _ _ => Nat.eqb f b | SUnbounded n _ => Nat.eqb n 0 end.
(** src/mailbox.rs 328-329: tokio's [close] of the semaphore; on a bounded one it also takes
    all sends without a permit out of the line. *)
Definition sem_close (x : semaphore) : semaphore :=
  match x with SBounded b f _ ws => SBounded b f true ws | SUnbounded n _ => SUnbounded n true end.

(** src/mailbox.rs 61: assign a permit to the first send in line; [None]: nobody waits. *)
Fixpoint grant (ws : list wait) : option (list wait) :=
  match ws with
  | [] => None
  | w :: ws' =>
      if w_granted w then option_map (cons w) (grant ws')
      else Some (mkWait (w_id w) (w_signal w) true :: ws')
  end.
(** src/mailbox.rs 263-264: tokio's [add_permit]. *)
Definition add_permit (x : semaphore) : semaphore :=
  match x with
  | SBounded b f c ws =>
      if c then SBounded b (S f) c ws
      else match grant ws with Some ws' => SBounded b f c ws' | None => SBounded b (S f) c ws end
  | SUnbounded n c => SUnbounded (pred n) c
  end.
(** src/mailbox.rs 276-277: tokio's [add_permits]. *)
Fixpoint add_permits (n : nat) (x : semaphore) : semaphore :=
  match n with 0 => x | S n => add_permits n (add_permit x) end.

(** src/mailbox.rs 61: the waiting send [i]. *)
Definition find_wait (i : nat) (ws : list wait) : option wait :=
  find (fun w => Nat.eqb (w_id w) i) ws.
(** src/mailbox.rs 61: it is over. *)
Definition drop_wait (i : nat) (ws : list wait) : list wait :=
  filter (fun w => negb (Nat.eqb (w_id w) i)) ws.
(** src/mailbox.rs 61-62: the sends that wait. *)
Definition waits_of (x : semaphore) : list wait :=
  match x with SBounded _ _ _ ws => ws | SUnbounded _ _ => [] end.

(** A handle that some methods exist for (src/mailbox.rs 131-149, 205-223, 409-427). *)
Inductive handle := HSender | HWeak | HReceiver.

(** The calls. *)
Inductive op :=
| OSend (i : nat) (s : signal)  (* src/mailbox.rs 59-64: [send], future [i] made and polled *)
| OPoll (i : nat)               (* src/mailbox.rs 61: the waiting [send] [i] is polled again *)
| OCancel (i : nat)             (* src/mailbox.rs 61: the waiting [send] [i] is dropped *)
| OTrySend (s : signal)         (* src/mailbox.rs 485-494: tokio's [try_send] *)
| OPollClosed                   (* src/mailbox.rs 72-77: [closed], polled *)
| OSenderIsClosed               (* src/mailbox.rs 87-92 *)
| OClone                        (* src/mailbox.rs 152-159 *)
| ODrop                         (* a [MailboxSender] is dropped *)
| ODowngrade                    (* src/mailbox.rs 118-123 *)
| OCloneWeak                    (* src/mailbox.rs 226-233 *)
| ODropWeak                     (* a [WeakMailboxSender] is dropped *)
| OUpgrade                      (* src/mailbox.rs 192-197 *)
| OStrongCount (h : handle)     (* src/mailbox.rs 131-136, 205-210, 409-414 *)
| OWeakCount (h : handle)       (* src/mailbox.rs 144-149, 218-223, 422-427 *)
| ORecv                         (* src/mailbox.rs 261-266, 300-305, 378-383: polled *)
| ORecvMany (limit : nat)       (* src/mailbox.rs 274-279, 313-318, 391-401: polled *)
| OTryRecv (late : bool)        (* src/mailbox.rs 287-292 *)
| OClose                        (* src/mailbox.rs 326-331 *)
| OReceiverIsClosed             (* src/mailbox.rs 339-344 *)
| OIsEmpty                      (* src/mailbox.rs 352-357 *)
| OLen                          (* src/mailbox.rs 365-370 *)
| ODropReceiver.                (* the [MailboxReceiver] is dropped *)

(** What they return. *)
Inductive res :=
| RDone                  (* [()], or a handle *)
| RPending               (* the future is not ready *)
| RRefused (s : signal)  (* [Err(SendError(s))], [Err(TrySendError::Closed(s))] *)
| RFull (s : signal)     (* [Err(TrySendError::Full(s))] *)
| RGot (s : signal)      (* [Some(s)], [Ok(s)] *)
| ROver                  (* [None]; [Err(TryRecvError::Disconnected)] *)
| REmpty                 (* [Err(TryRecvError::Empty)] *)
| RMany (l : list signal) (* the signals pushed on the buffer *)
| RBool (b : bool)
| RCount (n : nat)
| RDropped (l : list signal) (* the signals dropped with the receiver *)
| RPanic.                (* an assertion of tokio's failed *)

(** src/mailbox.rs 61: put another semaphore in place. *)
Definition with_sem (x : semaphore) (m : mailbox) : mailbox :=
  mkMailbox x (queue m) (strong m) (loose m) (weak m) (receiver m) (rx_closed m).
(** src/mailbox.rs 61-62: the signal goes into the queue. *)
Definition push (s : signal) (m : mailbox) : mailbox :=
  mkMailbox (sem m) (queue m ++ [s]) (strong m) (loose m) (weak m) (receiver m) (rx_closed m).
(** src/mailbox.rs 263-264: the rest of the queue after the receiver took [s]. *)
Definition shift (s : signal) (q : list signal) (m : mailbox) : mailbox :=
  mkMailbox (add_permit (sem m)) q (strong m) (holds s + loose m) (weak m) (receiver m) (rx_closed m).
(** src/mailbox.rs 445: a reference moves into the signal to be sent. *)
Definition tuck (s : signal) (m : mailbox) : mailbox :=
  mkMailbox (sem m) (queue m) (strong m) (loose m - holds s) (weak m) (receiver m) (rx_closed m).
(** src/mailbox.rs 445: and comes back with the signal. *)
Definition untuck (s : signal) (m : mailbox) : mailbox :=
  mkMailbox (sem m) (queue m) (strong m) (holds s + loose m) (weak m) (receiver m) (rx_closed m).
(** src/mailbox.rs 45-50, 176-181: other counts of handles. *)
Definition with_counts (st lo we : nat) (m : mailbox) : mailbox :=
  mkMailbox (sem m) (queue m) st lo we (receiver m) (rx_closed m).

(** src/mailbox.rs 59-64: the first poll of [send]. *)
Definition send (i : nat) (s : signal) (m : mailbox) : res * mailbox :=
  match sem m with
  | SBounded b f c ws =>
      if c then (RRefused s, m)
      else match f with
           | 0 => (RPending, tuck s (with_sem (SBounded b 0 c (ws ++ [mkWait i s false])) m))
           | S f => (RDone, tuck s (push s (with_sem (SBounded b f c ws) m)))
           end
  | SUnbounded n c =>
      if c then (RRefused s, m)
      else (RDone, tuck s (push s (with_sem (SUnbounded (S n) c) m)))
  end.

(** src/mailbox.rs 61: a waiting [send] is polled again; when it is over its permit, if it
    has one, is used for its signal or returned. *)
Definition poll_send (i : nat) (m : mailbox) : option (res * mailbox) :=
  match sem m with
  | SBounded b f c ws =>
      match find_wait i ws with
      | None => None
      | Some w =>
          if c then
            Some (RRefused (w_signal w),
                  untuck (w_signal w)
                    (with_sem (SBounded b (if w_granted w then S f else f) c (drop_wait i ws)) m))
          else if w_granted w then
            Some (RDone, push (w_signal w) (with_sem (SBounded b f c (drop_wait i ws)) m))
          else Some (RPending, m)
      end
  | SUnbounded _ _ => None
  end.

(** src/mailbox.rs 61: a waiting [send] is dropped, and with it its signal; its permit, if it
    has one, is returned. *)
Definition cancel (i : nat) (m : mailbox) : option (res * mailbox) :=
  match sem m with
  | SBounded b f c ws =>
      match find_wait i ws with
      | None => None
      | Some w =>
          let x := SBounded b f c (drop_wait i ws) in
          Some (RDone,
                with_counts (strong m - holds (w_signal w)) (loose m) (weak m)
                  (with_sem (if w_granted w then add_permit x else x) m))
      end
  | SUnbounded _ _ => None
  end.

(** src/mailbox.rs 485-494: tokio's [try_send], and [send] of an unbounded channel. *)
Definition try_send (s : signal) (m : mailbox) : res * mailbox :=
  match sem m with
  | SBounded b f c ws =>
      if c then (RRefused s, m)
      else match f with
           | 0 => (RFull s, m)
           | S f => (RDone, tuck s (push s (with_sem (SBounded b f c ws) m)))
           end
  | SUnbounded n c =>
      if c then (RRefused s, m)
      else (RDone, tuck s (push s (with_sem (SUnbounded (S n) c) m)))
  end.

(** src/mailbox.rs 261-266, 378-383: [recv] and [poll_recv], polled once: with tokio's
    assertion that a channel whose senders are gone has all its permits. *)
Definition recv (m : mailbox) : res * mailbox :=
  match queue m with
  | s :: q => (RGot s, shift s q m)
  | [] =>
      if Nat.eqb (strong m) 0 then (if sem_idle (sem m) then ROver else RPanic, m)
      else if rx_closed m && sem_idle (sem m) then (ROver, m) else (RPending, m)
  end.

(** src/mailbox.rs 274-279, 391-401: [recv_many] and [poll_recv_many], polled once. The pops
    come first, then the permits of all of them are returned. *)
Definition recv_many (limit : nat) (m : mailbox) : res * mailbox :=
  match limit with
  | 0 => (RMany [], m)
  | S _ =>
      let l := firstn limit (queue m) in
      let m' := mkMailbox (add_permits (length l) (sem m)) (skipn limit (queue m)) (strong m)
                  (held l + loose m) (weak m) (receiver m) (rx_closed m) in
      if (length l <? limit) && Nat.eqb (strong m) 0 then
        (if sem_idle (sem m') then RMany l else RPanic, m')
      else match l with
           | _ :: _ => (RMany l, m')
           | [] => if rx_closed m && sem_idle (sem m) then (RMany [], m) else (RPending, m)
           end
  end.

(** src/mailbox.rs 287-292: [try_recv]. Versions of tokio differ in what it says of a closed
    and empty channel with senders left: [late] is that it says [Disconnected]. *)
Definition try_recv (late : bool) (m : mailbox) : res * mailbox :=
  match queue m with
  | s :: q => (RGot s, shift s q m)
  | [] => (if Nat.eqb (strong m) 0 || rx_closed m && late then ROver else REmpty, m)
  end.

(** src/mailbox.rs 326-331: [close]. *)
Definition close (m : mailbox) : mailbox :=
  mkMailbox (sem_close (sem m)) (queue m) (strong m) (loose m) (weak m) (receiver m) true.

(** The receiver is dropped (src/mailbox.rs 247-252): tokio closes the channel and drops what
    is in the queue. *)
Definition drop_receiver (m : mailbox) : mailbox :=
  let m := close m in
  mkMailbox (add_permits (length (queue m)) (sem m)) [] (strong m - held (queue m)) (loose m)
    (weak m) false (rx_closed m).

(** src/mailbox.rs 131-149, 205-223, 409-427: there is such a handle. *)
Definition has (h : handle) (m : mailbox) : bool :=
  match h with
  | HSender => 0 <? loose m
  | HWeak => 0 <? weak m
  | HReceiver => receiver m
  end.

(** One call; [None]: no handle to call it on (a sender that a waiting [send] borrows cannot
    be dropped, src/mailbox.rs 59), or no such future. *)
Definition step (o : op) (m : mailbox) : option (res * mailbox) :=
  match o with
  | OSend i s =>
      if (holds s <? loose m) && match find_wait i (waits_of (sem m)) with None => true | _ => false end
      then Some (send i s m) else None
  | OPoll i => poll_send i m
  | OCancel i => cancel i m
  | OTrySend s => if holds s <? loose m then Some (try_send s m) else None
  | OPollClosed =>
      if has HSender m then Some (if sem_closed (sem m) then RDone else RPending, m) else None
  | OSenderIsClosed => if has HSender m then Some (RBool (sem_closed (sem m)), m) else None
  | OClone =>
      if has HSender m then Some (RDone, with_counts (S (strong m)) (S (loose m)) (weak m) m)
      else None
  | ODrop =>
      match loose m with
      | 0 => None
      | S n =>
          match n, waits_of (sem m) with
          | 0, _ :: _ => None
          | _, _ => Some (RDone, with_counts (strong m - 1) n (weak m) m)
          end
      end
  | ODowngrade =>
      if has HSender m then Some (RDone, with_counts (strong m) (loose m) (S (weak m)) m) else None
  | OCloneWeak =>
      if has HWeak m then Some (RDone, with_counts (strong m) (loose m) (S (weak m)) m) else None
  | ODropWeak =>
      if has HWeak m then Some (RDone, with_counts (strong m) (loose m) (weak m - 1) m) else None
  | OUpgrade =>
      if has HWeak m then
        if Nat.eqb (strong m) 0 then Some (ROver, m)
        else Some (RDone, with_counts (S (strong m)) (S (loose m)) (weak m) m)
      else None
  | OStrongCount h => if has h m then Some (RCount (strong m), m) else None
  | OWeakCount h => if has h m then Some (RCount (weak m), m) else None
  | ORecv => if receiver m then Some (recv m) else None
  | ORecvMany n => if receiver m then Some (recv_many n m) else None
  | OTryRecv late => if receiver m then Some (try_recv late m) else None
  | OClose => if receiver m then Some (RDone, close m) else None
  | OReceiverIsClosed =>
      if receiver m then Some (RBool (sem_closed (sem m) || Nat.eqb (strong m) 0), m) else None
  | OIsEmpty =>
      if receiver m then Some (RBool match queue m with [] => true | _ => false end, m) else None
  | OLen => if receiver m then Some (RCount (length (queue m)), m) else None
  | ODropReceiver =>
      if receiver m then Some (RDropped (queue m), drop_receiver m) else None
  end.

(** A use of a mailbox: the calls made on it, in order, with what each returned
    (src/mailbox.rs 27-428). *)
Inductive used (k : kind) : list (op * res) -> mailbox -> Prop :=
| used_new : forall m, create k = Some m -> used k [] m
| used_step : forall h m o r m',
    used k h m -> step o m = Some (r, m') -> used k (h ++ [(o, r)]) m'.
