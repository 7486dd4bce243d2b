(** Model of the request methods: src/request/tell.rs, src/request/ask.rs,
    src/message.rs (forward), [ActorRef::stop_gracefully], and the error
    conversions of src/error.rs 270-324.

    A request is an async function over a mailbox that others use too. It is
    modelled by what one poll of it does; between two polls the environment may
    change the mailbox and the reply channel in any way it can. The blocking
    variants block the thread in place of yielding; they poll the same futures. *)
From Coq Require Import List Bool PeanoNat.
Import ListNotations.
From Verif Require Import Errors Dyn Reply.

Set Implicit Arguments.

(** Result of a poll (std [Poll]). *)
Inductive poll (T : Type) : Type :=
| Pending
| Ready (v : T).
Arguments Pending {T}.
Arguments Ready {T} v.

Section Requests.
Variable user : nat -> Type.
Local Notation den := (den user).
Local Notation any := (any user).

(** src/mailbox.rs 441-454: [Signal], with the boxed message, the reply channel's
    number and [sent_within_actor]. The strong [ActorRef] inside is irrelevant here;
    [GOther] stands for [StartupFinished] and [LinkDied]. *)
Inductive gsignal : Type :=
| GMsg (m : any) (reply : option nat) (within : bool)
| GStop
| GOther (n : nat).

(** src/mailbox.rs 27-40, 45-50: a mailbox: tokio mpsc channel, bounded or not.
    [held]: permits of the semaphore taken by others (reserved, or handed to a
    waiter) but not yet used. *)
Record mailbox : Type := mk_mailbox {
  mcap : option nat;
  mqueue : list gsignal;
  mheld : nat;
  mopen : bool
}.

(** tokio: a permit is free. *)
Definition room (b : mailbox) : bool :=
  match mcap b with
  | None => true
  | Some c => length (mqueue b) + mheld b <? c
  end.

(** tokio: appending to the channel. *)
Definition enq (sg : gsignal) (b : mailbox) : mailbox :=
  {| mcap := mcap b; mqueue := mqueue b ++ [sg]; mheld := mheld b; mopen := mopen b |}.

(** tokio [mpsc::error::{SendError, TrySendError, SendTimeoutError}]. *)
Inductive chan_error : Type :=
| CClosed (sg : gsignal)
| CFull (sg : gsignal)
| CTimeout (sg : gsignal).

(** tokio [UnboundedSender::send]: fails iff the receiver is gone. *)
Definition unbounded_send (b : mailbox) (sg : gsignal) : result mailbox chan_error :=
  if mopen b then Ok (enq sg b) else Err (CClosed sg).

(** tokio [Sender::try_send]: the closed flag is tested before the permits. *)
Definition bounded_try_send (b : mailbox) (sg : gsignal) : result mailbox chan_error :=
  if mopen b then (if room b then Ok (enq sg b) else Err (CFull sg)) else Err (CClosed sg).

(** tokio [Sender::send] and [blocking_send], one poll: acquire a permit or wait. *)
Definition bounded_send (b : mailbox) (sg : gsignal) : poll (result mailbox chan_error) :=
  if mopen b then (if room b then Ready (Ok (enq sg b)) else Pending) else Ready (Err (CClosed sg)).

(** tokio [Sender::send_timeout]: [timeout(d, reserve())], which polls the inner
    future first and the timer only when that is pending. *)
Definition bounded_send_timeout (b : mailbox) (sg : gsignal) (fired : bool)
  : poll (result mailbox chan_error) :=
  match bounded_send b sg with
  | Pending => if fired then Ready (Err (CTimeout sg)) else Pending
  | Ready r => Ready r
  end.

(** src/mailbox.rs 457-465: [Signal::downcast_message]. *)
Definition downcast_message (M : ty) (sg : gsignal) : option (den M) :=
  match sg with
  | GMsg m _ _ => unbox M m
  | GStop | GOther _ => None
  end.

(** src/error.rs 270-295, 303-318: [From<mpsc::error::*>] for [SendError<M, E>];
    [None] is the panic of [unwrap]. *)
Definition from_chan_error (M E : ty) (x : chan_error) : option (send_error (den M) (den E)) :=
  match x with
  | CClosed sg => option_map (fun m => ActorNotRunning m) (downcast_message M sg)
  | CFull sg => option_map (fun m => MailboxFull m) (downcast_message M sg)
  | CTimeout sg => option_map (fun m => Timeout (Some m)) (downcast_message M sg)
  end.

(** How the future awaiting the mailbox ends, for an error type [SendError<M, E>]. *)
Inductive sent (M E : ty) : Type :=
| Sent
| NotSent (e : send_error (den M) (den E))
| SendPanic.
Arguments Sent {M E}.
Arguments NotSent {M E} e.
Arguments SendPanic {M E}.

(** The [?] after a send: convert the error (tell.rs 95-99, ask.rs 116-123, ...). *)
Definition question {M E : ty} (b : mailbox) (r : result mailbox chan_error) : mailbox * sent M E :=
  match r with
  | Ok b' => (b', Sent)
  | Err x => (b, match from_chan_error M E x with Some e => NotSent e | None => SendPanic end)
  end.

(** [.await] followed by a pure function (std). *)
Definition map_poll {A B : Type} (f : A -> B) (p : poll A) : poll B :=
  match p with Pending => Pending | Ready v => Ready (f v) end.

(** The three ways the code hands a signal to the mailbox. *)

(** tell.rs 91-99, ask.rs 114-126 (and 206-213, 266-282): [send().await] with an
    optional mailbox timeout; on an unbounded mailbox the timeout is not used. *)
Definition push_waiting {M E : ty} (timeout : bool) (fired : bool) (b : mailbox) (sg : gsignal)
  : poll (mailbox * sent M E) :=
  match mcap b with
  | Some _ =>
      map_poll (question b)
        (if timeout then bounded_send_timeout b sg fired else bounded_send b sg)
  | None => Ready (question b (unbounded_send b sg))
  end.

(** tell.rs 117-120, ask.rs 310-317, 341-355, 411-430: [try_send]. *)
Definition push_try {M E : ty} (b : mailbox) (sg : gsignal) : mailbox * sent M E :=
  match mcap b with
  | Some _ => question b (bounded_try_send b sg)
  | None => question b (unbounded_send b sg)
  end.

(** tell.rs 132-139, ask.rs 465-474, 500-509, 557-566: [blocking_send]. *)
Definition push_blocking {M E : ty} (b : mailbox) (sg : gsignal) : poll (mailbox * sent M E) :=
  match mcap b with
  | Some _ => map_poll (question b) (bounded_send b sg)
  | None => Ready (question b (unbounded_send b sg))
  end.

(** The reply channel seen from the asker (tokio oneshot). *)
Inductive oneshot : Type :=
| OEmpty
| OValue (v : boxed_reply user)
| ODropped.

(** The outcome of a whole request. [M]: the message type of its error; [N], [r]:
    message and reply type of the handler asked. *)
Inductive outcome (M : ty) (r : rty) : Type :=
| OutSent                                             (* Ok(()) *)
| OutOk (v : den (r_ok r))                            (* Ok(value) *)
| OutErr (e : send_error (den M) (den (r_err r)))
| OutPanic.
Arguments OutSent {M r}.
Arguments OutOk {M r} v.
Arguments OutErr {M r} e.
Arguments OutPanic {M r}.

(** ask.rs 127-134 (and the copies in 140-147, 216-224, 345-352, ...): waiting for
    the reply, with an optional timeout: [timeout(d, rx).await??] polls [rx] first;
    errors by error.rs 297-301 and 320-324. *)
Definition await_reply {N : ty} {r : rty} (timeout fired : bool) (ch : oneshot) : poll (outcome N r) :=
  match ch with
  | OValue v =>
      Ready (match receive N r v with
             | AnsOk x => OutOk x
             | AnsErr e => OutErr e
             | AnsPanic => OutPanic
             end)
  | ODropped => Ready (OutErr ActorStopped)
  | OEmpty => if timeout && fired then Ready (OutErr (Timeout None)) else Pending
  end.

(** ** The request methods *)

(** One constructor per public method; [tm]/[tr]: whether a mailbox (reply) timeout
    was set. The requests of a [Recipient] (tell.rs 216-241, actor_ref.rs 1453-1478)
    delegate to the three tell methods. *)
Inductive method : Type :=
| MTell (tm : bool)              (* tell.rs 78-100 *)
| MTellTry                       (* tell.rs 109-121 *)
| MTellBlocking                  (* tell.rs 124-140 *)
| MAsk (tm tr : bool)            (* ask.rs 107-157 *)
| MAskTry (tr : bool)            (* ask.rs 327-367 *)
| MAskBlocking                   (* ask.rs 453-482 *)
| MEnqueue (tm tr : bool)        (* ask.rs 186-240 *)
| MEnqueueTry (tr : bool)        (* ask.rs 397-443 *)
| MEnqueueBlocking               (* ask.rs 545-574 *)
| MForward (tm : bool)           (* ask.rs 249-283 *)
| MForwardTry                    (* ask.rs 294-318 *)
| MForwardBlocking.              (* ask.rs 486-510 *)

(** The message type of the method's error: [SendError<M>] for tell and ask,
    [SendError<()>] for the enqueue family (ask.rs 186, 397, 545), and
    [SendError<(M, ReplySender<Value>)>] for the forward family (ask.rs 255, 299, 491). *)
Definition error_msg (k : method) (m : ty) (v : ty) : ty :=
  match k with
  | MTell _ | MTellTry | MTellBlocking | MAsk _ _ | MAskTry _ | MAskBlocking => m
  | MEnqueue _ _ | MEnqueueTry _ | MEnqueueBlocking => TUnit
  | MForward _ | MForwardTry | MForwardBlocking => TPair m (TReplySender v)
  end.

(** The signal a method builds (tell.rs 82-87, ask.rs 108-113, 257-262): a tell has
    no reply channel, an ask a fresh one, a forward the given one. *)
Definition signal_of (k : method) (m : any) (ch : nat) (within : bool) : gsignal :=
  match k with
  | MTell _ | MTellTry | MTellBlocking => GMsg m None within
  | _ => GMsg m (Some ch) within
  end.

(** Whether the method (or the [PendingReply] it returns, ask.rs 214-239, 604-616,
    631-641) goes on to wait for a reply, and with a timeout or not. *)
Definition reply_wait (k : method) : option bool :=
  match k with
  | MAsk _ tr | MAskTry tr | MEnqueue _ tr | MEnqueueTry tr => Some tr
  | MAskBlocking | MEnqueueBlocking => Some false
  | _ => None
  end.

(** First stage of each method: handing over the signal. *)
Definition push_of {M E : ty} (k : method) (fired : bool) (b : mailbox) (sg : gsignal)
  : poll (mailbox * sent M E) :=
  match k with
  | MTell tm | MAsk tm _ | MEnqueue tm _ | MForward tm => push_waiting tm fired b sg
  | MTellTry | MAskTry _ | MEnqueueTry _ | MForwardTry => Ready (push_try b sg)
  | MTellBlocking | MAskBlocking | MEnqueueBlocking | MForwardBlocking => push_blocking b sg
  end.

(** The request as a state machine: sending, waiting for the reply, done. For the
    enqueue family [RqWait] is the state of the [PendingReply] it has returned
    (ask.rs 599-641). *)
Inductive rq_pc (m : ty) (r : rty) (k : method) : Type :=
| RqSend
| RqWait
| RqDone (o : outcome m r)                     (* of the ask/tell, or the PendingReply *)
| RqFailed (o : sent (error_msg k m (r_ok (r_value r))) (r_err r)).   (* the send failed *)
Arguments RqSend {m r k}.
Arguments RqWait {m r k}.
Arguments RqDone {m r k} o.
Arguments RqFailed {m r k} o.

(** The request, its mailbox and its reply channel (ask.rs 107-157). *)
Record rq_state (m : ty) (r : rty) (k : method) : Type := mk_rq {
  rq_box : mailbox;
  rq_ch : oneshot;          (* its reply channel *)
  rq_pos : rq_pc m r k
}.
Arguments mk_rq {m r k} _ _ _.

(** Events: a poll of the request (with the state of its timers), a change made by
    others to the mailbox (they never reopen it or change its kind), and the
    resolution of the reply channel. *)
Inductive rq_event : Type :=
| RPoll (mailbox_timer reply_timer : bool)
| REnv (b : mailbox)
| RReply (v : boxed_reply user)
| RReplyDrop.

(** What others can do to a mailbox (tokio): anything but reopening it or changing
    its capacity. *)
Definition env_ok (b b' : mailbox) : bool :=
  match mcap b, mcap b' with
  | None, None => true
  | Some c, Some c' => c =? c'
  | _, _ => false
  end
  && (mopen b || negb (mopen b')).

(** Observation: the signals the request put into the mailbox. *)
Definition rq_step (m : ty) (r : rty) (k : method) (msg : den m) (chn : nat) (within : bool)
  (s : rq_state m r k) (e : rq_event) : option (rq_state m r k * list gsignal) :=
  match e with
  | RPoll mt rt =>
      match rq_pos s with
      | RqSend =>
          let sg := signal_of k (box user msg) chn within in
          match push_of (M := error_msg k m (r_ok (r_value r))) (E := r_err r) k mt (rq_box s) sg with
          | Pending => Some (s, [])
          | Ready (b, Sent) =>
              Some (mk_rq b (rq_ch s)
                      (match reply_wait k with Some _ => RqWait | None => RqDone OutSent end), [sg])
          | Ready (b, x) => Some (mk_rq b (rq_ch s) (RqFailed x), [])
          end
      | RqWait =>
          match reply_wait k with
          | Some tr =>
              match await_reply tr rt (rq_ch s) with
              | Pending => Some (s, [])
              | Ready o => Some (mk_rq (rq_box s) (rq_ch s) (RqDone o), [])
              end
          | None => None
          end
      | RqDone _ | RqFailed _ => None
      end
  | REnv b =>
      if env_ok (rq_box s) b then Some (mk_rq b (rq_ch s) (rq_pos s), []) else None
  | RReply v =>
      match rq_ch s with
      | OEmpty => Some (mk_rq (rq_box s) (OValue v) (rq_pos s), [])
      | _ => None
      end
  | RReplyDrop =>
      match rq_ch s with
      | OEmpty => Some (mk_rq (rq_box s) ODropped (rq_pos s), [])
      | _ => None
      end
  end.

(** A run: any interleaving of polls and of what the others do. *)
Fixpoint rq_exec (m : ty) (r : rty) (k : method) (msg : den m) (chn : nat) (within : bool)
  (s : rq_state m r k) (es : list rq_event) : option (rq_state m r k * list gsignal) :=
  match es with
  | [] => Some (s, [])
  | e :: es' =>
      match rq_step msg chn within s e with
      | None => None
      | Some (s1, o1) =>
          match rq_exec msg chn within s1 es' with
          | None => None
          | Some (s2, o2) => Some (s2, o1 ++ o2)
          end
      end
  end.

(** The request as built by the caller (tell.rs 27-44, ask.rs 36-56), not polled yet. *)
Definition rq_start (m : ty) (r : rty) (k : method) (b : mailbox) : rq_state m r k :=
  mk_rq b OEmpty RqSend.

(** ** [ActorRef::stop_gracefully] (actor_ref.rs 210-212), [MailboxSender::send]
    (mailbox.rs 59-64): no timeout; the error type is [SendError<(), Infallible>]. *)
Definition stop_gracefully (b : mailbox) : poll (mailbox * sent TUnit TInfallible) :=
  match mcap b with
  | Some _ => map_poll (question b) (bounded_send b GStop)
  | None => Ready (question b (unbounded_send b GStop))
  end.

(** [SignalMailbox::signal_stop], used by nothing but remote code paths and links
    (mailbox.rs 518-532): maps errors explicitly instead of converting. *)
Definition signal_stop (b : mailbox) : poll (mailbox * sent TUnit TInfallible) :=
  let conv r := match r with
                | Ok b' => (b', Sent)
                | Err _ => (b, NotSent (ActorNotRunning (tt : den TUnit)))
                end in
  match mcap b with
  | Some _ => map_poll conv (bounded_send b GStop)
  | None => Ready (conv (unbounded_send b GStop))
  end.

(** ** [Context::forward], [try_forward], [blocking_forward] (message.rs 156-257) *)

(** message.rs 156, 192, 227: the three variants. *)
Inductive fwd_mode : Type := FwdWait | FwdTry | FwdBlocking.

(** The request method used when the context still has the reply sender
    (message.rs 168, 204, 239) and when it has not (180, 215, 250). *)
Definition fwd_ask (d : fwd_mode) : method :=
  match d with FwdWait => MForward false | FwdTry => MForwardTry | FwdBlocking => MForwardBlocking end.
Definition fwd_tell (d : fwd_mode) : method :=
  match d with FwdWait => MTell false | FwdTry => MTellTry | FwdBlocking => MTellBlocking end.

(** What a forward returns: the mailbox, what is left in [ctx.reply] and the
    [ForwardedReply]; or it panics (then the reply sender is dropped, and the
    handler has panicked). *)
Inductive forwarded (m : ty) (r : rty) : Type :=
| Forwarded (b : mailbox) (left : option nat) (v : rval user (RFwd m r))
| ForwardPanic (b : mailbox).
Arguments Forwarded {m r} b left v.
Arguments ForwardPanic {m r} b.

(** [err.map_msg(|(msg, tx)| { self.reply = Some(tx.cast()); msg })] of
    message.rs 171-174: the message and the reply sender get split again. *)
Definition unpair {m : ty} {v : ty} {E : Type}
  (x : send_error (den (TPair m (TReplySender v))) E) : send_error (den m) E * option nat :=
  match x with
  | ActorNotRunning (a, t) => (ActorNotRunning a, Some t)
  | MailboxFull (a, t) => (MailboxFull a, Some t)
  | Timeout (Some (a, t)) => (Timeout (Some a), Some t)
  | Timeout None => (Timeout None, None)
  | ActorStopped => (ActorStopped, None)
  | HandlerError e => (HandlerError e, None)
  end.

(** message.rs 156-257: one poll of a forward of [msg] (of type [m], to a handler
    with reply type [r]). [reset_err_infallible] (error.rs 174-176) panics on a
    handler error, which a tell cannot produce. *)
Definition ctx_forward (m : ty) (r : rty) (d : fwd_mode) (msg : den m) (tx : option nat) (within : bool)
  (b : mailbox) : poll (forwarded m r) :=
  match tx with
  | Some ch =>
      map_poll (fun p : mailbox * sent (TPair m (TReplySender (r_ok (r_value r)))) (r_err r) =>
          match p with
          | (b', Sent) => Forwarded b' None (Ok tt : rval user (RFwd m r))
          | (b', NotSent e) =>
              let '(e', t) := unpair (m := m) (v := r_ok (r_value r)) e in
              Forwarded b' t (Err e' : rval user (RFwd m r))
          | (b', SendPanic) => ForwardPanic b'
          end)
        (push_of (fwd_ask d) false b (signal_of (fwd_ask d) (box user msg) ch within))
  | None =>
      map_poll (fun p : mailbox * sent m TInfallible =>
          match p with
          | (b', Sent) => Forwarded b' None (Ok tt : rval user (RFwd m r))
          | (b', NotSent e) =>
              match se_reset_err_infallible e with
              | Some e' => Forwarded b' None (Err e' : rval user (RFwd m r))
              | None => ForwardPanic b'
              end
          | (b', SendPanic) => ForwardPanic b'
          end)
        (push_of (fwd_tell d) false b (signal_of (fwd_tell d) (box user msg) 0 within))
  end.

End Requests.

Arguments Sent {user M E}.
Arguments NotSent {user M E} e.
Arguments SendPanic {user M E}.
Arguments OutSent {user M r}.
Arguments OutOk {user M r} v.
Arguments OutErr {user M r} e.
Arguments OutPanic {user M r}.
Arguments OEmpty {user}.
Arguments ODropped {user}.
Arguments RqSend {user m r k}.
Arguments RqWait {user m r k}.
Arguments RqDone {user m r k} o.
Arguments RqFailed {user m r k} o.
Arguments mk_rq {user m r k} _ _ _.
Arguments RPoll {user} _ _.
Arguments RReplyDrop {user}.
Arguments GStop {user}.
Arguments GOther {user} n.
Arguments Forwarded {user m r} b left v.
Arguments ForwardPanic {user m r} b.
Arguments rq_start {user} m r k b.
Arguments ctx_forward {user} m r d msg tx within b.
