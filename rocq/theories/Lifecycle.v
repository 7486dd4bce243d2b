(** Model of the lifecycle of one actor (src/actor/spawn.rs, src/actor/kind.rs,
    src/mailbox.rs, src/message.rs, src/actor/actor_ref.rs) as a labelled
    transition system.

    User code (hooks, handlers, other tasks holding references) is the
    environment: what it does and what hooks return is part of the event, so a
    statement over all event sequences covers every actor, every schedule and
    every crash point. [step s e = None] means that [e] cannot happen in [s]. *)
From Coq Require Import List Bool PeanoNat.
Import ListNotations.

Definition actor_id := nat.

(** src/error.rs 682: contents of a [PanicError]: an error value returned by user
    code, or the payload of a caught panic. Values are opaque tokens. *)
Inductive failure : Type :=
| FErr (e : nat)
| FPanic (p : nat).

(** src/error.rs 628-645: [ActorStopReason]. *)
Inductive reason : Type :=
| Normal
| Killed
| Panicked (f : failure)
| LinkDied (id : actor_id) (r : reason)
| PeerDisconnected.

(** A message in flight: its identity, [sent_within_actor], and whether it was
    sent by an ask (the reply channel is then identified by [mid]).
    src/mailbox.rs 443-448; the payload itself is irrelevant to the lifecycle. *)
Record msg : Type := mk_msg { mid : nat; inside : bool; ask : bool }.

(** src/mailbox.rs 441-454: [Signal]. *)
Inductive signal : Type :=
| SStartup
| SMsg (m : msg)
| SLinkDied (id : actor_id) (r : reason)
| SStop.

(** Result of [on_start] (spawn.rs 431-436) and of [on_stop] (spawn.rs 562). *)
Inductive hook_res : Type :=
| HookOk
| HookFail (f : failure).

(** [ControlFlow<ActorStopReason>] (std). *)
Inductive flow : Type :=
| Continue
| Break (r : reason).

(** Result of [on_panic] (kind.rs 166-172) and [on_link_died] (kind.rs 133-149):
    [Ok(flow)], [Err(e)] or a panic. *)
Inductive flow_res : Type :=
| FlowOk (f : flow)
| FlowFail (f : failure).

(** What a message handler did: returned a value, returned an error value, or
    panicked (message.rs 296, kind.rs 115-124). *)
Inductive outcome : Type :=
| OutOk (v : nat)
| OutErr (e : nat)
| OutPanic (p : nat).

(** What an asker receives through the reply channel (reply.rs 168-178). *)
Inductive reply : Type :=
| ReplyOk (v : nat)
| ReplyErr (e : nat).

(** Where [handle_startup_finished] (kind.rs 76-94) returns to once its buffer is
    drained: [ToRecv] - called for a StartupFinished signal (spawn.rs 627-632);
    [ToStop] - called from [handle_stop] (kind.rs 153-158);
    [ToEntry] - called at the start of the loop (spawn.rs 603-607). *)
Inductive after_drain : Type := ToRecv | ToStop | ToEntry.

(** Program points inside the abortable loop (spawn.rs 593-658). *)
Inductive loop_pc : Type :=
| LEntry                                   (* spawn.rs 603: startup_finished was set *)
| LRecv                                    (* spawn.rs 626: awaiting state.next *)
| LHandle (m : msg) (owned : bool) (rest : list msg) (k : after_drain)
    (* kind.rs 115-117: a handler runs; [owned]: ctx.reply is still Some;
       [rest]: messages of the drained startup buffer still to be handled *)
| LLink (id : actor_id) (r : reason)       (* kind.rs 133-139: on_link_died runs *)
| LLinkRm (id : actor_id) (res : flow_res) (* kind.rs 140: awaiting the links lock *)
| LPanic (f : failure).                    (* kind.rs 166: on_panic runs *)

(** Program points of [run_actor_lifecycle] (spawn.rs 415-591). *)
Inductive phase : Type :=
| PInit                                    (* PreparedActor, task not yet run *)
| PStarting                                (* spawn.rs 431: on_start runs *)
| PStarted (res : hook_res)                (* 437: before startup_error.set *)
| PSignal (res : hook_res)                 (* 454: before signal_startup_finished *)
| PDowngrade (res : hook_res) (sf : bool)  (* 460: before dropping the strong ref *)
| PFailPanic (f : failure)                 (* 470: on_panic runs, start failed *)
| PFailStop (r : reason)                   (* 476: on_stop runs, start failed *)
| PFailSet (r : reason) (res : hook_res)   (* 477: before shutdown_error.set *)
| PLoop (pc : loop_pc)                     (* 503 *)
| PDrainLinks (r : reason)                 (* 519: awaiting the links lock *)
| PStop (r : reason) (pend : list actor_id)                  (* 562: on_stop runs *)
| PNotify (r : reason) (res : hook_res) (pend : list actor_id) (* 565 *)
| PRegRemove (r : reason) (res : hook_res) (* 567 *)
| PSet (r : reason) (res : hook_res)       (* 569: before shutdown_error.set *)
| PClosing (r : reason)                    (* 590/498: mailbox_rx not yet dropped *)
| PDone (r : reason)
| PCrashed.                                (* a panic left the task (on_panic, on_stop) *)

(** State of one actor and of the objects its references share.
    - [cap]: capacity of a bounded mailbox, None for unbounded (src/mailbox.rs 27-40)
    - [scoped]: the lifecycle future runs inside CURRENT_ACTOR_ID.scope (spawn.rs 383, 408; not in PreparedActor::run 367-375)
    - [threaded]: spawned by spawn_in_thread, whose closure owns one more ActorRef until the thread ends (spawn.rs 404-410)
    - [queue]: signals in the mpsc channel, oldest first
    - [reserved]: permits of a bounded channel acquired by senders that have not pushed yet (tokio reserve/send)
    - [rx_open]: the MailboxReceiver has not been dropped (is_closed is its negation)
    - [ext]: strong ActorRefs held by user code anywhere (also the clone passed to on_start)
    - [in_reg]: a strong ActorRef sits in REMOTE_REGISTRY (actor_ref.rs 601-608, swarm.rs 357-392)
    - [aborted]: AbortHandle::abort was called (actor_ref.rs 222)
    - [polling]: the Abortable loop future is being polled right now (spawn.rs 503-512)
    - [ph]: program point of run_actor_lifecycle
    - [finished]: ActorBehaviour::finished_startup (kind.rs 54)
    - [buf]: ActorBehaviour::startup_buffer (kind.rs 55); it only ever holds Signal::Message
    - [permit_adds]: how often add_permits(MAX_PERMITS) was called on startup_semaphore
    - [startup_err]: OnceLock startup_error (actor_ref.rs 53)
    - [shutdown_err]: OnceLock shutdown_error (actor_ref.rs 54)
    - [links]: keys of the links map (actor_ref.rs 51, 1357)
    - [given]: asks whose reply sender was handed to user code (Context::reply_sender, message.rs 141)
    - [next_mid]: ghost: identity given to the next accepted message *)
Record actor : Type := mk_actor {
  cap : option nat;
  scoped : bool;
  threaded : bool;
  queue : list signal;
  reserved : nat;
  rx_open : bool;
  ext : nat;
  in_reg : bool;
  aborted : bool;
  polling : bool;
  ph : phase;
  finished : bool;
  buf : list msg;
  permit_adds : nat;
  startup_err : option (option failure);
  shutdown_err : option (option failure);
  links : list actor_id;
  given : list nat;
  next_mid : nat
}.

(** Field updates (no counterpart in the code). *)
Definition set_cap (v : option nat) (s : actor) : actor :=
  mk_actor v (scoped s) (threaded s) (queue s) (reserved s) (rx_open s) (ext s) (in_reg s) (aborted s) (polling s) (ph s) (finished s) (buf s) (permit_adds s) (startup_err s) (shutdown_err s) (links s) (given s) (next_mid s).
Definition set_scoped (v : bool) (s : actor) : actor :=
  mk_actor (cap s) v (threaded s) (queue s) (reserved s) (rx_open s) (ext s) (in_reg s) (aborted s) (polling s) (ph s) (finished s) (buf s) (permit_adds s) (startup_err s) (shutdown_err s) (links s) (given s) (next_mid s).
Definition set_threaded (v : bool) (s : actor) : actor :=
  mk_actor (cap s) (scoped s) v (queue s) (reserved s) (rx_open s) (ext s) (in_reg s) (aborted s) (polling s) (ph s) (finished s) (buf s) (permit_adds s) (startup_err s) (shutdown_err s) (links s) (given s) (next_mid s).
Definition set_queue (v : list signal) (s : actor) : actor :=
  mk_actor (cap s) (scoped s) (threaded s) v (reserved s) (rx_open s) (ext s) (in_reg s) (aborted s) (polling s) (ph s) (finished s) (buf s) (permit_adds s) (startup_err s) (shutdown_err s) (links s) (given s) (next_mid s).
Definition set_reserved (v : nat) (s : actor) : actor :=
  mk_actor (cap s) (scoped s) (threaded s) (queue s) v (rx_open s) (ext s) (in_reg s) (aborted s) (polling s) (ph s) (finished s) (buf s) (permit_adds s) (startup_err s) (shutdown_err s) (links s) (given s) (next_mid s).
Definition set_rx_open (v : bool) (s : actor) : actor :=
  mk_actor (cap s) (scoped s) (threaded s) (queue s) (reserved s) v (ext s) (in_reg s) (aborted s) (polling s) (ph s) (finished s) (buf s) (permit_adds s) (startup_err s) (shutdown_err s) (links s) (given s) (next_mid s).
Definition set_ext (v : nat) (s : actor) : actor :=
  mk_actor (cap s) (scoped s) (threaded s) (queue s) (reserved s) (rx_open s) v (in_reg s) (aborted s) (polling s) (ph s) (finished s) (buf s) (permit_adds s) (startup_err s) (shutdown_err s) (links s) (given s) (next_mid s).
Definition set_in_reg (v : bool) (s : actor) : actor :=
  mk_actor (cap s) (scoped s) (threaded s) (queue s) (reserved s) (rx_open s) (ext s) v (aborted s) (polling s) (ph s) (finished s) (buf s) (permit_adds s) (startup_err s) (shutdown_err s) (links s) (given s) (next_mid s).
Definition set_aborted (v : bool) (s : actor) : actor :=
  mk_actor (cap s) (scoped s) (threaded s) (queue s) (reserved s) (rx_open s) (ext s) (in_reg s) v (polling s) (ph s) (finished s) (buf s) (permit_adds s) (startup_err s) (shutdown_err s) (links s) (given s) (next_mid s).
Definition set_polling (v : bool) (s : actor) : actor :=
  mk_actor (cap s) (scoped s) (threaded s) (queue s) (reserved s) (rx_open s) (ext s) (in_reg s) (aborted s) v (ph s) (finished s) (buf s) (permit_adds s) (startup_err s) (shutdown_err s) (links s) (given s) (next_mid s).
Definition set_ph (v : phase) (s : actor) : actor :=
  mk_actor (cap s) (scoped s) (threaded s) (queue s) (reserved s) (rx_open s) (ext s) (in_reg s) (aborted s) (polling s) v (finished s) (buf s) (permit_adds s) (startup_err s) (shutdown_err s) (links s) (given s) (next_mid s).
Definition set_finished (v : bool) (s : actor) : actor :=
  mk_actor (cap s) (scoped s) (threaded s) (queue s) (reserved s) (rx_open s) (ext s) (in_reg s) (aborted s) (polling s) (ph s) v (buf s) (permit_adds s) (startup_err s) (shutdown_err s) (links s) (given s) (next_mid s).
Definition set_buf (v : list msg) (s : actor) : actor :=
  mk_actor (cap s) (scoped s) (threaded s) (queue s) (reserved s) (rx_open s) (ext s) (in_reg s) (aborted s) (polling s) (ph s) (finished s) v (permit_adds s) (startup_err s) (shutdown_err s) (links s) (given s) (next_mid s).
Definition set_permit_adds (v : nat) (s : actor) : actor :=
  mk_actor (cap s) (scoped s) (threaded s) (queue s) (reserved s) (rx_open s) (ext s) (in_reg s) (aborted s) (polling s) (ph s) (finished s) (buf s) v (startup_err s) (shutdown_err s) (links s) (given s) (next_mid s).
Definition set_startup_err (v : option (option failure)) (s : actor) : actor :=
  mk_actor (cap s) (scoped s) (threaded s) (queue s) (reserved s) (rx_open s) (ext s) (in_reg s) (aborted s) (polling s) (ph s) (finished s) (buf s) (permit_adds s) v (shutdown_err s) (links s) (given s) (next_mid s).
Definition set_shutdown_err (v : option (option failure)) (s : actor) : actor :=
  mk_actor (cap s) (scoped s) (threaded s) (queue s) (reserved s) (rx_open s) (ext s) (in_reg s) (aborted s) (polling s) (ph s) (finished s) (buf s) (permit_adds s) (startup_err s) v (links s) (given s) (next_mid s).
Definition set_links (v : list actor_id) (s : actor) : actor :=
  mk_actor (cap s) (scoped s) (threaded s) (queue s) (reserved s) (rx_open s) (ext s) (in_reg s) (aborted s) (polling s) (ph s) (finished s) (buf s) (permit_adds s) (startup_err s) (shutdown_err s) v (given s) (next_mid s).
Definition set_given (v : list nat) (s : actor) : actor :=
  mk_actor (cap s) (scoped s) (threaded s) (queue s) (reserved s) (rx_open s) (ext s) (in_reg s) (aborted s) (polling s) (ph s) (finished s) (buf s) (permit_adds s) (startup_err s) (shutdown_err s) (links s) v (next_mid s).
Definition set_next_mid (v : nat) (s : actor) : actor :=
  mk_actor (cap s) (scoped s) (threaded s) (queue s) (reserved s) (rx_open s) (ext s) (in_reg s) (aborted s) (polling s) (ph s) (finished s) (buf s) (permit_adds s) (startup_err s) (shutdown_err s) (links s) (given s) v.

(** What a run makes visible. *)
Inductive obs : Type :=
| OAccept (sg : signal)             (* pushed into the mailbox *)
| OStartBegin | OStartEnd (res : hook_res)
| OHandle (m : msg) | OHandleEnd (m : msg) (out : outcome)
| OHandleCut (m : msg)              (* handler future dropped at an await *)
| OLinkHook (id : actor_id) (r : reason) | OLinkHookEnd (res : flow_res) | OLinkHookCut
| OPanicHook (f : failure) | OPanicHookEnd (res : flow_res) | OPanicHookCut
| OStopHook (r : reason) | OStopHookEnd (res : hook_res)
| OExit (r : reason)                (* left the message loop *)
| OLinksTaken (ids : list actor_id) (* the links map was drained *)
| ONotify (id : actor_id) (r : reason) (delivered : bool)
| OClosed                           (* mailbox receiver dropped *)
| OReturn (r : reason)              (* the task returned (actor, r) *)
| OCrash                            (* the task panicked *)
| ODiscard (m : msg)                (* message dropped without being handled *)
| OReply (id : nat) (v : reply)     (* the ask's channel got a value *)
| OReplyDropped (id : nat)          (* the ask's channel was dropped: ActorStopped *)
| OReplyTaken (id : nat)            (* the handler called Context::reply_sender *)
| OKill
| OSawStartup (v : option (option failure))   (* wait_for_startup(_result) returned *)
| OSawShutdown (v : option (option failure)). (* wait_for_shutdown(_result) returned *)

(** Events: E* are actions of the environment, A* steps of the actor's task. *)
Inductive event : Type :=
| ESend (from_task is_ask : bool)
| EStop
| ELinkSignal (id : actor_id) (r : reason)
| EKill
| EAcquire
| EDrop
| EReserve
| ERelease
| ELink (id : actor_id)
| EUnlink (id : actor_id)
| ERegister
| EGivenReply (id : nat) (v : reply)
| EGivenDrop (id : nat)
| EWaitStartup
| EWaitShutdown
| AStart
| AStartDone (res : hook_res)
| ASetStartup
| ASignal
| ADowngrade
| APoll
| AYield
| ARecv
| ATakeReply
| AReplyNow (v : reply)
| AHandleDone (out : outcome)
| ALinkDone (res : flow_res)
| ALinkRm
| APanicDone (res : flow_res)
| ADrainLinks
| AStopDone (res : hook_res)
| ANotify (id : actor_id) (delivered : bool)
| ANotifyEnd
| ARegRemove
| ASetShutdown
| AClose.

(** ** Reference counting (tokio mpsc sender count) *)

(** Messages of a signal list; each [Signal::Message] owns a strong [ActorRef]
    (mailbox.rs 445). *)
Fixpoint msgs_of (q : list signal) : list msg :=
  match q with
  | [] => []
  | SMsg m :: q' => m :: msgs_of q'
  | _ :: q' => msgs_of q'
  end.

(** Strong references held by the lifecycle function itself at a program point:
    its [actor_ref] until the downgrade (spawn.rs 460-464); while a handler runs
    the [Context] (message.rs 76, 294) and the not yet handled drained messages. *)
Definition phase_refs (p : phase) : nat :=
  match p with
  | PInit | PStarting | PStarted _ | PSignal _ | PDowngrade _ _ => 1
  | PLoop (LHandle _ _ rest _) => S (length rest)
  | _ => 0
  end.

(** Whether the task has ended (its future is dropped). *)
Definition ended (p : phase) : bool :=
  match p with PDone _ | PCrashed => true | _ => false end.

(** [Sender::strong_count]. *)
Definition strong (s : actor) : nat :=
  ext s + length (msgs_of (queue s)) + length (buf s) + phase_refs (ph s)
  + (if in_reg s then 1 else 0)
  + (if threaded s && negb (ended (ph s)) then 1 else 0).

(** Free capacity for one more signal (tokio: a permit is available). *)
Definition has_room (s : actor) : bool :=
  match cap s with
  | None => true
  | Some c => length (queue s) + reserved s <? c
  end.

Definition is_bounded (s : actor) : bool := match cap s with None => false | Some _ => true end.

(** HashMap insertion of a link: at most one entry per id (actor_ref.rs 523-524). *)
Definition add_link (id : actor_id) (l : list actor_id) : list actor_id :=
  if existsb (Nat.eqb id) l then l else id :: l.

(** Push at the back of the channel. *)
Definition push (sg : signal) (s : actor) : actor := set_queue (queue s ++ [sg]) s.

(** ** Dropping things *)

(** The reply channel of a dropped ask is dropped: the asker's receiver errors
    (ask.rs 121-124, error.rs 297-301). *)
Definition drop_reply (m : msg) : list obs := if ask m then [OReplyDropped (mid m)] else [].

(** Dropping messages unhandled. *)
Definition discard (ms : list msg) : list obs :=
  flat_map (fun m => ODiscard m :: drop_reply m) ms.

(** Dropping the receiver (end of spawn.rs 591, or unwinding): the channel closes
    and queued signals are dropped. *)
Definition close_mailbox (s : actor) : actor * list obs :=
  (set_queue [] (set_rx_open false s), OClosed :: discard (msgs_of (queue s))).

(** An uncaught panic in on_panic or on_stop unwinds the whole task: everything it
    owns is dropped ([self] buffer, receiver); nothing else of spawn.rs runs. *)
Definition crash (s : actor) : actor * list obs :=
  let '(s1, o) := close_mailbox (set_buf [] (set_ph PCrashed s)) in
  (s1, OCrash :: discard (buf s) ++ o).

(** ** The message loop *)

(** Leaving the loop with reason [r] (spawn.rs 503-515): the loop future and the
    [ActorBehaviour] apart from the user's actor are dropped (kind.rs 185-187). *)
Definition exit_loop (r : reason) (s : actor) : actor * list obs :=
  (set_buf [] (set_polling false (set_ph (PDrainLinks r) s)), OExit r :: discard (buf s)).

(** kind.rs 161-182: [on_shutdown]; a panic reason starts on_panic, every other
    reason breaks out of the loop (spawn.rs 610-612). *)
Definition shutdown_with (r : reason) (s : actor) : actor * list obs :=
  match r with
  | Panicked f => (set_ph (PLoop (LPanic f)) s, [OPanicHook f])
  | Normal | Killed | LinkDied _ _ | PeerDisconnected => exit_loop r s
  end.

(** Start of a handler (kind.rs 115). *)
Definition begin_handle (m : msg) (rest : list msg) (k : after_drain) (s : actor)
  : actor * list obs :=
  (set_ph (PLoop (LHandle m (ask m) rest k)) s, [OHandle m]).

(** The next drained message, or the continuation of [handle_startup_finished]
    (kind.rs 78-93): back to receiving, or - for a stop - Break(Normal) to
    [on_shutdown] (kind.rs 155, spawn.rs 651-655). *)
Definition drain (ms : list msg) (k : after_drain) (s : actor) : actor * list obs :=
  match ms with
  | m :: rest => begin_handle m rest k s
  | [] =>
      match k with
      | ToRecv | ToEntry => (set_ph (PLoop LRecv) s, [])
      | ToStop => shutdown_with Normal s
      end
  end.

(** kind.rs 76-78: [handle_startup_finished]: mark startup finished, take the
    buffer and handle its messages one by one. *)
Definition startup_finished (k : after_drain) (s : actor) : actor * list obs :=
  drain (buf s) k (set_buf [] (set_finished true s)).

(** One iteration of spawn.rs 626-656 on a received signal. *)
Definition on_signal (sg : signal) (s : actor) : actor * list obs :=
  match sg with
  | SStartup =>
      startup_finished ToRecv (set_permit_adds (S (permit_adds s)) s)
  | SMsg m =>
      if negb (inside m) && negb (finished s)
      then (set_buf (buf s ++ [m]) s, [])                 (* kind.rs 104-113 *)
      else begin_handle m [] ToRecv s
  | SLinkDied id r => (set_ph (PLoop (LLink id r)) s, [OLinkHook id r])
  | SStop => startup_finished ToStop s
  end.

(** A handler or buffered handling broke with failure [f] (kind.rs 118-124, the
    [?] of line 87): the rest of the drained buffer is dropped. From the loop
    entry the reason is returned without on_panic (spawn.rs 604-606). *)
Definition handler_failed (f : failure) (rest : list msg) (k : after_drain) (s : actor)
  : actor * list obs :=
  match k with
  | ToEntry =>
      let '(s1, o) := exit_loop (Panicked f) s in (s1, discard rest ++ o)
  | ToRecv | ToStop =>
      let '(s1, o) := shutdown_with (Panicked f) s in (s1, discard rest ++ o)
  end.

(** End of a handler (message.rs 297-305, kind.rs 118-124). *)
Definition handler_done (m : msg) (owned : bool) (rest : list msg) (k : after_drain)
    (out : outcome) (s : actor) : actor * list obs :=
  let ended := OHandleEnd m out in
  match out with
  | OutOk v =>
      let '(s1, o) := drain rest k s in
      (s1, ended :: (if owned then [OReply (mid m) (ReplyOk v)] else []) ++ o)
  | OutErr e =>
      if owned
      then let '(s1, o) := drain rest k s in
           (s1, ended :: OReply (mid m) (ReplyErr e) :: o)
      else let '(s1, o) := handler_failed (FErr e) rest k s in (s1, ended :: o)
  | OutPanic p =>
      let '(s1, o) := handler_failed (FPanic p) rest k s in
      (s1, ended :: (if owned then [OReplyDropped (mid m)] else []) ++ o)
  end.

(** kind.rs 140-149: after on_link_died, the link is forgotten and its verdict
    applied. *)
Definition link_done (id : actor_id) (res : flow_res) (s : actor) : actor * list obs :=
  let s := set_links (remove Nat.eq_dec id (links s)) s in
  match res with
  | FlowOk Continue => (set_ph (PLoop LRecv) s, [])
  | FlowOk (Break r) => shutdown_with r s
  | FlowFail f => shutdown_with (Panicked f) s
  end.

(** kind.rs 166-172 with spawn.rs 608-613: the verdict of on_panic. A panic of
    on_panic is not caught. *)
Definition panic_done (res : flow_res) (s : actor) : actor * list obs :=
  match res with
  | FlowOk Continue => (set_ph (PLoop LRecv) s, [])
  | FlowOk (Break r) => exit_loop r s
  | FlowFail (FErr e) => exit_loop (Panicked (FErr e)) s
  | FlowFail (FPanic _) => crash s
  end.

(** The loop future is dropped because of the abort flag (futures [Abortable]);
    whatever was running is cut at its await point. *)
Definition abort_loop (pc : loop_pc) (s : actor) : actor * list obs :=
  let '(s1, o) := exit_loop Killed s in
  let cut :=
    match pc with
    | LHandle m owned rest _ =>
        OHandleCut m :: (if owned then [OReplyDropped (mid m)] else []) ++ discard rest
    | LLink _ _ => [OLinkHookCut]
    | LPanic _ => [OPanicHookCut]
    | LEntry | LRecv | LLinkRm _ _ => []
    end in
  (s1, cut ++ o).

(** Program points at which code of the user's actor runs inside the actor's task. *)
Definition user_code_runs (s : actor) : bool :=
  match ph s with
  | PStarting | PFailPanic _ | PFailStop _ | PStop _ _ => true
  | PLoop (LHandle _ _ _ _) | PLoop (LLink _ _) | PLoop (LPanic _) => polling s
  | _ => false
  end.

(** ** Transitions *)
Definition step (s : actor) (e : event) : option (actor * list obs) :=
  match e with

  (* --- environment --- *)

  | ESend from_task is_ask =>
      (* tell.rs 78-141, ask.rs 107-574: push of Signal::Message once there is
         room; sent_within_actor = is_current (actor_ref.rs 198-203) *)
      if (0 <? ext s) && rx_open s && has_room s
         && (negb from_task || user_code_runs s)
      then
        let m := mk_msg (next_mid s) (scoped s && from_task) is_ask in
        Some (set_next_mid (S (next_mid s)) (push (SMsg m) s), [OAccept (SMsg m)])
      else None
  | EStop =>
      (* actor_ref.rs 210-212 *)
      if (0 <? ext s) && rx_open s && has_room s
      then Some (push SStop s, [OAccept SStop]) else None
  | ELinkSignal id r =>
      (* mailbox.rs 546-558 and 498-516: needs an upgrade *)
      if (0 <? strong s) && rx_open s && has_room s
      then Some (push (SLinkDied id r) s, [OAccept (SLinkDied id r)]) else None
  | EKill =>
      (* actor_ref.rs 222-224 *)
      if 0 <? ext s then Some (set_aborted true s, [OKill]) else None
  | EAcquire =>
      (* ActorRef::clone (actor_ref.rs 825-837), WeakActorRef::upgrade (1255-1265) *)
      if 0 <? strong s then Some (set_ext (S (ext s)) s, []) else None
  | EDrop =>
      if 0 <? ext s then Some (set_ext (pred (ext s)) s, []) else None
  | EReserve =>
      if rx_open s && has_room s && is_bounded s
      then Some (set_reserved (S (reserved s)) s, []) else None
  | ERelease =>
      if 0 <? reserved s then Some (set_reserved (pred (reserved s)) s, []) else None
  | ELink id =>
      (* this side of actor_ref.rs 514-526 *)
      if 0 <? strong s
      then Some (set_links (add_link id (links s)) s, []) else None
  | EUnlink id =>
      (* this side of actor_ref.rs 637-646 *)
      Some (set_links (remove Nat.eq_dec id (links s)) s, [])
  | ERegister =>
      (* actor_ref.rs 601-608, swarm.rs 376-383 *)
      if 0 <? ext s then Some (set_in_reg true s, []) else None
  | EGivenReply id v =>
      (* ReplySender::send by whoever owns it (reply.rs 168-178) *)
      if existsb (Nat.eqb id) (given s)
      then Some (set_given (remove Nat.eq_dec id (given s)) s, [OReply id v]) else None
  | EGivenDrop id =>
      if existsb (Nat.eqb id) (given s)
      then Some (set_given (remove Nat.eq_dec id (given s)) s, [OReplyDropped id]) else None
  | EWaitStartup =>
      (* actor_ref.rs 259-261, 302-317: a permit is available *)
      if (0 <? ext s) && (0 <? permit_adds s)
      then Some (s, [OSawStartup (startup_err s)]) else None
  | EWaitShutdown =>
      (* actor_ref.rs 342-344, 391-406: the channel is closed *)
      if (0 <? ext s) && negb (rx_open s)
      then Some (s, [OSawShutdown (shutdown_err s)]) else None

  (* --- start (spawn.rs 431-464) --- *)

  | AStart =>
      match ph s with
      | PInit => Some (set_ext (S (ext s)) (set_ph PStarting s), [OStartBegin])
      | _ => None
      end
  | AStartDone res =>
      match ph s with
      | PStarting => Some (set_ph (PStarted res) s, [OStartEnd res])
      | _ => None
      end
  | ASetStartup =>
      match ph s with
      | PStarted res =>
          let v := match res with HookOk => None | HookFail f => Some f end in
          match startup_err s with
          | None => Some (set_startup_err (Some v) (set_ph (PSignal res) s), [])
          | Some _ => Some (crash s)             (* .expect(..) *)
          end
      | _ => None
      end
  | ASignal =>
      (* spawn.rs 453-458, mailbox.rs 539-544, 483-496; the lifecycle still owns a
         strong ref, so the upgrade succeeds *)
      match ph s with
      | PSignal res =>
          if rx_open s && has_room s
          then Some (set_ph (PDowngrade res false) (push SStartup s), [OAccept SStartup])
          else Some (set_ph (PDowngrade res (rx_open s)) s, [])
      | _ => None
      end
  | ADowngrade =>
      match ph s with
      | PDowngrade HookOk sf =>
          Some (set_polling false (set_ph (PLoop (if sf then LEntry else LRecv)) s), [])
      | PDowngrade (HookFail f) _ =>
          (* spawn.rs 466-471, kind.rs 165-166 *)
          Some (set_ph (PFailPanic f) (set_permit_adds (S (permit_adds s)) s), [OPanicHook f])
      | _ => None
      end

  (* --- loop (spawn.rs 503-513, 593-658) --- *)

  | APoll =>
      match ph s with
      | PLoop pc =>
          if polling s then None
          else if aborted s then Some (abort_loop pc s)
          else Some (set_polling true s, [])
      | _ => None
      end
  | AYield =>
      match ph s with
      | PLoop pc =>
          if polling s
          then (if aborted s then Some (abort_loop pc s) else Some (set_polling false s, []))
          else None
      | _ => None
      end
  | ARecv =>
      match ph s with
      | PLoop LEntry =>
          if polling s then Some (startup_finished ToEntry s) else None
      | PLoop LRecv =>
          if polling s then
            match queue s with
            | sg :: q => Some (on_signal sg (set_queue q s))
            | [] => if strong s =? 0 then Some (startup_finished ToStop s) else None
            end
          else None
      | _ => None
      end
  | ATakeReply =>
      (* message.rs 141-143 *)
      match ph s with
      | PLoop (LHandle m true rest k) =>
          if polling s
          then Some (set_given (mid m :: given s) (set_ph (PLoop (LHandle m false rest k)) s),
                     [OReplyTaken (mid m)])
          else None
      | _ => None
      end
  | AReplyNow v =>
      (* message.rs 148-153 *)
      match ph s with
      | PLoop (LHandle m true rest k) =>
          if polling s
          then Some (set_ph (PLoop (LHandle m false rest k)) s, [OReply (mid m) v])
          else None
      | _ => None
      end
  | AHandleDone out =>
      match ph s with
      | PLoop (LHandle m owned rest k) =>
          if polling s then Some (handler_done m owned rest k out s) else None
      | _ => None
      end
  | ALinkDone res =>
      match ph s with
      | PLoop (LLink id r) =>
          if polling s
          then Some (set_ph (PLoop (LLinkRm id res)) s, [OLinkHookEnd res]) else None
      | _ => None
      end
  | ALinkRm =>
      match ph s with
      | PLoop (LLinkRm id res) => if polling s then Some (link_done id res s) else None
      | _ => None
      end
  | APanicDone res =>
      match ph s with
      | PLoop (LPanic f) =>
          if polling s
          then let '(s1, o) := panic_done res s in Some (s1, OPanicHookEnd res :: o)
          else None
      | PFailPanic f =>
          (* spawn.rs 470-476 *)
          let stop r := Some (set_ph (PFailStop r) s, [OPanicHookEnd res; OStopHook r]) in
          match res with
          | FlowOk Continue => stop (Panicked f)
          | FlowOk (Break r) => stop r
          | FlowFail (FErr e) => stop (Panicked (FErr e))
          | FlowFail (FPanic _) => let '(s1, o) := crash s in Some (s1, OPanicHookEnd res :: o)
          end
      | _ => None
      end

  (* --- shutdown (spawn.rs 515-590, 476-498) --- *)

  | ADrainLinks =>
      match ph s with
      | PDrainLinks r =>
          Some (set_links [] (set_ph (PStop r (links s)) s),
                [OLinksTaken (links s); OStopHook r])
      | _ => None
      end
  | AStopDone res =>
      match ph s with
      | PStop r pend =>
          match res with
          | HookFail (FPanic _) => let '(s1, o) := crash s in Some (s1, OStopHookEnd res :: o)
          | _ => Some (set_ph (PNotify r res pend) s, [OStopHookEnd res])
          end
      | PFailStop r =>
          match res with
          | HookFail (FPanic _) => let '(s1, o) := crash s in Some (s1, OStopHookEnd res :: o)
          | _ => Some (set_ph (PFailSet r res) s, [OStopHookEnd res])
          end
      | _ => None
      end
  | ANotify id delivered =>
      (* one completed future of spawn.rs 525-533 / 539-555 *)
      match ph s with
      | PNotify r res pend =>
          if existsb (Nat.eqb id) pend
          then Some (set_ph (PNotify r res (remove Nat.eq_dec id pend)) s,
                     [ONotify id r delivered])
          else None
      | _ => None
      end
  | ANotifyEnd =>
      match ph s with
      | PNotify r res [] => Some (set_ph (PRegRemove r res) s, [])
      | _ => None
      end
  | ARegRemove =>
      match ph s with
      | PRegRemove r res => Some (set_in_reg false (set_ph (PSet r res) s), [])
      | _ => None
      end
  | ASetShutdown =>
      match ph s with
      | PSet r res | PFailSet r res =>
          let v := match res with HookOk => None | HookFail f => Some f end in
          let s1 := set_ph (PClosing r) s in
          if 0 <? strong s                       (* actor_ref.upgrade() *)
          then match shutdown_err s with
               | None => Some (set_shutdown_err (Some v) s1, [])
               | Some _ => Some (crash s)        (* .expect(..) *)
               end
          else Some (s1, [])
      | _ => None
      end
  | AClose =>
      match ph s with
      | PClosing r =>
          let '(s1, o) := close_mailbox (set_ph (PDone r) s) in
          Some (s1, o ++ [OReturn r])
      | _ => None
      end
  end.

(** src/actor/spawn.rs 306-326: a freshly prepared actor, of which the caller holds
    [refs] references. *)
Record config : Type := mk_config { c_cap : option nat; c_scoped : bool; c_threaded : bool; c_refs : nat }.

Definition init (c : config) : actor :=
  {| cap := c_cap c; scoped := c_scoped c; threaded := c_threaded c; queue := [];
     reserved := 0; rx_open := true; ext := c_refs c; in_reg := false; aborted := false;
     polling := false; ph := PInit; finished := false; buf := []; permit_adds := 0;
     startup_err := None; shutdown_err := None; links := []; given := []; next_mid := 0 |}.

(** Runs: a list of events, all enabled, with the concatenated observations. *)
Fixpoint exec (s : actor) (es : list event) : option (actor * list obs) :=
  match es with
  | [] => Some (s, [])
  | e :: es' =>
      match step s e with
      | None => None
      | Some (s1, o1) =>
          match exec s1 es' with
          | None => None
          | Some (s2, o2) => Some (s2, o1 ++ o2)
          end
      end
  end.
