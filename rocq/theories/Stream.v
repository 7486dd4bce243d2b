(** Model of [ActorRef::attach_stream] (src/actor/actor_ref.rs 769-812) and the mailbox
    it sends to (src/mailbox.rs 56-118; tokio mpsc).

    The stream is a function from positions to items, [None] where it ends. When it has
    the next item ready, when the actor takes a message and when it ends are events, so
    streams that never end or never become ready are included. [StreamExt::next] and
    [wait_for_shutdown] can be dropped in [select!] without losing anything. Other senders
    are lumped together. *)
From Coq Require Import List Bool PeanoNat.
Import ListNotations.

Section Stream.
  (** Items, and the start and finish values (actor_ref.rs 769: [M], [T], [F]). *)
  Context {M T F : Type}.
  (** The stream, the two values, the capacity of the mailbox ([None]: unbounded). *)
  Variable src : nat -> option M.
  Variable start_value : T.
  Variable finish_value : F.
  Variable cap : option nat.

  (** src/message.rs 59. *)
  Inductive stream_message : Type :=
  | Next (m : M)
  | Started (v : T)
  | Finished (v : F).

  (** What the task returns (actor_ref.rs 774): the stream, here its position, or the
      error [ActorNotRunning] with the message that was not sent (src/request/tell.rs
      78-100; the only error of a tell without timeout). *)
  Inductive result : Type :=
  | ROk (position : nat)
  | RNotRunning (m : stream_message).

  (** Where the task is. The number is that of the items taken from the stream. *)
  Inductive tphase : Type :=
  | TStart                       (* 784-787: sending [Started] *)
  | TSelect (n : nat)            (* 790: in [select!] *)
  | TSend (n : nat) (m : M)      (* 794: sending [Next] *)
  | TFinish (n : nat)            (* 805-808: sending [Finished] *)
  | TDone (r : result).

  (** A message in the mailbox: the task's or somebody else's. *)
  Inductive item : Type := Ours (m : stream_message) | Theirs (v : nat).

  (** The task and the mailbox. *)
  Record state : Type := mk_state {
    phase : tphase;
    queue : list item;
    closed : bool
  }.

  (** What can happen. *)
  Inductive event : Type :=
  | ESent                  (* the message being sent is accepted by the channel *)
  | ERefused               (* it is returned: the channel is closed *)
  | ENext                  (* [stream.next()] completes first *)
  | EShutdown              (* [wait_for_shutdown()] completes first *)
  | EOther (v : nat)       (* somebody else's message is accepted *)
  | ETake                  (* the actor takes a message *)
  | EClose.                (* the receiver is dropped, with what is in the channel *)

  (** What is observed. *)
  Inductive obs : Type :=
  | OAccepted (m : stream_message)    (* into the channel *)
  | OTaken (i : item)                 (* by the actor *)
  | OPulled (n : nat)                 (* item [n], or the end, came out of the stream *)
  | OClosed
  | OReturned (r : result).

  (** Room for another message (tokio's bounded channel). *)
  Definition room (s : state) : bool :=
    match cap with None => true | Some c => length (queue s) <? c end.

  (** The message being sent (784, 794, 805). *)
  Definition sending (s : state) : option stream_message :=
    match phase s with
    | TStart => Some (Started start_value)
    | TSend _ m => Some (Next m)
    | TFinish _ => Some (Finished finish_value)
    | _ => None
    end.

  (** Where the task goes once the message is sent (787, 794, 810). *)
  Definition after_send (p : tphase) : tphase :=
    match p with
    | TStart => TSelect 0
    | TSend n _ => TSelect n
    | TFinish n => TDone (ROk n)
    | _ => p
    end.

  (** One step. [None]: not possible. *)
  Definition step (s : state) (e : event) : option (state * list obs) :=
    match e with
    | ESent =>
        match sending s with
        | Some m =>
            if negb (closed s) && room s then
              let p := after_send (phase s) in
              Some (mk_state p (queue s ++ [Ours m]) false,
                    OAccepted m :: match p with TDone r => [OReturned r] | _ => [] end)
            else None
        | None => None
        end
    | ERefused =>
        match sending s with
        | Some m =>
            if closed s then
              Some (mk_state (TDone (RNotRunning m)) (queue s) true, [OReturned (RNotRunning m)])
            else None
        | None => None
        end
    | ENext =>
        match phase s with
        | TSelect n =>
            match src n with
            | Some m => Some (mk_state (TSend (S n) m) (queue s) (closed s), [OPulled n])
            | None => Some (mk_state (TFinish n) (queue s) (closed s), [OPulled n])
            end
        | _ => None
        end
    | EShutdown =>
        match phase s with
        | TSelect n =>
            if closed s then
              Some (mk_state (TDone (ROk n)) (queue s) true, [OReturned (ROk n)])
            else None
        | _ => None
        end
    | EOther v =>
        if negb (closed s) && room s
        then Some (mk_state (phase s) (queue s ++ [Theirs v]) false, [])
        else None
    | ETake =>
        match queue s with
        | i :: q => if closed s then None else Some (mk_state (phase s) q false, [OTaken i])
        | [] => None
        end
    | EClose =>
        if closed s then None else Some (mk_state (phase s) [] true, [OClosed])
    end.

  (** The task is spawned (actor_ref.rs 782-783) with [q] in the mailbox; the actor may
      have stopped already. *)
  Definition init (q : list item) (c : bool) : state := mk_state TStart (if c then [] else q) c.

  (** A run. *)
  Fixpoint run (s : state) (es : list event) : option (state * list obs) :=
    match es with
    | [] => Some (s, [])
    | e :: es' =>
        match step s e with
        | None => None
        | Some (s1, o1) =>
            match run s1 es' with
            | None => None
            | Some (s2, o2) => Some (s2, o1 ++ o2)
            end
        end
    end.
End Stream.
Arguments stream_message : clear implicits.
Arguments item : clear implicits.
Arguments result : clear implicits.
Arguments tphase : clear implicits.
Arguments state : clear implicits.
Arguments obs : clear implicits.
