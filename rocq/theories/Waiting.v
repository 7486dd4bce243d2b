(** Model of actors that wait for each other: what the user's code of an actor awaits while it
    runs, and what it is awaited by.

    src/request/ask.rs 107-156, src/request/tell.rs 78-141, src/actor/spawn.rs 625-656,
    src/mailbox.rs 27-40, 59-92.

    Simplified: the code of an actor awaits one thing at a time; the values of messages and
    replies do not occur, nor do the other signals, which are messages from outside here; a
    mailbox hands its places over in the order of the sends that wait (see Mailbox). What runs
    in an actor's task from a signal to the next call of [next] (handlers, [on_link_died],
    [on_panic]) is one piece of code, and so is [on_start]; code of other tasks, also of tasks
    an actor has spawned, is outside. *)
From Coq Require Import List Bool PeanoNat.
Import ListNotations.

Definition actor := nat.

(** What the code of an actor awaits: the reply of an actor (ask.rs 135-138), room in an actor's
    mailbox (ask.rs 132, tell.rs 95), or something that is no actor. *)
Inductive wait : Type := ForReply (b : actor) | ForRoom (b : actor) | ForOther.

(** What an actor does: it runs [on_start] (spawn.rs 430-436); it awaits a signal (spawn.rs 626);
    it runs code for a message, whose reply is awaited by the actor [by_] if there is one
    (message.rs 286-305), or for another signal; its loop has ended and it runs what comes after,
    with its mailbox unread (spawn.rs 466-490, 514-591); its receiver is dropped. *)
Inductive doing : Type := Starting | Idle | Busy (by_ : option actor) | Stopping | Gone.

(** A message in a mailbox: who awaits its reply; a send that waits: whose it is and whether it
    is an ask. *)
Record cell : Type := mk_cell {
  cap : option nat;                       (* mailbox.rs 27-40 *)
  scoped : bool;                          (* the task has the actor's id as its own: spawn.rs 383, 408 *)
  box : list (option actor);
  line : list (option actor * bool);
  does : doing;
  waits : option wait
}.

Definition world := actor -> cell.

(** Replaced parts (no counterpart in the code). *)
Definition with_box (l : list (option actor)) (c : cell) : cell := mk_cell (cap c) (scoped c) l (line c) (does c) (waits c).
Definition with_line (l : list (option actor * bool)) (c : cell) : cell := mk_cell (cap c) (scoped c) (box c) l (does c) (waits c).
Definition with_does (d : doing) (c : cell) : cell := mk_cell (cap c) (scoped c) (box c) (line c) d (waits c).
Definition with_waits (x : option wait) (c : cell) : cell := mk_cell (cap c) (scoped c) (box c) (line c) (does c) x.
Definition change (w : world) (a : actor) (f : cell -> cell) : world := fun x => if x =? a then f (w x) else w x.

(** Every actor is spawned and runs [on_start] (spawn.rs 415-431). *)
Definition fresh (caps : actor -> option nat) (sc : actor -> bool) : world :=
  fun a => mk_cell (caps a) (sc a) [] [] Starting None.

(** A place in the mailbox is free (tokio: a permit is available and nobody waits for one). *)
Definition room (c : cell) : bool :=
  match line c with
  | [] => match cap c with None => true | Some n => length (box c) <? n end
  | _ :: _ => false
  end.

(** The actor's code can go on. *)
Definition runs (c : cell) : bool :=
  match does c, waits c with
  | (Starting | Busy _ | Stopping), None => true
  | _, _ => false
  end.

(** [a] no longer awaits what it sent (ask.rs 136, 129, tell.rs 94: a timeout, or its future is dropped). *)
Definition disown (a : actor) (r : option actor) : option actor :=
  match r with Some x => if x =? a then None else r | None => None end.
Definition forget (a : actor) (c : cell) : cell :=
  mk_cell (cap c) (scoped c) (map (disown a) (box c))
    (filter (fun e => match fst e with Some x => negb (x =? a) | None => true end) (line c))
    (match does c with Busy r => Busy (disown a r) | d => d end) (waits c).

(** The actor that awaits the reply to what is handled (message.rs 286-305). *)
Definition asker (d : doing) : option actor := match d with Busy r => r | _ => None end.

(** [b]'s end: its receiver is dropped with everything in it, so what awaits it gets an error
    (ask.rs 121-138, error.rs 297-301; mailbox.rs 59-92). *)
Definition released (b : actor) (x : option wait) : option wait :=
  match x with
  | Some (ForReply b') => if b' =? b then None else x
  | Some (ForRoom b') => if b' =? b then None else x
  | _ => x
  end.

Definition ended (a : actor) (w : world) : world := fun x =>
  if x =? a then mk_cell (cap (w x)) (scoped (w x)) [] [] Gone None
  else with_waits (released a (waits (w x))) (w x).

(** Events.
    - [Ask], [Tell]: the code of the first actor awaits [ask(..).send()] or [tell(..).send()] to the second
    - [Outside b patient]: code of no actor sends to [b] and waits for room or does not (ask.rs, tell.rs: [send], [try_send])
    - [Take]: the loop takes the next message (spawn.rs 626-645)
    - [Finish]: the code ends, the reply is sent (message.rs 297-305, reply.rs 168-178)
    - [Await], [Answer]: the code awaits something that is no actor, and gets it
    - [Delegate]: the reply channel is given to code that is no actor's (message.rs 141-143)
    - [GiveUp]: a timeout ends the wait (ask.rs 129, 136, tell.rs 94)
    - [Leave]: [on_start] fails or the loop ends by itself: a stop signal, a panic, an error; what was
      handled is answered or its reply channel is dropped (spawn.rs 466-475, 604-609, 625-656)
    - [Kill]: [kill] is called: the loop is cut wherever it is, but [on_start] and what comes after the
      loop are not; if [on_start] runs the loop is cut at its first step, a [Kill] after [Finish] here
      (actor_ref.rs 222-224, spawn.rs 503-512)
    - [End_]: [on_stop] has ended and the receiver is dropped (spawn.rs 476-490, 562-591) *)
Inductive event : Type :=
| Ask (a b : actor)
| Tell (a b : actor)
| Outside (b : actor) (patient : bool)
| Take (b : actor)
| Finish (a : actor)
| Await (a : actor)
| Answer (a : actor)
| Delegate (a : actor)
| GiveUp (a : actor)
| Leave (a : actor)
| Kill (a : actor)
| End_ (a : actor).

(** A message enters the mailbox; a send waits (tokio [Sender::send]). *)
Definition enter (r : option actor) (b : actor) (w : world) : world := change w b (fun c => with_box (box c ++ [r]) c).
Definition stand (e : option actor * bool) (b : actor) (w : world) : world := change w b (fun c => with_line (line c ++ [e]) c).
Definition await (a : actor) (x : option wait) (w : world) : world := change w a (with_waits x).

(** The place a message leaves is given to the first send that waits (tokio semaphore). *)
Definition admit (b : actor) (w : world) : world :=
  match line (w b) with
  | [] => w
  | (o, is_ask) :: l =>
      let w1 := enter (if is_ask then o else None) b (change w b (with_line l)) in
      match o with
      | Some x => await x (if is_ask : bool then Some (ForReply b) else None) w1
      | None => w1
      end
  end.

(** The code of [a] ends, [a] does [d] next, and who awaits its reply awaits [v]. *)
Definition turn (a : actor) (d : doing) (v : option wait) (w : world) : world :=
  let w1 := change w a (with_does d) in
  match asker (does (w a)) with Some x => await x v w1 | None => w1 end.

(** One event; [None]: it cannot happen. *)
Definition step (w : world) (e : event) : option world :=
  match e with
  | Ask a b =>                                                             (* ask.rs 107-156 *)
      if runs (w a) then
        match does (w b) with
        | Gone => Some w
        | _ => if room (w b) then Some (await a (Some (ForReply b)) (enter (Some a) b w))
               else Some (await a (Some (ForRoom b)) (stand (Some a, true) b w))
        end
      else None
  | Tell a b =>                                                            (* tell.rs 78-104 *)
      if runs (w a) then
        match does (w b) with
        | Gone => Some w
        | _ => if room (w b) then Some (enter None b w)
               else Some (await a (Some (ForRoom b)) (stand (Some a, false) b w))
        end
      else None
  | Outside b patient =>
      match does (w b) with
      | Gone => Some w
      | _ => if room (w b) then Some (enter None b w)
             else if patient then Some (stand (None, false) b w) else Some w
      end
  | Take b =>
      match does (w b), box (w b) with
      | Idle, r :: rest => Some (admit b (change w b (fun c => with_does (Busy r) (with_box rest c))))
      | _, _ => None
      end
  | Finish a =>
      match does (w a), waits (w a) with
      | (Starting | Busy _), None => Some (turn a Idle None w)
      | _, _ => None
      end
  | Await a => if runs (w a) then Some (await a (Some ForOther) w) else None
  | Answer a => match waits (w a) with Some ForOther => Some (await a None w) | _ => None end
  | Delegate a =>
      match does (w a), waits (w a) with
      | Busy (Some _), None => Some (turn a (Busy None) (Some ForOther) w)
      | _, _ => None
      end
  | GiveUp a =>
      match waits (w a) with
      | None => None
      | Some _ => Some (await a None (fun x => forget a (w x)))
      end
  | Leave a =>
      match does (w a), waits (w a) with
      | (Starting | Idle | Busy _), None => Some (turn a Stopping None w)
      | _, _ => None
      end
  | Kill a =>
      match does (w a) with
      | Idle | Busy _ => Some (turn a Stopping None (await a None (fun x => forget a (w x))))
      | _ => Some w
      end
  | End_ a =>
      match does (w a), waits (w a) with
      | Stopping, None => Some (ended a w)
      | _, _ => None
      end
  end.

(** Runs (no counterpart in the code). *)
Fixpoint exec (w : world) (es : list event) : option world :=
  match es with
  | [] => Some w
  | e :: es' => match step w e with Some w1 => exec w1 es' | None => None end
  end.

(** ** The warnings of debug builds *)

(** actor_ref.rs 198-203: [is_current], in the code of [a], of a reference to [b]. *)
Definition is_current (w : world) (a b : actor) : bool := scoped (w a) && (a =? b).

(** ask.rs 835-846: [warn_deadlock]. *)
Definition warn_ask (w : world) (a b : actor) : bool := is_current w a b.

(** tell.rs 409-427: [warn_deadlock]. *)
Definition warn_tell (w : world) (a b : actor) : bool :=
  match cap (w b) with Some _ => is_current w a b | None => false end.

(** Whether a call warns (ask.rs 114-115, tell.rs 91-92). *)
Definition warns (w : world) (e : event) : bool :=
  match e with
  | Ask a b => warn_ask w a b
  | Tell a b => warn_tell w a b
  | _ => false
  end.
