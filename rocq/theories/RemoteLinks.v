(** Model of links between actors of different nodes: [ActorRef::link_remote] and
    [ActorRef::unlink_remote] (src/actor/actor_ref.rs 589-618, 708-725), the same functions
    of [RemoteActorRef] (1135-1202), the requests they send (src/remote/swarm.rs 416-458,
    692-745, 917-942), the functions that serve them (src/remote.rs 199-221, src/remote/_internal.rs 225-274), and the notifications sent
    when a linked actor stops (src/actor/spawn.rs 516-566, swarm.rs 460-484, 746-773,
    943-960, remote.rs 223-237, _internal.rs 276-301).

    Any number of nodes, actors, calls and notifications; one event is one piece of them
    between two awaits. An id is the node and the number of the actor it denotes: on a
    node whose swarm is running two ids are equal iff they denote the same actor, and
    sending an id to another node preserves that (area ActorId). The remote id of an
    actor type stands for the type. The swarm hands over each request at most once and
    answers each caller at most once (area Swarm); requests may get lost, and callers may
    be told of a failure at any time. Links between actors of one process made with
    [ActorRef::link] are in the areas System and LinkLocks, the link deaths sent when a
    connection closes in the area PeerLoss. *)
From Coq Require Import List Bool Arith PeanoNat.
Import ListNotations.

(** src/actor/id.rs 18-24: the node an actor lives on and its number there. *)
Record aid : Type := mk_aid { home : nat; num : nat }.

(** src/actor/id.rs 18 and 233-237. *)
Definition aid_eqb (x y : aid) : bool := (home x =? home y) && (num x =? num y).

(** Where an actor's task is: before it takes its links out (spawn.rs 415-514), after
    that (516-565), after it left the node's table (566-591), or over, its mailbox
    dropped. *)
Inductive phase : Type := Alive | Drained | Left | Gone.

(** An actor: the remote id of its type ([RemoteActor::REMOTE_ID]), its links
    ([Link::Remote], actor_ref.rs 1368-1372), whether it is in its node's table
    ([REMOTE_REGISTRY], src/remote.rs 76-83), and the link deaths in its mailbox
    ([Signal::LinkDied], src/mailbox.rs 449-452). *)
Record actor : Type := mk_actor {
  a_rid : nat;
  a_links : list (aid * nat);
  a_table : bool;
  a_phase : phase;
  a_box : list (aid * nat)
}.

(** What [link_remote], [unlink_remote] and [ActorSwarm::signal_link_died] return
    (src/error.rs 414-460): [Failure] is any of the network's errors (swarm.rs 982-990). *)
Inductive outcome : Type :=
| Success
| NotBootstrapped
| UnknownActor
| ActorNotRunning
| BadActorType
| Failure.

(** The two functions: actor_ref.rs 589 and 708. *)
Inductive op : Type := OpLink | OpUnlink.

(** Where a request is: not sent, sent, the reference taken from the table (after
    _internal.rs 242, 269, 292), served. *)
Inductive request : Type :=
| Unsent
| Sent
| Found
| Served (r : outcome).

(** Where the caller is: before the first await (actor_ref.rs 597, 716), at the lock of
    the links (610), at [ActorSwarm::get] (614, 721), at the answer (617, 724), returned,
    or its future dropped. *)
Inductive caller : Type :=
| AtStart
| AtLinks
| AtSwarm
| Waiting
| Returned (r : outcome)
| Dropped.

(** One call of actor [c_from] for sibling [c_to] whose reference has the type with
    remote id [c_rid]: actor_ref.rs 589-592, 708-711; [c_node]: the node that serves
    the request. [c_half]: one of the two futures made by the functions of
    [RemoteActorRef] (1148-1153, 1193-1198), which only change the links of [c_to].
    [c_me], [c_own]: the node that makes the call and the remote id it states for
    [c_from] (swarm.rs 416-428, 438-450). *)
Record call : Type := mk_call {
  c_op : op;
  c_half : bool;
  c_me : nat;
  c_from : aid;
  c_own : nat;
  c_to : aid;
  c_rid : nat;
  c_at : caller;
  c_req : request;
  c_node : nat
}.

(** One notification of a stopping actor: spawn.rs 536-556; [n_over]: its future has
    ended or was dropped. *)
Record note : Type := mk_note {
  n_dead : aid;
  n_to : aid;
  n_rid : nat;
  n_reason : nat;
  n_req : request;
  n_node : nat;
  n_over : bool
}.

(** All nodes: [w_boot n] is [ActorSwarm::get().is_some()] (swarm.rs 227-229). *)
Record world : Type := mk_world {
  w_actors : aid -> option actor;
  w_boot : nat -> bool;
  w_calls : list call;
  w_notes : list note
}.

(** Nothing has happened (statics of src/remote.rs 76 and src/remote/swarm.rs 33). *)
Definition fresh : world := mk_world (fun _ => None) (fun _ => false) [] [].

(** Events: an actor is spawned (spawn.rs 306-326), a swarm is bootstrapped (swarm.rs
    80-218), an actor is registered (swarm.rs 357-392), a call is made, or one of the
    futures of a call on a [RemoteActorRef] (actor_ref.rs 1148-1153, 1193-1198), goes one
    piece further, is answered, fails or is dropped, its request is looked up and carried out; an actor stops (spawn.rs 516-558), its on_stop returns and its notifications
    are sent (560-564), they are looked up and carried out, end, the actor leaves the
    table (566) and ends (591), its on_stop panics (560), it ends because its on_start
    failed (466-499), an actor handles a link death (src/actor/kind.rs 128-141). *)
Inductive event : Type :=
| Spawn (x : aid) (rid : nat)
| Boot (n : nat)
| Register (x : aid)
| Call (o : op) (x y : aid) (rid : nat)
| Half (o : op) (me : nat) (x : aid) (own : nat) (y : aid) (rid : nat)
| Poll (i : nat) (alone : bool)
| Find (i : nat)
| Apply (i : nat)
| Answer (i : nat)
| Fail (i : nat)
| Drop (i : nat)
| Stop (x : aid) (reason : nat)
| Send (k : nat) (alone : bool)
| FindNote (k : nat)
| Signal (k : nat)
| Over (k : nat)
| Leave (x : aid)
| Exit (x : aid)
| Vanish (x : aid)
| Crash (x : aid)
| Handle (x : aid).

(** Observations: a link map gains or loses a sibling, for a call (actor_ref.rs 610, 720,
    _internal.rs 244, 271) or after a link death (kind.rs 140); a call returns; an actor
    takes its links out (spawn.rs 519-521); a notification is carried out or refused
    (_internal.rs 283-300); a link death is accepted by a mailbox; an actor leaves the
    table (spawn.rs 566). *)
Inductive obs : Type :=
| OLinked (i : nat) (x y : aid)
| OUnlinked (i : nat) (x y : aid)
| OReturned (i : nat) (r : outcome)
| ODrained (x : aid) (reason : nat) (siblings : list aid)
| ONoted (k : nat) (r : outcome)
| OGot (x dead : aid) (reason : nat)
| OForgot (x y : aid)
| OLeft (x : aid).

(** std [HashMap::remove] on a link map. *)
Definition unlink_from (y : aid) (l : list (aid * nat)) : list (aid * nat) :=
  filter (fun e => negb (aid_eqb y (fst e))) l.

(** std [HashMap::insert] on a link map. *)
Definition link_to (y : aid) (rid : nat) (l : list (aid * nat)) : list (aid * nat) :=
  (y, rid) :: unlink_from y l.

(** Update of one actor (through the mutexes of src/remote.rs 76 and actor_ref.rs 51). *)
Definition set_actor (x : aid) (a : actor) (w : world) : world :=
  mk_world (fun z => if aid_eqb x z then Some a else w_actors w z) (w_boot w) (w_calls w) (w_notes w).

(** actor_ref.rs 610, _internal.rs 244-248, 271, kind.rs 140: the links of an actor. *)
Definition set_links (l : list (aid * nat)) (a : actor) : actor :=
  mk_actor (a_rid a) l (a_table a) (a_phase a) (a_box a).
(** actor_ref.rs 601-608, swarm.rs 376-383, spawn.rs 566: membership in the table. *)
Definition set_table (b : bool) (a : actor) : actor :=
  mk_actor (a_rid a) (a_links a) b (a_phase a) (a_box a).
(** spawn.rs 519-591: the progress of the actor's task. *)
Definition set_phase (p : phase) (a : actor) : actor :=
  mk_actor (a_rid a) (a_links a) (a_table a) p (a_box a).
(** src/mailbox.rs 498-515: the link deaths in the mailbox. *)
Definition set_box (b : list (aid * nat)) (a : actor) : actor :=
  mk_actor (a_rid a) (a_links a) (a_table a) (a_phase a) b.

(** Update of an element of a list. *)
Fixpoint update {A : Type} (i : nat) (x : A) (l : list A) : list A :=
  match l, i with
  | [], _ => []
  | _ :: l', O => x :: l'
  | y :: l', S j => y :: update j x l'
  end.

(** The states of a call's future and of its request change (actor_ref.rs 589-618). *)
Definition set_call (i : nat) (c : call) (w : world) : world :=
  mk_world (w_actors w) (w_boot w) (update i c (w_calls w)) (w_notes w).
(** The caller moves on: actor_ref.rs 589-618, 708-725. *)
Definition at_point (p : caller) (c : call) : call :=
  mk_call (c_op c) (c_half c) (c_me c) (c_from c) (c_own c) (c_to c) (c_rid c) p (c_req c) (c_node c).
(** The request moves on: swarm.rs 692-745, _internal.rs 225-274. *)
Definition at_request (q : request) (c : call) : call :=
  mk_call (c_op c) (c_half c) (c_me c) (c_from c) (c_own c) (c_to c) (c_rid c) (c_at c) q (c_node c).

(** The states of a notification change (spawn.rs 536-564). *)
Definition set_note (k : nat) (n : note) (w : world) : world :=
  mk_world (w_actors w) (w_boot w) (w_calls w) (update k n (w_notes w)).
(** The request of a notification moves on: swarm.rs 746-773, _internal.rs 276-301. *)
Definition note_at (q : request) (n : note) : note :=
  mk_note (n_dead n) (n_to n) (n_rid n) (n_reason n) q (n_node n) (n_over n).

(** Where a request to [y] is served: by the caller's node [me] itself if it has no
    peers (swarm.rs 699-709, 731-736, 753-763), else by the node of [y] (1593-1602,
    1611-1615, 1625-1628). *)
Definition served_by (me : nat) (y : aid) (alone : bool) : nat := if alone then me else home y.

Section Steps.
(** [known n rid]: actors of the type are in the program of node [n]
    ([REMOTE_ACTORS], src/remote/_internal.rs 16-17). *)
Variable known : nat -> nat -> bool.

(** remote.rs 205-207, 217-219, 230-234 and _internal.rs 233-242, 260-269, 284-293: what
    node [n] finds when it looks for actor [y] as one of type [rid]; [Success] stands
    for the reference. *)
Definition lookup (w : world) (n : nat) (y : aid) (rid : nat) : outcome :=
  if known n rid then
    match w_actors w y with
    | Some a =>
        if (home y =? n) && a_table a
        then if a_rid a =? rid then Success else BadActorType
        else ActorNotRunning
    | None => ActorNotRunning
    end
  else UnknownActor.

(** actor_ref.rs 589-618, 708-725, 1148-1155, 1193-1200: the next piece of the caller of call [i]. *)
Definition poll (w : world) (i : nat) (c : call) (alone : bool) : option (world * list obs) :=
  match c_at c, w_actors w (c_from c) with
  | AtStart, Some a =>
      if aid_eqb (c_from c) (c_to c)
      then Some (set_call i (at_point (Returned Success) c) w, [OReturned i Success])  (* 597, 716 *)
      else match c_op c with
           | OpLink =>                                                                 (* 601-608 *)
               Some (set_call i (at_point AtLinks c) (set_actor (c_from c) (set_table true a) w), [])
           | OpUnlink =>                                                               (* 720 *)
               Some (set_call i (at_point AtSwarm c)
                       (set_actor (c_from c) (set_links (unlink_from (c_to c) (a_links a)) a) w),
                     [OUnlinked i (c_from c) (c_to c)])
           end
  | AtLinks, Some a =>                                                                 (* 610-613 *)
      Some (set_call i (at_point AtSwarm c)
              (set_actor (c_from c) (set_links (link_to (c_to c) (c_rid c) (a_links a)) a) w),
            [OLinked i (c_from c) (c_to c)])
  | AtSwarm, _ =>
      if w_boot w (c_me c)
      then Some (set_call i (mk_call (c_op c) (c_half c) (c_me c) (c_from c) (c_own c) (c_to c) (c_rid c)
                               Waiting Sent (served_by (c_me c) (c_to c) alone)) w, [])  (* 614-617 *)
      else Some (set_call i (at_point (Returned NotBootstrapped) c) w,
                 [OReturned i NotBootstrapped])                                        (* 615, 722 *)
  | _, _ => None
  end.

(** _internal.rs 233-242, 260-269: the request of call [i] is looked up. *)
Definition find_step (w : world) (i : nat) (c : call) : option (world * list obs) :=
  match c_req c with
  | Sent =>
      match lookup w (c_node c) (c_to c) (c_rid c) with
      | Success => Some (set_call i (at_request Found c) w, [])
      | r => Some (set_call i (at_request (Served r) c) w, [])
      end
  | _ => None
  end.

(** _internal.rs 244-248, 271: the request is carried out on the links of the actor found. *)
Definition apply_step (w : world) (i : nat) (c : call) : option (world * list obs) :=
  match c_req c, w_actors w (c_to c) with
  | Found, Some b =>
      let w' := set_call i (at_request (Served Success) c) w in
      match c_op c with
      | OpLink =>                                                                          (* 244-248 *)
          Some (set_actor (c_to c) (set_links (link_to (c_from c) (c_own c) (a_links b)) b) w',
                [OLinked i (c_to c) (c_from c)])
      | OpUnlink =>                                                                        (* 271 *)
          Some (set_actor (c_to c) (set_links (unlink_from (c_from c) (a_links b)) b) w',
                [OUnlinked i (c_to c) (c_from c)])
      end
  | _, _ => None
  end.

(** spawn.rs 519-557: the notifications of an actor that takes its links out. *)
Definition notes_of (x : aid) (reason : nat) (l : list (aid * nat)) : list note :=
  map (fun e => mk_note x (fst e) (snd e) reason Unsent 0 false) l.

(** _internal.rs 284-293: a notification is looked up. *)
Definition find_note (w : world) (k : nat) (n : note) : option (world * list obs) :=
  match n_req n with
  | Sent =>
      match lookup w (n_node n) (n_to n) (n_rid n) with
      | Success => Some (set_note k (note_at Found n) w, [])
      | r => Some (set_note k (note_at (Served r) n) w, [ONoted k r])
      end
  | _ => None
  end.

(** _internal.rs 295-300: its link death is put into the mailbox of the actor found
    (src/mailbox.rs 498-515: refused once the receiver is dropped). *)
Definition signal_note (w : world) (k : nat) (n : note) : option (world * list obs) :=
  match n_req n, w_actors w (n_to n) with
  | Found, Some a =>
      match a_phase a with
      | Gone => Some (set_note k (note_at (Served ActorNotRunning) n) w, [ONoted k ActorNotRunning])
      | _ =>
          Some (set_actor (n_to n) (set_box (a_box a ++ [(n_dead n, n_reason n)]) a)
                  (set_note k (note_at (Served Success) n) w),
                [OGot (n_to n) (n_dead n) (n_reason n); ONoted k Success])
      end
  | _, _ => None
  end.

(** spawn.rs 560-564: the futures of the notifications of [x] have all ended. *)
Definition all_over (x : aid) (l : list note) : bool :=
  forallb (fun n => negb (aid_eqb x (n_dead n)) || n_over n) l.

(** spawn.rs 560: on_stop panics; the futures of the notifications are dropped. *)
Definition drop_notes (x : aid) (l : list note) : list note :=
  map (fun n => if aid_eqb x (n_dead n)
                then mk_note (n_dead n) (n_to n) (n_rid n) (n_reason n) (n_req n) (n_node n) true
                else n) l.

(** One event; [None]: it cannot happen. The lines are those given with [event]. *)
Definition step (w : world) (e : event) : option (world * list obs) :=
  match e with
  | Spawn x rid =>
      match w_actors w x with
      | None => Some (set_actor x (mk_actor rid [] false Alive []) w, [])
      | Some _ => None
      end
  | Boot n =>
      Some (mk_world (w_actors w) (fun m => (n =? m) || w_boot w m) (w_calls w) (w_notes w), [])
  | Register x =>
      match w_actors w x with
      | Some a => Some (set_actor x (set_table true a) w, [])
      | None => None
      end
  | Call o x y rid =>
      match w_actors w x with
      | Some a =>
          Some (mk_world (w_actors w) (w_boot w)
                  (w_calls w ++ [mk_call o false (home x) x (a_rid a) y rid AtStart Unsent 0]) (w_notes w), [])
      | None => None
      end
  | Half o me x own y rid =>                               (* actor_ref.rs 1144-1153, 1189-1198 *)
      if aid_eqb x y then None
      else Some (mk_world (w_actors w) (w_boot w)
                   (w_calls w ++ [mk_call o true me x own y rid AtSwarm Unsent 0]) (w_notes w), [])
  | Poll i alone =>
      match nth_error (w_calls w) i with Some c => poll w i c alone | None => None end
  | Find i =>
      match nth_error (w_calls w) i with Some c => find_step w i c | None => None end
  | Apply i =>
      match nth_error (w_calls w) i with Some c => apply_step w i c | None => None end
  | Answer i =>                                            (* swarm.rs 963-977, 424-429 *)
      match nth_error (w_calls w) i with
      | Some c =>
          match c_at c, c_req c with
          | Waiting, Served r => Some (set_call i (at_point (Returned r) c) w, [OReturned i r])
          | _, _ => None
          end
      | None => None
      end
  | Fail i =>                                              (* swarm.rs 978-993 *)
      match nth_error (w_calls w) i with
      | Some c =>
          match c_at c with
          | Waiting => Some (set_call i (at_point (Returned Failure) c) w, [OReturned i Failure])
          | _ => None
          end
      | None => None
      end
  | Drop i =>
      match nth_error (w_calls w) i with
      | Some c =>
          match c_at c with
          | Returned _ | Dropped => None
          | _ => Some (set_call i (at_point Dropped c) w, [])
          end
      | None => None
      end
  | Stop x reason =>
      match w_actors w x with
      | Some a =>
          match a_phase a with
          | Alive =>
              let w' := set_actor x (set_links [] (set_phase Drained a)) w in
              Some (mk_world (w_actors w') (w_boot w') (w_calls w')
                      (w_notes w' ++ (if w_boot w (home x) then notes_of x reason (a_links a) else [])),
                    [ODrained x reason (map fst (a_links a))])
          | _ => None
          end
      | None => None
      end
  | Send k alone =>
      match nth_error (w_notes w) k with
      | Some n =>
          match n_req n, n_over n with
          | Unsent, false =>
              Some (set_note k (mk_note (n_dead n) (n_to n) (n_rid n) (n_reason n) Sent
                                  (served_by (home (n_dead n)) (n_to n) alone) false) w, [])
          | _, _ => None
          end
      | None => None
      end
  | FindNote k =>
      match nth_error (w_notes w) k with Some n => find_note w k n | None => None end
  | Signal k =>
      match nth_error (w_notes w) k with Some n => signal_note w k n | None => None end
  | Over k =>
      match nth_error (w_notes w) k with
      | Some n =>
          match n_req n with
          | Unsent => None
          | _ => Some (set_note k (mk_note (n_dead n) (n_to n) (n_rid n) (n_reason n) (n_req n) (n_node n) true) w, [])
          end
      | None => None
      end
  | Leave x =>
      match w_actors w x with
      | Some a =>
          match a_phase a with
          | Drained =>
              if all_over x (w_notes w)
              then Some (set_actor x (set_table false (set_phase Left a)) w, [OLeft x])
              else None
          | _ => None
          end
      | None => None
      end
  | Exit x =>
      match w_actors w x with
      | Some a =>
          match a_phase a with
          | Left => Some (set_actor x (set_phase Gone a) w, [])
          | _ => None
          end
      | None => None
      end
  | Vanish x =>
      match w_actors w x with
      | Some a =>
          match a_phase a with
          | Alive => Some (set_actor x (set_phase Gone a) w, [])
          | _ => None
          end
      | None => None
      end
  | Crash x =>
      match w_actors w x with
      | Some a =>
          match a_phase a with
          | Drained =>
              let w' := set_actor x (set_phase Gone a) w in
              Some (mk_world (w_actors w') (w_boot w') (w_calls w') (drop_notes x (w_notes w')), [])
          | _ => None
          end
      | None => None
      end
  | Handle x =>
      match w_actors w x with
      | Some a =>
          match a_phase a, a_box a with
          | Alive, (y, _) :: b =>
              Some (set_actor x (set_links (unlink_from y (a_links a)) (set_box b a)) w, [OForgot x y])
          | _, _ => None
          end
      | None => None
      end
  end.

(** Runs: a list of events that all happen (src/actor/spawn.rs 415-591 and src/remote/swarm.rs
    486-993 on every node). *)
Fixpoint exec (w : world) (es : list event) : option (world * list obs) :=
  match es with
  | [] => Some (w, [])
  | e :: es' =>
      match step w e with
      | None => None
      | Some (w1, o1) =>
          match exec w1 es' with
          | None => None
          | Some (w2, o2) => Some (w2, o1 ++ o2)
          end
      end
  end.

End Steps.
