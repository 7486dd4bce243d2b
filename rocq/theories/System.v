(** Model of several linked actors: src/actor/spawn.rs 96-190, 415-591 (link
    notification), src/actor/actor_ref.rs 514-565, 637-684 (link, unlink),
    src/actor/kind.rs 128-182, src/actor.rs 212-235, src/mailbox.rs 489-569.

    What happens inside one actor is the subject of Lifecycle.v; here its user code
    is an arbitrary verdict per signal, and the focus is on mailboxes, link maps and
    the end of actors. Simplifications: the startup buffer is not represented (a
    buffered message counts as handled); both maps are changed by a link in one step
    (the code holds both locks meanwhile; the locking itself is LinkLocks.v); links to
    other nodes are not represented. *)
From Coq Require Import List Bool PeanoNat.
Import ListNotations.

(** src/error.rs 628-646: [ActorStopReason], without the panic payload. *)
Inductive reason : Type :=
| RNormal
| RKilled
| RPanicked
| RLinkDied (id : nat) (r : reason)
| RPeerDisconnected.

(** src/mailbox.rs 441-454: [Signal]. *)
Inductive sig : Type :=
| SMsg (n : nat)
| SStartup
| SStop
| SLinkDied (id : nat) (r : reason).

(** Where the task of an actor is (spawn.rs 415-591). *)
Inductive phase : Type :=
| Absent                                   (* not created *)
| Prepared                                 (* PreparedActor::new, spawn.rs 306-326 *)
| Starting                                 (* on_start, 431-436 *)
| Running                                  (* the loop, 503-513, 593-658 *)
| FailStop                                 (* on_start failed, 466-498 *)
| Leaving (r : reason)                     (* loop left, 515-519, links not drained *)
| OnStop (r : reason) (pend : list nat)    (* futures built, 517-560; in on_stop, 562 *)
| Notifying (r : reason) (pend : list (nat * bool))
      (* polling the futures, 565; the flag: the weak mailbox was upgraded *)
| Done (r : reason)
| Crashed.                                 (* a hook panicked; the task is gone *)

(** An actor: its task, link map (actor_ref.rs 1357), mailbox (capacity and queue),
    whether references to it exist outside, how many blocked notifications hold its
    mailbox, and whether it keeps the default [on_link_died]. *)
Record actor : Type := mk_actor {
  ph : phase;
  links : list nat;
  cap : option nat;
  queue : list sig;
  refd : bool;
  holds : nat;
  dflt : bool
}.

(** The receiver is alive (tokio): until the task ends (spawn.rs 590-591, or unwinding). *)
Definition open (x : actor) : bool :=
  match ph x with Absent | Done _ | Crashed => false | _ => true end.

(** [Weak::upgrade] succeeds (mailbox.rs 546-558): references outside, a notification
    in progress, [PreparedActor] (spawn.rs 279-283) and [on_start] (431) hold one. *)
Definition strong (x : actor) : bool :=
  refd x || (0 <? holds x) || match ph x with Prepared | Starting => true | _ => false end.

(** tokio: room in the mailbox. *)
Definition has_room (x : actor) : bool :=
  match cap x with None => true | Some c => length (queue x) <? c end.

(** All actors of the process. *)
Definition sys : Type := nat -> actor.

(** Record updates, without counterpart in the code. *)
Definition set_ph (p : phase) (x : actor) : actor :=
  mk_actor p (links x) (cap x) (queue x) (refd x) (holds x) (dflt x).
Definition set_links (l : list nat) (x : actor) : actor :=
  mk_actor (ph x) l (cap x) (queue x) (refd x) (holds x) (dflt x).
Definition set_queue (q : list sig) (x : actor) : actor :=
  mk_actor (ph x) (links x) (cap x) q (refd x) (holds x) (dflt x).
Definition set_refd (b : bool) (x : actor) : actor :=
  mk_actor (ph x) (links x) (cap x) (queue x) b (holds x) (dflt x).
Definition set_holds (n : nat) (x : actor) : actor :=
  mk_actor (ph x) (links x) (cap x) (queue x) (refd x) n (dflt x).

(** Replace one actor, without counterpart in the code. *)
Definition upd (s : sys) (a : nat) (f : actor -> actor) : sys :=
  fun b => if b =? a then f (s b) else s b.

(** std [HashMap::insert]/[remove] on the keys of a link map. *)
Definition add_link (b : nat) (l : list nat) : list nat :=
  if existsb (Nat.eqb b) l then l else b :: l.
Definition del_link (b : nat) (l : list nat) : list nat :=
  filter (fun c => negb (c =? b)) l.

(** The mailbox goes away with its content when the task ends. *)
Definition close (p : phase) (x : actor) : actor := set_queue [] (set_ph p x).

(** What user code and [on_panic] make of a signal (kind.rs 97-182): go on, leave the
    loop with a reason, or panic in [on_panic]. *)
Inductive sverdict : Type :=
| VContinue
| VLeave (r : reason)
| VCrash.

(** src/actor.rs 212-235 and kind.rs 161-182: the default [on_link_died]. *)
Definition default_link_died (id : nat) (r : reason) : sverdict :=
  match r with
  | RNormal => VContinue
  | RKilled | RPanicked | RLinkDied _ _ => VLeave (RLinkDied id r)
  | RPeerDisconnected => VLeave RPeerDisconnected
  end.

(** Comparison of reasons and verdicts, to check an event's verdict. *)
Fixpoint reason_eqb (x y : reason) : bool :=
  match x, y with
  | RNormal, RNormal | RKilled, RKilled | RPanicked, RPanicked
  | RPeerDisconnected, RPeerDisconnected => true
  | RLinkDied i r, RLinkDied j q => (i =? j) && reason_eqb r q
  | _, _ => false
  end.
Definition sverdict_eqb (x y : sverdict) : bool :=
  match x, y with
  | VContinue, VContinue | VCrash, VCrash => true
  | VLeave r, VLeave q => reason_eqb r q
  | _, _ => false
  end.

(** What can happen. *)
Inductive sevent : Type :=
| ECreate (a : nat) (c : option nat) (d : bool)  (* PreparedActor::new *)
| ERun (a : nat)                                 (* the task starts: spawn.rs 380-393 *)
| EStarted (a : nat) (ok : bool)                 (* on_start returned *)
| ELink (a b : nat)                              (* a.link(&b): actor_ref.rs 514-526, 553-565 *)
| EUnlink (a b : nat)                            (* actor_ref.rs 637-646, 675-684 *)
| ESend (a : nat) (g : sig)                      (* a message or a stop is sent *)
| ELose (a : nat)                                (* the last reference outside is dropped *)
| EUpgrade (a : nat)                             (* someone upgrades a weak reference *)
| EKill (a : nat) (taken : bool)
      (* the loop is aborted, spawn.rs 503-513, between two signals or in the middle of
         handling one (before [links.remove] of kind.rs 140, if it is a [LinkDied]) *)
| EHandle (a : nat) (v : sverdict)               (* the loop takes and handles a signal *)
| EDrain (a : nat)                               (* spawn.rs 517-560 *)
| EOnStop (a : nat) (ok : bool)                  (* on_stop returned (or panicked) *)
| ENotify (a b : nat)                            (* a poll of a's future for b, 526-529 *)
| EFinish (a : nat)                              (* the end of the task *)
| EFailDone (a : nat) (r : option reason).       (* end of the failed start, 466-498 *)

(** What is observed. *)
Inductive sobs : Type :=
| OStarted (a : nat) (ok : bool)
| OLink (a b : nat)
| OUnlink (a b : nat)
| OPush (b : nat) (g : sig)            (* a signal was put into b's mailbox *)
| OHandled (a : nat) (g : sig) (v : sverdict)
| OTaken (a : nat) (g : sig)           (* taken, but killed while handling it *)
| OLeft (a : nat) (r : reason)         (* the loop was left *)
| ODrained (a : nat) (r : reason) (l : list nat)
| OClosed (a : nat).                   (* the receiver is gone *)

(** There is no reference to an actor that was not created (spawn.rs 306-326). *)
Definition is_absent (x : actor) : bool := match ph x with Absent => true | _ => false end.

(** Leaving the loop or not, after verdict [v] (spawn.rs 608-613, 648-650). *)
Definition after (v : sverdict) (x : actor) : actor :=
  match v with
  | VContinue => x
  | VLeave r => set_ph (Leaving r) x
  | VCrash => close Crashed x
  end.
Definition after_obs (a : nat) (v : sverdict) : list sobs :=
  match v with
  | VContinue => []
  | VLeave r => [OLeft a r]
  | VCrash => [OClosed a]
  end.

(** One poll of the notification future of [a] for [b] (mailbox.rs 498-517, 546-558,
    spawn.rs 526-532, tokio [send]). Result: what becomes of the future ([None]: done), of [b], and what
    was pushed. [None]: nothing changes (the waker has not been called). *)
Definition notify (a : nat) (r : reason) (up : bool) (y : actor)
  : option (option bool * actor * list sig) :=
  if up then
    if open y then
      if has_room y
      then Some (None, set_holds (pred (holds y)) (set_queue (queue y ++ [SLinkDied a r]) y), [SLinkDied a r])
      else None
    else Some (None, set_holds (pred (holds y)) y, [])
  else
    if strong y then
      if open y then
        if has_room y
        then Some (None, set_queue (queue y ++ [SLinkDied a r]) y, [SLinkDied a r])
        else Some (Some true, set_holds (S (holds y)) y, [])
      else Some (None, y, [])
    else Some (None, y, []).

(** The set of futures (spawn.rs 517, futures [FuturesUnordered]): look one up, take a
    finished one out, remember that one holds an upgraded mailbox. *)
Fixpoint find_pend (b : nat) (l : list (nat * bool)) : option bool :=
  match l with
  | [] => None
  | (c, u) :: l' => if c =? b then Some u else find_pend b l'
  end.
Definition drop_pend (b : nat) (l : list (nat * bool)) : list (nat * bool) :=
  filter (fun e => negb (fst e =? b)) l.
Definition mark_pend (b : nat) (l : list (nat * bool)) : list (nat * bool) :=
  map (fun e => if fst e =? b then (b, true) else e) l.

(** One step of the system; [None]: the event is not possible. *)
Definition sstep (s : sys) (e : sevent) : option (sys * list sobs) :=
  match e with
  | ECreate a c d =>
      (* [mailbox::bounded(0)] panics in tokio *)
      if is_absent (s a) && match c with Some 0 => false | _ => true end
      then Some (upd s a (fun _ => mk_actor Prepared [] c [] true 0 d), [])
      else None
  | ERun a =>
      match ph (s a) with
      | Prepared => Some (upd s a (set_ph Starting), [])
      | _ => None
      end
  | EStarted a ok =>
      match ph (s a) with
      | Starting =>
          (* the startup marker is queued if there is room, 453-458 *)
          let push := has_room (s a) in
          Some (upd s a (fun x =>
                  set_ph (if ok then Running else FailStop)
                    (if push then set_queue (queue x ++ [SStartup]) x else x)),
                OStarted a ok :: if push then [OPush a SStartup] else [])
      | _ => None
      end
  | ELink a b =>
      if is_absent (s a) || is_absent (s b) then None
      else if a =? b then Some (s, [])
      else Some (upd (upd s a (fun x => set_links (add_link b (links x)) x))
                     b (fun x => set_links (add_link a (links x)) x),
                 [OLink a b])
  | EUnlink a b =>
      if is_absent (s a) || is_absent (s b) then None
      else if a =? b then Some (s, [])
      else Some (upd (upd s a (fun x => set_links (del_link b (links x)) x))
                     b (fun x => set_links (del_link a (links x)) x),
                 [OUnlink a b])
  | ESend a g =>
      match g with
      | SMsg _ | SStop =>
          if open (s a) && strong (s a) && has_room (s a)
          then Some (upd s a (fun x => set_queue (queue x ++ [g]) x), [OPush a g])
          else None
      | _ => None
      end
  | ELose a => if is_absent (s a) then None else Some (upd s a (set_refd false), [])
  | EUpgrade a =>
      if negb (is_absent (s a)) && strong (s a) then Some (upd s a (set_refd true), []) else None
  | EKill a taken =>
      match ph (s a), queue (s a) with
      | Running, g :: q =>
          if taken
          then Some (upd s a (fun x => set_ph (Leaving RKilled) (set_queue q x)),
                     [OTaken a g; OLeft a RKilled])
          else Some (upd s a (set_ph (Leaving RKilled)), [OLeft a RKilled])
      | Running, [] =>
          if taken then None else Some (upd s a (set_ph (Leaving RKilled)), [OLeft a RKilled])
      | _, _ => None
      end
  | EHandle a v =>
      match ph (s a) with
      | Running =>
          match queue (s a) with
          | [] =>
              (* recv() returns None: no sender is left *)
              if strong (s a) then None
              else Some (upd s a (after v), after_obs a v)
          | SLinkDied id r :: q =>
              if negb (dflt (s a)) || sverdict_eqb v (default_link_died id r) then
                Some (upd s a (fun x => after v (set_links (del_link id (links x)) (set_queue q x))),
                      OHandled a (SLinkDied id r) v :: after_obs a v)
              else None
          | g :: q =>
              Some (upd s a (fun x => after v (set_queue q x)), OHandled a g v :: after_obs a v)
          end
      | _ => None
      end
  | EDrain a =>
      match ph (s a) with
      | Leaving r =>
          Some (upd s a (fun x => set_ph (OnStop r (links x)) (set_links [] x)),
                [ODrained a r (links (s a))])
      | _ => None
      end
  | EOnStop a ok =>
      match ph (s a) with
      | OnStop r l =>
          if ok then Some (upd s a (set_ph (Notifying r (map (fun b => (b, false)) l))), [])
          else Some (upd s a (close Crashed), [OClosed a])
      | _ => None
      end
  | ENotify a b =>
      match ph (s a) with
      | Notifying r l =>
          match find_pend b l with
          | Some up =>
              match notify a r up (s b) with
              | None => None
              | Some (fut, y, gs) =>
                  let l' := match fut with None => drop_pend b l | Some _ => mark_pend b l end in
                  Some (upd (upd s b (fun _ => y)) a (set_ph (Notifying r l')),
                        map (OPush b) gs)
              end
          | None => None
          end
      | _ => None
      end
  | EFinish a =>
      match ph (s a) with
      | Notifying r [] => Some (upd s a (close (Done r)), [OClosed a])
      | _ => None
      end
  | EFailDone a r =>
      match ph (s a) with
      | FailStop =>
          Some (upd s a (close (match r with Some r => Done r | None => Crashed end)), [OClosed a])
      | _ => None
      end
  end.

(** No actor exists yet. *)
Definition sinit : sys := fun _ => mk_actor Absent [] None [] false 0 true.

(** A run: events in the order in which the scheduler makes them happen. *)
Fixpoint srun (s : sys) (es : list sevent) : option (sys * list sobs) :=
  match es with
  | [] => Some (s, [])
  | e :: es' =>
      match sstep s e with
      | None => None
      | Some (s1, o1) =>
          match srun s1 es' with
          | None => None
          | Some (s2, o2) => Some (s2, o1 ++ o2)
          end
      end
  end.

(** [spawn_link_with_mailbox(parent, child)], spawn.rs 126-140: other events may come
    in between. *)
Definition spawn_link (parent child : nat) (c : option nat) (d : bool) : list sevent :=
  [ECreate child c d; ELink child parent; ERun child].
