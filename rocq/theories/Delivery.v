(** Model of the delivery of published messages: [DeliveryStrategy] (actors/src/lib.rs
    28-60) and the handlers of [Broker] (actors/src/broker.rs 76-266) and [MessageBus]
    (actors/src/message_bus.rs 69-262), which are the same up to what they key their
    subscriptions by; Broker.v and MessageBus.v fill in the differences.

    One broker, its mailbox, the tasks it has spawned, and the mailboxes of the
    recipients. What the recipients do, who else sends to them, when time passes and who
    sends to the broker are events. An actor is named by a number, standing for its id
    (that ids are distinct is C28). A [HashMap] is a list of entries with distinct keys;
    since its order of iteration is unspecified, an event may rearrange it between two
    messages. [M::clone] gives an equal message. Simplified: the recipients' mailboxes
    count the places other senders hold, but these are not modelled further. *)
From Coq Require Import List Bool PeanoNat.
Import ListNotations.
From Verif Require Import Errors.

Set Implicit Arguments.

(** actors/src/lib.rs 28-60. *)
Inductive strategy : Type :=
| Guaranteed
| BestEffort
| TimedDelivery (d : nat)
| Spawned
| SpawnedWithTimeout (d : nat).

(** src/mailbox.rs 22-50: a mailbox (tokio mpsc): capacity ([None]: unbounded), contents,
    places reserved by other senders, whether the receiver exists. *)
Record box (I : Type) : Type := mk_box {
  bcap : option nat;
  items : list I;
  held : nat;
  bopen : bool
}.

(** tokio mpsc (as used in src/mailbox.rs 22-50): a permit is free. *)
Definition room {I : Type} (b : box I) : bool :=
  match bcap b with
  | None => true
  | Some c => length (items b) + held b <? c
  end.

(** tokio mpsc (src/mailbox.rs 22-50): append to the channel. *)
Definition put {I : Type} (i : I) (b : box I) : box I :=
  mk_box (bcap b) (items b ++ [i]) (held b) (bopen b).

(** The [Result<(), SendError<M>>] of a tell (src/request/tell.rs 78); a tell has no handler error. *)
Definition told (M : Type) : Type := result unit (send_error M Empty_set).

(** src/request/tell.rs 78-100 (by way of [Recipient::tell], actor_ref.rs 950-957 and
    1453-1465): one poll of a tell with or without mailbox timeout. The closed mailbox is
    noticed first, the timer is looked at when there is no room, and an unbounded mailbox
    ignores the timeout. [None]: pending. *)
Definition poll_tell {M I : Type} (fired : bool) (b : box I) (i : I) (m : M)
  : option (box I * told M) :=
  if bopen b then
    if room b then Some (put i b, Ok tt)
    else if fired then Some (b, Err (Timeout (Some m))) else None
  else Some (b, Err (ActorNotRunning m)).

(** src/request/tell.rs 109-121 (actor_ref.rs 1467-1471): [try_send]. *)
Definition try_tell {M I : Type} (b : box I) (i : I) (m : M) : box I * told M :=
  if bopen b then
    if room b then (put i b, Ok tt) else (b, Err (MailboxFull m))
  else (b, Err (ActorNotRunning m)).

(** [if let Err(SendError::ActorNotRunning(_)) = res] (broker.rs 200, 206, 215, 226, 247;
    message_bus.rs 192, 198, 207, 218, 234). *)
Definition not_running {M : Type} (r : told M) : bool :=
  match r with Err (ActorNotRunning _) => true | _ => false end.

(** Function update (no counterpart in the code). *)
Definition upd {A : Type} (f : nat -> A) (n : nat) (v : A) (k : nat) : A :=
  if k =? n then v else f k.

Section Delivery.
  (** Keys of the table ([glob::Pattern]; [TypeId]), what is published to (topic;
      [TypeId]), what is kept per subscription ([Recipient]; [Registration]), messages. *)
  Context {key topic reg msg : Type}.
  Variable key_eqb : key -> key -> bool.
  (** The actor sent to, and the id that is compared (broker.rs 100, message_bus.rs 95). *)
  Variable recipient : reg -> nat.
  Variable rid : reg -> nat.

  (** The table of subscriptions (broker.rs 77, message_bus.rs 71). *)
  Definition table : Type := list (key * list reg).

  (** The subscriptions a message goes to, in the order of the loops (broker.rs 194-196,
      message_bus.rs 182-187). *)
  Variable targets : table -> topic -> list (key * reg).
  (** Whether the stored recipient can be used for this topic (message_bus.rs 188). *)
  Variable usable : topic -> reg -> bool.
  (** What the types let callers subscribe; whether [Unsubscribe] without a topic exists. *)
  Variable fits : key -> reg -> bool.
  Variable has_unsubscribe_all : bool.
  (** The broker's strategy; never changed. *)
  Variable strat : strategy.

  (** std [HashMap::get] (broker.rs 99, message_bus.rs 94, 182). *)
  Fixpoint get (k : key) (t : table) : option (list reg) :=
    match t with
    | [] => None
    | (k', rs) :: t' => if key_eqb k' k then Some rs else get k t'
    end.

  (** broker.rs 128, message_bus.rs 118-121: [entry(k).or_default().push(r)]. *)
  Fixpoint subscribe (k : key) (r : reg) (t : table) : table :=
    match t with
    | [] => [(k, [r])]
    | (k', rs) :: t' =>
        if key_eqb k' k then (k', rs ++ [r]) :: t' else (k', rs) :: subscribe k r t'
    end.

  (** broker.rs 100, 158, message_bus.rs 95: [retain(|r| r.id() != actor_id)]. *)
  Definition retain (id : nat) (rs : list reg) : list reg :=
    filter (fun r => negb (rid r =? id)) rs.

  (** std: write or remove the entry of a key (broker.rs 99-104, message_bus.rs 94-99). *)
  Fixpoint set_entry (k : key) (rs : list reg) (t : table) : table :=
    match t with
    | [] => []
    | (k', rs') :: t' =>
        if key_eqb k' k then
          (match rs with [] => t' | _ => (k', rs) :: t' end)
        else (k', rs') :: set_entry k rs t'
    end.

  (** broker.rs 98-105, message_bus.rs 92-100: [unsubscribe]. An emptied entry is removed. *)
  Definition unsubscribe (k : key) (id : nat) (t : table) : table :=
    match get k t with
    | Some rs => set_entry k (retain id rs) t
    | None => t
    end.

  (** broker.rs 156-161: [Unsubscribe] with [topic: None]. *)
  Definition unsubscribe_all (id : nat) (t : table) : table :=
    filter (fun e => match snd e with [] => false | _ => true end)
           (map (fun e => (fst e, retain id (snd e))) t).

  (** The messages of the broker (broker.rs 113-118, 136-142, 172-177; message_bus.rs
      108, 130-133, 170). *)
  Inductive bmsg : Type :=
  | Subscribe (k : key) (r : reg)
  | Unsubscribe (k : option key) (id : nat)
  | Publish (t : topic) (m : msg).

  (** What is in a recipient's mailbox: a copy of publication [n], or something else. *)
  Inductive ditem : Type :=
  | Copy (n : nat) (m : msg)
  | Foreign (v : nat).

  (** A spawned delivery (broker.rs 219-256, message_bus.rs 211-238) and where it is. *)
  Inductive tphase : Type := TSending | TReporting | TEnded.
  Record task : Type := mk_task {
    tn : nat;
    tkey : key;
    treg : reg;
    tmsg : msg;
    tsince : option nat;
    tph : tphase
  }.

  (** Where the broker is: idle; in the loops of a publish, with what is still to be
      delivered, when the current send was begun, and [to_remove]; or stopped. *)
  Inductive bphase : Type :=
  | Idle
  | Delivering (n : nat) (t : topic) (m : msg) (todo : list (key * reg))
               (since : option nat) (dead : list (key * nat))
  | Stopped.

  (** The whole. [pubs]: publications so far (only for naming them); [now]: the clock. *)
  Record state : Type := mk_state {
    subs : table;
    ph : bphase;
    inbox : box bmsg;
    tasks : list task;
    boxes : nat -> box ditem;
    now : nat;
    pubs : nat
  }.

  (** What can happen: the messages and polls of the handlers (broker.rs 120-266,
      message_bus.rs 110-247) and what the other parties do. *)
  Inductive event : Type :=
  | ESend (b : bmsg)          (* someone's message to the broker is accepted *)
  | ETake                     (* the idle broker takes its next message *)
  | EDeliver                  (* the broker's handler is polled *)
  | EFinish                   (* it leaves the loops *)
  | ETask (i : nat)           (* a spawned task is polled *)
  | EStop                     (* the broker is stopped or killed *)
  | EOther (a v : nat)        (* someone else's message to a recipient is accepted *)
  | ERead (a : nat)           (* a recipient takes a message *)
  | EEnd (a : nat)            (* a recipient ends: the mailbox is closed and emptied *)
  | EHold (a : nat) | EFree (a : nat)   (* another sender reserves, gives back a place *)
  | ETick
  | ERehash (i : nat).        (* the table is rearranged: entries [i], [i+1] are swapped *)

  (** What is observed of them (broker.rs 120-266, message_bus.rs 110-247). *)
  Inductive obs : Type :=
  | OSubscribed (k : key) (r : reg)
  | OUnsubscribed (k : option key) (id : nat)
  | OPublished (n : nat) (t : topic) (m : msg)
  | OAttempt (n : nat) (k : key) (r : reg)        (* a send is begun or a task spawned *)
  | OSettled (n : nat) (k : key) (r : reg) (x : told msg)
  | OExpired (k : key) (id : nat)                 (* removed at the end of a publish *)
  | OFinished (n : nat)
  | OReported (k : key) (id : nat)                (* a task's [Unsubscribe] was accepted *)
  | OPanicked (n : nat)
  | ORead (a : nat) (i : ditem)
  | OEnded (a : nat).

  (** std: rearranging a map. *)
  Fixpoint swap_at {A : Type} (i : nat) (l : list A) : list A :=
    match i, l with
    | 0, x :: y :: l' => y :: x :: l'
    | S i', x :: l' => x :: swap_at i' l'
    | _, _ => l
    end.

  (** std: replace an element. *)
  Fixpoint set_nth {A : Type} (i : nat) (x : A) (l : list A) : list A :=
    match i, l with
    | 0, _ :: l' => x :: l'
    | S i', y :: l' => y :: set_nth i' x l'
    | _, [] => []
    end.

  (** tokio [timeout]: whether the timer of a send begun at [since] has fired. *)
  Definition fired (d : option nat) (since now : nat) : bool :=
    match d with Some d => since + d <=? now | None => false end.

  (** broker.rs 197-257, message_bus.rs 189-239: the [match] on the strategy. How the
      strategy sends: wait (with a timeout or not), try, or spawn a task. *)
  Inductive mode : Type := MWait (d : option nat) | MTry | MSpawn (d : option nat).
  Definition mode_of (s : strategy) : mode :=
    match s with
    | Guaranteed => MWait None
    | BestEffort => MTry
    | TimedDelivery d => MWait (Some d)
    | Spawned => MSpawn None
    | SpawnedWithTimeout d => MSpawn (Some d)
    end.

  (** The timeout of a spawned task (broker.rs 225, 242-246). *)
  Definition task_timeout : option nat :=
    match mode_of strat with MSpawn d => d | _ => None end.

  (** Continuing the loop when the send at its head has a result (broker.rs 198-218,
      message_bus.rs 190-210). *)
  Definition settle (s : state) (bs : nat -> box ditem) (n : nat) (t : topic) (m : msg)
      (k : key) (r : reg) (todo : list (key * reg)) (dead : list (key * nat)) (x : told msg)
    : state * list obs :=
    (mk_state (subs s)
       (Delivering n t m todo None (if not_running x then dead ++ [(k, rid r)] else dead))
       (inbox s) (tasks s) bs (now s) (pubs s),
     [OSettled n k r x]).

  (** broker.rs 262-264, message_bus.rs 243-245: the loop over [to_remove]. *)
  Definition remove_dead (dead : list (key * nat)) (t : table) : table :=
    fold_left (fun t e => unsubscribe (fst e) (snd e) t) dead t.

  (** One step (broker.rs 120-266, message_bus.rs 110-247). *)
  Definition step (s : state) (e : event) : option (state * list obs) :=
    match e with
    | ESend b =>
        (* the callers' tells and asks (C16-C20) *)
        let ok := match b with
                  | Subscribe k r => fits k r
                  | Unsubscribe None _ => has_unsubscribe_all
                  | _ => true
                  end in
        if ok && bopen (inbox s) && room (inbox s) then
          Some (mk_state (subs s) (ph s) (put b (inbox s)) (tasks s) (boxes s) (now s) (pubs s), [])
        else None
    | ETake =>
        match ph s, items (inbox s) with
        | Idle, b :: q =>
            let ib := mk_box (bcap (inbox s)) q (held (inbox s)) (bopen (inbox s)) in
            match b with
            | Subscribe k r =>
                (* broker.rs 123-129, message_bus.rs 113-122 *)
                Some (mk_state (subscribe k r (subs s)) Idle ib (tasks s) (boxes s) (now s) (pubs s),
                      [OSubscribed k r])
            | Unsubscribe (Some k) id =>
                (* broker.rs 153-155, message_bus.rs 156-162 *)
                Some (mk_state (unsubscribe k id (subs s)) Idle ib (tasks s) (boxes s) (now s) (pubs s),
                      [OUnsubscribed (Some k) id])
            | Unsubscribe None id =>
                (* broker.rs 156-161 *)
                Some (mk_state (unsubscribe_all id (subs s)) Idle ib (tasks s) (boxes s) (now s) (pubs s),
                      [OUnsubscribed None id])
            | Publish t m =>
                (* broker.rs 187-196, message_bus.rs 180-188 *)
                Some (mk_state (subs s)
                        (Delivering (pubs s) t m (targets (subs s) t) None [])
                        ib (tasks s) (boxes s) (now s) (S (pubs s)),
                      [OPublished (pubs s) t m])
            end
        | _, _ => None
        end
    | EDeliver =>
        match ph s with
        | Delivering n t m ((k, r) :: todo) since dead =>
            if usable t r then
              let a := recipient r in
              let began := match since with None => [OAttempt n k r] | Some _ => [] end in
              match mode_of strat with
              | MWait d =>
                  (* broker.rs 198-203, 210-218; message_bus.rs 190-195, 202-210 *)
                  let t0 := match since with None => now s | Some t0 => t0 end in
                  match poll_tell (fired d t0 (now s)) (boxes s a) (Copy n m) m with
                  | Some (b, x) =>
                      let '(s', o) := settle s (upd (boxes s) a b) n t m k r todo dead x in
                      Some (s', began ++ o)
                  | None =>
                      Some (mk_state (subs s) (Delivering n t m ((k, r) :: todo) (Some t0) dead)
                                     (inbox s) (tasks s) (boxes s) (now s) (pubs s), began)
                  end
              | MTry =>
                  (* broker.rs 204-209, message_bus.rs 196-201 *)
                  let '(b, x) := try_tell (boxes s a) (Copy n m) m in
                  let '(s', o) := settle s (upd (boxes s) a b) n t m k r todo dead x in
                  Some (s', began ++ o)
              | MSpawn _ =>
                  (* broker.rs 219-256, message_bus.rs 211-238 *)
                  Some (mk_state (subs s) (Delivering n t m todo None dead) (inbox s)
                                 (tasks s ++ [mk_task n k r m None TSending])
                                 (boxes s) (now s) (pubs s), began)
              end
            else
              (* message_bus.rs 188: [unwrap] panics; the default [on_panic] stops the actor *)
              Some (mk_state (subs s) Stopped (mk_box (bcap (inbox s)) [] (held (inbox s)) false)
                             (tasks s) (boxes s) (now s) (pubs s), [OPanicked n])
        | _ => None
        end
    | EFinish =>
        match ph s with
        | Delivering n t m [] _ dead =>
            Some (mk_state (remove_dead dead (subs s)) Idle (inbox s) (tasks s) (boxes s) (now s) (pubs s),
                  map (fun e => OExpired (fst e) (snd e)) dead ++ [OFinished n])
        | _ => None
        end
    | ETask i =>
        match nth_error (tasks s) i with
        | Some tk =>
            match tph tk with
            | TSending =>
                (* broker.rs 225, 242-246; message_bus.rs 217, 229-233 *)
                let a := recipient (treg tk) in
                let t0 := match tsince tk with None => now s | Some t0 => t0 end in
                match poll_tell (fired task_timeout t0 (now s)) (boxes s a) (Copy (tn tk) (tmsg tk)) (tmsg tk) with
                | Some (b, x) =>
                    let tk' := mk_task (tn tk) (tkey tk) (treg tk) (tmsg tk) (Some t0)
                                       (if not_running x then TReporting else TEnded) in
                    Some (mk_state (subs s) (ph s) (inbox s) (set_nth i tk' (tasks s))
                                   (upd (boxes s) a b) (now s) (pubs s),
                          [OSettled (tn tk) (tkey tk) (treg tk) x])
                | None =>
                    let tk' := mk_task (tn tk) (tkey tk) (treg tk) (tmsg tk) (Some t0) TSending in
                    Some (mk_state (subs s) (ph s) (inbox s) (set_nth i tk' (tasks s))
                                   (boxes s) (now s) (pubs s), [])
                end
            | TReporting =>
                (* broker.rs 226-233, 247-254; message_bus.rs 218-220, 234-236 *)
                let b := Unsubscribe (Some (tkey tk)) (rid (treg tk)) in
                let tk' := mk_task (tn tk) (tkey tk) (treg tk) (tmsg tk) (tsince tk) TEnded in
                match poll_tell false (inbox s) b b with
                | Some (ib, x) =>
                    Some (mk_state (subs s) (ph s) ib (set_nth i tk' (tasks s))
                                   (boxes s) (now s) (pubs s),
                          if not_running x then [] else [OReported (tkey tk) (rid (treg tk))])
                | None => None
                end
            | TEnded => None
            end
        | None => None
        end
    | EStop =>
        (* the broker's own end (Lifecycle.v): a handler that is being polled is dropped,
           the mailbox is closed and emptied *)
        Some (mk_state (subs s) Stopped (mk_box (bcap (inbox s)) [] (held (inbox s)) false)
                       (tasks s) (boxes s) (now s) (pubs s), [])
    | EOther a v =>
        (* other senders (src/request/tell.rs 78-100) *)
        let b := boxes s a in
        if bopen b && room b then
          Some (mk_state (subs s) (ph s) (inbox s) (tasks s) (upd (boxes s) a (put (Foreign v) b)) (now s) (pubs s), [])
        else None
    | ERead a =>
        (* src/mailbox.rs [recv] *)
        let b := boxes s a in
        match items b with
        | i :: q =>
            Some (mk_state (subs s) (ph s) (inbox s) (tasks s)
                    (upd (boxes s) a (mk_box (bcap b) q (held b) (bopen b))) (now s) (pubs s), [ORead a i])
        | [] => None
        end
    | EEnd a =>
        (* src/actor/spawn.rs 415-591: the receiver is dropped *)
        let b := boxes s a in
        Some (mk_state (subs s) (ph s) (inbox s) (tasks s)
                (upd (boxes s) a (mk_box (bcap b) [] (held b) false)) (now s) (pubs s), [OEnded a])
    | EHold a =>
        (* tokio: a permit is handed to another sender *)
        let b := boxes s a in
        if bopen b && room b then
          Some (mk_state (subs s) (ph s) (inbox s) (tasks s)
                  (upd (boxes s) a (mk_box (bcap b) (items b) (S (held b)) (bopen b))) (now s) (pubs s), [])
        else None
    | EFree a =>
        let b := boxes s a in
        match held b with
        | S h => Some (mk_state (subs s) (ph s) (inbox s) (tasks s)
                         (upd (boxes s) a (mk_box (bcap b) (items b) h (bopen b))) (now s) (pubs s), [])
        | 0 => None
        end
    | ETick =>
        Some (mk_state (subs s) (ph s) (inbox s) (tasks s) (boxes s) (S (now s)) (pubs s), [])
    | ERehash i =>
        (* std: the order of a [HashMap] is unspecified *)
        match ph s with
        | Idle => Some (mk_state (swap_at i (subs s)) Idle (inbox s) (tasks s) (boxes s) (now s) (pubs s), [])
        | _ => None
        end
    end.

  (** A run of the actor (src/actor/spawn.rs 593-658): events from a state, the state
      reached and what was observed. *)
  Fixpoint run (s : state) (es : list event) : option (state * list obs) :=
    match es with
    | [] => Some (s, [])
    | e :: es' =>
        match step s e with
        | Some (s', o) =>
            match run s' es' with
            | Some (s'', o') => Some (s'', o ++ o')
            | None => None
            end
        | None => None
        end
    end.

  (** broker.rs 91-96, message_bus.rs 85-90: [new], spawned with a mailbox of capacity
      [cap]; recipients with empty mailboxes of capacities [caps]. *)
  Definition init (cap : option nat) (caps : nat -> option nat) : state :=
    mk_state [] Idle (mk_box cap [] 0 true) [] (fun a => mk_box (caps a) [] 0 true) 0 0.
End Delivery.
