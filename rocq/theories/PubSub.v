(** Model of [PubSub] (actors/src/pubsub.rs 63-307), spawned as an actor. One [PubSub], its
    mailbox and the mailboxes of the subscribers, as in Delivery.v: what the subscribers
    do, who else sends to them and who sends to the [PubSub] are events, actors are named
    by their ids, a [HashMap] is a list with distinct keys that an event may rearrange
    between two messages, and [M::clone] gives an equal message. A filter is an arbitrary
    closure: calling it yields an answer and its next state, or panics.
    Not modelled: the use of [PubSub] as a plain object, where dropping the future of
    [publish] is what [PEStop] is here. *)
From Coq Require Import List Bool PeanoNat.
Import ListNotations.
From Verif Require Import Errors Delivery.

Set Implicit Arguments.

Section PubSub.
  Context {fil msg : Type}.
  (** std [FnMut(&M) -> bool]; [None]: it panics. *)
  Variable call : fil -> msg -> option (bool * fil).

  (** pubsub.rs 54, 161, 206: the boxed filters: [|_| true], or the caller's. *)
  Inductive filter_fn : Type := Always | Given (f : fil).

  (** Calling one (pubsub.rs 104). *)
  Definition call_fn (f : filter_fn) (m : msg) : option (bool * filter_fn) :=
    match f with
    | Always => Some (true, Always)
    | Given f => match call f m with Some (b, f') => Some (b, Given f') | None => None end
    end.

  (** pubsub.rs 63-65. *)
  Definition subscribers : Type := list (nat * filter_fn).

  (** std [HashMap::get] (for the specification of the map, pubsub.rs 64). *)
  Fixpoint lookup (a : nat) (l : subscribers) : option filter_fn :=
    match l with
    | [] => None
    | (a', f) :: l' => if a' =? a then Some f else lookup a l'
    end.

  (** pubsub.rs 160-161, 205-206: std [HashMap::insert]. *)
  Fixpoint insert (a : nat) (f : filter_fn) (l : subscribers) : subscribers :=
    match l with
    | [] => [(a, f)]
    | (a', f') :: l' => if a' =? a then (a', f) :: l' else (a', f') :: insert a f l'
    end.

  (** pubsub.rs 115: std [HashMap::remove]. *)
  Definition remove (a : nat) (l : subscribers) : subscribers :=
    filter (fun e => negb (fst e =? a)) l.

  (** pubsub.rs 102-109: the filters are called one after the other, all of them before
      the first send is polled ([join_all] collects the futures first). The subscribers
      with their filters' next states and those that accept; or the one whose filter
      panics. *)
  Fixpoint call_all (m : msg) (l : subscribers) : (subscribers * list nat) + nat :=
    match l with
    | [] => inl ([], [])
    | (a, f) :: l' =>
        match call_fn f m with
        | None => inr a
        | Some (b, f') =>
            match call_all m l' with
            | inl (l'', acc) => inl ((a, f') :: l'', if b then a :: acc else acc)
            | inr a' => inr a'
            end
        end
    end.

  (** The messages of the actor (pubsub.rs 224-288). *)
  Inductive pmsg : Type :=
  | PSubscribe (a : nat) (f : filter_fn)
  | PPublish (m : msg).

  (** Idle; in [join_all] (pubsub.rs 102-110), with the results there are; or stopped. *)
  Inductive pphase : Type :=
  | PIdle
  | Publishing (n : nat) (m : msg) (sends : list (nat * option (told msg)))
  | PStopped.

  (** The actor (pubsub.rs 63-65), its mailbox, those of the subscribers; [published]: publications so far, for naming them. *)
  Record pstate : Type := mk_pstate {
    psubs : subscribers;
    pph : pphase;
    pinbox : box pmsg;
    pboxes : nat -> box (@ditem msg);
    published : nat
  }.

  (** What can happen: the messages (pubsub.rs 227-288), the polls of [join_all] (102-110)
      and what the other parties do. *)
  Inductive pevent : Type :=
  | PESend (b : pmsg)         (* someone's message to the actor is accepted *)
  | PETake                    (* the idle actor takes its next message *)
  | PEPoll (i : nat)          (* [join_all] polls a send that has no result yet *)
  | PEFinish                  (* all have results *)
  | PEStop                    (* the actor is stopped or killed *)
  | PEOther (a v : nat)       (* someone else's message to a subscriber is accepted *)
  | PERead (a : nat)          (* a subscriber takes a message *)
  | PEEnd (a : nat)           (* a subscriber ends: the mailbox is closed and emptied *)
  | PEHold (a : nat) | PEFree (a : nat)  (* another sender reserves, gives back a place *)
  | PERehash (i : nat).       (* the map is rearranged *)

  (** What is observed of it (pubsub.rs 98-207). *)
  Inductive pobs : Type :=
  | POSubscribed (a : nat) (f : filter_fn)
  | POPublished (n : nat) (m : msg)
  | POPanicked (n a : nat)                   (* the filter of [a] panicked *)
  | POSettled (n a : nat) (x : told msg)     (* a send has its result *)
  | POExpired (a : nat)                      (* removed at the end of a publication *)
  | POFinished (n : nat)
  | PORead (a : nat) (i : @ditem msg)
  | POEnded (a : nat).

  (** pubsub.rs 112-120. *)
  Definition gone (x : told msg) : bool :=
    match x with Err (ActorNotRunning _) | Err ActorStopped => true | _ => false end.

  (** pubsub.rs 110-121: the results, when all are there (futures [join_all]). *)
  Definition dead_of (sends : list (nat * option (told msg))) : list nat :=
    flat_map (fun e => match snd e with Some x => if gone x then [fst e] else [] | None => [] end) sends.
  Definition all_settled (sends : list (nat * option (told msg))) : bool :=
    forallb (fun e => match snd e with Some _ => true | None => false end) sends.

  (** One step (pubsub.rs 98-207, 227-288). *)
  Definition pstep (s : pstate) (e : pevent) : option (pstate * list pobs) :=
    match e with
    | PESend b =>
        if bopen (pinbox s) && room (pinbox s) then
          Some (mk_pstate (psubs s) (pph s) (put b (pinbox s)) (pboxes s) (published s), [])
        else None
    | PETake =>
        match pph s, items (pinbox s) with
        | PIdle, b :: q =>
            let ib := mk_box (bcap (pinbox s)) q (held (pinbox s)) (bopen (pinbox s)) in
            match b with
            | PSubscribe a f =>
                (* pubsub.rs 155-162, 197-207 *)
                Some (mk_pstate (insert a f (psubs s)) PIdle ib (pboxes s) (published s), [POSubscribed a f])
            | PPublish m =>
                (* pubsub.rs 98-110 *)
                match call_all m (psubs s) with
                | inl (l, acc) =>
                    Some (mk_pstate l (Publishing (published s) m (map (fun a => (a, None)) acc))
                                    ib (pboxes s) (S (published s)),
                          [POPublished (published s) m])
                | inr a =>
                    (* the panic reaches the actor (src/actor/kind.rs 97-119), whose
                       default [on_panic] stops it *)
                    Some (mk_pstate (psubs s) PStopped (mk_box (bcap (pinbox s)) [] (held (pinbox s)) false)
                                    (pboxes s) (S (published s)),
                          [POPublished (published s) m; POPanicked (published s) a])
                end
            end
        | _, _ => None
        end
    | PEPoll i =>
        match pph s with
        | Publishing n m sends =>
            match nth_error sends i with
            | Some (a, None) =>
                (* pubsub.rs 106, 294-307: [tell] without timeouts *)
                match poll_tell false (pboxes s a) (Copy n m) m with
                | Some (b, x) =>
                    Some (mk_pstate (psubs s) (Publishing n m (set_nth i (a, Some x) sends)) (pinbox s)
                                    (upd (pboxes s) a b) (published s), [POSettled n a x])
                | None => Some (s, [])
                end
            | _ => None
            end
        | _ => None
        end
    | PEFinish =>
        match pph s with
        | Publishing n m sends =>
            if all_settled sends then
              Some (mk_pstate (fold_left (fun l a => remove a l) (dead_of sends) (psubs s)) PIdle (pinbox s)
                              (pboxes s) (published s),
                    map POExpired (dead_of sends) ++ [POFinished n])
            else None
        | _ => None
        end
    | PEStop =>
        Some (mk_pstate (psubs s) PStopped (mk_box (bcap (pinbox s)) [] (held (pinbox s)) false)
                        (pboxes s) (published s), [])
    | PEOther a v =>
        (* other senders (src/request/tell.rs 78-100) *)
        let b := pboxes s a in
        if bopen b && room b then
          Some (mk_pstate (psubs s) (pph s) (pinbox s) (upd (pboxes s) a (put (Foreign v) b)) (published s), [])
        else None
    | PERead a =>
        (* src/mailbox.rs [recv] *)
        let b := pboxes s a in
        match items b with
        | i :: q =>
            Some (mk_pstate (psubs s) (pph s) (pinbox s)
                    (upd (pboxes s) a (mk_box (bcap b) q (held b) (bopen b))) (published s), [PORead a i])
        | [] => None
        end
    | PEEnd a =>
        (* src/actor/spawn.rs 415-591: the receiver is dropped *)
        let b := pboxes s a in
        Some (mk_pstate (psubs s) (pph s) (pinbox s)
                (upd (pboxes s) a (mk_box (bcap b) [] (held b) false)) (published s), [POEnded a])
    | PEHold a =>
        (* tokio: a permit is handed to another sender *)
        let b := pboxes s a in
        if bopen b && room b then
          Some (mk_pstate (psubs s) (pph s) (pinbox s)
                  (upd (pboxes s) a (mk_box (bcap b) (items b) (S (held b)) (bopen b))) (published s), [])
        else None
    | PEFree a =>
        let b := pboxes s a in
        match held b with
        | S h => Some (mk_pstate (psubs s) (pph s) (pinbox s)
                         (upd (pboxes s) a (mk_box (bcap b) (items b) h (bopen b))) (published s), [])
        | 0 => None
        end
    | PERehash i =>
        (* std: the order of a [HashMap] is unspecified *)
        match pph s with
        | PIdle => Some (mk_pstate (swap_at i (psubs s)) PIdle (pinbox s) (pboxes s) (published s), [])
        | _ => None
        end
    end.

  (** A run of the actor (pubsub.rs 210-212, 227-288): events from a state, the state
      reached and what was observed. *)
  Fixpoint prun (s : pstate) (es : list pevent) : option (pstate * list pobs) :=
    match es with
    | [] => Some (s, [])
    | e :: es' =>
        match pstep s e with
        | Some (s', o) =>
            match prun s' es' with
            | Some (s'', o') => Some (s'', o ++ o')
            | None => None
            end
        | None => None
        end
    end.

  (** pubsub.rs 71-75: [new], spawned with a mailbox of capacity [cap]; subscribers with
      empty mailboxes of capacities [caps]. *)
  Definition pinit (cap : option nat) (caps : nat -> option nat) : pstate :=
    mk_pstate [] PIdle (mk_box cap [] 0 true) (fun a => mk_box (caps a) [] 0 true) 0.
End PubSub.
