(** Model of the actor pool: actors/src/pool.rs 70-406. The pool actor, its mailbox, its
    workers ([Worker], 227-260) and their mailboxes.

    A message is a number with the reply channel of the asker, if there is one. What the
    inner actor of a worker does with it is the environment: it answers with success or
    failure. Simplifications: a worker starts at once (it has no [on_start]); of the pool's
    own end only that it handles nothing more is modelled; the links of the pool other
    than those with workers only show as reports about other actors; [next_worker] reads all
    counters at one moment; messages that reach the pool during its [on_start] are handled
    in order with the reports. *)
From Coq Require Import List Bool PeanoNat.
Import ListNotations.

Definition msg : Type := nat * option nat.

(** A worker: in its loop, after its loop (the links are taken down, messages are still
    accepted: src/actor/spawn.rs 503-565), or ended (its mailbox is closed). *)
Inductive wstate : Type := WUp | WEnding | WGone.

(** A worker. [load] is the number of [Weak]s of the counter the pool keeps for it
    (pool.rs 71, 159); [linked]: the pool is among its links; [to_tell]: it has still to
    send the pool its [LinkDied]. *)
Record worker : Type := mk_worker {
  st : wstate;
  cap : option nat;              (* capacity of its mailbox, [None]: unbounded *)
  queue : list msg;
  busy : option msg;             (* the message it is handling (pool.rs 250-259) *)
  load : nat;
  linked : bool;
  to_tell : bool
}.

(** What is in the mailbox of the pool. *)
Inductive pmsg : Type :=
| PDispatchMsg (m : msg)         (* [Dispatch] (304) *)
| PBroadcastMsg (m : nat)        (* [Broadcast] (368), its own reply left aside *)
| PReport (id : nat)             (* [Signal::LinkDied] of a worker *)
| PForeign.                      (* of another actor that was linked with the pool *)

(** Where the pool is. *)
Inductive phase : Type :=
| PStarting (k : nat)            (* [on_start] (175-181), about to link slot [k] *)
| PIdle
| PSending (m : msg) (tries w : nat)   (* in [Dispatch::handle], sending to [w], [tries] rounds left *)
| PCasting (m : nat) (rs : list (nat * option bool)) (* in [join_all] (380): sent, failed, or pending *)
| PLinking (w : nat)             (* at the end of [on_link_died] (221) *)
| PStopped.

(** The pool actor ([ActorPool], 70-74) and all workers there ever were. *)
Record pool : Type := mk_pool {
  slots : list nat;
  wk : nat -> worker;
  fresh : nat;                   (* next id *)
  inbox : list pmsg;
  pcap : option nat;
  ph : phase
}.

(** What can happen. *)
Inductive event : Type :=
| ESubmit (m : pmsg)             (* a message or a foreign report enters the pool's mailbox *)
| ELink                          (* [link] of the pool with a worker completes (177, 221) *)
| EHandle (up : bool) (c : option nat) (* the pool takes the next message; [up]: [upgrade] (189)
                                    succeeds; [c]: capacity seen by a replacement (204-207) *)
| ESent                          (* the send of [Dispatch] is accepted *)
| ERefused                       (* it fails: the worker's mailbox is closed *)
| ECastSent (k : nat)            (* the same for send [k] of [Broadcast] *)
| ECastRefused (k : nat)
| ETake (w : nat)                (* a worker takes a message *)
| EFinish (w : nat) (ok : bool)  (* the inner actor has answered (258) *)
| ELeave (w : nat)               (* a worker leaves its loop, for whatever reason *)
| ETell (w : nat)                (* it tells the pool *)
| EGone (w : nat).               (* its mailbox is closed *)

(** What is observed. *)
Inductive obs : Type :=
| OChosen (w : nat) (m : msg)            (* by [next_worker], in [Dispatch] *)
| OSent (w : nat) (m : msg)              (* into a worker's mailbox *)
| OFinished (w : nat) (m : msg) (ok : bool)
| ODropped (w : nat) (m : msg)           (* with a worker that ends *)
| OReply (ch : nat) (ok : bool)
| OForwarded (m : msg)                   (* [Dispatch::handle] returns [Forwarded] *)
| OFailed (m : msg)                      (* it returns [Err(ActorNotRunning(m))] *)
| OCast (m : nat) (rs : list (nat * bool))  (* [Broadcast::handle] returns its vector *)
| OReplaced (i old new : nat)
| OLinked (w : nat)                      (* the pool is linked with a live worker *)
| OCasting (m : nat)                     (* [Broadcast::handle] begins *)
| OPanicked                              (* a handler of the pool panics *)
| OStopped.                              (* the pool leaves its loop *)

(** Function update, without counterpart in the code. *)
Definition put {A : Type} (f : nat -> A) (k : nat) (v : A) : nat -> A :=
  fun k' => if k' =? k then v else f k'.

(** Room in a mailbox (tokio's bounded channel). *)
Definition has_room {A : Type} (c : option nat) (q : list A) : bool :=
  match c with None => true | Some n => length q <? n end.

(** [Iterator::min_by_key]: the first of the least (pool.rs 157-160). *)
Fixpoint first_min (f : nat -> nat) (l : list nat) : option nat :=
  match l with
  | [] => None
  | w :: l' =>
      match first_min f l' with
      | None => Some w
      | Some v => if f w <=? f v then Some w else Some v
      end
  end.

(** A worker that was just spawned, with its new counter (104-112, 201-220). *)
Definition new_worker (c : option nat) : worker := mk_worker WUp c [] None 0 false false.
(** An id not in use. *)
Definition no_worker : worker := mk_worker WGone None [] None 0 false false.

(** tokio's [mpsc::channel] panics on capacity 0 (src/mailbox.rs 27-28; pool.rs 109, 205). *)
Definition bad_cap (c : option nat) : bool := match c with Some 0 => true | _ => false end.

(** [Arc::downgrade] and the drop of a [Weak] (160, 390, 254). *)
Definition add_load (f : nat -> worker) (w : nat) : nat -> worker :=
  put f w (mk_worker (st (f w)) (cap (f w)) (queue (f w)) (busy (f w)) (S (load (f w))) (linked (f w)) (to_tell (f w))).
Definition sub_load (f : nat -> worker) (w : nat) : nat -> worker :=
  put f w (mk_worker (st (f w)) (cap (f w)) (queue (f w)) (busy (f w)) (load (f w) - 1) (linked (f w)) (to_tell (f w))).
(** A message goes into the mailbox of a worker. *)
Definition push (f : nat -> worker) (w : nat) (m : msg) : nat -> worker :=
  put f w (mk_worker (st (f w)) (cap (f w)) (queue (f w) ++ [m]) (busy (f w)) (load (f w)) (linked (f w)) (to_tell (f w))).

(** The worker leaves its loop: what it was handling is dropped; it will tell the pool if
    they are linked (spawn.rs 503-533). *)
Definition leave (x : worker) : worker :=
  mk_worker WEnding (cap x) (queue x) None (load x - match busy x with Some _ => 1 | None => 0 end) false (linked x).

(** A round of the loop in [Dispatch::handle] (318-358): the next worker, or, after the
    last round, [WorkerReply::Err] (360). The latter is an error for [into_any_err]
    (288-293), as the reply sender was taken out of the context (317), and stops the pool
    (src/message.rs 301-303, src/actor/kind.rs 119, default [on_panic]). *)
Definition next_round (s : pool) (m : msg) (tries : nat) : pool * list obs :=
  match tries with
  | 0 => (mk_pool (slots s) (wk s) (fresh s) (inbox s) (pcap s) PStopped, [OFailed m; OStopped])
  | S n =>
      match first_min (fun w => load (wk s w)) (slots s) with
      | Some w =>
          (mk_pool (slots s) (add_load (wk s) w) (fresh s) (inbox s) (pcap s) (PSending m n w), [OChosen w m])
      | None =>  (* [expect] (161) *)
          (mk_pool (slots s) (wk s) (fresh s) (inbox s) (pcap s) PStopped, [OPanicked; OStopped])
      end
  end.

(** All sends of a broadcast are done. *)
Fixpoint results (rs : list (nat * option bool)) : option (list (nat * bool)) :=
  match rs with
  | [] => Some []
  | (w, Some b) :: rs' => match results rs' with Some l => Some ((w, b) :: l) | None => None end
  | (_, None) :: _ => None
  end.

(** Send [k] of a broadcast is done with [b]. *)
Fixpoint settle (rs : list (nat * option bool)) (k : nat) (b : bool) : list (nat * option bool) :=
  match rs, k with
  | [], _ => []
  | (w, _) :: rs', 0 => (w, Some b) :: rs'
  | r :: rs', S k' => r :: settle rs' k' b
  end.

(** After a send of a broadcast: [join_all] returns when all are done (380-404). *)
Definition after_cast (s : pool) (f : nat -> worker) (m : nat) (rs : list (nat * option bool)) : pool * list obs :=
  match results rs with
  | Some l => (mk_pool (slots s) f (fresh s) (inbox s) (pcap s) PIdle, [OCast m l])
  | None => (mk_pool (slots s) f (fresh s) (inbox s) (pcap s) (PCasting m rs), [])
  end.

(** Position of a worker ([find], 192-199). *)
Fixpoint position (id : nat) (l : list nat) : option nat :=
  match l with
  | [] => None
  | w :: l' => if w =? id then Some 0 else match position id l' with Some i => Some (S i) | None => None end
  end.
(** [self.workers[i] = ..] (201). *)
Fixpoint set_nth (i : nat) (v : nat) (l : list nat) : list nat :=
  match l, i with
  | [], _ => []
  | _ :: l', 0 => v :: l'
  | w :: l', S i' => w :: set_nth i' v l'
  end.

(** [on_link_died] (183-224) up to the link with the new worker. A panic in it stops the
    pool (kind.rs 145-148). *)
Definition on_link_died (s : pool) (id : nat) (up : bool) (c : option nat) : pool * list obs :=
  if up then
    match position id (slots s) with
    | None => (mk_pool (slots s) (wk s) (fresh s) (inbox s) (pcap s) PIdle, [])
    | Some i =>
        if bad_cap c then (mk_pool (slots s) (wk s) (fresh s) (inbox s) (pcap s) PStopped, [OPanicked; OStopped])
        else (mk_pool (set_nth i (fresh s) (slots s)) (put (wk s) (fresh s) (new_worker c)) (S (fresh s))
                      (inbox s) (pcap s) (PLinking (fresh s)), [OReplaced i id (fresh s)])
    end
  else (mk_pool (slots s) (wk s) (fresh s) (inbox s) (pcap s) PIdle, []).

(** [link]: it comes too late for a worker that has taken down its links. *)
Definition link (f : nat -> worker) (w : nat) : nat -> worker :=
  match st (f w) with
  | WUp => put f w (mk_worker WUp (cap (f w)) (queue (f w)) (busy (f w)) (load (f w)) true (to_tell (f w)))
  | _ => f
  end.

(** What is observed of it. *)
Definition link_obs (f : nat -> worker) (w : nat) : list obs :=
  match st (f w) with WUp => [OLinked w] | _ => [] end.

(** After slot [k] the next one is linked, after the last one [on_start] is done (175-181). *)
Definition start_at (k n : nat) : phase := if k <? n then PStarting k else PIdle.

(** The worker [w], changed. *)
Definition with_worker (s : pool) (w : nat) (x : worker) : pool :=
  mk_pool (slots s) (put (wk s) w x) (fresh s) (inbox s) (pcap s) (ph s).

(** One step. [None]: not possible. *)
Definition step (s : pool) (e : event) : option (pool * list obs) :=
  match e with
  | ESubmit m =>
      (* a report about a worker comes from the worker only *)
      let ok := match m with PReport _ => false | _ => true end in
      let running := match ph s with PStopped => false | _ => true end in
      if ok && running && has_room (pcap s) (inbox s)
      then Some (mk_pool (slots s) (wk s) (fresh s) (inbox s ++ [m]) (pcap s) (ph s), [])
      else None
  | ELink =>
      match ph s with
      | PStarting k =>
          match nth_error (slots s) k with
          | Some w =>
              Some (mk_pool (slots s) (link (wk s) w) (fresh s) (inbox s) (pcap s)
                            (start_at (S k) (length (slots s))), link_obs (wk s) w)
          | None => None
          end
      | PLinking w => Some (mk_pool (slots s) (link (wk s) w) (fresh s) (inbox s) (pcap s) PIdle, link_obs (wk s) w)
      | _ => None
      end
  | EHandle up c =>
      match ph s, inbox s with
      | PIdle, m :: q =>
          let s' := mk_pool (slots s) (wk s) (fresh s) q (pcap s) PIdle in
          match m with
          | PDispatchMsg m => Some (next_round s' m (length (slots s)))
          | PBroadcastMsg m =>
              Some (mk_pool (slots s) (fold_left add_load (slots s) (wk s)) (fresh s) q (pcap s)
                            (PCasting m (map (fun w => (w, None)) (slots s))), [OCasting m])
          | PReport id => Some (on_link_died s' id up c)
          | PForeign => Some (s', [])  (* not found (192-199) *)
          end
      | _, _ => None
      end
  | ESent =>
      match ph s with
      | PSending m _ w =>
          match st (wk s w) with
          | WGone => None
          | _ =>
              if has_room (cap (wk s w)) (queue (wk s w))
              then Some (mk_pool (slots s) (push (wk s) w m) (fresh s) (inbox s) (pcap s) PIdle,
                         [OSent w m; OForwarded m])
              else None
          end
      | _ => None
      end
  | ERefused =>
      match ph s with
      | PSending m n w =>
          match st (wk s w) with
          | WGone =>
              let s' := mk_pool (slots s) (sub_load (wk s) w) (fresh s) (inbox s) (pcap s) PIdle in
              match snd m with
              | Some _ =>
                  (* [forward] (322-325) panics on a failed send: its error conversion downcasts
                     the message to a pair with the reply sender (src/error.rs 275, C20) *)
                  Some (mk_pool (slots s') (wk s') (fresh s') (inbox s') (pcap s') PStopped, [OPanicked; OStopped])
              | None => Some (next_round s' m n)
              end
          | _ => None
          end
      | _ => None
      end
  | ECastSent k =>
      match ph s with
      | PCasting m rs =>
          match nth_error rs k with
          | Some (w, None) =>
              match st (wk s w) with
              | WGone => None
              | _ =>
                  if has_room (cap (wk s w)) (queue (wk s w))
                  then let '(s', o) := after_cast s (push (wk s) w (m, None)) m (settle rs k true) in
                       Some (s', OSent w (m, None) :: o)
                  else None
              end
          | _ => None
          end
      | _ => None
      end
  | ECastRefused k =>
      match ph s with
      | PCasting m rs =>
          match nth_error rs k with
          | Some (w, None) =>
              match st (wk s w) with
              | WGone => Some (after_cast s (sub_load (wk s) w) m (settle rs k false))
              | _ => None
              end
          | _ => None
          end
      | _ => None
      end
  | ETake w =>
      let x := wk s w in
      match st x, busy x, queue x with
      | WUp, None, m :: q =>
          Some (with_worker s w (mk_worker WUp (cap x) q (Some m) (load x) (linked x) (to_tell x)), [])
      | _, _, _ => None
      end
  | EFinish w ok =>
      let x := wk s w in
      match st x, busy x with
      | WUp, Some m =>
          let y := mk_worker WUp (cap x) (queue x) None (load x - 1) (linked x) (to_tell x) in
          match snd m with
          | Some ch => Some (with_worker s w y, [OFinished w m ok; OReply ch ok])
          | None =>
              (* an error without reply sender stops the worker (258; message.rs 301-303) *)
              Some (with_worker s w (if ok then y else leave y), [OFinished w m ok])
          end
      | _, _ => None
      end
  | ELeave w =>
      let x := wk s w in
      match st x with
      | WUp => Some (with_worker s w (leave x), match busy x with Some m => [ODropped w m] | None => [] end)
      | _ => None
      end
  | ETell w =>
      let x := wk s w in
      match st x, to_tell x with
      | WEnding, true =>
          let y := mk_worker WEnding (cap x) (queue x) (busy x) (load x) (linked x) false in
          match ph s with
          | PStopped => Some (with_worker s w y, [])
          | _ =>
              if has_room (pcap s) (inbox s)
              then Some (mk_pool (slots s) (put (wk s) w y) (fresh s) (inbox s ++ [PReport w]) (pcap s) (ph s), [])
              else None
          end
      | _, _ => None
      end
  | EGone w =>
      let x := wk s w in
      match st x, to_tell x with
      | WEnding, false =>
          Some (with_worker s w (mk_worker WGone (cap x) [] (busy x) (load x - length (queue x)) (linked x) false),
                map (ODropped w) (queue x))
      | _, _ => None
      end
  end.

(** [ActorPool::new] (94-121) and the start of the pool actor: [caps] are the capacities
    seen at the inner actors (108-111). [None]: a panic, for size 0 or capacity 0. *)
Definition new_pool (caps : list (option nat)) (c : option nat) : option pool :=
  match caps with
  | [] => None
  | _ =>
      if existsb bad_cap caps then None
      else Some (mk_pool (seq 0 (length caps))
                         (fun w => match nth_error caps w with Some k => new_worker k | None => no_worker end)
                         (length caps) [] c (PStarting 0))
  end.

(** A run. *)
Fixpoint run (s : pool) (es : list event) : option (pool * list obs) :=
  match es with
  | [] => Some (s, [])
  | e :: es' =>
      match step s e with
      | None => None
      | Some (s1, o1) =>
          match run s1 es' with
          | None => None
          | Some (s2, o2) => Some (s2, o1 ++ o2)
          end
      end
  end.
