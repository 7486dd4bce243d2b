(** Model of the handles of actors: references, recipients, senders, their weak forms, and
    what each of them is made of.

    src/actor/actor_ref.rs 47-192, 815-973, 1237-1512, src/mailbox.rs 27-232, src/message.rs
    70-92, src/actor/spawn.rs 280-333, and the places where a signal holds a reference
    (mailbox.rs 441-446). The shared parts a handle points to (channel, abort pair, link table,
    semaphore, the two error cells) are numbered; tokio's channel counts its strong and weak
    senders. What the parts do is the matter of Lifecycle, Requests and System; here it is only
    noted on which part a method acts.

    Simplified: the mailbox given to [PreparedActor::new] is a fresh pair, as the two
    constructors of mailboxes return it; ids do not repeat (see ActorId). *)
From Coq Require Import List Bool Arith.
Import ListNotations.

(** ** Channels *)

(** mailbox.rs 45-50: [MailboxSender]. *)
Inductive sender : Type := TxBounded (c : nat) | TxUnbounded (c : nat).

(** mailbox.rs 176-181: [WeakMailboxSender]. *)
Inductive weak_sender : Type := WTxBounded (c : nat) | WTxUnbounded (c : nat).

(** The counts of each channel (tokio [Chan]: [tx_count], [tx_weak_count]). *)
Record counts : Type := mk_counts { n_strong : nat -> nat; n_weak : nat -> nat }.

(** One place of a table of counts replaced (tokio's atomic counters). *)
Definition put (f : nat -> nat) (c n : nat) : nat -> nat := fun x => if x =? c then n else f x.

(** tokio [Sender::clone]. *)
Definition chan_clone (q : counts) (c : nat) : counts := mk_counts (put (n_strong q) c (S (n_strong q c))) (n_weak q).

(** tokio, dropping a [Sender]. *)
Definition chan_drop (q : counts) (c : nat) : counts := mk_counts (put (n_strong q) c (pred (n_strong q c))) (n_weak q).

(** tokio [Sender::downgrade] and [WeakSender::clone]. *)
Definition chan_weak (q : counts) (c : nat) : counts := mk_counts (n_strong q) (put (n_weak q) c (S (n_weak q c))).

(** tokio, dropping a [WeakSender]. *)
Definition chan_weak_drop (q : counts) (c : nat) : counts := mk_counts (n_strong q) (put (n_weak q) c (pred (n_weak q c))).

(** tokio [WeakSender::upgrade]. *)
Definition chan_upgrade (q : counts) (c : nat) : option counts :=
  if n_strong q c =? 0 then None else Some (chan_clone q c).

(** mailbox.rs 152-159. *)
Definition sender_clone (q : counts) (x : sender) : counts * sender :=
  match x with
  | TxBounded c => (chan_clone q c, TxBounded c)
  | TxUnbounded c => (chan_clone q c, TxUnbounded c)
  end.

(** mailbox.rs 118-123: [MailboxSender::downgrade]. *)
Definition sender_downgrade (q : counts) (x : sender) : counts * weak_sender :=
  match x with
  | TxBounded c => (chan_weak q c, WTxBounded c)
  | TxUnbounded c => (chan_weak q c, WTxUnbounded c)
  end.

(** mailbox.rs 131-136, 144-149. *)
Definition sender_strong (q : counts) (x : sender) : nat :=
  match x with TxBounded c => n_strong q c | TxUnbounded c => n_strong q c end.
Definition sender_weak (q : counts) (x : sender) : nat :=
  match x with TxBounded c => n_weak q c | TxUnbounded c => n_weak q c end.

(** The channel of a sender, which [send], [closed] and [is_closed] act on (mailbox.rs 59-92). *)
Definition sender_chan (x : sender) : nat := match x with TxBounded c => c | TxUnbounded c => c end.

(** mailbox.rs 100-107: [MailboxSender::same_channel]. *)
Definition same_channel (x y : sender) : bool :=
  match x, y with
  | TxBounded a, TxBounded b => a =? b
  | TxBounded _, TxUnbounded _ => false
  | TxUnbounded _, TxBounded _ => false
  | TxUnbounded a, TxUnbounded b => a =? b
  end.

(** Dropping a sender (tokio). *)
Definition sender_drop (q : counts) (x : sender) : counts := chan_drop q (sender_chan x).

(** mailbox.rs 192-197: [WeakMailboxSender::upgrade]. *)
Definition weak_upgrade (q : counts) (x : weak_sender) : option (counts * sender) :=
  match x with
  | WTxBounded c => option_map (fun q' => (q', TxBounded c)) (chan_upgrade q c)
  | WTxUnbounded c => option_map (fun q' => (q', TxUnbounded c)) (chan_upgrade q c)
  end.

(** mailbox.rs 205-210, 218-223. *)
Definition weak_strong (q : counts) (x : weak_sender) : nat :=
  match x with WTxBounded c => n_strong q c | WTxUnbounded c => n_strong q c end.
Definition weak_weak (q : counts) (x : weak_sender) : nat :=
  match x with WTxBounded c => n_weak q c | WTxUnbounded c => n_weak q c end.

(** mailbox.rs 226-233. *)
Definition weak_clone (q : counts) (x : weak_sender) : counts * weak_sender :=
  match x with
  | WTxBounded c => (chan_weak q c, WTxBounded c)
  | WTxUnbounded c => (chan_weak q c, WTxUnbounded c)
  end.

(** Dropping a weak sender (tokio). *)
Definition weak_drop (q : counts) (x : weak_sender) : counts :=
  match x with WTxBounded c => chan_weak_drop q c | WTxUnbounded c => chan_weak_drop q c end.

(** ** Handles *)

(** actor_ref.rs 47-55: [ActorRef]. *)
Record actor_ref : Type := mk_ref {
  r_id : nat;
  r_sender : sender;
  r_abort : nat;
  r_links : nat;
  r_semaphore : nat;
  r_startup_error : nat;
  r_shutdown_error : nat
}.

(** actor_ref.rs 1237-1245: [WeakActorRef]. *)
Record weak_ref : Type := mk_weak {
  w_id : nat;
  w_mailbox : weak_sender;
  w_abort : nat;
  w_links : nat;
  w_startup_notify : nat;
  w_startup_error : nat;
  w_shutdown_error : nat
}.

(** actor_ref.rs 62-79: [ActorRef::new], with the id it generates. *)
Definition ref_new (id : nat) (mailbox : sender) (abort_handle links startup_semaphore startup_error shutdown_error : nat)
  : actor_ref :=
  mk_ref id mailbox abort_handle links startup_semaphore startup_error shutdown_error.

(** actor_ref.rs 825-837: [ActorRef::clone]. *)
Definition ref_clone (q : counts) (x : actor_ref) : counts * actor_ref :=
  let (q', tx) := sender_clone q (r_sender x) in
  (q', mk_ref (r_id x) tx (r_abort x) (r_links x) (r_semaphore x) (r_startup_error x) (r_shutdown_error x)).

(** actor_ref.rs 170-180: [ActorRef::downgrade]. *)
Definition ref_downgrade (q : counts) (x : actor_ref) : counts * weak_ref :=
  let (q', tx) := sender_downgrade q (r_sender x) in
  (q', mk_weak (r_id x) tx (r_abort x) (r_links x) (r_semaphore x) (r_startup_error x) (r_shutdown_error x)).

(** actor_ref.rs 1255-1265: [WeakActorRef::upgrade]. *)
Definition ref_upgrade (q : counts) (x : weak_ref) : option (counts * actor_ref) :=
  match weak_upgrade q (w_mailbox x) with
  | Some (q', tx) =>
      Some (q', mk_ref (w_id x) tx (w_abort x) (w_links x) (w_startup_notify x) (w_startup_error x) (w_shutdown_error x))
  | None => None
  end.

(** actor_ref.rs 1278-1290: [WeakActorRef::clone]. *)
Definition wref_clone (q : counts) (x : weak_ref) : counts * weak_ref :=
  let (q', tx) := weak_clone q (w_mailbox x) in
  (q', mk_weak (w_id x) tx (w_abort x) (w_links x) (w_startup_notify x) (w_startup_error x) (w_shutdown_error x)).

(** What can be held: an [ActorRef]; a [Recipient], a boxed [ActorRef] (actor_ref.rs 858-870); the
    reference in a [Signal::Message] (mailbox.rs 441-446); that in a [Context] (message.rs 76); a
    [MailboxSender]; a [WeakActorRef]; a [WeakRecipient], a boxed [WeakActorRef]
    (actor_ref.rs 1309-1311); a [WeakMailboxSender], which is also what a link holds
    (actor_ref.rs 820-822). *)
Inductive handle : Type :=
| HRef (x : actor_ref)
| HRecipient (x : actor_ref)
| HMessage (x : actor_ref)
| HContext (x : actor_ref)
| HSender (x : sender)
| HWeak (x : weak_ref)
| HWeakRecipient (x : weak_ref)
| HWeakSender (x : weak_sender).

(** ** Programs *)

(** What is done with handles; the number of a handle is the order in which it was made. *)
Inductive op : Type :=
| Prepare (bounded : bool)           (* PreparedActor::new, spawn.rs 307-327 *)
| Clone (k : nat)                    (* actor_ref.rs 825-837, 960-966, 1278-1290, 1336-1342, mailbox.rs 152-159, 226-233 *)
| ToRecipient (k : nat)              (* ActorRef::recipient, actor_ref.rs 156-162, 863-870 *)
| Downgrade (k : nat)                (* actor_ref.rs 170-180, 890-892, 1414-1416, mailbox.rs 118-123 *)
| Upgrade (k : nat)                  (* actor_ref.rs 1255-1265, 1321-1323, 1498-1500, mailbox.rs 192-197 *)
| TakeSender (k : nat)               (* mailbox_sender().clone(), actor_ref.rs 815-817 *)
| MakeLink (k : nat)                 (* weak_signal_mailbox, actor_ref.rs 820-822 *)
| Tell (k : nat)                     (* a message to the actor, tell.rs 82-88, ask.rs 118-123, actor_ref.rs 1453-1478 *)
| Handle_ (k : nat)                  (* Context::new for a message, message.rs 85-87, 286-296 *)
| ContextRef (k : nat)               (* Context::actor_ref, message.rs 90-92 *)
| DropIt (k : nat)
| Id (k : nat)                       (* actor_ref.rs 83-85, 874-876, 1249-1251, 1315-1317, 1404-1406, 1493-1495 *)
| IsAlive (k : nat)                  (* actor_ref.rs 89-91, 880-882, 1409-1411 *)
| StrongCount (k : nat)              (* actor_ref.rs 184-186, 896-898, 1268-1270, 1326-1328, 1419-1421, 1503-1505 *)
| WeakCount (k : nat)                (* actor_ref.rs 190-192, 902-904, 1273-1275, 1331-1333, 1424-1426, 1508-1510 *)
| IsCurrent (k : nat) (cur : option nat) (* actor_ref.rs 198-203, 910-912, 1429-1431 *)
| Stop (k : nat)                     (* actor_ref.rs 210-212, 918-920, 1434-1436 *)
| Kill (k : nat)                     (* actor_ref.rs 222-224, 926-928, 1439-1441 *)
| WaitStartup (k : nat)              (* actor_ref.rs 259-261, 268-270, 934-936, 1444-1446 *)
| StartupResult (k : nat)            (* actor_ref.rs 302-316, 324-329 *)
| WaitShutdown (k : nat)             (* actor_ref.rs 342-344, 942-944, 1449-1451 *)
| WaitForStop (k : nat)              (* actor_ref.rs 351-353 *)
| ShutdownResult (k : nat)           (* actor_ref.rs 391-405 *)
| SameChannel (k j : nat)            (* MailboxSender::same_channel, mailbox.rs 100-107 *)
| LinkTable (k : nat).               (* what link and unlink lock, actor_ref.rs 514-529, 637-652 *)

(** On what a method acts, or what it returns. *)
Inductive effect : Type :=
| SaysId (id : nat)
| AsksClosed (chan : nat)                      (* is_closed *)
| SaysCount (n : nat)
| SaysBool (b : bool)
| SendsStop (chan : nat)
| Aborts (abort : nat)
| Acquires (semaphore : nat)
| AcquiresReads (semaphore cell : nat)
| AwaitsClosed (chan : nat)
| AwaitsClosedReads (chan cell : nat)
| Locks (links : nat).

(** What [PreparedActor::new] made for the actor: the receiver's channel and the abort
    registration, which it keeps, the rest shared with the references (spawn.rs 307-327). *)
Record parts : Type := mk_parts {
  p_id : nat; p_bounded : bool; p_chan : nat; p_abort : nat; p_links : nat; p_semaphore : nat;
  p_startup_error : nat; p_shutdown_error : nat
}.

(** The result of an operation. *)
Inductive result : Type :=
| MadeActor (k : nat) (p : parts)
| Made (k : nat)
| NotUpgraded
| Panics                                       (* todo!() *)
| Did (e : effect)
| Dropped.

(** [st_next]: the next unused part; [st_handles]: every handle made, [None] if it is gone. *)
Record st : Type := mk_st { st_next : nat; st_counts : counts; st_handles : list (option handle) }.

(** Nothing has been made (tokio: a new channel has one sender). *)
Definition st_init : st := mk_st 0 (mk_counts (fun _ => 0) (fun _ => 0)) [].

(** A handle that is held. *)
Definition held (s : st) (k : nat) : option handle :=
  match nth_error (st_handles s) k with Some (Some h) => Some h | _ => None end.

(** Giving a handle away (moving out of a variable). *)
Fixpoint take (l : list (option handle)) (k : nat) : list (option handle) :=
  match l, k with
  | [], _ => []
  | _ :: l', 0 => None :: l'
  | x :: l', S k' => x :: take l' k'
  end.

(** A new handle. *)
Definition made (s : st) (q : counts) (h : handle) : option (st * result) :=
  Some (mk_st (st_next s) q (st_handles s ++ [Some h]), Made (length (st_handles s))).

(** A handle turned into another. *)
Definition turned (s : st) (k : nat) (h : handle) : option (st * result) :=
  Some (mk_st (st_next s) (st_counts s) (take (st_handles s) k ++ [Some h]), Made (length (st_handles s))).

(** A method that makes no handle. *)
Definition did (s : st) (e : effect) : option (st * result) := Some (s, Did e).

(** spawn.rs 307-327: [PreparedActor::new], with mailbox.rs 27-40 and actor_ref.rs 62-79. *)
Definition prepare (s : st) (bounded : bool) : option (st * result) :=
  let n := st_next s in
  let id := n in
  let chan := n + 1 in
  let abort := n + 2 in
  let links := n + 3 in
  let semaphore := n + 4 in
  let startup_error := n + 5 in
  let shutdown_error := n + 6 in
  let tx := if bounded then TxBounded chan else TxUnbounded chan in
  Some (mk_st (n + 7) (chan_clone (st_counts s) chan)
          (st_handles s ++ [Some (HRef (ref_new id tx abort links semaphore startup_error shutdown_error))]),
        MadeActor (length (st_handles s))
          (mk_parts id bounded chan abort links semaphore startup_error shutdown_error)).

(** Cloning each kind of handle (see [Clone]; dyn_clone clones what is in the box). *)
Definition clone_handle (s : st) (h : handle) : option (st * result) :=
  let q := st_counts s in
  match h with
  | HRef x => let (q', y) := ref_clone q x in made s q' (HRef y)
  | HRecipient x => let (q', y) := ref_clone q x in made s q' (HRecipient y)
  | HSender x => let (q', y) := sender_clone q x in made s q' (HSender y)
  | HWeak x => let (q', y) := wref_clone q x in made s q' (HWeak y)
  | HWeakRecipient x => let (q', y) := wref_clone q x in made s q' (HWeakRecipient y)
  | HWeakSender x => let (q', y) := weak_clone q x in made s q' (HWeakSender y)
  | HMessage _ | HContext _ => None
  end.

(** Dropping each kind of handle: only its sender is counted (Rust drop glue). *)
Definition drop_counts (q : counts) (h : handle) : counts :=
  match h with
  | HRef x | HRecipient x | HMessage x | HContext x => sender_drop q (r_sender x)
  | HSender x => sender_drop q x
  | HWeak x | HWeakRecipient x => weak_drop q (w_mailbox x)
  | HWeakSender x => weak_drop q x
  end.

(** The sender one can get hold of from a handle (actor_ref.rs 815-817). *)
Definition own_sender (h : handle) : option sender :=
  match h with HRef x => Some (r_sender x) | HSender x => Some x | _ => None end.

(** One operation; [None]: there is no such method or the handle is gone (actor_ref.rs 47-192). *)
Definition step (s : st) (o : op) : option (st * result) :=
  let q := st_counts s in
  match o with
  | Prepare b => prepare s b
  | Clone k => match held s k with Some h => clone_handle s h | None => None end
  | ToRecipient k =>
      match held s k with Some (HRef x) => turned s k (HRecipient x) | _ => None end
  | Downgrade k =>
      match held s k with
      | Some (HRef x) => let (q', y) := ref_downgrade q x in made s q' (HWeak y)
      | Some (HRecipient _) => Some (s, Panics)                                  (* 890-892, 1414-1416 *)
      | Some (HSender x) => let (q', y) := sender_downgrade q x in made s q' (HWeakSender y)
      | _ => None
      end
  | Upgrade k =>
      match held s k with
      | Some (HWeak x) =>
          match ref_upgrade q x with Some (q', y) => made s q' (HRef y) | None => Some (s, NotUpgraded) end
      | Some (HWeakRecipient x) =>
          match ref_upgrade q x with Some (q', y) => made s q' (HRecipient y) | None => Some (s, NotUpgraded) end
      | Some (HWeakSender x) =>
          match weak_upgrade q x with Some (q', y) => made s q' (HSender y) | None => Some (s, NotUpgraded) end
      | _ => None
      end
  | TakeSender k =>
      match held s k with
      | Some (HRef x) => let (q', y) := sender_clone q (r_sender x) in made s q' (HSender y)
      | _ => None
      end
  | MakeLink k =>
      match held s k with
      | Some (HRef x) => let (q', y) := sender_downgrade q (r_sender x) in made s q' (HWeakSender y)
      | _ => None
      end
  | Tell k =>
      match held s k with
      | Some (HRef x) | Some (HRecipient x) => let (q', y) := ref_clone q x in made s q' (HMessage y)
      | _ => None
      end
  | Handle_ k =>
      match held s k with Some (HMessage x) => turned s k (HContext x) | _ => None end
  | ContextRef k =>
      match held s k with
      | Some (HContext x) => let (q', y) := ref_clone q x in made s q' (HRef y)
      | _ => None
      end
  | DropIt k =>
      match held s k with
      | Some h => Some (mk_st (st_next s) (drop_counts q h) (take (st_handles s) k), Dropped)
      | None => None
      end
  | Id k =>
      match held s k with
      | Some (HRef x) | Some (HRecipient x) => did s (SaysId (r_id x))
      | Some (HWeak x) | Some (HWeakRecipient x) => did s (SaysId (w_id x))
      | _ => None
      end
  | IsAlive k =>
      match held s k with
      | Some (HRef x) | Some (HRecipient x) => did s (AsksClosed (sender_chan (r_sender x)))
      | Some (HSender x) => did s (AsksClosed (sender_chan x))
      | _ => None
      end
  | StrongCount k =>
      match held s k with
      | Some (HRef x) | Some (HRecipient x) => did s (SaysCount (sender_strong q (r_sender x)))
      | Some (HSender x) => did s (SaysCount (sender_strong q x))
      | Some (HWeak x) | Some (HWeakRecipient x) => did s (SaysCount (weak_strong q (w_mailbox x)))
      | Some (HWeakSender x) => did s (SaysCount (weak_strong q x))
      | _ => None
      end
  | WeakCount k =>
      match held s k with
      | Some (HRef x) | Some (HRecipient x) => did s (SaysCount (sender_weak q (r_sender x)))
      | Some (HSender x) => did s (SaysCount (sender_weak q x))
      | Some (HWeak x) | Some (HWeakRecipient x) => did s (SaysCount (weak_weak q (w_mailbox x)))
      | Some (HWeakSender x) => did s (SaysCount (weak_weak q x))
      | _ => None
      end
  | IsCurrent k cur =>
      match held s k with
      | Some (HRef x) | Some (HRecipient x) =>
          did s (SaysBool (match cur with Some c => c =? r_id x | None => false end))
      | _ => None
      end
  | Stop k =>
      match held s k with
      | Some (HRef x) | Some (HRecipient x) => did s (SendsStop (sender_chan (r_sender x)))
      | _ => None
      end
  | Kill k =>
      match held s k with
      | Some (HRef x) | Some (HRecipient x) => did s (Aborts (r_abort x))
      | _ => None
      end
  | WaitStartup k =>
      match held s k with
      | Some (HRef x) | Some (HRecipient x) => did s (Acquires (r_semaphore x))
      | _ => None
      end
  | StartupResult k =>
      match held s k with
      | Some (HRef x) => did s (AcquiresReads (r_semaphore x) (r_startup_error x))
      | _ => None
      end
  | WaitShutdown k =>
      match held s k with
      | Some (HRef x) | Some (HRecipient x) => did s (AwaitsClosed (sender_chan (r_sender x)))
      | _ => None
      end
  | WaitForStop k =>
      match held s k with Some (HRef x) => did s (Acquires (r_semaphore x)) | _ => None end
  | ShutdownResult k =>
      match held s k with
      | Some (HRef x) => did s (AwaitsClosedReads (sender_chan (r_sender x)) (r_shutdown_error x))
      | _ => None
      end
  | SameChannel k j =>
      match held s k, held s j with
      | Some h, Some h' =>
          match own_sender h, own_sender h' with
          | Some x, Some y => did s (SaysBool (same_channel x y))
          | _, _ => None
          end
      | _, _ => None
      end
  | LinkTable k =>
      match held s k with Some (HRef x) => did s (Locks (r_links x)) | _ => None end
  end.

(** A program, and its history (actor_ref.rs 47-192). *)
Fixpoint exec (s : st) (os : list op) : option (st * list (op * result)) :=
  match os with
  | [] => Some (s, [])
  | o :: os' =>
      match step s o with
      | None => None
      | Some (s1, r) =>
          match exec s1 os' with
          | None => None
          | Some (s2, tr) => Some (s2, (o, r) :: tr)
          end
      end
  end.
