(** Vocabulary of the properties of Timeouts. *)
From Coq Require Import List Bool NArith.
Import ListNotations.
From Verif Require Import Errors Dyn Reply Requests Timeouts.

(** [o]: the duration set last by calls [f], or none. *)
Definition set_last (f : duration -> setter) (l : list setter) (o : option duration) : Prop :=
  match o with
  | Some d => exists l1 l2, l = l1 ++ f d :: l2 /\ forall d', ~ In (f d') l2
  | None => forall d, ~ In (f d) l
  end.

(** Which sending methods there are for a request with (without) a mailbox timeout and a
    reply timeout, and what they do at the mailbox. *)
Inductive sends : target -> how -> bool -> bool -> method -> Prop :=
| sends_ask : forall a b, sends LocalAsk Send a b (MAsk a b)
| sends_ask_try : forall b, sends LocalAsk TrySend false b (MAskTry b)
| sends_ask_blocking : sends LocalAsk BlockingSend false false MAskBlocking
| sends_enqueue : forall a b, sends LocalAsk Enqueue a b (MEnqueue a b)
| sends_enqueue_try : forall b, sends LocalAsk TryEnqueue false b (MEnqueueTry b)
| sends_enqueue_blocking : sends LocalAsk BlockingEnqueue false false MEnqueueBlocking
| sends_forward : forall a, sends LocalAsk Forward a false (MForward a)
| sends_forward_try : sends LocalAsk TryForward false false MForwardTry
| sends_forward_blocking : sends LocalAsk BlockingForward false false MForwardBlocking
| sends_tell : forall t a, t = LocalTell \/ t = RecipientTell -> sends t Send a false (MTell a)
| sends_tell_try : forall t, t = LocalTell \/ t = RecipientTell -> sends t TrySend false false MTellTry
| sends_tell_blocking : forall t, t = LocalTell \/ t = RecipientTell -> sends t BlockingSend false false MTellBlocking
| sends_remote_ask : forall a b, sends RemoteAsk Send a b (MAsk a b)
| sends_remote_ask_try : forall b, sends RemoteAsk TrySend false b (MAskTry b)
| sends_remote_tell : forall a, sends RemoteTell Send a false (MTell a)
| sends_remote_tell_try : sends RemoteTell TrySend false false MTellTry.

(** The moment [f] from which a reply timeout counts, where [b] is what happened after the
    message was enqueued at [t1]: that moment, or, if a pending reply was handed to the
    caller, when that was first polled. *)
Definition counts_from (h : how) (t1 : N) (b : list tobs) (f : N) : Prop :=
  match h with
  | Enqueue | TryEnqueue => exists b', b = Polled f :: b'
  | _ => f = t1
  end.

(** Nobody answered. *)
Definition unanswered {user : nat -> Type} (es : list (tevent user)) : Prop := forall v, ~ In (Answer v) es.

(** The message was enqueued. *)
Definition is_enqueued (o : tobs) : bool := match o with Enqueued _ => true | _ => false end.
