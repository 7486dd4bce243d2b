(** What is claimed of actors that wait for each other: words for "waits for", "leads to" and
    "ends", stated over what each actor awaits only. *)
From Coq Require Import List Bool PeanoNat.
From Verif Require Import Waiting.
Import ListNotations.

(** A world some run leads to, from actors whose bounded mailboxes have at least one place. *)
Definition reached (w : world) : Prop :=
  exists caps sc es, (forall a, caps a <> Some 0) /\ exec (fresh caps sc) es = Some w.

(** The actor that [a] waits for. *)
Definition target (w : world) (a : actor) : option actor :=
  match waits (w a) with
  | Some (ForReply b) => Some b
  | Some (ForRoom b) => Some b
  | _ => None
  end.

(** [a] waits for [b], or for an actor that waits for [b], and so on; at least one step. *)
Inductive waits_on (w : world) : actor -> actor -> Prop :=
| waits_direct a b : target w a = Some b -> waits_on w a b
| waits_through a b c : target w a = Some b -> waits_on w b c -> waits_on w a c.

(** [a] is in a deadlock: it waits, over others or not, for an actor that waits for itself. *)
Definition deadlocked (w : world) (a : actor) : Prop :=
  exists c, (a = c \/ waits_on w a c) /\ waits_on w c c.

(** [x] runs code that a kill cuts: not [on_start], not what comes after its loop. *)
Definition killable (w : world) (x : actor) : Prop := exists r, does (w x) = Busy r.

(** The run [es] from [w] does not help [x] from outside: no timeout ends its wait, and no kill cuts its code. *)
Definition unhelped (w : world) (es : list event) (x : actor) : Prop :=
  ~ In (GiveUp x) es /\ (killable w x -> ~ In (Kill x) es).

(** What only actors do that go on with what they have: nothing is sent, and no one gives up or is killed. *)
Definition settles (e : event) : Prop :=
  match e with Take _ | Finish _ | Answer _ | End_ _ => True | _ => False end.

(** Every place of [b]'s mailbox is taken. *)
Definition full (w : world) (b : actor) : Prop := exists n, cap (w b) = Some n /\ length (box (w b)) = n.

(** The requests an actor awaits go to actors of lower rank only. *)
Definition downwards (rank : actor -> nat) (e : event) : Prop :=
  match e with
  | Ask a b | Tell a b => rank b < rank a
  | _ => True
  end.

(** No call warned on the way. *)
Fixpoint unwarned (w : world) (es : list event) : bool :=
  match es with
  | [] => true
  | e :: es' => negb (warns w e) && match step w e with Some w1 => unwarned w1 es' | None => true end
  end.

(** By [e] the message [a] awaits the reply of is done with: the code [b] runs for it ends or passes
    the reply on to another task, or [b] drops its mailbox. *)
Definition answers (w : world) (e : event) (b a : actor) : Prop :=
  (does (w b) = Busy (Some a) /\ (e = Finish b \/ e = Delegate b \/ e = Leave b \/ e = Kill b)) \/ e = End_ b.

(** [e] is an event of the run [es] from [w], which has led to [w1] before it and leads to [w2] by it. *)
Definition happens (w : world) (es : list event) (w1 : world) (e : event) (w2 : world) : Prop :=
  exists es1 es2, es = es1 ++ e :: es2 /\ exec w es1 = Some w1 /\ step w1 e = Some w2.
