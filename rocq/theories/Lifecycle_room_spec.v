(** When a mailbox has room, told by what was done to it. Used by the theorems of C15. *)
From Coq Require Import List Bool PeanoNat.
Import ListNotations.
From Verif Require Import Lifecycle Lifecycle_spec.

(** How often other senders were given a permit, and gave it back. *)
Definition permits_given (es : list event) : nat :=
  length (filter (fun e => match e with EReserve => true | _ => false end) es).
Definition permits_back (es : list event) : nat :=
  length (filter (fun e => match e with ERelease => true | _ => false end) es).

(** A mailbox of capacity [cp] holding [waiting] signals after the events [es] takes one
    more: an unbounded one always, a bounded one when the signals waiting in it and
    the permits still out do not fill it. *)
Definition takes_one_more (cp : option nat) (waiting : nat) (es : list event) : Prop :=
  match cp with
  | None => True
  | Some n => waiting + permits_given es < n + permits_back es
  end.

(** The event can happen now. *)
Definition can_happen (s : actor) (e : event) : Prop := exists s' o, step s e = Some (s', o).

(** The user's code that has been entered and neither returned nor been cut off. *)
Inductive user_code := UStart | UHandler | ULink | UPanic | UStop.
Definition user_code_seen (u : option user_code) (o : obs) : option user_code :=
  match o with
  | OStartBegin => Some UStart
  | OHandle _ => Some UHandler
  | OLinkHook _ _ => Some ULink
  | OPanicHook _ => Some UPanic
  | OStopHook _ => Some UStop
  | OStartEnd _ | OHandleEnd _ _ | OHandleCut _ | OLinkHookEnd _ | OLinkHookCut
  | OPanicHookEnd _ | OPanicHookCut | OStopHookEnd _ => None
  | _ => u
  end.
Definition entered (tr : list obs) : option user_code := fold_left user_code_seen tr None.

(** Whether the task was last polled or last gave control back. *)
Definition polled (es : list event) : bool :=
  fold_left (fun b e => match e with APoll => true | AYield => false | _ => b end) es false.

(** The user's code runs now: it was entered, and where it can be cut off (in the loop, that is
    handlers, on_link_died, and on_panic unless on_start failed) its task is being polled. *)
Definition runs_now (tr : list obs) (es : list event) : Prop :=
  match entered tr with
  | None => False
  | Some UStart | Some UStop => True
  | Some UHandler | Some ULink => polled es = true
  | Some UPanic => polled es = true \/ exists f, In (OStartEnd (HookFail f)) tr
  end.
