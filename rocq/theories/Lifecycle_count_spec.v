(** How many strong references to an actor there are, told by what was done. Used by the
    theorems of C37. *)
From Coq Require Import List Bool PeanoNat.
Import ListNotations.
From Verif Require Import Lifecycle Lifecycle_spec.

(** How often somebody cloned a reference or upgraded a weak one, and how often one was
    dropped. *)
Definition acquired (es : list event) : nat :=
  length (filter (fun e => match e with EAcquire => true | _ => false end) es).
Definition given_up (es : list event) : nat :=
  length (filter (fun e => match e with EDrop => true | _ => false end) es).

(** The reference on_start is called with, if it has been called. *)
Definition handed_to_on_start (tr : list obs) : nat :=
  length (filter (fun o => match o with OStartBegin => true | _ => false end) tr).

(** Handlers that returned, panicked or were cut off: each gives up its context. *)
Definition over (tr : list obs) : nat :=
  length (filter (fun o => match o with OHandleEnd _ _ | OHandleCut _ => true | _ => false end) tr).

(** The task still has the reference it was started with: until it enters the message
    loop or gives up on starting. *)
Definition own_ref (es : list event) : nat :=
  if existsb (fun e => match e with ADowngrade => true | _ => false end) es then 0 else 1.

(** The registry has the actor: it was registered and has not been taken out since. *)
Definition registered (es : list event) : bool :=
  match find (fun e => match e with ERegister | ARegRemove => true | _ => false end) (rev es) with
  | Some ERegister => true
  | _ => false
  end.

(** The task has returned or panicked. *)
Definition task_over (tr : list obs) : bool :=
  existsb (fun o => match o with OReturn _ | OCrash => true | _ => false end) tr.

(** Everything that ever was a strong reference of an actor spawned with [c]: ... *)
Definition refs_made (c : config) (es : list event) (tr : list obs) : nat :=
  c_refs c + acquired es + handed_to_on_start tr + length (accepted tr) + own_ref es
  + (if registered es then 1 else 0) + (if c_threaded c && negb (task_over tr) then 1 else 0).
(** ... and what of it is gone. *)
Definition refs_gone (es : list event) (tr : list obs) : nat :=
  given_up es + length (discarded tr) + over tr.
