(** Notions for the properties of the actor error hook, stated on what can be observed. *)
From Coq Require Import List Bool PeanoNat.
From Verif Require Import Lifecycle ErrorHook.
Import ListNotations.

(** The failures of actor [i] that are to be reported, in order: an on_start that returned
    an error or panicked, an on_stop that returned an error. *)
Fixpoint failures (i : nat) (t : list hobs) : list failure :=
  match t with
  | [] => []
  | OLife j (OStartEnd (HookFail f)) :: t' => if j =? i then f :: failures i t' else failures i t'
  | OLife j (OStopHookEnd (HookFail (FErr e))) :: t' =>
      if j =? i then FErr e :: failures i t' else failures i t'
  | _ :: t' => failures i t'
  end.

(** What hooks were called with for actor [i], in order. *)
Fixpoint reported (i : nat) (t : list hobs) : list failure :=
  match t with
  | [] => []
  | OHook _ j f :: t' => if j =? i then f :: reported i t' else reported i t'
  | _ :: t' => reported i t'
  end.

(** The hook that was set last; 0, the default one, if none was. *)
Definition current (t : list hobs) : nat :=
  fold_left (fun h o => match o with OSet h' => h' | _ => h end) t 0.

(** The events of actor [i] and what it showed. *)
Fixpoint events_of (i : nat) (es : list hevent) : list event :=
  match es with
  | [] => []
  | Life j e :: es' => if j =? i then e :: events_of i es' else events_of i es'
  | _ :: es' => events_of i es'
  end.
Fixpoint shown (i : nat) (t : list hobs) : list obs :=
  match t with
  | [] => []
  | OLife j o :: t' => if j =? i then o :: shown i t' else shown i t'
  | _ :: t' => shown i t'
  end.
(** The configurations with which actors were spawned, in order. *)
Fixpoint spawns (es : list hevent) : list config :=
  match es with
  | [] => []
  | Spawned c :: es' => c :: spawns es'
  | _ :: es' => spawns es'
  end.
