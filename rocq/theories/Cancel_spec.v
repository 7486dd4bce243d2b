(** What is claimed of actors whose task is dropped. *)
From Coq Require Import List Bool PeanoNat.
Import ListNotations.
From Verif Require Import Lifecycle Lifecycle_spec Lifecycle_room_spec Cancel.

(** An actor runs ([es1], seen as [t1]), its task is dropped (seen as [t2]), and others go on with
    what they hold of it ([es2], seen as [t3]); [s1], [s2] and [s3] are the states. *)
Record dropped (c : config) (es1 : list event) (s1 : actor) (t1 : list obs)
    (s2 : actor) (t2 : list obs) (es2 : list event) (s3 : actor) (t3 : list obs) : Prop := {
  d_run : exec (init c) es1 = Some (s1, t1);
  d_drop : drop_task s1 = Some (s2, t2);
  d_after : exec s2 es2 = Some (s3, t3)
}.

(** User code returned or panicked: it was not cut off. *)
Definition returns (o : obs) : bool :=
  match o with
  | OStartEnd _ | OHandleEnd _ _ | OLinkHookEnd _ | OPanicHookEnd _ | OStopHookEnd _ => true
  | _ => false
  end.

(** Whether an actor's task, having done [es] and been seen to do [tr], is at one of its await
    points (or was not polled yet), so that it can be dropped there. *)
Definition did (p : event -> bool) (es : list event) : bool := existsb p es.
Definition saw (p : obs -> bool) (tr : list obs) : bool := existsb p tr.
Definition suspended (es : list event) (tr : list obs) : bool :=
  if saw (fun o => match o with OReturn _ | OCrash => true | _ => false end) tr then false
  (* not polled yet, or in on_start *)
  else if negb (saw (fun o => match o with OStartEnd _ => true | _ => false end) tr) then true
  (* giving up its own reference *)
  else if negb (did (fun e => match e with ADowngrade => true | _ => false end) es) then false
  (* on_start failed: in on_panic and on_stop *)
  else if saw (fun o => match o with OStartEnd (HookFail _) => true | _ => false end) tr then
    negb (saw (fun o => match o with OStopHookEnd _ => true | _ => false end) tr)
  (* in the loop: whenever it gave control back *)
  else if negb (saw (fun o => match o with OExit _ => true | _ => false end) tr) then negb (polled es)
  (* after the loop: until the registry has been told *)
  else negb (did (fun e => match e with ARegRemove => true | _ => false end) es).
