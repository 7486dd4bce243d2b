(** Specification vocabulary for errors: the class of an error and its payload,
    written without reference to the combinators of the model. *)
From Coq Require Import List String.
From Verif Require Import Errors.

(** The five classes a local send error can have (docs of src/error.rs 87-100). *)
Inductive error_class : Type :=
| KNotRunning | KStopped | KFull | KHandler | KTimeout.

Inductive has_class {M E : Type} : send_error M E -> error_class -> Prop :=
| hc_nr m : has_class (ActorNotRunning m) KNotRunning
| hc_st : has_class ActorStopped KStopped
| hc_fu m : has_class (MailboxFull m) KFull
| hc_he e : has_class (HandlerError e) KHandler
| hc_to m : has_class (Timeout m) KTimeout.

(** [carries_msg x m]: the error hands the undelivered message [m] back. *)
Inductive carries_msg {M E : Type} : send_error M E -> M -> Prop :=
| cm_nr m : carries_msg (ActorNotRunning m) m
| cm_fu m : carries_msg (MailboxFull m) m
| cm_to m : carries_msg (Timeout (Some m)) m.

(** [carries_err x e]: the error carries the handler's error value [e]. *)
Inductive carries_err {M E : Type} : send_error M E -> E -> Prop :=
| ce_he e : carries_err (HandlerError e) e.

(** The class a remote error should have for each local class; every timeout is
    reported as a reply timeout. *)
Inductive remote_class {E : Type} : error_class -> remote_send_error E -> Prop :=
| rc_nr : remote_class KNotRunning RActorNotRunning
| rc_st : remote_class KStopped RActorStopped
| rc_fu : remote_class KFull RMailboxFull
| rc_he e : remote_class KHandler (RHandlerError e)
| rc_to : remote_class KTimeout RReplyTimeout.

(** [repeat_prefix p n s] is [p] written [n] times in front of [s]. *)
Fixpoint repeat_prefix (p : string) (n : nat) (s : string) : string :=
  match n with
  | 0 => s
  | S k => p ++ repeat_prefix p k s
  end.
