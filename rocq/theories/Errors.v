(** Model of the error types of src/error.rs and of their combinators. *)
From Coq Require Import List String.

Set Implicit Arguments.

(** Rust [Result<T, E>] (std). *)
Inductive result (T E : Type) : Type :=
| Ok (v : T)
| Err (e : E).
Arguments Ok {T E} v.
Arguments Err {T E} e.

(** src/error.rs 89-100: [pub enum SendError<M = (), E = Infallible>]. *)
Inductive send_error (M E : Type) : Type :=
| ActorNotRunning (m : M)
| ActorStopped
| MailboxFull (m : M)
| HandlerError (e : E)
| Timeout (m : option M).
Arguments ActorNotRunning {M E} m.
Arguments ActorStopped {M E}.
Arguments MailboxFull {M E} m.
Arguments HandlerError {M E} e.
Arguments Timeout {M E} m.

(** src/error.rs 104-115: [SendError::map_msg]. *)
Definition se_map_msg {M N E} (f : M -> N) (x : send_error M E) : send_error N E :=
  match x with
  | ActorNotRunning m => ActorNotRunning (f m)
  | ActorStopped => ActorStopped
  | MailboxFull m => MailboxFull (f m)
  | HandlerError e => HandlerError e
  | Timeout m => Timeout (option_map f m)
  end.

(** src/error.rs 118-129: [SendError::map_err]. *)
Definition se_map_err {M E F} (op : E -> F) (x : send_error M E) : send_error M F :=
  match x with
  | ActorNotRunning m => ActorNotRunning m
  | ActorStopped => ActorStopped
  | MailboxFull m => MailboxFull m
  | HandlerError e => HandlerError (op e)
  | Timeout m => Timeout m
  end.

(** src/error.rs 153-160: [SendError::unwrap_msg]; [None] is the panic (both the
    explicit one of line 158 and the [Option::unwrap] of line 157). *)
Definition se_unwrap_msg {M E} (x : send_error M E) : option M :=
  match x with
  | ActorNotRunning m => Some m
  | MailboxFull m => Some m
  | Timeout m => m
  | ActorStopped => None
  | HandlerError _ => None
  end.

(** src/error.rs 167-172: [SendError::unwrap_err]; [None] is the panic. *)
Definition se_unwrap_err {M E} (x : send_error M E) : option E :=
  match x with
  | HandlerError e => Some e
  | _ => None
  end.

(** src/error.rs 174-176: [SendError::reset_err_infallible]; [None] is the panic
    raised when the error is a [HandlerError]. *)
Definition se_reset_err_infallible {M E F} (x : send_error M E) : option (send_error M F) :=
  match x with
  | ActorNotRunning m => Some (ActorNotRunning m)
  | ActorStopped => Some ActorStopped
  | MailboxFull m => Some (MailboxFull m)
  | HandlerError _ => None
  | Timeout m => Some (Timeout m)
  end.

(** src/error.rs 181-198: [SendError<M, SendError<M, E>>::flatten]. *)
Definition se_flatten {M E} (x : send_error M (send_error M E)) : send_error M E :=
  match x with
  | ActorNotRunning m | HandlerError (ActorNotRunning m) => ActorNotRunning m
  | ActorStopped | HandlerError ActorStopped => ActorStopped
  | MailboxFull m | HandlerError (MailboxFull m) => MailboxFull m
  | HandlerError (HandlerError e) => HandlerError e
  | Timeout m | HandlerError (Timeout m) => Timeout m
  end.

(** src/error.rs 414-469: [pub enum RemoteSendError<E = Infallible>].
    The payload of [Io] (an [Option<std::io::Error>], skipped by serde) is kept
    as an optional opaque code. *)
Inductive remote_send_error (E : Type) : Type :=
| RActorNotRunning
| RActorStopped
| RUnknownActor (actor_remote_id : string)
| RUnknownMessage (actor_remote_id message_remote_id : string)
| RBadActorType
| RMailboxFull
| RReplyTimeout
| RHandlerError (e : E)
| RSerializeMessage (s : string)
| RDeserializeMessage (s : string)
| RSerializeReply (s : string)
| RSerializeHandlerError (s : string)
| RDeserializeHandlerError (s : string)
| RSwarmNotBootstrapped
| RDialFailure
| RNetworkTimeout
| RConnectionClosed
| RUnsupportedProtocols
| RIo (code : option nat).
Arguments RActorNotRunning {E}.
Arguments RActorStopped {E}.
Arguments RUnknownActor {E}.
Arguments RUnknownMessage {E}.
Arguments RBadActorType {E}.
Arguments RMailboxFull {E}.
Arguments RReplyTimeout {E}.
Arguments RHandlerError {E} e.
Arguments RSerializeMessage {E}.
Arguments RDeserializeMessage {E}.
Arguments RSerializeReply {E}.
Arguments RSerializeHandlerError {E}.
Arguments RDeserializeHandlerError {E}.
Arguments RSwarmNotBootstrapped {E}.
Arguments RDialFailure {E}.
Arguments RNetworkTimeout {E}.
Arguments RConnectionClosed {E}.
Arguments RUnsupportedProtocols {E}.
Arguments RIo {E}.

(** src/error.rs 474-511: [RemoteSendError::map_err]. *)
Definition re_map_err {E F} (op : E -> F) (x : remote_send_error E) : remote_send_error F :=
  match x with
  | RActorNotRunning => RActorNotRunning
  | RActorStopped => RActorStopped
  | RUnknownActor a => RUnknownActor a
  | RUnknownMessage a m => RUnknownMessage a m
  | RBadActorType => RBadActorType
  | RMailboxFull => RMailboxFull
  | RReplyTimeout => RReplyTimeout
  | RHandlerError e => RHandlerError (op e)
  | RSerializeMessage s => RSerializeMessage s
  | RDeserializeMessage s => RDeserializeMessage s
  | RSerializeReply s => RSerializeReply s
  | RSerializeHandlerError s => RSerializeHandlerError s
  | RDeserializeHandlerError s => RDeserializeHandlerError s
  | RSwarmNotBootstrapped => RSwarmNotBootstrapped
  | RDialFailure => RDialFailure
  | RNetworkTimeout => RNetworkTimeout
  | RConnectionClosed => RConnectionClosed
  | RUnsupportedProtocols => RUnsupportedProtocols
  | RIo c => RIo c
  end.

(** src/error.rs 517-558: [RemoteSendError<RemoteSendError<E>>::flatten]. *)
Definition re_flatten {E} (x : remote_send_error (remote_send_error E)) : remote_send_error E :=
  match x with
  | RActorNotRunning | RHandlerError RActorNotRunning => RActorNotRunning
  | RActorStopped | RHandlerError RActorStopped => RActorStopped
  | RUnknownActor a | RHandlerError (RUnknownActor a) => RUnknownActor a
  | RUnknownMessage a m | RHandlerError (RUnknownMessage a m) => RUnknownMessage a m
  | RBadActorType | RHandlerError RBadActorType => RBadActorType
  | RMailboxFull | RHandlerError RMailboxFull => RMailboxFull
  | RReplyTimeout | RHandlerError RReplyTimeout => RReplyTimeout
  | RHandlerError (RHandlerError e) => RHandlerError e
  | RSerializeMessage s | RHandlerError (RSerializeMessage s) => RSerializeMessage s
  | RDeserializeMessage s | RHandlerError (RDeserializeMessage s) => RDeserializeMessage s
  | RSerializeReply s | RHandlerError (RSerializeReply s) => RSerializeReply s
  | RSerializeHandlerError s | RHandlerError (RSerializeHandlerError s) =>
      RSerializeHandlerError s
  | RDeserializeHandlerError s | RHandlerError (RDeserializeHandlerError s) =>
      RDeserializeHandlerError s
  | RSwarmNotBootstrapped | RHandlerError RSwarmNotBootstrapped => RSwarmNotBootstrapped
  | RDialFailure | RHandlerError RDialFailure => RDialFailure
  | RNetworkTimeout | RHandlerError RNetworkTimeout => RNetworkTimeout
  | RConnectionClosed | RHandlerError RConnectionClosed => RConnectionClosed
  | RUnsupportedProtocols | RHandlerError RUnsupportedProtocols => RUnsupportedProtocols
  | RIo c | RHandlerError (RIo c) => RIo c
  end.

(** src/error.rs 562-572: [impl From<SendError<M, E>> for RemoteSendError<E>]. *)
Definition re_of_send_error {M E} (x : send_error M E) : remote_send_error E :=
  match x with
  | ActorNotRunning _ => RActorNotRunning
  | ActorStopped => RActorStopped
  | MailboxFull _ => RMailboxFull
  | HandlerError e => RHandlerError e
  | Timeout _ => RReplyTimeout
  end.
