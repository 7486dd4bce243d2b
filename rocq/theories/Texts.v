(** Model of what ids, errors and stop reasons look like as text, and of how ids and
    stop reasons travel through serde: src/actor/id.rs 161-213, src/error.rs 240-268,
    375-407, 575-677 (feature "remote").

    A Rust [String] is a Coq [string]; text produced by other people's code is a
    parameter: the base-58 text of a [PeerId] ([show]), the text of a handler's error,
    of an [io::Error]. Only the plain formats [{}] and [{:?}] are modelled, not the
    alternate [{:#?}]. *)
From Coq Require Import NArith Init.Byte Ascii String DecimalString List.
Import ListNotations.
From Verif Require Import Errors Dyn ActorId.
Local Open Scope string_scope.

(** std: [Display]/[Debug] of an unsigned number: decimal, no leading zero. *)
Definition decimal (n : N) : string := NilEmpty.string_of_uint (N.to_uint n).

Section Ids.
Variable P : peers.
(** libp2p-identity: [PeerId::to_base58], which [Display] prints. *)
Variable show : peer P -> string.

(** src/actor/id.rs 161-172: [Display for ActorID]. *)
Definition id_display (b : boot P) (x : actor_id P) : string :=
  match kind_peer P b (kind x) with
  | Some p => "ActorID(" ++ decimal (seq_id x) ++ ", " ++ show p ++ ")"
  | None => "ActorID(" ++ decimal (seq_id x) ++ ", local)"
  end.

(** std [Debug for Option] over libp2p-identity [Debug for PeerId] (a tuple struct
    holding the base-58 text). *)
Definition opt_peer_debug (o : option (peer P)) : string :=
  match o with
  | Some p => "Some(PeerId(""" ++ show p ++ """))"
  | None => "None"
  end.

(** src/actor/id.rs 174-187: [Debug for ActorID]. *)
Definition id_debug (b : boot P) (x : actor_id P) : string :=
  "ActorID(" ++ decimal (seq_id x) ++ ", " ++ opt_peer_debug (kind_peer P b (kind x)) ++ ")".

(** What a serde format hands to the visitor where a value was written with
    [serialize_bytes]: bytes or text borrowed from the input, or something else (an
    owned buffer, a sequence of numbers, ...), which [&[u8]] refuses (serde
    [BytesVisitor] accepts the first two only). *)
Inductive handed : Type :=
| Borrowed (bs : list byte)
| BorrowedStr (bs : list byte)
| Transient (bs : list byte).

(** Result of [ActorID::deserialize]; [DeInvalidType] is serde's refusal. *)
Inductive de_result : Type :=
| DeOk (x : actor_id P)
| DeInvalidType
| DeInvalidLength (n : nat)
| DeCustom
| DePanic.

(** src/actor/id.rs 189-196: [Serialize for ActorID]: the bytes passed to
    [serialize_bytes]. *)
Definition id_serialize (b : boot P) (x : actor_id P) : list byte := id_to_bytes P b x.

(** src/actor/id.rs 198-213: [Deserialize for ActorID]. *)
Definition id_deserialize (h : handed) : de_result :=
  match h with
  | Transient _ => DeInvalidType
  | Borrowed bs | BorrowedStr bs =>
      match id_from_bytes P bs with
      | FbOk x => DeOk x
      | FbMissingSequence => DeInvalidLength (length bs)
      | FbParsePeer => DeCustom
      | FbPanic => DePanic
      end
  end.

(** ** Stop reasons *)
Variable user : nat -> Type.

(** src/error.rs 627-645: [ActorStopReason]. *)
Inductive reason : Type :=
| Normal
| Killed
| Panicked (e : panic_error user)
| LinkDied (x : actor_id P) (r : reason)
| PeerDisconnected.

(** src/error.rs 664-677: [Display for ActorStopReason]. *)
Definition reason_display (b : boot P) (r : reason) : string :=
  match r with
  | Normal => "actor stopped normally"
  | Killed => "actor was killed"
  | Panicked e => pe_display e
  | LinkDied x _ => "link " ++ id_display b x ++ " died"
  | PeerDisconnected => "peer disconnected"
  end.

(** src/error.rs 647-662: [Debug for ActorStopReason]. *)
Fixpoint reason_debug (b : boot P) (r : reason) : string :=
  match r with
  | Normal => "Normal"
  | Killed => "Killed"
  | Panicked _ => "Panicked"
  | LinkDied x r' => "LinkDied { id: " ++ id_debug b x ++ ", reason: " ++ reason_debug b r' ++ " }"
  | PeerDisconnected => "PeerDisconnected"
  end.

(** src/error.rs 627 (derived serde): one hop of a stop reason from a node on which
    the swarm is [b], with a format that hands bytes back as [h]. [None]: the reader
    refuses it or panics. The derived code keeps variants and fields. *)
Fixpoint reason_hop (h : list byte -> handed) (b : boot P) (r : reason) : option reason :=
  match r with
  | Normal => Some Normal
  | Killed => Some Killed
  | Panicked e => Some (Panicked (pe_hop e))
  | LinkDied x r' =>
      match id_deserialize (h (id_serialize b x)) with
      | DeOk y => option_map (LinkDied y) (reason_hop h b r')
      | _ => None
      end
  | PeerDisconnected => Some PeerDisconnected
  end.
End Ids.
Arguments DeOk {P} x.
Arguments DeInvalidType {P}.
Arguments DeInvalidLength {P} n.
Arguments DeCustom {P}.
Arguments DePanic {P}.
Arguments Normal {P user}.
Arguments Killed {P user}.
Arguments Panicked {P user} e.
Arguments LinkDied {P user} x r.
Arguments PeerDisconnected {P user}.

(** ** Send errors *)

(** src/error.rs 255-268: [Display for SendError]. *)
Definition se_display {M E : Type} (show_err : E -> string) (x : send_error M E) : string :=
  match x with
  | ActorNotRunning _ => "actor not running"
  | ActorStopped => "actor stopped"
  | MailboxFull _ => "mailbox full"
  | HandlerError e => show_err e
  | Timeout _ => "timeout"
  end.

(** src/error.rs 240-253: [Debug for SendError]. *)
Definition se_debug {M E : Type} (debug_err : E -> string) (x : send_error M E) : string :=
  match x with
  | ActorNotRunning _ => "ActorNotRunning"
  | ActorStopped => "ActorStopped"
  | MailboxFull _ => "MailboxFull"
  | HandlerError e => debug_err e
  | Timeout _ => "Timeout"
  end.

(** src/error.rs 575-621: [Display for RemoteSendError]. *)
Definition re_display {E : Type} (show_io : nat -> string) (show_err : E -> string)
    (x : remote_send_error E) : string :=
  match x with
  | RActorNotRunning => "actor not running"
  | RActorStopped => "actor stopped"
  | RUnknownActor a => "unknown actor '" ++ a ++ "'"
  | RUnknownMessage a m => "unknown message '" ++ m ++ "' for actor '" ++ a ++ "'"
  | RBadActorType => "bad actor type"
  | RMailboxFull => "mailbox full"
  | RReplyTimeout => "timeout"
  | RHandlerError e => show_err e
  | RSerializeMessage s => "failed to serialize message: " ++ s
  | RDeserializeMessage s => "failed to deserialize message: " ++ s
  | RSerializeReply s => "failed to serialize reply: " ++ s
  | RSerializeHandlerError s => "failed to serialize handler error: " ++ s
  | RDeserializeHandlerError s => "failed to deserialize handler error: " ++ s
  | RSwarmNotBootstrapped => "swarm not bootstrapped"
  | RDialFailure => "dial failure"
  | RNetworkTimeout => "network timeout"
  | RConnectionClosed => "connection closed"
  | RUnsupportedProtocols => "unsupported protocols"
  | RIo (Some c) => show_io c
  | RIo None => "io error"
  end.

(** ** Registry errors *)

(** src/error.rs 375-391: [RegistryError]; the quorum is a [NonZero<usize>]. *)
Inductive registry_error : Type :=
| SwarmNotBootstrapped
| BadActorType
| QuorumFailed (quorum : positive)
| RegistryTimeout.

(** src/error.rs 393-407: [Display for RegistryError]. *)
Definition registry_display (x : registry_error) : string :=
  match x with
  | SwarmNotBootstrapped => "actor swarm not bootstrapped"
  | BadActorType => "bad actor type"
  | QuorumFailed q => "the quorum failed; needed " ++ decimal (Npos q) ++ " peers"
  | RegistryTimeout => "the request timed out"
  end.
