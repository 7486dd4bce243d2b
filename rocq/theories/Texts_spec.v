(** Specification vocabulary for texts: what two values must have in common to look
    the same. *)
From Coq Require Import NArith Init.Byte Ascii String List.
Import ListNotations.
From Verif Require Import Errors Dyn ActorId ActorId_spec Texts.
Local Open Scope string_scope.

(** The characters of a string. *)
Definition letters (s : string) : list ascii := list_ascii_of_string s.

(** The base-58 alphabet: digits and letters without 0, O, I and l. *)
Definition alphabet58 : list ascii := letters "123456789ABCDEFGHJKLMNPQRSTUVWXYZabcdefghijkmnopqrstuvwxyz".

(** What is assumed of the text of a peer id: it is base 58, and two peers have
    different texts. *)
Definition names58 (P : peers) (show : peer P -> string) : Prop :=
  (forall p c, In c (letters (show p)) -> In c alphabet58) /\
  (forall p q, show p = show q -> p = q).

(** A character occurs in a string. *)
Definition occurs (c : ascii) (s : string) : Prop := In c (letters s).

Section Reasons.
Variable P : peers.
Variable user : nat -> Type.

(** Every id in a stop reason is a [u64] with a node. *)
Fixpoint reason_ok (r : reason P user) : Prop :=
  match r with
  | LinkDied x r' => id_ok P x /\ reason_ok r'
  | _ => True
  end.

(** The string a panic carries, if it carries one. *)
Definition said (e : panic_error user) (s : string) : Prop :=
  e = PEValue (box user (t := TStr) s) \/ e = PEValue (box user (t := TString) s).

(** Two stop reasons that look alike to a user: same kind; the same words of a panic;
    the same actor at the other end of the link. *)
Inductive alike (b : boot P) : reason P user -> reason P user -> Prop :=
| alike_normal : alike b Normal Normal
| alike_killed : alike b Killed Killed
| alike_panicked : forall e f, (forall s, said e s <-> said f s) -> alike b (Panicked e) (Panicked f)
| alike_link : forall x y r s, same_actor P b x y -> alike b (LinkDied x r) (LinkDied y s)
| alike_peer : alike b PeerDisconnected PeerDisconnected.

(** Two stop reasons with the same chain of links and the same kind at its end, read on
    the nodes [b] and [c]. *)
Inductive same_chain (b c : boot P) : reason P user -> reason P user -> Prop :=
| chain_normal : same_chain b c Normal Normal
| chain_killed : same_chain b c Killed Killed
| chain_panicked : forall e f, same_chain b c (Panicked e) (Panicked f)
| chain_link : forall x y r s, denotes P b x = denotes P c y -> same_chain b c r s ->
    same_chain b c (LinkDied x r) (LinkDied y s)
| chain_peer : same_chain b c PeerDisconnected PeerDisconnected.

(** The panic a chain ends in. *)
Fixpoint last_panic (r : reason P user) : option (panic_error user) :=
  match r with
  | LinkDied _ r' => last_panic r'
  | Panicked e => Some e
  | _ => None
  end.

(** Is the reason a link's death? *)
Definition by_link (r : reason P user) : Prop := exists x r', r = LinkDied x r'.
End Reasons.

(** The kinds of a send error. *)
Inductive same_send_kind {M E N F : Type} : send_error M E -> send_error N F -> Prop :=
| sk_not_running : forall m n, same_send_kind (ActorNotRunning m) (ActorNotRunning n)
| sk_stopped : same_send_kind ActorStopped ActorStopped
| sk_full : forall m n, same_send_kind (MailboxFull m) (MailboxFull n)
| sk_handler : forall e f, same_send_kind (HandlerError e) (HandlerError f)
| sk_timeout : forall m n, same_send_kind (Timeout m) (Timeout n).

(** The text of the error is the library's own: not that of a handler's error or of an
    [io::Error]. *)
Definition own_text {E : Type} (x : remote_send_error E) : Prop :=
  (forall e, x <> RHandlerError e) /\ (forall c, x <> RIo (Some c)).

(** A remote send error about an unknown message. *)
Definition about_message {E : Type} (x : remote_send_error E) : Prop :=
  exists a m, x = RUnknownMessage a m.
