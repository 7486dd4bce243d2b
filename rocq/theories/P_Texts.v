(** Property theorems about texts and serde of ids, errors and stop reasons (C67, C68).
    [P] is any type of peer ids satisfying the contract in ActorId.v, [show] their
    base-58 text ([names58]: base 58 and different for different peers); [b] and [c] say
    whether and as which peer a node's swarm is bootstrapped. *)
From Coq Require Import NArith Init.Byte Ascii String List.
Import ListNotations.
From Verif Require Import Errors Dyn ActorId ActorId_spec ActorId_examples Texts Texts_spec Texts_proofs Texts_examples.
Local Open Scope string_scope.

(** ** C67: the text of an id names the actor. *)
Theorem C67_text : forall P show, names58 P show -> forall b x y,
  id_display P show b x = id_display P show b y <-> id_eqb P b x y = true.
Proof. exact id_display_eqb. Qed.
Print Assumptions C67_text.

Theorem C67_text_between_nodes : forall P show, names58 P show -> forall b c x y,
  id_display P show b x = id_display P show c y <-> denotes P b x = denotes P c y.
Proof. exact display_two_nodes. Qed.
Print Assumptions C67_text_between_nodes.

Theorem C67_debug : forall P show, names58 P show -> forall b x y,
  id_debug P show b x = id_debug P show b y <-> same_actor P b x y.
Proof. exact id_debug_text. Qed.
Print Assumptions C67_debug.

(** The text of an id that was generated here is not fixed: bootstrapping changes it. *)
Theorem C67_fixed_refuted : forall P show, names58 P show -> forall b c n,
  id_display P show b (mk_id n Local) = id_display P show c (mk_id n Local) <-> b = c.
Proof. exact id_display_moves. Qed.
Print Assumptions C67_fixed_refuted.

Example C67_text_case : names58 ex_peers ex_show /\
  id_display ex_peers ex_show (Some ex_node_a) (mk_id 12 Local) = "ActorID(12, 1B12)" /\
  id_display ex_peers ex_show None (mk_id 12 Local) = "ActorID(12, local)" /\
  id_display ex_peers ex_show None (mk_id 0 (PeerId ex_node_b)) = "ActorID(0, 1C13)" /\
  id_debug ex_peers ex_show None (mk_id 12 Local) = "ActorID(12, None)" /\
  id_debug ex_peers ex_show (Some ex_node_a) (mk_id 12 Local) = "ActorID(12, Some(PeerId(""1B12"")))".
Proof. split; [exact ex_names58|]. by_vm. Qed.
Example C67_text_case_other :
  id_display ex_peers ex_show (Some ex_node_a) (mk_id 12 Local)
  = id_display ex_peers ex_show (Some ex_node_a) (mk_id 12 (PeerId ex_node_a)).
Proof. vm_compute. reflexivity. Qed.

(** Through serde: with a format that lends its bytes, an id comes back equal, ... *)
Theorem C67_serde : forall P b x, id_ok P x ->
  exists y, id_deserialize P (Borrowed (id_serialize P b x)) = DeOk y /\ id_eqb P b x y = true.
Proof. exact serde_borrowed. Qed.
Print Assumptions C67_serde.

(** ... and from a bootstrapped node it denotes the same actor wherever it is read. *)
Theorem C67_serde_everywhere : forall P p c x, id_ok P x ->
  exists y, id_deserialize P (Borrowed (id_serialize P (Some p) x)) = DeOk y /\
    denotes P c y = denotes P (Some p) x.
Proof. exact serde_any_node. Qed.
Print Assumptions C67_serde_everywhere.

(** With any other format it does not come back at all. *)
Theorem C67_serde_refuted : forall P bs, id_deserialize P (Transient bs) = DeInvalidType.
Proof. exact serde_transient. Qed.
Print Assumptions C67_serde_refuted.

(** Fewer than eight bytes panic; the length error is never given. *)
Theorem C67_short : forall P h bs, h = Borrowed bs \/ h = BorrowedStr bs ->
  ((length bs < 8)%nat <-> id_deserialize P h = DePanic).
Proof. exact serde_short. Qed.
Print Assumptions C67_short.

Theorem C67_no_length_error : forall P h n, id_deserialize P h <> DeInvalidLength n.
Proof. exact serde_no_invalid_length. Qed.
Print Assumptions C67_no_length_error.

(** What is not borrowed is refused by serde, and what is borrowed has its own error just when
    something other than a peer follows the eight bytes. *)
Theorem C67_refused : forall P h,
  (id_deserialize P h = DeInvalidType <-> exists bs, h = Transient bs) /\
  (id_deserialize P h = DeCustom <-> exists bs, (h = Borrowed bs \/ h = BorrowedStr bs) /\
     (8 < length bs)%nat /\ peer_parse P (skipn 8 bs) = None).
Proof. exact serde_refused. Qed.
Print Assumptions C67_refused.

Example C67_serde_case :
  id_deserialize ex_peers (Borrowed (id_serialize ex_peers (Some ex_node_a) (mk_id 258 Local)))
    = DeOk (mk_id 258 (PeerId ex_node_a)) /\
  id_deserialize ex_peers (Borrowed (id_serialize ex_peers None (mk_id 258 Local))) = DeOk (mk_id 258 Local) /\
  id_deserialize ex_peers (Transient (id_serialize ex_peers None (mk_id 258 Local))) = DeInvalidType /\
  id_deserialize ex_peers (Borrowed [x01; x02; x03]) = DePanic /\
  id_deserialize ex_peers (BorrowedStr (repeat x00 11)) = DeCustom.
Proof. by_vm. Qed.

(** ** C68: the text of a stop reason tells its kind, the words of a panic and the actor
    at the other end of the link, and nothing else. *)
Theorem C68_reason_text : forall P show, names58 P show -> forall user b (r s : reason P user),
  reason_display P show user b r = reason_display P show user b s <-> alike P user b r s.
Proof. exact reason_display_text. Qed.
Print Assumptions C68_reason_text.

(** The debug text tells the whole chain of links, but nothing about a panic; on two
    nodes as well as on one. *)
Theorem C68_reason_debug : forall P show, names58 P show -> forall user b c (r s : reason P user),
  reason_debug P show user b r = reason_debug P show user c s <-> same_chain P user b c r s.
Proof. exact reason_debug_text. Qed.
Print Assumptions C68_reason_debug.

(** Over the network (from a bootstrapped node) a stop reason keeps its chain, ... *)
Theorem C68_reason_hop : forall P user p c (r : reason P user), reason_ok P user r ->
  exists s, reason_hop P user Borrowed (Some p) r = Some s /\
    same_chain P user (Some p) c r s /\
    last_panic P user s = option_map (@pe_hop user) (last_panic P user r).
Proof. exact hop_chain. Qed.
Print Assumptions C68_reason_hop.

(** ... and looks the same on the other side, except that a panic is called one twice. *)
Theorem C68_reason_hop_text : forall P show, names58 P show -> forall user p c (r s : reason P user),
  reason_ok P user r -> reason_hop P user Borrowed (Some p) r = Some s ->
  reason_display P show user c s =
    match r with
    | Panicked e => "panicked: " ++ reason_display P show user (Some p) r
    | _ => reason_display P show user (Some p) r
    end.
Proof. exact hop_text. Qed.
Print Assumptions C68_reason_hop_text.

(** With a format that does not lend its bytes the reader refuses link deaths, and only those. *)
Theorem C68_reason_hop_refuted : forall P user b (r : reason P user),
  reason_hop P user Transient b r = None <-> by_link P user r.
Proof. exact hop_transient. Qed.
Print Assumptions C68_reason_hop_refuted.

Example C68_reason_case : reason_ok ex_peers ex_user ex_reason /\
  reason_display ex_peers ex_show ex_user (Some ex_node_a) ex_reason = "link ActorID(3, 1B12) died" /\
  reason_display ex_peers ex_show ex_user (Some ex_node_a) ex_reason
    = reason_display ex_peers ex_show ex_user (Some ex_node_a) ex_reason2 /\
  reason_debug ex_peers ex_show ex_user None ex_reason
    = "LinkDied { id: ActorID(3, None), reason: LinkDied { id: ActorID(12, Some(PeerId(""1B12""))), reason: Panicked } }" /\
  reason_hop ex_peers ex_user Borrowed (Some ex_node_a) ex_reason
    = Some (LinkDied (mk_id 3 (PeerId ex_node_a)) (LinkDied (mk_id 12 (PeerId ex_node_a))
        (Panicked (pe_new ex_user (t := TString) "panicked: boom")))) /\
  reason_hop ex_peers ex_user Transient (Some ex_node_a) ex_reason = None.
Proof. split; [vm_compute; repeat split|by_vm]. Qed.
Example C68_panic_case :
  reason_display ex_peers ex_show ex_user None (Panicked ex_panic) = "panicked: boom" /\
  reason_display ex_peers ex_show ex_user None (Panicked ex_odd_panic) = "panicked" /\
  option_map (reason_display ex_peers ex_show ex_user (Some ex_node_b))
    (reason_hop ex_peers ex_user Borrowed (Some ex_node_a) (Panicked ex_panic))
    = Some "panicked: panicked: boom".
Proof. by_vm. Qed.

(** The text of a send error tells its kind, unless the handler made it; the message is
    not in it. *)
Theorem C68_send_text : forall M E N F (f : E -> string) (g : F -> string)
    (x : send_error M E) (y : send_error N F),
  (forall e, x <> HandlerError e) -> (forall e, y <> HandlerError e) ->
  (se_display f x = se_display g y <-> same_send_kind x y).
Proof. exact se_display_kind. Qed.
Print Assumptions C68_send_text.

Theorem C68_send_debug : forall M E N F (f : E -> string) (g : F -> string)
    (x : send_error M E) (y : send_error N F),
  (forall e, x <> HandlerError e) -> (forall e, y <> HandlerError e) ->
  (se_debug f x = se_debug g y <-> same_send_kind x y).
Proof. exact se_debug_kind. Qed.
Print Assumptions C68_send_debug.

(** Mapping, flattening and turning a local error into a remote one keep the text. *)
Theorem C68_map_msg : forall M N E (f : E -> string) (g : M -> N) (x : send_error M E),
  se_display f (se_map_msg g x) = se_display f x.
Proof. exact se_display_map_msg. Qed.
Print Assumptions C68_map_msg.

Theorem C68_map_err : forall M E F (f : F -> string) (g : E -> F) (x : send_error M E),
  se_display f (se_map_err g x) = se_display (fun e => f (g e)) x.
Proof. exact se_display_map_err. Qed.
Print Assumptions C68_map_err.

Theorem C68_flatten : forall M E (f : E -> string) (x : send_error M (send_error M E)),
  se_display f (se_flatten x) = se_display (se_display f) x.
Proof. exact se_display_flatten. Qed.
Print Assumptions C68_flatten.

Theorem C68_remote_of_local : forall M E io (f : E -> string) (x : send_error M E),
  re_display io f (re_of_send_error x) = se_display f x.
Proof. exact re_display_of_send. Qed.
Print Assumptions C68_remote_of_local.

Theorem C68_remote_map_err : forall E F io (f : F -> string) (g : E -> F) (x : remote_send_error E),
  re_display io f (re_map_err g x) = re_display io (fun e => f (g e)) x.
Proof. exact re_display_map_err. Qed.
Print Assumptions C68_remote_map_err.

Theorem C68_remote_flatten : forall E io (f : E -> string) (x : remote_send_error (remote_send_error E)),
  re_display io f (re_flatten x) = re_display io (re_display io f) x.
Proof. exact re_display_flatten. Qed.
Print Assumptions C68_remote_flatten.

Example C68_send_case :
  se_display (fun n : nat => "no") (se_flatten (HandlerError (Timeout (Some 3)))) = "timeout" /\
  re_display (fun _ => "disk") (fun n : nat => "no") (re_of_send_error (MailboxFull 3)) = "mailbox full" /\
  se_display (fun n : nat => "no") (MailboxFull 3) = se_display (fun n : nat => "no") (MailboxFull 4) /\
  re_display (fun _ => "disk") (fun n : nat => "no") (re_flatten (RHandlerError (RUnknownActor "a")))
    = "unknown actor 'a'".
Proof. by_vm. Qed.

(** The library's own texts tell remote errors apart, strings included, but for those
    about unknown messages, ... *)
Theorem C68_remote_text : forall E io (f : E -> string) (x y : remote_send_error E),
  own_text x -> own_text y -> re_display io f x = re_display io f y ->
  x = y \/ (about_message x /\ about_message y).
Proof. exact re_display_tells. Qed.
Print Assumptions C68_remote_text.

(** ... whose text tells both ids if the message's has no quote in it, ... *)
Theorem C68_unknown_message : forall E io (f : E -> string) a m a' m',
  ~ occurs "'"%char m -> ~ occurs "'"%char m' ->
  re_display io f (RUnknownMessage a m) = re_display io f (RUnknownMessage a' m') -> a = a' /\ m = m'.
Proof. exact re_display_message. Qed.
Print Assumptions C68_unknown_message.

(** ... and not otherwise. *)
Theorem C68_unknown_message_refuted : exists a m a' m', (a, m) <> (a', m') /\
  forall E io (f : E -> string), re_display io f (RUnknownMessage a m) = re_display io f (RUnknownMessage a' m').
Proof. exact re_display_message_refuted. Qed.
Print Assumptions C68_unknown_message_refuted.

(** A handler's error can look like any of the library's. *)
Theorem C68_handler_refuted : forall (x : remote_send_error string) io, own_text x ->
  exists e, RHandlerError e <> x /\
    re_display io (fun s => s) (RHandlerError e) = re_display io (fun s => s) x.
Proof. exact re_display_handler_refuted. Qed.
Print Assumptions C68_handler_refuted.

(** The text of a registry error tells all of it. *)
Theorem C68_registry_text : forall x y, registry_display x = registry_display y -> x = y.
Proof. exact registry_display_inj. Qed.
Print Assumptions C68_registry_text.

Example C68_remote_case :
  own_text (E := nat) (RUnknownActor "a") /\ own_text (E := nat) (RIo None) /\ own_text (E := nat) (RUnknownMessage "a" "m") /\
  re_display (fun _ => "disk") (fun n : nat => "no") (RUnknownMessage "a" "m") = "unknown message 'm' for actor 'a'" /\
  re_display (fun _ => "disk") (fun n : nat => "no") (RIo None) = "io error" /\
  ~ occurs "'"%char "m".
Proof. repeat split; try discriminate. vm_compute. intros [E|[]]. discriminate. Qed.
Example C68_registry_case : registry_display (QuorumFailed 20) = "the quorum failed; needed 20 peers".
Proof. vm_compute. reflexivity. Qed.
