(** Model of the reply machinery: src/reply.rs, the end of a handler call in
    src/message.rs and the asker's downcasts in src/request/ask.rs. *)
From Coq Require Import List String.
From Verif Require Import Errors Dyn.
Import ListNotations.

Set Implicit Arguments.

(** Reply types. [RPlain t]: the infallible impls (src/reply.rs 334-470) and
    [#[derive(Reply)]] (macros/src/derive_reply.rs 18-40); [RRes t e]: [Result<T, E>]
    (310-332); [RDeleg r]: [DelegatedReply<R>] (224-243); [RFwd m r]:
    [ForwardedReply<M, R>] (262-308). User written [Reply] impls are not covered. *)
Inductive rty : Type :=
| RPlain (t : ty)
| RRes (t e : ty)
| RDeleg (r : rty)
| RFwd (m : ty) (r : rty).

(** [Reply::Ok] (reply.rs 229, 267, 315, 357). *)
Fixpoint r_ok (r : rty) : ty :=
  match r with
  | RPlain t => t
  | RRes t _ => t
  | RDeleg r => r_ok r
  | RFwd _ r => r_ok r
  end.

(** [Reply::Error] (reply.rs 230, 268, 316, 358). *)
Fixpoint r_err (r : rty) : ty :=
  match r with
  | RPlain _ => TInfallible
  | RRes _ e => e
  | RDeleg r => r_err r
  | RFwd m r => TSendErr m (r_err r)
  end.

(** [Reply::Value] (reply.rs 231, 269, 317, 359). *)
Fixpoint r_value (r : rty) : rty :=
  match r with
  | RPlain t => RPlain t
  | RRes t e => RRes t e
  | RDeleg r => r_value r
  | RFwd m r => RRes (r_ok r) (TSendErr m (r_err r))
  end.

Section Values.
Variable user : nat -> Type.
Local Notation den := (den user).
Local Notation any := (any user).
Local Notation box_send_error := (box_send_error user).

(** What a handler with reply type [r] returns. A [DelegatedReply] is a marker
    without content (reply.rs 212-216), a [ForwardedReply] records whether the
    forwarding send succeeded (reply.rs 248-253). *)
Definition rval (r : rty) : Type :=
  match r with
  | RPlain t => den t
  | RRes t e => result (den t) (den e)
  | RDeleg _ => unit
  | RFwd m r => result unit (send_error (den m) (den (r_err r)))
  end.

(** [Reply::to_result]; [None] is the [unimplemented!]/[unreachable!] panic
    (reply.rs 233-235, 271-274, 319-321, 361-363). *)
Definition to_result (r : rty) : rval r -> option (result (den (r_ok r)) (den (r_err r))) :=
  match r with
  | RPlain t => fun v => Some (Ok v)
  | RRes t e => fun v => Some v
  | RDeleg _ => fun _ => None
  | RFwd m r => fun v => match v with Ok _ => None | Err e => Some (Err e) end
  end.

(** [Reply::into_any_err] (reply.rs 237-239, 276-280, 323-326, 365-367). *)
Definition into_any_err (r : rty) : rval r -> option any :=
  match r with
  | RPlain t => fun _ => None
  | RRes t e => fun v => match v with Ok _ => None | Err x => Some (box user (t := e) x) end
  | RDeleg _ => fun _ => None
  | RFwd m r => fun v =>
      match v with
      | Ok _ => None
      | Err x => Some (box user (t := TSendErr m (r_err r)) x)
      end
  end.

(** [Reply::into_value]; [None] is a panic (reply.rs 241-243, 282-286, 329-331, 370-372). *)
Definition into_value (r : rty) : rval r -> option (rval (r_value r)) :=
  match r return rval r -> option (rval (r_value r)) with
  | RPlain t => fun v => Some v
  | RRes t e => fun v => Some v
  | RDeleg r => fun _ => None
  | RFwd m r => fun v => match v with Ok _ => None | Err e => Some (Err e) end
  end.

(** src/reply.rs 60-63: what travels over the reply channel. *)
Definition boxed_reply : Type := result any box_send_error.

(** src/reply.rs 168-178: [ReplySender<R>::send] puts the boxed result into the
    channel; [None] is a panic in [to_result]. *)
Definition sender_send (r : rty) (v : rval r) : option boxed_reply :=
  match to_result r v with
  | None => None
  | Some (Ok x) => Some (Ok (box user x))
  | Some (Err e) => Some (Err (HandlerError (box user e)))
  end.

(** src/reply.rs 101-103, 290-292: [Reply::downcast_ok]; [None] is the panic of
    [unwrap]. The override of [ForwardedReply] has the same body. *)
Definition downcast_ok (r : rty) (a : any) : option (den (r_ok r)) := unbox (r_ok r) a.

(** src/error.rs 118-129 read at the point of use in reply.rs 299. *)
Definition wrap_handler_error {N E : ty} (m : ty)
  (x : send_error (den N) (den E)) : send_error (den N) (den (TSendErr m E)) :=
  se_map_err (fun e => (HandlerError e : den (TSendErr m E))) x.

(** [map_msg(|_| unreachable!(..))] of reply.rs 301-305: panics if a message is
    inside. *)
Definition no_message {M N E : Type} (x : send_error M E) : option (send_error N E) :=
  match x with
  | ActorNotRunning _ | MailboxFull _ | Timeout (Some _) => None
  | ActorStopped => Some ActorStopped
  | HandlerError e => Some (HandlerError e)
  | Timeout None => Some (Timeout None)
  end.

(** src/reply.rs 106-108 and, for [ForwardedReply], 296-307:
    [Reply::downcast_err::<N>]; [None] is a panic. *)
Definition downcast_err (r : rty) (N : ty) (x : box_send_error)
  : option (send_error (den N) (den (r_err r))) :=
  match r return option (send_error (den N) (den (r_err r))) with
  | RPlain t => se_downcast N TInfallible x
  | RRes t e => se_downcast N e x
  | RDeleg r => se_downcast N (r_err r) x
  | RFwd m r =>
      match se_try_downcast N (r_err r) x with
      | Ok v => Some (wrap_handler_error (N := N) (E := r_err r) m v)
      | Err x' =>
          match se_downcast m (TSendErr m (r_err r)) x' with
          | Some v => no_message v
          | None => None
          end
      end
  end.

(** What an asker obtains from a reply (ask.rs 129-133 and the eleven other copies
    of the same match). *)
Inductive answer (N : ty) (r : rty) : Type :=
| AnsOk (v : den (r_ok r))
| AnsErr (e : send_error (den N) (den (r_err r)))
| AnsPanic.
Arguments AnsOk {N r} v.
Arguments AnsErr {N r} e.
Arguments AnsPanic {N r}.

(** src/request/ask.rs 129-133. *)
Definition receive (N : ty) (r : rty) (b : boxed_reply) : answer N r :=
  match b with
  | Ok a => match downcast_ok r a with Some v => AnsOk v | None => AnsPanic end
  | Err e => match downcast_err r N e with Some x => AnsErr x | None => AnsPanic end
  end.

(** How the call of a handler ends, apart from panics of the handler itself
    (message.rs 296-305): a reply sent through the channel [ch], an error for
    [on_panic], nothing, or a panic in the conversion. *)
Inductive handle_end : Type :=
| HSent (ch : nat) (b : boxed_reply)
| HQuiet
| HFailed (e : any)
| HPanicked.

(** src/message.rs 297-305: the end of [handle_dyn]; [tx] is what is left in
    [ctx.reply], [v] the value returned by the handler. *)
Definition finish (tx : option nat) (r : rty) (v : rval r) : handle_end :=
  match tx with
  | Some ch =>
      match into_value r v with
      | None => HPanicked
      | Some w => match sender_send (r_value r) w with Some b => HSent ch b | None => HPanicked end
      end
  | None =>
      match into_any_err r v with
      | Some e => HFailed e
      | None => HQuiet
      end
  end.

(** The reply type of the first actor in a forwarding chain: each hop
    [ctx.forward(next, msg)] of a message of type [m] makes the forwarding
    handler's reply type [ForwardedReply<m, next handler's reply type>]
    (message.rs 156-165). *)
Fixpoint chain (ms : list ty) (r : rty) : rty :=
  match ms with
  | [] => r
  | m :: ms' => RFwd m (chain ms' r)
  end.

(** Across a chain the reply channel itself is handed on; [ReplySender::cast]
    changes only the phantom type (reply.rs 180-185), so what the final handler
    sends through its [ReplySender<R::Value>] is received with the type of the
    first one. *)
Definition ask_through (ms : list ty) (N : ty) (r : rty) (v : rval (r_value r))
  : answer N (chain ms r) :=
  match sender_send (r_value r) v with
  | Some b => receive N (chain ms r) b
  | None => AnsPanic
  end.

End Values.
Arguments AnsOk {user N r} v.
Arguments AnsErr {user N r} e.
Arguments AnsPanic {user N r}.
Arguments HSent {user} ch b.
Arguments HQuiet {user}.
Arguments HFailed {user} e.
Arguments HPanicked {user}.
Arguments to_result {user} r v.
Arguments into_any_err {user} r v.
Arguments into_value {user} r v.
Arguments sender_send {user} r v.
Arguments finish {user} tx r v.
Arguments downcast_ok {user} r a.
Arguments downcast_err {user} r N x.
Arguments receive {user} N r b.
Arguments ask_through {user} ms N r v.
