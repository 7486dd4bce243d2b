(** Run-time types, [Box<dyn Any>] and the boxed send error of src/error.rs.

    The universe [ty] contains an arbitrary family of user types (the section
    variable [user], so theorems hold for every choice of user types) closed
    under the type constructors kameo itself puts into boxes. *)
From Coq Require Import List String.
From Verif Require Import Errors.

Set Implicit Arguments.

(** Run-time type identities ([std::any::TypeId]). Two Rust types have the same
    [TypeId] iff they are the same type; so codes are compared structurally.
    Covers: user types, [()], [&'static str], [String], [Infallible]
    (src/error.rs 829), tuples, [SendError<M, E>] (src/error.rs 89),
    [Result<T, E>], [ReplySender<R>] (src/reply.rs 133). *)
Inductive ty : Type :=
| TUser (n : nat)
| TUnit
| TStr
| TString
| TInfallible
| TPair (a b : ty)
| TSendErr (m e : ty)
| TResult (t e : ty)
| TReplySender (r : ty).

Definition ty_eq_dec (a b : ty) : {a = b} + {a <> b}.
Proof. decide equality. apply PeanoNat.Nat.eq_dec. Defined.

Section Universe.
Variable user : nat -> Type.

(** Values of each type. A [ReplySender] is a one-shot channel end, represented
    by the channel's number (src/reply.rs 133-136; the phantom type is the
    parameter of the code). *)
Fixpoint den (t : ty) : Type :=
  match t with
  | TUser n => user n
  | TUnit => unit
  | TStr => string
  | TString => string
  | TInfallible => Empty_set
  | TPair a b => (den a * den b)%type
  | TSendErr m e => send_error (den m) (den e)
  | TResult a e => result (den a) (den e)
  | TReplySender _ => nat
  end.

(** [Box<dyn Any + Send>] (std): a value together with its type identity. *)
Definition any : Type := {t : ty & den t}.

(** [Box::new(v) as Box<dyn Any>] (std). *)
Definition box {t : ty} (v : den t) : any := existT den t v.

(** [Box<dyn Any>::downcast::<T>()] (std): succeeds iff the type ids are equal. *)
Definition unbox (t : ty) (a : any) : option (den t) :=
  match ty_eq_dec (projT1 a) t with
  | left e => Some (eq_rect (projT1 a) den (projT2 a) t e)
  | right _ => None
  end.

(** src/error.rs 85: [BoxSendError = SendError<Box<dyn Any + Send>, Box<dyn Any + Send>>]. *)
Definition box_send_error : Type := send_error any any.

(** src/error.rs 132-146: [SendError::boxed]. *)
Definition se_boxed {m e : ty} (x : send_error (den m) (den e)) : box_send_error :=
  match x with
  | ActorNotRunning v => ActorNotRunning (box v)
  | ActorStopped => ActorStopped
  | MailboxFull v => MailboxFull (box v)
  | HandlerError v => HandlerError (box v)
  | Timeout v => Timeout (option_map (fun w => box w) v)
  end.

(** src/error.rs 212-237: [BoxSendError::try_downcast]; a failing downcast gives
    the boxed error back. *)
Definition se_try_downcast (m e : ty) (x : box_send_error)
  : result (send_error (den m) (den e)) box_send_error :=
  match x with
  | ActorNotRunning b =>
      match unbox m b with
      | Some v => Ok (ActorNotRunning v)
      | None => Err (ActorNotRunning b)
      end
  | ActorStopped => Ok ActorStopped
  | MailboxFull b =>
      match unbox m b with
      | Some v => Ok (MailboxFull v)
      | None => Err (MailboxFull b)
      end
  | HandlerError b =>
      match unbox e b with
      | Some v => Ok (HandlerError v)
      | None => Err (HandlerError b)
      end
  | Timeout None => Ok (Timeout None)
  | Timeout (Some b) =>
      match unbox m b with
      | Some v => Ok (Timeout (Some v))
      | None => Err (Timeout (Some b))
      end
  end.

(** src/error.rs 203-209: [BoxSendError::downcast]; [None] is the panic of the
    [unwrap]. *)
Definition se_downcast (m e : ty) (x : box_send_error) : option (send_error (den m) (den e)) :=
  match se_try_downcast m e x with
  | Ok v => Some v
  | Err _ => None
  end.

(** src/error.rs 682-698. The payload of a caught Rust panic ([Box<dyn Any>]):
    [panic!("..")] gives [&'static str] or [String], [panic_any] anything. *)
Definition panic_payload : Type := any.

(** src/error.rs 682: [PanicError(Arc<Mutex<Box<dyn ReplyError>>>)]. The content
    is a boxed error value; [PEBoxed] is the case where the boxed value is itself
    a [Box<dyn Any>] (line 697). The [Arc<Mutex<..>>] is transparent here. *)
Inductive panic_error : Type :=
| PEValue (v : any)
| PEBoxed (v : any).

(** src/error.rs 686-688: [PanicError::new] on a boxed error of type [t]. *)
Definition pe_new {t : ty} (v : den t) : panic_error := PEValue (box v).

(** src/error.rs 690-698: [PanicError::new_from_panic_any]. *)
Definition pe_new_from_panic_any (p : panic_payload) : panic_error :=
  match unbox TStr p with
  | Some s => pe_new (t := TStr) s
  | None =>
      match unbox TString p with
      | Some s => pe_new (t := TString) s
      | None => PEBoxed p
      end
  end.

(** src/error.rs 715-732: [PanicError::downcast]/[with_downcast_ref] at a type of
    the universe (the type [Box<dyn Any + Send>] itself is not in it). *)
Definition pe_downcast (t : ty) (e : panic_error) : option (den t) :=
  match e with
  | PEValue v => unbox t v
  | PEBoxed _ => None
  end.

(** src/error.rs 702-712: [PanicError::with_str]. *)
Definition pe_str (e : panic_error) : option string :=
  match pe_downcast TStr e with
  | Some s => Some s
  | None => pe_downcast TString e
  end.

(** src/error.rs 746-751: [Display for PanicError]. *)
Definition pe_display (e : panic_error) : string :=
  match pe_str e with
  | Some s => "panicked: " ++ s
  | None => "panicked"
  end.

(** src/error.rs 777-784: [Serialize for PanicError] ([serialize_str(to_string())]);
    the string is taken to be transported unchanged by the codec. *)
Definition pe_serialize (e : panic_error) : string := pe_display e.

(** src/error.rs 786-794: [Deserialize for PanicError]. *)
Definition pe_deserialize (s : string) : panic_error := pe_new (t := TString) s.

(** One network hop of a [PanicError] (serialise on one node, deserialise on the
    next; src/remote/swarm.rs 460-488 sends it inside [ActorStopReason]). *)
Definition pe_hop (e : panic_error) : panic_error := pe_deserialize (pe_serialize e).

End Universe.
