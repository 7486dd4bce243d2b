(** Model of the attribute macro [#[messages]]: the functions from the parsed [impl] block to
    the generated items, and the little of Rust needed to run the generated handlers.

    macros/src/messages.rs, macros/src/lib.rs 65-69.

    Simplified: the tree of syn is cut down to what the macro looks at, the rest is kept as
    text ([string]); that tokens are printed and read back unchanged is assumed, except for the
    one list of parameters that cannot be read back (see [join_params]); spans are left out;
    the conversion of method names by heck is any function. *)
From Coq Require Import List Bool String.
Import ListNotations.
Open Scope string_scope.
Open Scope list_scope.

(** proc_macro2 [Ident], and text that the macro passes on unread. *)
Definition ident : Type := string.
Definition text : Type := string.

(** ** syn's types *)

(** syn [GenericArgument]: of a constant, the names in it. *)
Inductive arg (T : Type) : Type :=
| ArgLifetime (l : ident)
| ArgType (t : T)
| ArgConst (names : list ident).

(** syn [PathSegment]; [None]: [PathArguments::None]. *)
Record segment (T : Type) : Type := mk_seg { sg_ident : ident; sg_args : option (list (arg T)) }.

(** syn [Path]. *)
Record path (T : Type) : Type := mk_path { pa_leading : bool; pa_segs : list (segment T) }.

(** syn [TypeParamBound]. *)
Inductive bound (T : Type) : Type :=
| BTrait (p : path T)
| BLifetime (l : ident)
| BVerbatim.

Arguments ArgLifetime {T} l.
Arguments ArgType {T} t.
Arguments ArgConst {T} names.
Arguments mk_seg {T} sg_ident sg_args.
Arguments sg_ident {T} s.
Arguments sg_args {T} s.
Arguments mk_path {T} pa_leading pa_segs.
Arguments pa_leading {T} p.
Arguments pa_segs {T} p.
Arguments BTrait {T} p.
Arguments BLifetime {T} l.
Arguments BVerbatim {T}.

(** syn [Type] (messages.rs 442-543 lists its variants). Of the length of an array, of a macro
    and of verbatim tokens, the names in it. *)
Inductive ty : Type :=
| TArray (elem : ty) (len : list ident)
| TBareFn (inputs : list ty) (output : option ty)
| TGroup (elem : ty)
| TImplTrait (bounds : list (bound ty))
| TInfer
| TMacro (names : list ident)
| TNever
| TParen (elem : ty)
| TPath (qself : option ty) (p : path ty)
| TPtr (elem : ty)
| TReference (lifetime : option ident) (elem : ty)
| TSlice (elem : ty)
| TTraitObject (bounds : list (bound ty))
| TTuple (elems : list ty)
| TVerbatim (names : list ident).

(** syn [Path::get_ident]. *)
Definition get_ident (p : path ty) : option ident :=
  match pa_leading p, pa_segs p with
  | false, [s] => match sg_args s with None => Some (sg_ident s) | Some _ => None end
  | _, _ => None
  end.

(** ** syn's items *)

(** syn [GenericParam]. *)
Inductive gparam : Type :=
| GLifetime (l : ident) (bounds : text)
| GType (x : ident) (bounds : text)
| GConst (x : ident) (t : text).

(** syn [GenericParam]'s [PartialEq], which compares the bounds too. *)
Definition gparam_eqb (a b : gparam) : bool :=
  match a, b with
  | GLifetime x p, GLifetime y q => String.eqb x y && String.eqb p q
  | GType x p, GType y q => String.eqb x y && String.eqb p q
  | GConst x p, GConst y q => String.eqb x y && String.eqb p q
  | _, _ => false
  end.

(** syn [Generics::lifetimes] and [type_params]. *)
Definition is_lifetime (p : gparam) : bool := match p with GLifetime _ _ => true | _ => false end.
Definition is_type (p : gparam) : bool := match p with GType _ _ => true | _ => false end.

(** The name of a parameter, as it is used (syn [TypeGenerics]). *)
Definition gname (p : gparam) : ident := match p with GLifetime l _ => l | GType x _ => x | GConst x _ => x end.

(** syn [Meta]; [MList p None]: the tokens are not a non-empty list of metas (messages.rs 128). *)
Inductive meta : Type :=
| MPath (p : list ident)
| MList (p : list ident) (args : option (list text))
| MNameValue (p : list ident) (v : text).

(** syn [Pat], of which [Pat::Ident] is accepted (messages.rs 60-63). *)
Inductive pat : Type :=
| PIdent (x : ident)
| POther (t : text).

(** syn [FnArg]. *)
Inductive input : Type :=
| Receiver (t : text)
| Typed (attrs : list meta) (p : pat) (t : ty).

(** syn [ImplItemFn]: attributes, visibility, the signature's parts, the block. *)
Record func : Type := mk_func {
  f_attrs : list meta;
  f_vis : text;
  f_async : bool;
  f_name : ident;
  f_generics : list gparam;
  f_where : list text;
  f_inputs : list input;
  f_output : option ty;
  f_block : text
}.

(** syn [ImplItem]. *)
Inductive item : Type :=
| IFn (f : func)
| IOther (t : text).

(** syn [ItemImpl]. *)
Record item_impl : Type := mk_impl {
  i_generics : list gparam;
  i_where : list text;
  i_self : ty;
  i_items : list item
}.

(** The errors of the macro (messages.rs 62, 134, 195-198, 400, 404-407, 424-435). *)
Inductive error : Type :=
| EBadAttribute
| EImplTrait
| EInfer
| EReference
| ENoSelf
| EPattern
| ESelfType.

(** ** Reading the block *)

(** messages.rs 422-440: [validate_param]. *)
Fixpoint validate_param (t : ty) : option error :=
  match t with
  | TImplTrait _ => Some EImplTrait
  | TInfer => Some EInfer
  | TReference _ _ => Some EReference
  | TGroup t => validate_param t
  | TParen t => validate_param t
  | _ => None
  end.

(** A type parameter of that name is among them (messages.rs 463-469, 503-509). *)
Definition has_type (gs : list gparam) (x : ident) : bool :=
  existsb (fun p => match p with GType y _ => String.eqb y x | _ => false end) gs.

(** A lifetime of that name is among them (messages.rs 482-488, 518-524). *)
Definition has_lifetime (gs : list gparam) (l : ident) : bool :=
  existsb (fun p => match p with GLifetime m _ => String.eqb m l | _ => false end) gs.

(** messages.rs 461-476, 501-516: a path that is one of the type parameters. *)
Definition path_generic (gs : list gparam) (p : path ty) : list gparam :=
  match get_ident p with
  | Some x => if has_type gs x then [GType x ""] else []
  | None => []
  end.

(** messages.rs 497-534: one bound of a trait object. *)
Definition bound_generic (gs : list gparam) (b : bound ty) : list gparam :=
  match b with
  | BTrait p => path_generic gs p
  | BLifetime l => if has_lifetime gs l then [GLifetime l ""] else []
  | BVerbatim => []
  end.

(** messages.rs 442-543: [contains_generic_in_param]. *)
Fixpoint contains_generic_in_param (gs : list gparam) (t : ty) : list gparam :=
  match t with
  | TArray e _ => contains_generic_in_param gs e
  | TBareFn inputs output =>
      flat_map (contains_generic_in_param gs) inputs
      ++ match output with Some t => contains_generic_in_param gs t | None => [] end
  | TGroup e => contains_generic_in_param gs e
  | TImplTrait _ => []
  | TInfer => []
  | TMacro _ => []
  | TNever => []
  | TParen e => contains_generic_in_param gs e
  | TPath _ p => path_generic gs p
  | TPtr e => contains_generic_in_param gs e
  | TReference l e =>
      match l with
      | Some l => if has_lifetime gs l then [GLifetime l ""] else []
      | None => []
      end ++ contains_generic_in_param gs e
  | TSlice e => contains_generic_in_param gs e
  | TTraitObject bs => flat_map (bound_generic gs) bs
  | TTuple es => flat_map (contains_generic_in_param gs) es
  | TVerbatim _ => []
  end.

(** messages.rs 94-99, 210-215: a doc comment. *)
Definition is_doc (m : meta) : bool :=
  match m with
  | MNameValue (s :: _) _ => String.eqb s "doc"
  | _ => false
  end.

(** What [retain] leaves, whether it met [#[message]], the attributes in its brackets, the
    errors (messages.rs 103-143). *)
Record scan : Type := mk_scan { sc_kept : list meta; sc_message : bool; sc_attrs : list text; sc_errors : list error }.

(** messages.rs 104-143: the closure given to [retain], one attribute. *)
Definition scan_attr (s : scan) (m : meta) : scan :=
  let keep := mk_scan (sc_kept s ++ [m]) (sc_message s) (sc_attrs s) (sc_errors s) in
  if sc_message s then keep                                            (* 105-107 *)
  else
    match m with
    | MPath [x] =>                                                     (* 109-118 *)
        if String.eqb x "message" then mk_scan (sc_kept s) true (sc_attrs s) (sc_errors s) else keep
    | MList [x] args =>                                                (* 119-140 *)
        if String.eqb x "message" then
          match args with
          | Some l => mk_scan (sc_kept s) true (sc_attrs s ++ l) (sc_errors s)
          | None => mk_scan (sc_kept s) true (sc_attrs s) (sc_errors s ++ [EBadAttribute])
          end
        else keep
    | _ => keep
    end.

(** messages.rs 94-143: the attributes of a method; those passed on start with its doc
    comments. *)
Definition doc_text (m : meta) : text := match m with MNameValue _ v => v | _ => "" end.
Definition scan_attrs (l : list meta) : scan :=
  fold_left scan_attr l (mk_scan [] false (map doc_text (filter is_doc l)) []).

(** messages.rs 147-158: the parameters of the block that the method does not repeat. *)
Definition impl_item_generics (block own : list gparam) : list gparam :=
  filter (fun p => is_lifetime p && negb (existsb (gparam_eqb p) (filter is_lifetime own))) block
  ++ filter (fun p => is_type p && negb (existsb (gparam_eqb p) (filter is_type own))) block.

(** messages.rs 159-167: the errors of the parameters' types. *)
Definition input_errors (l : list input) : list error :=
  flat_map (fun i => match i with
                     | Typed _ _ t => match validate_param t with Some e => [e] | None => [] end
                     | Receiver _ => []
                     end) l.

(** messages.rs 146, 159-170: the parameters of the block found in the method's types. *)
Definition found_generics (gs : list gparam) (inputs : list input) (output : option ty) : list gparam :=
  flat_map (fun i => match i with Typed _ _ t => contains_generic_in_param gs t | Receiver _ => [] end) inputs
  ++ match output with Some t => contains_generic_in_param gs t | None => [] end.

(** std [Vec::dedup]: of equal neighbours the first is kept (messages.rs 172). *)
Fixpoint dedup (l : list gparam) : list gparam :=
  match l with
  | [] => []
  | x :: l' =>
      match dedup l' with
      | y :: l'' => if gparam_eqb x y then x :: l'' else x :: y :: l''
      | [] => [x]
      end
  end.

(** messages.rs 190: lifetimes separated, types terminated by commas, so that lifetimes
    followed by types are no list of parameters, and [parse_quote] panics ([None]). *)
Definition join_params (lifetimes types : list gparam) : option (list gparam) :=
  match lifetimes, types with
  | _ :: _, _ :: _ => None
  | _, _ => Some (lifetimes ++ types)
  end.

(** messages.rs 172-191: the parameters of the message. *)
Definition message_generics (found own : list gparam) : option (list gparam) :=
  match dedup found with
  | [] => Some own
  | l =>
      join_params (filter is_lifetime l ++ filter is_lifetime own) (filter is_type l ++ filter is_type own)
  end.

(** messages.rs 204-225: doc comments are taken off the parameters. *)
Definition field_docs (i : input) : list text :=
  match i with Receiver _ => [] | Typed attrs _ _ => map doc_text (filter is_doc attrs) end.
Definition strip_docs (i : input) : input :=
  match i with
  | Receiver t => Receiver t
  | Typed attrs p t => Typed (filter (fun m => negb (is_doc m)) attrs) p t
  end.

(** syn [Field], as made in messages.rs 66-69. *)
Record field : Type := mk_field { fd_docs : list text; fd_vis : text; fd_name : ident; fd_ty : ty }.

(** messages.rs 51-70: the fields of the message. *)
Fixpoint fields_of (vis : text) (l : list (input * list text)) : list field + error :=
  match l with
  | [] => inl []
  | (Receiver _, _) :: l' => fields_of vis l'
  | (Typed _ p t, docs) :: l' =>
      match p with
      | PIdent x =>
          match fields_of vis l' with
          | inl fs => inl (mk_field docs vis x t :: fs)
          | inr e => inr e
          end
      | POther _ => inr EPattern
      end
  end.

Section Named.
(** heck's [to_upper_camel_case] (messages.rs 50). *)
Variable camel : ident -> ident.

(** messages.rs 20-28: [Message]; the signature is that of [ms_fn]. *)
Record message : Type := mk_message {
  ms_vis : text;
  ms_fn : func;
  ms_ident : ident;
  ms_fields : list field;
  ms_attrs : list text;
  ms_generics : list gparam
}.

(** messages.rs 41-81: [Message::try_from]. *)
Definition try_from (vis : text) (f : func) (attrs : list text) (docs : list (list text)) (generics : list gparam)
  : message + error :=
  match fields_of vis (combine (f_inputs f) docs) with
  | inl fields => inl (mk_message vis f (camel (f_name f)) fields attrs generics)
  | inr e => inr e
  end.

(** A method with other attributes or inputs (the two [&mut] changes, messages.rs 104, 204). *)
Definition with_attrs (f : func) (l : list meta) : func :=
  mk_func l (f_vis f) (f_async f) (f_name f) (f_generics f) (f_where f) (f_inputs f) (f_output f) (f_block f).
Definition with_inputs (f : func) (l : list input) : func :=
  mk_func (f_attrs f) (f_vis f) (f_async f) (f_name f) (f_generics f) (f_where f) l (f_output f) (f_block f).

(** messages.rs 193-202: the first input is not the receiver. *)
Definition lacks_self (l : list input) : bool :=
  match l with Receiver _ :: _ => false | _ => true end.

(** What one item becomes, the message if it is one, and its errors; [None]: the macro
    panics. *)
Definition extract_fn (block : list gparam) (f : func) : option (func * option message * list error) :=
  let s := scan_attrs (f_attrs f) in
  let f1 := with_attrs f (sc_kept s) in
  if sc_message s then                                                 (* messages.rs 145 *)
    let gs := impl_item_generics block (f_generics f) in
    let errors := (sc_errors s ++ input_errors (f_inputs f)) in
    match message_generics (found_generics gs (f_inputs f) (f_output f)) (f_generics f) with
    | None => None
    | Some generics =>
        if lacks_self (f_inputs f) then Some (f1, None, (errors ++ [ENoSelf]))  (* 193-202 *)
        else
          let docs := map field_docs (f_inputs f) in
          let f2 := with_inputs f1 (map strip_docs (f_inputs f)) in
          match try_from (f_vis f2) f2 (sc_attrs s) docs generics with          (* 227-239 *)
          | inl m => Some (f2, match errors with [] => Some m | _ => None end, errors)  (* 247-251 *)
          | inr e => Some (f2, None, (errors ++ [e]))
          end
    end
  else Some (f1, None, sc_errors s).                                   (* 240-242 *)

(** messages.rs 85-267: [extract_messages]; the items afterwards, the messages, the errors. *)
Fixpoint extract_messages (block : list gparam) (l : list item) : option (list item * list message * list error) :=
  match l with
  | [] => Some ([], [], [])
  | IOther t :: l' =>                                                  (* 244 *)
      match extract_messages block l' with
      | Some (its, ms, es) => Some (IOther t :: its, ms, es)
      | None => None
      end
  | IFn f :: l' =>
      match extract_fn block f with
      | None => None
      | Some (f', m, es) =>
          match extract_messages block l' with
          | Some (its, ms, es') =>
              Some (IFn f' :: its, match m with Some m => m :: ms | None => ms end, (es ++ es'))
          | None => None
          end
      end
  end.

(** messages.rs 395-410: the actor's name: the last segment of the type's path. *)
Definition actor_ident (t : ty) : option ident :=
  match t with
  | TPath _ p => match rev (pa_segs p) with s :: _ => Some (sg_ident s) | [] => None end
  | _ => None
  end.

(** ** Writing the items *)

(** [struct] items (messages.rs 281-293): [None]: [struct Name;], which has no parameters. *)
Record struct_item : Type := mk_struct {
  st_attrs : list text;
  st_vis : text;
  st_name : ident;
  st_generics : list gparam;
  st_fields : option (list field)
}.

(** messages.rs 269-300: [expand_msgs]. *)
Definition expand_msg (m : message) : struct_item :=
  match ms_fields m with
  | [] => mk_struct (ms_attrs m) (ms_vis m) (ms_ident m) [] None
  | fs => mk_struct (ms_attrs m) (ms_vis m) (ms_ident m) (ms_generics m) (Some fs)
  end.

(** A type applied to parameters by name. *)
Record applied : Type := mk_applied { ap_name : ident; ap_args : list ident }.

(** syn [Generics::split_for_impl]: lifetimes are printed first, in both. *)
Definition impl_params (l : list gparam) : list gparam :=
  (filter is_lifetime l ++ filter (fun p => negb (is_lifetime p)) l).
Definition ty_args (l : list gparam) : list ident := map gname (impl_params l).

(** The body of [handle] (messages.rs 361): [self.name(msg.a, msg.b)], perhaps [.await]. *)
Record call : Type := mk_call { cl_method : ident; cl_params : list ident; cl_await : bool }.

(** [impl<..> Message<Msg> for Actor] (messages.rs 355-364). *)
Record handler : Type := mk_handler {
  h_generics : list gparam;
  h_where : list text;
  h_msg : applied;
  h_actor : applied;
  h_reply : ty;
  h_body : call
}.

(** messages.rs 302-371: [expand_msg_impls]. *)
Definition expand_msg_impl (block : item_impl) (actor : ident) (m : message) : handler :=
  let f := ms_fn m in
  mk_handler
    (impl_params (i_generics block ++ f_generics f))              (* 319-320, 325 *)
    (i_where block ++ f_where f)                                  (* 321-323 *)
    (mk_applied (ms_ident m) (ty_args (ms_generics m)))                (* 324, 357 *)
    (mk_applied actor (ty_args (i_generics block)))                    (* 309, 357 *)
    (match f_output f with Some t => t | None => TTuple [] end)        (* 338-343 *)
    (mk_call (f_name f) (map fd_name (ms_fields m)) (f_async f)).      (* 344-353, 361 *)

(** What the macro emits (messages.rs 374-389). *)
Record expansion : Type := mk_expansion {
  x_block : item_impl;
  x_structs : list struct_item;
  x_handlers : list handler;
  x_errors : list error
}.

(** The macro panics, refuses the item, or expands it (lib.rs 65-69). *)
Inductive outcome : Type :=
| Panicked
| Refused (e : error)
| Expanded (x : expansion).

(** lib.rs 65-69, messages.rs 391-419, 374-389. *)
Definition expand (i : item_impl) : outcome :=
  match actor_ident (i_self i) with
  | None => Refused ESelfType
  | Some actor =>
      match extract_messages (i_generics i) (i_items i) with
      | None => Panicked
      | Some (its, ms, es) =>
          let i' := mk_impl (i_generics i) (i_where i) (i_self i) its in
          Expanded (mk_expansion i' (map expand_msg ms) (map (expand_msg_impl i' actor) ms) es)
      end
  end.
End Named.

(** ** Running a handler *)

(** Rust: calling a method gives its value, or a future of it if it is [async]; [.await] takes
    the value out of a future. *)
Inductive called (R : Type) : Type :=
| Value (r : R)
| Future (r : R).
Arguments Value {R} r.
Arguments Future {R} r.

(** Rust: the fields of a struct's value, in the order they were written. *)
Fixpoint get_field {V : Type} (s : list (ident * V)) (x : ident) : option V :=
  match s with
  | [] => None
  | (y, v) :: s' => if String.eqb y x then Some v else get_field s' x
  end.

(** Rust: the arguments of a call, from left to right. *)
Fixpoint get_fields {V : Type} (s : list (ident * V)) (l : list ident) : option (list V) :=
  match l with
  | [] => Some []
  | x :: l' =>
      match get_field s x, get_fields s l' with
      | Some v, Some vs => Some (v :: vs)
      | _, _ => None
      end
  end.

(** Running the body of [handle] (messages.rs 361) on a message; [None]: it does not type-check. *)
Definition run_handler {V R : Type} (methods : ident -> list V -> called R) (b : call) (msg : list (ident * V)) : option R :=
  match get_fields msg (cl_params b) with
  | None => None
  | Some vs =>
      match methods (cl_method b) vs, cl_await b with
      | Value r, false => Some r
      | Future r, true => Some r
      | _, _ => None
      end
  end.
