(** What the attribute macro [#[messages]] is to do, stated over what the user wrote and over
    the items that come out, without the functions that make them. *)
From Coq Require Import String List Bool Permutation.
Import ListNotations.
From Verif Require Import Macros.

(** ** Which methods are messages *)

(** [#[message]] and [#[message(...)]]. *)
Definition is_mark (m : meta) : Prop := m = MPath ["message"%string] \/ exists a, m = MList ["message"%string] a.

(** The method has the attribute. *)
Definition marked (f : func) : Prop := exists m, In m (f_attrs f) /\ is_mark m.

(** What is in the brackets of the first such attribute can be read. *)
Definition brackets_read (f : func) : Prop :=
  forall l1 m l2, f_attrs f = l1 ++ m :: l2 -> is_mark m -> (forall x, In x l1 -> ~ is_mark x) ->
  m <> MList ["message"%string] None.

(** Types that no field can have. *)
Inductive bad_type : ty -> Prop :=
| Bad_impl bs : bad_type (TImplTrait bs)
| Bad_infer : bad_type TInfer
| Bad_ref l t : bad_type (TReference l t)
| Bad_group t : bad_type t -> bad_type (TGroup t)
| Bad_paren t : bad_type t -> bad_type (TParen t).

(** The method's parameters after [self], if each has a name. *)
Inductive params_of : list input -> list (ident * ty) -> Prop :=
| Params_nil : params_of [] []
| Params_self s l ps : params_of l ps -> params_of (Receiver s :: l) ps
| Params_named a x t l ps : params_of l ps -> params_of (Typed a (PIdent x) t :: l) ((x, t) :: ps).

(** The method can be made into a message with these fields. *)
Definition accepted (f : func) (ps : list (ident * ty)) : Prop :=
  marked f /\ brackets_read f /\ (exists s l, f_inputs f = Receiver s :: l) /\ params_of (f_inputs f) ps
  /\ (forall x t, In (x, t) ps -> ~ bad_type t).

(** ** What they become *)

(** The type written after [->], or the unit type. *)
Definition returns (f : func) (t : ty) : Prop := f_output f = Some t \/ f_output f = None /\ t = TTuple [].

(** The fields of a struct, by name and type. *)
Definition declared_fields (s : struct_item) : list (ident * ty) :=
  match st_fields s with Some l => map (fun d => (fd_name d, fd_ty d)) l | None => [] end.

(** The texts of the doc comments among attributes, and what is in the brackets of a mark. *)
Definition docs (l : list meta) : list text :=
  flat_map (fun m => match m with MNameValue ("doc"%string :: _) v => [v] | _ => [] end) l.
Definition brackets (m : meta) : list text := match m with MList _ (Some l) => l | _ => [] end.

(** The attributes of the struct are the doc comments of the method and what its mark has in
    brackets, those of a field the doc comments of the parameter. *)
Definition attributes_of (f : func) (s : struct_item) : Prop :=
  (exists l1 m l2, f_attrs f = l1 ++ m :: l2 /\ is_mark m /\ (forall x, In x l1 -> ~ is_mark x)
                   /\ st_attrs s = docs (f_attrs f) ++ brackets m)
  /\ (forall l, st_fields s = Some l ->
        map fd_docs l = flat_map (fun i => match i with Typed a _ _ => [docs a] | Receiver _ => [] end) (f_inputs f)).

(** The struct and the handler are those of the method: the struct has the name made from the
    method's, its visibility (as have the fields) and a field for each parameter in the
    method's order; the handler is for that struct, and its reply is what the method returns. *)
Definition describes (camel : ident -> ident) (f : func) (ps : list (ident * ty)) (s : struct_item) (h : handler) : Prop :=
  st_name s = camel (f_name f) /\ st_vis s = f_vis f
  /\ declared_fields s = ps
  /\ (forall l d, st_fields s = Some l -> In d l -> fd_vis d = f_vis f)
  /\ attributes_of f s
  /\ ap_name (h_msg h) = st_name s
  /\ returns f (h_reply h).

(** Running the handler on a message is calling the method with the message's fields as
    arguments, in the method's order whatever the order in which the fields were written, and
    waiting for it if it is [async]. *)
Definition calls_method (f : func) (ps : list (ident * ty)) (h : handler) : Prop :=
  forall (V R : Type) (methods : ident -> list V -> called R) (result : list V -> R) (args : list V) (msg : list (ident * V)),
  (forall vs, methods (f_name f) vs = if f_async f then Future (result vs) else Value (result vs)) ->
  length args = length ps -> NoDup (map fst ps) -> Permutation msg (combine (map fst ps) args) ->
  run_handler methods (h_body h) msg = Some (result args).

(** The items of the block and the structs with handlers that come out, in order: one pair for
    each method that can be made into a message, nothing for the rest; [P] holds of each. *)
Inductive comes_out (P : func -> list (ident * ty) -> struct_item -> handler -> Prop)
  : list item -> list (struct_item * handler) -> Prop :=
| Out_nil : comes_out P [] []
| Out_other t l o : comes_out P l o -> comes_out P (IOther t :: l) o
| Out_none f l o : (forall ps, ~ accepted f ps) -> comes_out P l o -> comes_out P (IFn f :: l) o
| Out_message f ps s h l o :
    accepted f ps -> P f ps s h -> comes_out P l o -> comes_out P (IFn f :: l) ((s, h) :: o).

(** As many handlers as structs, paired in order. *)
Definition pairs_out (P : func -> list (ident * ty) -> struct_item -> handler -> Prop) (i : item_impl) (x : expansion) : Prop :=
  length (x_handlers x) = length (x_structs x) /\ comes_out P (i_items i) (combine (x_structs x) (x_handlers x)).

(** Nothing of the method is lost but the mark and the doc comments of parameters, which
    belong to the fields. *)
Definition only_docs_off (a b : input) : Prop :=
  match a, b with
  | Receiver s, Receiver s' => s = s'
  | Typed l p t, Typed l' p' t' =>
      p = p' /\ t = t' /\ incl l' l
      /\ forall m, In m l -> In m l' \/ exists p v, m = MNameValue ("doc"%string :: p) v
  | _, _ => False
  end.

Definition method_kept (f f' : func) : Prop :=
  f_vis f' = f_vis f /\ f_async f' = f_async f /\ f_name f' = f_name f /\ f_generics f' = f_generics f
  /\ f_where f' = f_where f /\ f_output f' = f_output f /\ f_block f' = f_block f
  /\ Forall2 only_docs_off (f_inputs f) (f_inputs f')
  /\ exists l1 m l2, f_attrs f = l1 ++ m :: l2 /\ is_mark m /\ (forall x, In x l1 -> ~ is_mark x) /\ f_attrs f' = l1 ++ l2.

Definition item_kept (a b : item) : Prop :=
  match a, b with
  | IOther t, IOther t' => t = t'
  | IFn f, IFn f' => (marked f /\ method_kept f f') \/ (~ marked f /\ f' = f)
  | _, _ => False
  end.

(** ** Type parameters *)

(** The types directly in a bound, a path, a type. *)
Definition args_types (l : list (arg ty)) : list ty :=
  flat_map (fun a => match a with ArgType t => [t] | _ => [] end) l.
Definition path_types (p : path ty) : list ty :=
  flat_map (fun s => match sg_args s with Some l => args_types l | None => [] end) (pa_segs p).
Definition bounds_types (l : list (bound ty)) : list ty :=
  flat_map (fun b => match b with BTrait p => path_types p | _ => [] end) l.
Definition opt_types (o : option ty) : list ty := match o with Some t => [t] | None => [] end.
Definition children (t : ty) : list ty :=
  match t with
  | TArray e _ | TGroup e | TParen e | TPtr e | TReference _ e | TSlice e => [e]
  | TBareFn ins out => ins ++ opt_types out
  | TImplTrait bs | TTraitObject bs => bounds_types bs
  | TPath q p => opt_types q ++ path_types p
  | TTuple es => es
  | TInfer | TMacro _ | TNever | TVerbatim _ => []
  end.

(** The path begins with the name: [T], [T::Item], [T<..>]. *)
Definition begins (x : ident) (p : path ty) : Prop :=
  pa_leading p = false /\ exists a l, pa_segs p = mk_seg x a :: l.

(** The type mentions the parameter [x], anywhere. *)
Inductive mentions (x : ident) : ty -> Prop :=
| Mn_inside t u : In u (children t) -> mentions x u -> mentions x t
| Mn_path q p : begins x p -> mentions x (TPath q p)
| Mn_len e l : In x l -> mentions x (TArray e l)
| Mn_const q p s l names :
    In s (pa_segs p) -> sg_args s = Some l -> In (ArgConst names) l -> In x names -> mentions x (TPath q p)
| Mn_dyn bs p : In (BTrait p) bs -> begins x p -> mentions x (TTraitObject bs)
| Mn_impl bs p : In (BTrait p) bs -> begins x p -> mentions x (TImplTrait bs)
| Mn_macro l : In x l -> mentions x (TMacro l)
| Mn_verbatim l : In x l -> mentions x (TVerbatim l).

(** It mentions it where it stands by itself and not inside the brackets of another type. *)
Inductive mentions_bare (x : ident) : ty -> Prop :=
| Mb_array e l : mentions_bare x e -> mentions_bare x (TArray e l)
| Mb_fn_in ins out t : In t ins -> mentions_bare x t -> mentions_bare x (TBareFn ins out)
| Mb_fn_out ins t : mentions_bare x t -> mentions_bare x (TBareFn ins (Some t))
| Mb_group e : mentions_bare x e -> mentions_bare x (TGroup e)
| Mb_paren e : mentions_bare x e -> mentions_bare x (TParen e)
| Mb_path q : mentions_bare x (TPath q (mk_path false [mk_seg x None]))
| Mb_ptr e : mentions_bare x e -> mentions_bare x (TPtr e)
| Mb_ref l e : mentions_bare x e -> mentions_bare x (TReference l e)
| Mb_slice e : mentions_bare x e -> mentions_bare x (TSlice e)
| Mb_dyn bs : In (BTrait (mk_path false [mk_seg x None])) bs -> mentions_bare x (TTraitObject bs)
| Mb_tuple es t : In t es -> mentions_bare x t -> mentions_bare x (TTuple es).

(** The names of the type parameters in a list of parameters. *)
Definition type_names (l : list gparam) : list ident :=
  flat_map (fun p => match p with GType x _ => [x] | _ => [] end) l.

(** All names in it. *)
Definition param_names (l : list gparam) : list ident :=
  map (fun p => match p with GLifetime x _ => x | GType x _ => x | GConst x _ => x end) l.

(** Rust refuses a struct with two parameters of one name (E0403), with a type parameter in a
    field that it does not declare (E0412), or with a type parameter in no field (E0392), and a
    use of it with another number of parameters (E0107). *)
Definition struct_compiles (scope : list ident) (s : struct_item) (used : applied) : Prop :=
  NoDup (param_names (st_generics s))
  /\ (forall x p t, In x scope -> In (p, t) (declared_fields s) -> mentions x t -> In x (param_names (st_generics s)))
  /\ (forall x, In x (type_names (st_generics s)) -> exists p t, In (p, t) (declared_fields s) /\ mentions x t)
  /\ length (ap_args used) = length (st_generics s).

(** Rust refuses an [impl] or a method that has two parameters of one name (E0403). *)
Definition params_apart (i : item_impl) (f : func) : Prop :=
  NoDup (param_names (i_generics i ++ f_generics f)).

(** Nothing but types among the parameters. *)
Definition only_types (l : list gparam) : Prop := forall p, In p l -> exists x b, p = GType x b.

(** The type parameters among [scope] that stand by themselves in a type, in reading order. *)
Definition bare_path (scope : list ident) (p : path ty) : list ident :=
  match p with
  | mk_path false [mk_seg x None] => if in_dec string_dec x scope then [x] else []
  | _ => []
  end.
Fixpoint bare_names (scope : list ident) (t : ty) : list ident :=
  match t with
  | TArray e _ | TGroup e | TParen e | TPtr e | TReference _ e | TSlice e => bare_names scope e
  | TBareFn ins out =>
      flat_map (bare_names scope) ins ++ match out with Some t => bare_names scope t | None => [] end
  | TPath _ p => bare_path scope p
  | TTraitObject bs => flat_map (fun b => match b with BTrait p => bare_path scope p | _ => [] end) bs
  | TTuple es => flat_map (bare_names scope) es
  | TImplTrait _ | TInfer | TMacro _ | TNever | TVerbatim _ => []
  end.

(** Equal ones are next to each other. *)
Definition together (l : list ident) : Prop :=
  forall a x b c, l = a ++ x :: b ++ x :: c -> forall y, In y b -> y = x.

(** A parameter is mentioned in the type of an argument; or stands by itself in one, or in the
    type returned. *)
Definition in_args (ps : list (ident * ty)) (x : ident) : Prop := exists y t, In (y, t) ps /\ mentions x t.
Definition bare_in_args (ps : list (ident * ty)) (x : ident) : Prop := exists y t, In (y, t) ps /\ mentions_bare x t.
Definition bare_in_output (f : func) (x : ident) : Prop := exists t, f_output f = Some t /\ mentions_bare x t.

(** When the struct made for a method compiles, for a block and a method whose parameters are
    types. *)
Definition generics_fit (i : item_impl) (f : func) (ps : list (ident * ty)) : Prop :=
  let block := type_names (i_generics i) in
  let own := type_names (f_generics f) in
  match ps with
  | [] => own = [] /\ forall x, In x block -> ~ bare_in_output f x
  | _ =>
      (forall x, In x block -> in_args ps x -> bare_in_args ps x \/ bare_in_output f x)
      /\ (forall x, In x block -> bare_in_output f x -> in_args ps x)
      /\ (forall x, In x own -> in_args ps x)
      /\ together (flat_map (fun p => bare_names block (snd p)) ps
                   ++ match f_output f with Some t => bare_names block t | None => [] end)
  end.

(** The type after [for] is the one the block is for. *)
Definition same_type (used : applied) (t : ty) : Prop :=
  exists args, t = TPath None (mk_path false [mk_seg (ap_name used) args])
    /\ match args with
       | None => ap_args used = []
       | Some l => Forall2 (fun x a => a = ArgLifetime x
                                       \/ a = ArgType (TPath None (mk_path false [mk_seg x None])))
                     (ap_args used) l
       end.

(** No lifetimes among the parameters. *)
Definition no_lifetimes (l : list gparam) : Prop := forall p, In p l -> forall x b, p <> GLifetime x b.

(** The parameter [x] as an argument of a type. *)
Definition plain_arg (x : ident) : arg ty := ArgType (TPath None (mk_path false [mk_seg x None])).

(** Rust accepts the block and its methods as to their parameters, which are types. *)
Definition rust_accepts (i : item_impl) : Prop :=
  only_types (i_generics i) /\ forall f, In (IFn f) (i_items i) -> params_apart i f /\ only_types (f_generics f).

(** All structs that come out compile. *)
Definition all_compile (i : item_impl) (x : expansion) : Prop :=
  pairs_out (fun f ps s h => struct_compiles (param_names (i_generics i ++ f_generics f)) s (h_msg h)) i x.

(** ** What is wrong *)

(** Why no field can have the type. *)
Inductive type_error : ty -> error -> Prop :=
| Te_impl bs : type_error (TImplTrait bs) EImplTrait
| Te_infer : type_error TInfer EInfer
| Te_ref l t : type_error (TReference l t) EReference
| Te_group t e : type_error t e -> type_error (TGroup t) e
| Te_paren t e : type_error t e -> type_error (TParen t) e.

(** The errors of the parameters' types, in their order. *)
Inductive types_errors : list input -> list error -> Prop :=
| Ts_nil : types_errors [] []
| Ts_self s l es : types_errors l es -> types_errors (Receiver s :: l) es
| Ts_fine a p t l es : ~ bad_type t -> types_errors l es -> types_errors (Typed a p t :: l) es
| Ts_bad a p t e l es : type_error t e -> types_errors l es -> types_errors (Typed a p t :: l) (e :: es).

(** The errors of a method: those of the brackets of its mark, of the types of its parameters,
    and that it lacks [self] or else that a parameter has no name. *)
Inductive method_errors (f : func) : list error -> Prop :=
| Me_plain : ~ marked f -> method_errors f []
| Me_marked es1 es2 es3 : marked f ->
    (brackets_read f /\ es1 = [] \/ ~ brackets_read f /\ es1 = [EBadAttribute]) ->
    types_errors (f_inputs f) es2 ->
    ((forall s l, f_inputs f <> Receiver s :: l) /\ es3 = [ENoSelf]
     \/ (exists s l, f_inputs f = Receiver s :: l) /\ (forall ps, ~ params_of (f_inputs f) ps) /\ es3 = [EPattern]
     \/ (exists s l, f_inputs f = Receiver s :: l) /\ (exists ps, params_of (f_inputs f) ps) /\ es3 = []) ->
    method_errors f (es1 ++ es2 ++ es3).

(** The errors of an item. *)
Definition item_errors (it : item) (es : list error) : Prop :=
  match it with
  | IFn f => method_errors f es
  | IOther _ => es = []
  end.

(** ** Lifetimes *)

(** The lifetime stands in a type where the macro looks: at a reference or among the bounds of
    a trait object. *)
Inductive names_lifetime (l : ident) : ty -> Prop :=
| Nl_array e n : names_lifetime l e -> names_lifetime l (TArray e n)
| Nl_fn_in ins out t : In t ins -> names_lifetime l t -> names_lifetime l (TBareFn ins out)
| Nl_fn_out ins t : names_lifetime l t -> names_lifetime l (TBareFn ins (Some t))
| Nl_group e : names_lifetime l e -> names_lifetime l (TGroup e)
| Nl_paren e : names_lifetime l e -> names_lifetime l (TParen e)
| Nl_ptr e : names_lifetime l e -> names_lifetime l (TPtr e)
| Nl_here e : names_lifetime l (TReference (Some l) e)
| Nl_ref m e : names_lifetime l e -> names_lifetime l (TReference m e)
| Nl_slice e : names_lifetime l e -> names_lifetime l (TSlice e)
| Nl_dyn bs : In (BLifetime l) bs -> names_lifetime l (TTraitObject bs)
| Nl_tuple es t : In t es -> names_lifetime l t -> names_lifetime l (TTuple es).

(** The names of the lifetimes in a list of parameters. *)
Definition lifetime_names (gs : list gparam) : list ident :=
  flat_map (fun p => match p with GLifetime l _ => [l] | _ => [] end) gs.

(** Of the type of a parameter, or of the type returned. *)
Definition in_signature (f : func) (Q : ty -> Prop) : Prop :=
  (exists a p t, In (Typed a p t) (f_inputs f) /\ Q t) \/ (exists t, f_output f = Some t /\ Q t).

(** The method takes a lifetime, a type parameter from the block. *)
Definition takes_lifetime (i : item_impl) (f : func) (l : ident) : Prop :=
  In l (lifetime_names (i_generics i)) /\ in_signature f (names_lifetime l).
Definition takes_type (i : item_impl) (f : func) (x : ident) : Prop :=
  In x (type_names (i_generics i)) /\ in_signature f (mentions_bare x).

(** A message that takes something from the block and would have both lifetimes and types. *)
Definition mixed (i : item_impl) (f : func) : Prop :=
  ((exists l, takes_lifetime i f l) \/ (exists x, takes_type i f x))
  /\ ((exists l, takes_lifetime i f l) \/ lifetime_names (f_generics f) <> [])
  /\ ((exists x, takes_type i f x) \/ type_names (f_generics f) <> []).
