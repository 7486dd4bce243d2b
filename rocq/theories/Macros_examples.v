(** Data for the examples beside the theorems about [#[messages]]. *)
From Coq Require Import String List.
Import ListNotations.
From Verif Require Import Macros Macros_spec.

(** Pieces of syntax. *)
Definition T_ (x : ident) : ty := TPath None (mk_path false [mk_seg x None]).
Definition Vec_ (t : ty) : ty := TPath None (mk_path false [mk_seg "Vec"%string (Some [ArgType t])]).
Definition self_mut : input := Receiver "&mut self".
Definition param (x : ident) (t : ty) : input := Typed [] (PIdent x) t.
Definition msg_mark : meta := MPath ["message"%string].
Definition gen (x : ident) : gparam := GType x "".

Definition method (name : ident) (inputs : list input) (out : option ty) : func :=
  mk_func [msg_mark] "pub" false name [] [] (self_mut :: inputs) out "{ .. }".

Definition block_T (f : func) : item_impl :=
  mk_impl [gen "T"] [] (TPath None (mk_path false [mk_seg "Store"%string (Some [ArgType (T_ "T")])])) [IFn f].
Definition block_TU (f : func) : item_impl :=
  mk_impl [gen "T"; gen "U"] []
    (TPath None (mk_path false [mk_seg "Store"%string (Some [ArgType (T_ "T"); ArgType (T_ "U")])])) [IFn f].

(** [fn extend(&mut self, values: Vec<T>)] in [impl<T> Store<T>]. *)
Definition f_extend : func := method "extend" [param "values" (Vec_ (T_ "T"))] None.
(** [fn swap(&mut self, old: T, key: U, new: T)] in [impl<T, U> Store<T, U>]. *)
Definition f_swap : func := method "swap" [param "old" (T_ "T"); param "key" (T_ "U"); param "new" (T_ "T")] None.
(** [fn take(&mut self) -> T] in [impl<T> Store<T>]. *)
Definition f_take : func := method "take" [] (Some (T_ "T")).

(** [fn put<'a>(&mut self, value: T)] in [impl<T> Store<T>]. *)
Definition f_lifetime : func :=
  mk_func [msg_mark] "pub" false "put" [GLifetime "'a" ""] [] [self_mut; param "value" (T_ "T")] None "{ .. }".

(** [impl Store<u32>]. *)
Definition block_u32 (f : func) : item_impl :=
  mk_impl [] [] (TPath None (mk_path false [mk_seg "Store"%string (Some [ArgType (T_ "u32")])])) [IFn f].

(** The block of the documentation (macros/src/lib.rs 27-42) with an [async] method, a method
    that is no message, and a constant:
    [impl Counter {
       const MAX: i64 = 10;
       fn new() -> Self
       /// Regular message
       #[message] pub fn inc(&mut self, /// how much
                             amount: u32) -> i64
       #[inline] #[message(derive(Clone, Copy))] pub async fn dec(&self, amount: u32, twice: bool) }]. *)
Definition f_new : func := mk_func [] "" false "new" [] [] [] (Some (T_ "Self")) "{ Counter { count: 0 } }".
Definition f_inc : func :=
  mk_func [MNameValue ["doc"%string] "Regular message"; msg_mark] "pub" false "inc" [] []
    [self_mut; Typed [MNameValue ["doc"%string] "how much"] (PIdent "amount") (T_ "u32")] (Some (T_ "i64")) "{ .. }".
Definition f_dec : func :=
  mk_func [MPath ["inline"%string]; MList ["message"%string] (Some ["derive(Clone, Copy)"%string])] "pub" true "dec" [] []
    [Receiver "&self"; param "amount" (T_ "u32"); param "twice" (T_ "bool")] None "{ .. }".
Definition counter : item_impl := mk_impl [] [] (T_ "Counter") [IOther "const MAX: i64 = 10;"; IFn f_new; IFn f_inc; IFn f_dec].

(** Two methods that cannot be messages: [fn by_ref(&self, s: &str)], [fn lost(x: u32)]. *)
Definition f_by_ref : func := method "by_ref" [param "s" (TReference None (T_ "str"))] None.
Definition f_lost : func := mk_func [msg_mark] "" false "lost" [] [] [param "x" (T_ "u32")] None "{ .. }".
Definition bad_counter : item_impl := mk_impl [] [] (T_ "Counter") [IFn f_by_ref; IFn f_inc; IFn f_lost].

(** Names as heck makes them, for these methods. *)
Definition camel_ex (x : ident) : ident :=
  if String.eqb x "inc" then "Inc" else if String.eqb x "dec" then "Dec" else if String.eqb x "put" then "Put" else x.

(** Its methods, run: [inc] doubles, [dec] (asynchronous) subtracts twice if told to. *)
Definition counter_methods (name : ident) (args : list nat) : called nat :=
  match args with
  | [a] => Value (a + a)
  | [a; b] => if String.eqb name "dec" then Future (100 * a + b) else Value 0
  | _ => Value 0
  end.

(** [fn put(&mut self, key: String, value: (T, T), more: T)] in [impl<T> Store<T>], and with a
    parameter of its own, [fn put<K>(&mut self, key: K, value: T)]. *)
Definition f_put : func :=
  method "put" [param "key" (T_ "String"); param "value" (TTuple [T_ "T"; T_ "T"]); param "more" (T_ "T")] None.
Definition f_put_own : func :=
  mk_func [msg_mark] "pub" false "put" [GType "K" "Hash"] ["K: Send"%string] [self_mut; param "key" (T_ "K"); param "value" (T_ "T")]
    None "{ .. }".

(** [fn visit(&mut self, with: dyn Visit + 'a)] in [impl<'a, T> Store<'a, T>], and
    [fn both(&mut self, with: dyn Visit + 'a, value: T)]. *)
Definition f_visit : func :=
  method "visit" [param "with" (TTraitObject [BTrait (mk_path false [mk_seg "Visit"%string None]); BLifetime "'a"%string])] None.
Definition f_both : func :=
  method "both" [param "with" (TTraitObject [BTrait (mk_path false [mk_seg "Visit"%string None]); BLifetime "'a"%string]);
                 param "value" (T_ "T")] None.
Definition block_aT (f : func) : item_impl :=
  mk_impl [GLifetime "'a" ""; gen "T"] []
    (TPath None (mk_path false [mk_seg "Store"%string (Some [ArgLifetime "'a"%string; ArgType (T_ "T")])])) [IFn f].
