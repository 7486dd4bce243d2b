(** Programs with remote actors. *)
From Coq Require Import String List Bool.
Import ListNotations.
From Verif Require Import Errors Dyn Reply RemoteDispatch Derives Derives_spec.
Open Scope string_scope.
Open Scope list_scope.

(** [#[derive(Actor)] #[actor(name = "my_amazing_actor")] struct MyActor;] with a doc comment *)
Definition d_amazing : decl :=
  mk_decl "demo" "MyActor" [] [mk_attr (Some "doc") None; mk_attr (Some "actor") (Some [Word "name"; Equals; Lit "my_amazing_actor"])].

(** macros/src/lib.rs 97-101, the documented example *)
Definition d_documented : decl :=
  mk_decl "demo" "MyActor" []
    [mk_attr (Some "actor") (Some [Word "name"; Equals; Lit "my_amazing_actor"; Comma;
                                   Word "mailbox"; Equals; Word "bounded"; Other "(256)"])].

(** Two remote actors, one with an id, and three handlers, two of which share the message id. *)
Definition d_counter : decl := mk_decl "demo::count" "Counter" [] [mk_attr (Some "remote_actor") (Some [Word "id"; Equals; Lit "counter"])].
Definition d_log : decl := mk_decl "demo::log" "Log" [] [].
Definition i_inc : remote_impl := mk_rimpl [Lit "inc"] (Some (Some (TUser 0))) [] 0 (RPlain TUnit).
Definition i_reset : remote_impl := mk_rimpl [Lit "reset"] (Some (Some (TUser 1))) [] 0 (RPlain TUnit).
Definition i_log : remote_impl := mk_rimpl [Lit "inc"] (Some (Some (TUser 0))) [] 1 (RPlain TUnit).
Definition p_two : program := mk_program [d_counter; d_log] [i_inc; i_reset; i_log].

(** Two types called [Local], each declared in a function of the same module. *)
Definition d_local : decl := mk_decl "demo" "Local" [] [].
Definition p_local : program := mk_program [d_local; d_local] [].

(** [struct Store<T>] *)
Definition d_store : decl := mk_decl "demo" "Store" ["T"] [].
