(** What the derive macros are to do: names and ids read off the attributes as the user wrote
    them, and the tables by what was registered. *)
From Coq Require Import Ascii String List Bool.
Import ListNotations.
From Verif Require Import Errors Dyn Reply RemoteDispatch Derives.
Open Scope string_scope.
Open Scope list_scope.

(** The brackets of the attributes of that word, in order. *)
Definition brackets_of (word : string) (l : list attribute) : list (option (list token)) :=
  flat_map (fun a => match at_path a with
                     | Some w => if string_dec w word then [at_args a] else []
                     | None => []
                     end) l.

(** The actor's name: the one in [#[actor(name = "...")]], or the type's if none is given. *)
Definition named (d : decl) (s : string) : Prop :=
  (brackets_of "actor" (d_attrs d) = [] \/ brackets_of "actor" (d_attrs d) = [Some []]) /\ s = d_ident d
  \/ brackets_of "actor" (d_attrs d) = [Some [Word "name"; Equals; Lit s]]
  \/ brackets_of "actor" (d_attrs d) = [Some [Word "name"; Equals; Lit s; Comma]].

(** The actor's remote id: the one in [#[remote_actor(id = "...")]], or the type's path. *)
Definition remote_named (d : decl) (s : string) : Prop :=
  brackets_of "remote_actor" (d_attrs d) = [Some [Word "id"; Equals; Lit s]]
  \/ brackets_of "remote_actor" (d_attrs d) = [] /\ s = String.append (d_module d) (String.append "::" (d_ident d)).

(** A Rust identifier has no colon. *)
Fixpoint no_colon (s : string) : Prop :=
  match s with
  | EmptyString => True
  | String c s' => c <> ":"%char /\ no_colon s'
  end.

(** The registration of an [impl]: under the ids of the actor and of the message, functions for
    that actor, message and reply. *)
Definition registers (p : program) (i : remote_impl) (key : msg_key) (f : msg_fns) : Prop :=
  (exists d, nth_error (pr_actors p) (ri_actor i) = Some d /\ remote_named d (fst key))
  /\ ri_attr i = [Lit (snd key)]
  /\ fn_actor f = ri_actor i /\ ri_trait i = Some (Some (fn_msg f)) /\ fn_reply f = ri_reply i.

(** What the macros and Rust accept: types without parameters and blocks without parameters. *)
Definition remotable (p : program) : Prop :=
  (forall d, In d (pr_actors p) -> d_generics d = [] /\ exists s, remote_named d s)
  /\ (forall i, In i (pr_impls p) ->
        ri_params i = [] /\ ri_actor i < length (pr_actors p)
        /\ exists s m, ri_attr i = [Lit s] /\ ri_trait i = Some (Some m)).

(** Two different elements with the same key. *)
Definition two_with {A K : Type} (key : A -> K -> Prop) (l : list A) : Prop :=
  exists n1 n2 a1 a2 k, n1 <> n2 /\ nth_error l n1 = Some a1 /\ nth_error l n2 = Some a2 /\ key a1 k /\ key a2 k.

(** The names written in the brackets: [name = "..."] any number of times, with commas. *)
Inductive written : list token -> list string -> Prop :=
| wr_none : written [] []
| wr_last : forall s, written [Word "name"; Equals; Lit s] [s]
| wr_more : forall s l ns, written l ns -> written (Word "name" :: Equals :: Lit s :: Comma :: l) (s :: ns).

(** What is wrong with the brackets of [#[actor(...)]], ... *)
Inductive actor_wrong : list token -> derr -> Prop :=
| aw_args : forall l, (forall ns, ~ written l ns) -> actor_wrong l BadArgs
| aw_twice : forall l ns, written l ns -> 2 <= length ns -> actor_wrong l NameAlreadySet.

(** ... of [#[remote_actor(...)]], ... *)
Inductive remote_wrong : list token -> derr -> Prop :=
| rw_args : forall l, (forall s, l <> [Word "id"; Equals; Lit s]) -> remote_wrong l ExpectedId.

(** ... and with the attributes of that word: the first has no brackets or wrong ones, or there is
    a second one. *)
Inductive attrs_wrong (wrong : list token -> derr -> Prop) : list (option (list token)) -> derr -> Prop :=
| at_bare : forall rest, attrs_wrong wrong (None :: rest) BadArgs
| at_wrong : forall l e rest, wrong l e -> attrs_wrong wrong (Some l :: rest) e
| at_again : forall l b rest, (forall e, ~ wrong l e) -> attrs_wrong wrong (Some l :: b :: rest) AlreadySpecified.

(** What is wrong with a block under [#[remote_message(...)]]. *)
Inductive impl_wrong (i : remote_impl) : derr -> Prop :=
| iw_args : (forall s, ri_attr i <> [Lit s]) -> impl_wrong i BadArgs
| iw_plain : forall s, ri_attr i = [Lit s] -> ri_trait i = None -> impl_wrong i NotTraitImpl
| iw_bare : forall s, ri_attr i = [Lit s] -> ri_trait i = Some None -> impl_wrong i NoBrackets.
