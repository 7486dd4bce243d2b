(** Model of the derive macros [Actor] and [RemoteActor] and of the attribute macro
    [remote_message], and of the tables a program ends up with through them.

    macros/src/derive_actor.rs, macros/src/derive_remote_actor.rs,
    macros/src/remote_message.rs, src/remote.rs 85-107 (the second table: RemoteDispatch).

    Simplified: attributes are lists of tokens of five kinds; bounds and where clauses are left
    out; the generated functions are those of the type and the message they are made for
    (remote_message.rs 69-118, derive_remote_actor.rs 46-87), see RemoteDispatch and
    RemoteLinks for what they do. *)
From Coq Require Import String List Bool.
Import ListNotations.
From Verif Require Import Errors Dyn Reply RemoteDispatch.
Open Scope string_scope.
Open Scope list_scope.

(** Tokens within an attribute's brackets. *)
Inductive token : Type :=
| Word (s : string)
| Equals
| Comma
| Lit (s : string)
| Other (s : string).

(** syn [Attribute]: its path, if it is a single word, and its brackets; [None]: it has none. *)
Record attribute : Type := mk_attr { at_path : option string; at_args : option (list token) }.

(** syn [DeriveInput] with the module it stands in ([module_path!()]). *)
Record decl : Type := mk_decl {
  d_module : string;
  d_ident : string;
  d_generics : list string;
  d_attrs : list attribute
}.

(** The errors of these macros (derive_actor.rs 51-54, 88, 100, derive_remote_actor.rs 101-104,
    128-143, remote_message.rs 20-25, 132-135, 144, 151-154). *)
Inductive derr : Type :=
| AlreadySpecified
| BadArgs
| NameAlreadySet
| ExpectedId
| NotTraitImpl
| NoBrackets.

(** ** [#[derive(Actor)]] *)

(** derive_actor.rs 79-90: [parse_terminated_with]: items [name = "..."] separated by commas,
    one more comma at the end allowed. *)
Fixpoint parse_names (l : list token) : option (list string) :=
  match l with
  | [] => Some []
  | Word w :: Equals :: Lit s :: l' =>
      if String.eqb w "name" then
        match l' with
        | [] => Some [s]
        | Comma :: l'' => match parse_names l'' with Some r => Some (s :: r) | None => None end
        | _ => None
        end
      else None
  | _ => None
  end.

(** derive_actor.rs 92-104: the loop over the items. *)
Fixpoint one_name (acc : option string) (l : list string) : result (option string) derr :=
  match l with
  | [] => Ok acc
  | s :: l' => match acc with None => one_name (Some s) l' | Some _ => Err NameAlreadySet end
  end.

(** derive_actor.rs 73-107: [DeriveActorAttrs::parse]. *)
Definition parse_actor_attrs (l : list token) : result (option string) derr :=
  match parse_names l with
  | Some names => one_name None names
  | None => Err BadArgs
  end.

(** derive_actor.rs 47-58, derive_remote_actor.rs 97-108: the loop over the attributes;
    [parse_args_with] refuses an attribute without brackets. *)
Fixpoint find_attr {A : Type} (word : string) (parse : list token -> result A derr) (acc : option A) (l : list attribute)
  : result (option A) derr :=
  match l with
  | [] => Ok acc
  | a :: l' =>
      match at_path a with
      | Some w =>
          if String.eqb w word then
            match acc with
            | Some _ => Err AlreadySpecified
            | None =>
                match at_args a with
                | None => Err BadArgs
                | Some toks =>
                    match parse toks with
                    | Ok x => find_attr word parse (Some x) l'
                    | Err e => Err e
                    end
                end
            end
          else find_attr word parse acc l'
      | None => find_attr word parse acc l'
      end
  end.

(** derive_actor.rs 16-66: what [Actor::name] returns. *)
Definition derive_actor (d : decl) : result string derr :=
  match find_attr "actor" parse_actor_attrs None (d_attrs d) with
  | Err e => Err e
  | Ok None => Ok (d_ident d)                                          (* 61, 25 *)
  | Ok (Some None) => Ok (d_ident d)
  | Ok (Some (Some s)) => Ok s
  end.

(** ** [#[derive(RemoteActor)]] *)

(** derive_remote_actor.rs 124-147: [DeriveRemoteActorAttrs::parse]. *)
Definition parse_remote_attrs (l : list token) : result string derr :=
  match l with
  | [Word w; Equals; Lit s] => if String.eqb w "id" then Ok s else Err ExpectedId
  | _ => Err ExpectedId
  end.

(** derive_remote_actor.rs 30-90: the constant [REMOTE_ID], and the parameters of the type as the
    [static] mentions it. *)
Record remote_actor : Type := mk_remote { ra_id : string; ra_static_params : list string }.

(** derive_remote_actor.rs 14-117. *)
Definition derive_remote_actor (d : decl) : result remote_actor derr :=
  match find_attr "remote_actor" parse_remote_attrs None (d_attrs d) with
  | Err e => Err e
  | Ok o =>
      Ok (mk_remote (match o with
                     | Some s => s
                     | None => String.append (d_module d) (String.append "::" (d_ident d))   (* 25-27 *)
                     end) (d_generics d))
  end.

(** ** [#[remote_message("...")]] *)

(** remote_message.rs 16-27: [RemoteMessageAttrs::parse]. *)
Definition parse_message_attrs (l : list token) : result string derr :=
  match l with
  | [Lit s] => Ok s
  | _ => Err BadArgs
  end.

(** An [impl] block under the attribute: its brackets, the trait ([None]: there is none;
    [Some None]: it has no brackets), the parameters of the block, the actor's type (its
    declaration's number, see [program]), the message's type, the reply. *)
Record remote_impl : Type := mk_rimpl {
  ri_attr : list token;
  ri_trait : option (option ty);
  ri_params : list string;
  ri_actor : nat;
  ri_reply : rty
}.

(** remote_message.rs 48-121: the registered functions; the parameters written again after the
    actor's type (52, 67). *)
Record remote_msg : Type := mk_rmsg { rm_id : string; rm_fns : msg_fns; rm_trailing : list string }.

(** remote_message.rs 36-164. *)
Definition remote_message (i : remote_impl) : result remote_msg derr :=
  match parse_message_attrs (ri_attr i) with
  | Err e => Err e
  | Ok s =>
      match ri_trait i with
      | None => Err NotTraitImpl                                       (* 131-136 *)
      | Some None => Err NoBrackets                                    (* 146-155 *)
      | Some (Some m) => Ok (mk_rmsg s (mk_fns (ri_actor i) m (ri_reply i)) (ri_params i))
      end
  end.

(** ** A program *)

(** The remote actors and the remote messages of a program. *)
Record program : Type := mk_program { pr_actors : list decl; pr_impls : list remote_impl }.

(** Rust: a [static] mentions no parameters of the type it stands beside (E0401). *)
Definition actor_id (p : program) (n : nat) : option string :=
  match nth_error (pr_actors p) n with
  | Some d =>
      match derive_remote_actor d with
      | Ok r => match ra_static_params r with [] => Some (ra_id r) | _ => None end
      | Err _ => None
      end
  | None => None
  end.

(** remote_message.rs 61-118: one element of [REMOTE_MESSAGES]. A type is not followed by
    parameters once more. *)
Definition message_entry (p : program) (i : remote_impl) : option (msg_key * msg_fns) :=
  match remote_message i with
  | Ok r =>
      match rm_trailing r, actor_id p (ri_actor i) with
      | [], Some a => Some ((a, rm_id r), rm_fns r)
      | _, _ => None
      end
  | Err _ => None
  end.

(** All or nothing (rustc). *)
Fixpoint all_some {A B : Type} (f : A -> option B) (l : list A) : option (list B) :=
  match l with
  | [] => Some []
  | x :: l' =>
      match f x, all_some f l' with
      | Some y, Some r => Some (y :: r)
      | _, _ => None
      end
  end.

(** derive_remote_actor.rs 36-88: [REMOTE_ACTORS], by the number of the type. *)
Definition actor_slice (p : program) : option (list (string * nat)) :=
  all_some (fun n => match actor_id p n with Some s => Some (s, n) | None => None end) (seq 0 (length (pr_actors p))).

(** remote_message.rs 56-120: [REMOTE_MESSAGES]. *)
Definition message_slice (p : program) : option (list (msg_key * msg_fns)) := all_some (message_entry p) (pr_impls p).

(** The program compiles, with these slices. *)
Definition compile (p : program) : option (list (string * nat) * list (msg_key * msg_fns)) :=
  match actor_slice p, message_slice p with
  | Some a, Some m => Some (a, m)
  | _, _ => None
  end.

(** src/remote.rs 85-93: [REMOTE_ACTORS_MAP]; [None]: forcing it panics. *)
Fixpoint duplicate_actor (seen : list string) (l : list (string * nat)) : option string :=
  match l with
  | [] => None
  | (k, _) :: l' => if existsb (String.eqb k) seen then Some k else duplicate_actor (k :: seen) l'
  end.
Definition actors_map (l : list (string * nat)) : option (list (string * nat)) :=
  match duplicate_actor [] l with
  | Some _ => None
  | None => Some (fold_left (fun m e => table_insert String.eqb (fst e) (snd e) m) l [])
  end.
