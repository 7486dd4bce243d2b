(** Model of the local registry: src/registry.rs and, without the feature "remote",
    [ActorRef::register]/[lookup] (src/actor/actor_ref.rs 97-109, 124-132). *)
From Coq Require Import List Bool String.
Import ListNotations.
Local Open Scope string_scope.

(** A registered [ActorRef<A>] (boxed as [dyn Any], registry.rs 19): the type [A]
    (its [TypeId]) and the actor. *)
Record any_ref : Type := mk_ref {
  ref_type : nat;
  ref_actor : nat
}.

(** registry.rs 22-25: [ActorRegistry]: a [HashMap] from names to boxed refs; an
    association list with the std contract (at most one entry per key; the iteration
    order is not observable here). *)
Definition registry : Type := list (string * any_ref).

(** registry.rs 29-40: [new], [with_capacity]. *)
Definition reg_new : registry := [].

(** std [HashMap::get]. *)
Fixpoint map_get (name : string) (m : registry) : option any_ref :=
  match m with
  | [] => None
  | (n, r) :: m' => if n =? name then Some r else map_get name m'
  end.

(** std [HashMap::remove]. *)
Definition map_remove (name : string) (m : registry) : registry :=
  filter (fun e => negb (fst e =? name)) m.

(** std [HashMap::insert]. *)
Definition map_insert (name : string) (r : any_ref) (m : registry) : registry :=
  (name, r) :: map_remove name m.

(** error.rs 376-405: the only error the local registry produces. *)
Inductive lookup_result : Type :=
| LFound (actor : nat)
| LAbsent
| LBadActorType.

(** registry.rs 71-86: [get::<A>]: [downcast_ref] succeeds iff the types agree. *)
Definition reg_get (A : nat) (name : string) (m : registry) : lookup_result :=
  match map_get name m with
  | None => LAbsent
  | Some r => if Nat.eqb (ref_type r) A then LFound (ref_actor r) else LBadActorType
  end.

(** registry.rs 89-95. *)
Definition reg_contains (name : string) (m : registry) : bool :=
  match map_get name m with Some _ => true | None => false end.

(** registry.rs 53-60. *)
Definition reg_len (m : registry) : nat := List.length m.
Definition reg_is_empty (m : registry) : bool := Nat.eqb (reg_len m) 0.

(** registry.rs 48-50: the names, in arbitrary order. *)
Definition reg_names (m : registry) : list string := map fst m.

(** registry.rs 98-106: returns whether an entry was replaced. *)
Definition reg_insert (name : string) (r : any_ref) (m : registry) : registry * bool :=
  (map_insert name r m, reg_contains name m).

(** registry.rs 109-115: returns whether an entry was there. *)
Definition reg_remove (name : string) (m : registry) : registry * bool :=
  (map_remove name m, reg_contains name m).

(** registry.rs 63-65. *)
Definition reg_clear (m : registry) : registry := [].

(** Operations, as called through the global [Mutex] (registry.rs 16-17), which makes
    every concurrent use a sequence. [OpRegister] is [ActorRef::register]
    (actor_ref.rs 97-109), which discards the flag. *)
Inductive reg_op : Type :=
| OpRegister (name : string) (r : any_ref)
| OpInsert (name : string) (r : any_ref)
| OpRemove (name : string)
| OpClear
| OpGet (A : nat) (name : string)
| OpLookup (A : nat) (name : string).        (* actor_ref.rs 124-132 *)

(** What the caller sees. *)
Inductive reg_out : Type :=
| OutUnit
| OutFlag (b : bool)
| OutLookup (l : lookup_result).

(** One operation. *)
Definition reg_step (m : registry) (op : reg_op) : registry * reg_out :=
  match op with
  | OpRegister n r => (fst (reg_insert n r m), OutUnit)
  | OpInsert n r => let '(m', b) := reg_insert n r m in (m', OutFlag b)
  | OpRemove n => let '(m', b) := reg_remove n m in (m', OutFlag b)
  | OpClear => (reg_clear m, OutUnit)
  | OpGet A n | OpLookup A n => (m, OutLookup (reg_get A n m))
  end.

(** A history of operations on a fresh registry: final registry and results. *)
Fixpoint reg_run (m : registry) (ops : list reg_op) : registry * list reg_out :=
  match ops with
  | [] => (m, [])
  | op :: ops' =>
      let '(m1, o) := reg_step m op in
      let '(m2, os) := reg_run m1 ops' in (m2, o :: os)
  end.
