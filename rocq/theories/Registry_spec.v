(** Specification of the registry, by looking back through the history. *)
From Coq Require Import List Bool String.
Import ListNotations.
From Verif Require Import Registry.
Local Open Scope string_scope.

(** [last_registered name ops r]: the history [ops] registered [r] under [name] and
    since then neither registered something else under it, nor removed it, nor
    cleared the registry. *)
Definition leaves (name : string) (op : reg_op) : Prop :=
  match op with
  | OpRegister n _ | OpInsert n _ | OpRemove n => n <> name
  | OpClear => False
  | OpGet _ _ | OpLookup _ _ => True
  end.
Definition last_registered (name : string) (ops : list reg_op) (r : any_ref) : Prop :=
  exists before op after, ops = (before ++ op :: after)%list /\
    (op = OpRegister name r \/ op = OpInsert name r) /\ Forall (leaves name) after.

(** What an operation is to return after the history [ops]. *)
Definition right_answer (ops : list reg_op) (op : reg_op) (o : reg_out) : Prop :=
  match op with
  | OpRegister _ _ | OpClear => o = OutUnit
  | OpInsert n _ | OpRemove n =>
      (exists r, last_registered n ops r) /\ o = OutFlag true
      \/ (forall r, ~ last_registered n ops r) /\ o = OutFlag false
  | OpGet A n | OpLookup A n =>
      (exists a, last_registered n ops (mk_ref A a) /\ o = OutLookup (LFound a))
      \/ (exists B a, last_registered n ops (mk_ref B a) /\ B <> A /\ o = OutLookup LBadActorType)
      \/ (forall r, ~ last_registered n ops r) /\ o = OutLookup LAbsent
  end.
