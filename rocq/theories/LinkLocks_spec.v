(** Specification vocabulary for concurrent link operations. *)
From Coq Require Import List PeanoNat.
From Verif Require Import LinkLocks.
Import ListNotations.

(** No call can take a step. *)
Definition at_rest (s : lsys) : Prop :=
  forall c, lstep s (LRequest c) = None /\ lstep s (LRequestAll c) = None
    /\ lstep s (LWrite c) = None /\ forall l, lstep s (LRelease c l) = None.

(** Every call that was made has returned. *)
Definition all_returned (t : list lobs) : Prop :=
  forall c o, In (OCall c o) t -> In (OReturn c) t.

(** The two locks of a call are taken one after the other, by increasing rank. *)
Definition in_rank_order (rank : nat -> nat) (o : lop) : Prop :=
  match o with
  | OpLink a b | OpUnlink a b => a = b
  | OpBlockingLink a b | OpBlockingUnlink a b => a = b \/ rank a < rank b
  | _ => True
  end.

(** A step of call [c] after it was made. *)
Definition step_of (c : nat) (e : levent) : bool :=
  match e with
  | LStart _ _ => false
  | LRequest x | LRequestAll x | LWrite x | LRelease x _ => Nat.eqb x c
  end.

(** Whether [x] is in the link map of [l] once operations were done one at a time; the
    last one comes first in the list. *)
Fixpoint linked (os : list lop) (l x : nat) : Prop :=
  match os with
  | [] => False
  | OpLink a b :: os' | OpBlockingLink a b :: os' =>
      (a <> b /\ ((l = a /\ x = b) \/ (l = b /\ x = a))) \/ linked os' l x
  | OpUnlink a b :: os' | OpBlockingUnlink a b :: os' =>
      ~ (a <> b /\ ((l = a /\ x = b) \/ (l = b /\ x = a))) /\ linked os' l x
  | OpInsert a b :: os' => (l = a /\ x = b) \/ linked os' l x
  | OpRemove a b :: os' => ~ (l = a /\ x = b) /\ linked os' l x
  | OpDrain a :: os' => l <> a /\ linked os' l x
  end.

(** Call [c] writes. *)
Definition writes (t : list lobs) (c : nat) : Prop := exists l m, In (OWrite c l m) t.

(** A total order [os] of calls explains a trace: it holds the calls that wrote, each
    with its operation; a call that had returned before another was made comes before it;
    and each call found in each map it wrote what the operations before it, done one at a
    time, leave there. *)
Definition explains (os : list (nat * lop)) (t : list lobs) : Prop :=
  NoDup (map fst os)
  /\ (forall c o, In (c, o) os <-> In (OCall c o) t /\ writes t c)
  /\ (forall u v c o d o', t = u ++ v -> In (OReturn c) u -> In (OCall d o') v ->
        In (c, o) os -> In (d, o') os -> exists os1 os2, os = os1 ++ (c, o) :: os2 /\ In (d, o') os2)
  /\ (forall c l m, In (OWrite c l m) t ->
        exists os1 o os2, os = os1 ++ (c, o) :: os2
          /\ forall x, In x m <-> linked (rev (map snd os1)) l x).

(** Every call that wrote has returned. *)
Definition writers_returned (t : list lobs) : Prop :=
  forall c, writes t c -> In (OReturn c) t.

(** The operation is done under the lock of [l], among others. *)
Definition needs (o : lop) (l : nat) : Prop :=
  match o with
  | OpLink a b | OpUnlink a b | OpBlockingLink a b | OpBlockingUnlink a b => a <> b /\ (l = a \/ l = b)
  | OpInsert a _ | OpRemove a _ | OpDrain a => l = a
  end.

(** From [s] on, whatever happens, calls [c] and [d] never return, and neither does any
    later call under the lock of [a] or [b]. *)
Definition dead_for_ever (s : lsys) (c d a b : nat) : Prop :=
  forall es s' t, lrun s es = Some (s', t) ->
    ~ In (OReturn c) t /\ ~ In (OReturn d) t
    /\ forall x o, In (OCall x o) t -> needs o a \/ needs o b -> ~ In (OReturn x) t.
