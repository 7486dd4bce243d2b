(** Model of how the link maps are locked: src/actor/actor_ref.rs 514-526, 553-565,
    637-646, 675-684; src/actor/spawn.rs 518-521; src/actor/kind.rs 140;
    src/remote/_internal.rs 243-248, 271.

    Each actor has one link map behind one tokio [Mutex] (actor_ref.rs 1357); lock and
    map are named by the actor. Simplifications: a call is never cancelled half way (its
    future is not dropped before it is done); map entries are only the key. *)
From Coq Require Import List Bool PeanoNat.
Import ListNotations.

(** The operations on link maps. *)
Inductive lop : Type :=
| OpLink (a b : nat)             (* a.link(&b), 514-526: the locks are requested by [join!] *)
| OpUnlink (a b : nat)           (* 637-646, likewise *)
| OpBlockingLink (a b : nat)     (* 553-565: one lock after the other *)
| OpBlockingUnlink (a b : nat)   (* 675-684 *)
| OpInsert (a b : nat)           (* one lock: link_remote 604-607, _internal.rs 243-248 *)
| OpRemove (a b : nat)           (* kind.rs 140, unlink_remote 720, _internal.rs 271 *)
| OpDrain (a : nat).             (* spawn.rs 518-521 *)

(** The locks in the order in which the code requests them; nothing is done for an actor
    and itself (actor_ref.rs 515-517, 554-556, 638-640, 676-678). *)
Definition locks_of (o : lop) : list nat :=
  match o with
  | OpLink a b | OpUnlink a b | OpBlockingLink a b | OpBlockingUnlink a b =>
      if a =? b then [] else [a; b]
  | OpInsert a _ | OpRemove a _ | OpDrain a => [a]
  end.

(** [join!] polls the second lock future even if the first one is not ready
    (tokio [join!]); [blocking_lock] returns when it has the lock. *)
Definition eager (o : lop) : bool :=
  match o with OpLink _ _ | OpUnlink _ _ => true | _ => false end.

(** std [HashMap::insert] and [remove] on keys. *)
Definition key_add (b : nat) (m : list nat) : list nat :=
  if existsb (Nat.eqb b) m then m else b :: m.
Definition key_del (b : nat) (m : list nat) : list nat := filter (fun c => negb (c =? b)) m.

(** What an operation does to the map of [l] (actor_ref.rs 521-525, 560-564, 644-645,
    682-683; spawn.rs 521; kind.rs 140). *)
Definition effect (o : lop) (l : nat) (m : list nat) : list nat :=
  match o with
  | OpLink a b | OpBlockingLink a b =>
      if a =? b then m else if l =? a then key_add b m else if l =? b then key_add a m else m
  | OpUnlink a b | OpBlockingUnlink a b =>
      if a =? b then m else if l =? a then key_del b m else if l =? b then key_del a m else m
  | OpInsert a b => if l =? a then key_add b m else m
  | OpRemove a b => if l =? a then key_del b m else m
  | OpDrain a => if l =? a then [] else m
  end.

(** A call under way: locks not yet requested, locks requested and not yet released (in
    the order of the requests), maps not yet written. *)
Record lcall : Type := mk_call {
  what : lop;
  want : list nat;
  asked : list nat;
  towrite : list nat
}.

(** All calls, locks and maps. The queue of a lock has the owner at its head: tokio's
    [Mutex] hands over to the first waiter. *)
Record lsys : Type := mk_lsys {
  call : nat -> option lcall;
  waiters : nat -> list nat;
  map_of : nat -> list nat
}.

(** The call owns the lock. *)
Definition owns (s : lsys) (c l : nat) : bool :=
  match waiters s l with d :: _ => d =? c | [] => false end.

(** What can happen. *)
Inductive levent : Type :=
| LStart (c : nat) (o : lop)
| LRequest (c : nat)          (* the next lock is requested *)
| LRequestAll (c : nat)       (* all remaining locks, nothing else running in between *)
| LWrite (c : nat)            (* the next map is written *)
| LRelease (c l : nat).       (* a guard is dropped *)

(** What is observed. *)
Inductive lobs : Type :=
| OCall (c : nat) (o : lop)
| OWrite (c l : nat) (m : list nat)   (* it found [m] in the map of [l] *)
| OReturn (c : nat).

(** Function update, without counterpart in the code. *)
Definition put {A : Type} (f : nat -> A) (k : nat) (v : A) : nat -> A :=
  fun k' => if k' =? k then v else f k'.

(** Enter the queues of several locks (tokio [Mutex::lock]). *)
Fixpoint enqueue (w : nat -> list nat) (ls : list nat) (c : nat) : nat -> list nat :=
  match ls with
  | [] => w
  | l :: ls' => enqueue (put w l (w l ++ [c])) ls' c
  end.

(** The call has all the locks it has requested. *)
Definition all_owned (s : lsys) (c : nat) (k : lcall) : bool := forallb (owns s c) (asked k).

(** One step. [None]: not possible. *)
Definition lstep (s : lsys) (e : levent) : option (lsys * list lobs) :=
  match e with
  | LStart c o =>
      match call s c with
      | Some _ => None
      | None =>
          Some (mk_lsys (put (call s) c (Some (mk_call o (locks_of o) [] (locks_of o))))
                        (waiters s) (map_of s),
                OCall c o :: match locks_of o with [] => [OReturn c] | _ => [] end)
      end
  | LRequest c =>
      match call s c with
      | Some k =>
          match want k with
          | l :: w =>
              if eager (what k) || all_owned s c k
              then Some (mk_lsys (put (call s) c (Some (mk_call (what k) w (asked k ++ [l]) (towrite k))))
                                 (put (waiters s) l (waiters s l ++ [c])) (map_of s), [])
              else None
          | [] => None
          end
      | None => None
      end
  | LRequestAll c =>
      match call s c with
      | Some k =>
          match want k with
          | [] => None
          | ls =>
              if eager (what k) || (all_owned s c k && match ls with [_] => true | _ => false end)
              then Some (mk_lsys (put (call s) c (Some (mk_call (what k) [] (asked k ++ ls) (towrite k))))
                                 (enqueue (waiters s) ls c) (map_of s), [])
              else None
          end
      | None => None
      end
  | LWrite c =>
      match call s c with
      | Some k =>
          match want k, towrite k with
          | [], l :: w =>
              if all_owned s c k
              then Some (mk_lsys (put (call s) c (Some (mk_call (what k) [] (asked k) w)))
                                 (waiters s) (put (map_of s) l (effect (what k) l (map_of s l))),
                         [OWrite c l (map_of s l)])
              else None
          | _, _ => None
          end
      | None => None
      end
  | LRelease c l =>
      match call s c with
      | Some k =>
          match want k, towrite k with
          | [], [] =>
              if existsb (Nat.eqb l) (asked k)
              then let rest := filter (fun x => negb (x =? l)) (asked k) in
                   Some (mk_lsys (put (call s) c (Some (mk_call (what k) [] rest [])))
                                 (put (waiters s) l (filter (fun d => negb (d =? c)) (waiters s l)))
                                 (map_of s),
                         match rest with [] => [OReturn c] | _ => [] end)
              else None
          | _, _ => None
          end
      | None => None
      end
  end.

(** No calls, all maps empty. *)
Definition linit : lsys := mk_lsys (fun _ => None) (fun _ => []) (fun _ => []).

(** A run: events in the order in which they happen. *)
Fixpoint lrun (s : lsys) (es : list levent) : option (lsys * list lobs) :=
  match es with
  | [] => Some (s, [])
  | e :: es' =>
      match lstep s e with
      | None => None
      | Some (s1, o1) =>
          match lrun s1 es' with
          | None => None
          | Some (s2, o2) => Some (s2, o1 ++ o2)
          end
      end
  end.
