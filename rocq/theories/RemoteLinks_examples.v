(** Concrete runs used beside the theorems of P_RemoteLinks. *)
From Coq Require Import List Bool Arith PeanoNat.
From Verif Require Import RemoteLinks RemoteLinks_spec.
Import ListNotations.

(** Two nodes that both know actors of type 7; [rl_a] lives on node 1, [rl_b] and
    [rl_c] on node 2. *)
Definition rl_known (n rid : nat) : bool := rid =? 7.
Definition rl_a : aid := mk_aid 1 0.
Definition rl_b : aid := mk_aid 2 0.
Definition rl_c : aid := mk_aid 2 1.

(** The outcome of a run that goes through. *)
Definition rl_get (o : option (world * list obs)) : world * list obs :=
  match o with
  | Some r => r
  | None => (fresh, [])
  end.
Lemma rl_some : forall o, (match o with Some _ => true | None => false end) = true ->
  o = Some (fst (rl_get o), snd (rl_get o)).
Proof. intros [[n t]|] H; [reflexivity|discriminate]. Qed.

(** The actors are spawned, the swarms run, [rl_b] and [rl_c] are registered. *)
Definition rl_setup : list event :=
  [Spawn rl_a 7; Spawn rl_b 7; Spawn rl_c 7; Boot 1; Boot 2; Register rl_b; Register rl_c].
Definition rl_r0 := rl_get (exec rl_known fresh rl_setup).

(** The rest of a call [i] of [link_remote] that succeeds; in between [rl_c] stops. *)
Definition rl_link (i : nat) : list event :=
  [Poll i false; Poll i false; Poll i false; Stop rl_c 4; Find i; Apply i; Answer i].
Definition rl_r1 := rl_get (exec rl_known (fst rl_r0) (Call OpLink rl_a rl_b 7 :: rl_link 0)).
Definition rl_linked : list event := rl_setup ++ Call OpLink rl_a rl_b 7 :: rl_link 0.
Definition rl_r2 := rl_get (exec rl_known fresh rl_linked).

(** The rest of a call [i] of [unlink_remote] that succeeds. *)
Definition rl_unlink (i : nat) : list event := [Poll i false; Poll i false; Find i; Apply i; Answer i].
Definition rl_r3 := rl_get (exec rl_known (fst rl_r2) (Call OpUnlink rl_b rl_a 7 :: rl_unlink 1)).

(** The linked [rl_b] stops for reason 5 and [rl_a] is told and forgets it. *)
Definition rl_stop : list event :=
  [Send 0 false; FindNote 0; Signal 0; Over 0; Leave rl_b; Exit rl_b; Handle rl_a].
Definition rl_r4 := rl_get (exec rl_known (fst rl_r2) (Stop rl_b 5 :: rl_stop)).
Definition rl_all : list event := rl_linked ++ Stop rl_b 5 :: rl_stop.
Definition rl_r5 := rl_get (exec rl_known fresh rl_all).

(** The call is told of a failure although the request was carried out. *)
Definition rl_failed : list event :=
  rl_setup ++ [Call OpLink rl_a rl_b 7; Poll 0 false; Poll 0 false; Poll 0 false; Find 0; Apply 0; Fail 0].
Definition rl_r6 := rl_get (exec rl_known fresh rl_failed).

(** [rl_b] took its links out before the request was carried out. *)
Definition rl_late : list event :=
  rl_setup ++ [Call OpLink rl_a rl_b 7; Poll 0 false; Poll 0 false; Poll 0 false;
               Stop rl_b 5; Find 0; Apply 0; Answer 0].
Definition rl_r7 := rl_get (exec rl_known fresh rl_late).

(** A reference of the wrong type, then a call whose caller is told so. *)
Definition rl_refused : list event := [Poll 0 false; Poll 0 false; Poll 0 false; Find 0; Answer 0].
Definition rl_setup_wrong : list event :=
  [Spawn rl_a 7; Spawn rl_b 8; Boot 1; Boot 2; Register rl_b].
Definition rl_w8 := fst (rl_get (exec rl_known fresh rl_setup_wrong)).
Definition rl_w9 := fst (rl_get (step rl_known rl_w8 (Call OpLink rl_a rl_b 7))).
Definition rl_r9 := rl_get (exec rl_known rl_w9 rl_refused).

(** The on_stop of the linked [rl_b] panics. *)
Definition rl_crash : list event := rl_linked ++ [Stop rl_b 5].
Definition rl_r10 := rl_get (exec rl_known fresh rl_crash).
Definition rl_r11 := rl_get (step rl_known (fst rl_r10) (Crash rl_b)).
(** The on_start of the linked [rl_b] fails. *)
Definition rl_r12 := rl_get (step rl_known (fst rl_r2) (Vanish rl_b)).

(** A third node links [rl_a] and [rl_b] by references to both, and unlinks them. *)
Definition rl_both (i : nat) : list event :=
  [Poll i false; Poll (S i) false; Find (S i); Find i; Apply (S i); Apply i;
   Answer i; Answer (S i)].
Definition rl_setup3 : list event := rl_setup ++ [Register rl_a; Boot 3].
Definition rl_r13 := rl_get (exec rl_known fresh rl_setup3).
Definition rl_pair (o : op) : list event := [Half o 3 rl_a 7 rl_b 7; Half o 3 rl_b 7 rl_a 7].
Definition rl_r14 := rl_get (exec rl_known (fst rl_r13) (rl_pair OpLink ++ rl_both 0)).
Definition rl_linked3 : list event := rl_setup3 ++ rl_pair OpLink ++ rl_both 0.
Definition rl_r15 := rl_get (exec rl_known fresh rl_linked3).
Definition rl_r16 := rl_get (exec rl_known (fst rl_r15) (rl_pair OpUnlink ++ rl_both 2)).

(** The same where [rl_a] was never registered: one of the two requests is refused. *)
Definition rl_oneside : list event :=
  rl_setup ++ Boot 3 :: rl_pair OpLink
  ++ [Poll 0 false; Poll 1 false; Find 1; Answer 1; Find 0; Apply 0].
Definition rl_r17 := rl_get (exec rl_known fresh rl_oneside).

(** All notifications of [rl_b] are done with. *)
Definition rl_r30 := rl_get (exec rl_known fresh (rl_linked ++ Stop rl_b 5 :: firstn 4 rl_stop)).

(** An unlink call on its way; the link death in the mailbox; the actor found has ended. *)
Definition rl_r31 := rl_get (exec rl_known fresh (rl_setup ++ [Call OpUnlink rl_a rl_b 7; Poll 0 false])).
Definition rl_r32 := rl_get (exec rl_known fresh (rl_linked ++ Stop rl_b 5 :: firstn 3 rl_stop)).
Definition rl_r33 := rl_get (exec rl_known fresh (rl_linked ++ [Stop rl_b 5; Send 0 false; FindNote 0; Vanish rl_a])).
