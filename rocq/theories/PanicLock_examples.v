(** Runs in which panic errors are read (C69). *)
From Coq Require Import Ascii String List Bool PeanoNat Lia.
From Verif Require Import Errors Dyn PanicLock PanicLock_spec PanicLock_proofs.
Import ListNotations.
Open Scope string_scope.

Definition nats : nat -> Type := fun _ => nat.

Fixpoint play (w : world nats) (h : list (event nats)) : option (list (event nats * out nats) * world nats) :=
  match h with
  | [] => Some ([], w)
  | x :: h =>
      match step nats x w with
      | None => None
      | Some (o, w) => match play w h with None => None | Some (l, w) => Some ((x, o) :: l, w) end
      end
  end.

Lemma play_used : forall xs h w h' w', used nats h w -> play w xs = Some (h', w') -> used nats (h ++ h') w'.
Proof.
  induction xs as [|x xs IH]; intros h w h' w' U P; cbn in P.
  - injection P as <- <-. now rewrite app_nil_r.
  - destruct (step nats x w) as [[o w1]|] eqn:T; [|discriminate].
    destruct (play w1 xs) as [[l w2]|] eqn:Q; [|discriminate]. injection P as <- <-.
    replace (h ++ (x, o) :: l)%list with ((h ++ [(x, o)]) ++ l)%list by now rewrite <- app_assoc.
    apply (IH _ w1); [|exact Q]. now apply (used_step nats _ w).
Qed.

Lemma plays : forall h, option_map fst (play (start nats) (map fst h)) = Some h -> possible nats h.
Proof.
  intros h P. destruct (play (start nats) (map fst h)) as [[h' w]|] eqn:Q; [|discriminate].
  cbn in P. injection P as ->. exists w. exact (play_used _ [] _ _ _ (used_start nats) Q).
Qed.

Definition words : panic_error nats := pe_new nats (t := TStr) "boom".
Definition five : panic_error nats := pe_new nats (t := TUser 0) 5.

(** Two errors and a clone of the first. Thread 0 reads the text of the first and inside of it the
    value of the second; thread 1 waits for the first through the clone. The inner closure
    panics, then the outer one; thread 1 goes on, and asks for a type the error does not have. *)
Definition shared : list (event nats * out nats) :=
  [(ENew words, OHandle 0); (ENew five, OHandle 1); (EClone 0, OHandle 2);
   (ECall 0 0 UStr, OCalled); (EGet 0, OGiven (GText "boom")); (ECall 1 2 UWith, OCalled);
   (ECall 0 1 (URef (TUser 0)), OCalled); (EGet 0, OGiven (@GVal nats (TUser 0) 5));
   (EPanic 0 true, OOver); (EPanic 0 true, OOver); (EGet 1, OGiven (GAll words)); (EReturn 1, OOver);
   (ECall 1 1 UStr, OCalled); (EGet 1, ONone)].
Lemma shared_possible : possible nats shared.
Proof. apply plays. reflexivity. Qed.

Lemma shared_ordered : ordered nats (fun e => e) shared.
Proof.
  intros a t hd u b E e I. unfold shared in E.
  do 14 (destruct a as [|? a]; cbn in E;
    [try discriminate E; injection E as <- <- <- _; cbn in *; intuition lia|
     injection E as <- E]).
  destruct a; discriminate.
Qed.

(** A thread reads an error inside of a closure for a clone of it. *)
Definition twice : list (event nats * out nats) :=
  [(ENew words, OHandle 0); (EClone 0, OHandle 1); (ECall 0 0 UWith, OCalled);
   (EGet 0, OGiven (GAll words)); (ECall 0 1 UStr, OCalled)].
Lemma twice_possible : possible nats twice.
Proof. apply plays. reflexivity. Qed.
Lemma twice_entangled : entangled nats (seen nats twice) (fun t => t = 0).
Proof. intros t ->. exists 0, UStr, 0. cbn. auto. Qed.

(** Two threads read two errors, one inside of the other, in different orders. *)
Definition crossed : list (event nats * out nats) :=
  [(ENew words, OHandle 0); (ENew five, OHandle 1);
   (ECall 0 0 UWith, OCalled); (EGet 0, OGiven (GAll words));
   (ECall 1 1 UWith, OCalled); (EGet 1, OGiven (GAll five));
   (ECall 0 1 UWith, OCalled); (ECall 1 0 UWith, OCalled)].
Lemma crossed_possible : possible nats crossed.
Proof. apply plays. reflexivity. Qed.
Lemma crossed_entangled : entangled nats (seen nats crossed) (fun t => t < 2).
Proof.
  intros t L. destruct t as [|[|t]]; [exists 1, UWith, 1|exists 0, UWith, 0|lia]; cbn; repeat split; auto; lia.
Qed.

Lemma progress_refuted : ~ forall user (h : list (event user * out user)) t e u,
  possible user h -> awaits (seen user h) t = Some (e, u) ->
  (exists t o, possible user (h ++ [(EGet t, o)])) \/
  (exists t, inside (seen user h) t <> [] /\ possible user (h ++ [(EReturn t, OOver)])).
Proof.
  intros X. destruct (X nats crossed 0 1 UWith crossed_possible eq_refl) as [(t & o & P)|(t & I & P)].
  - destruct t as [|[|t]].
    + assert (L : 0 < 2) by lia. destruct (read_never nats crossed _ crossed_entangled _ P 0 L) as (_ & N).
      apply (N o). now left.
    + assert (L : 1 < 2) by lia. destruct (read_never nats crossed _ crossed_entangled _ P 1 L) as (_ & N).
      apply (N o). now left.
    + apply read_exact in P. destruct P as (_ & e & u & x & W & _). cbn in W. discriminate.
  - apply read_exact in P. destruct P as (_ & W & _). destruct t as [|[|t]]; cbn in *; congruence.
Qed.
