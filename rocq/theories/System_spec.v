(** Specification vocabulary for linked actors, in terms of what is observed. *)
From Coq Require Import List Relations.
From Verif Require Import System.
Import ListNotations.

(** What takes [b] out of the links of [a]: an unlink, the end of [a], and [a] having
    handled the death of [b]. *)
Inductive unlinks (a b : nat) : sobs -> Prop :=
| by_unlink : unlinks a b (OUnlink a b)
| by_unlink' : unlinks a b (OUnlink b a)
| by_drain : forall r l, unlinks a b (ODrained a r l)
| by_death : forall r v, unlinks a b (OHandled a (SLinkDied b r) v).

(** [a] and [b] were linked and nothing has ended that since, as far as [a] goes. *)
Definition linked_after (t : list sobs) (a b : nat) : Prop :=
  exists t1 o t2, t = t1 ++ o :: t2
    /\ (o = OLink a b \/ o = OLink b a)
    /\ forall o', In o' t2 -> ~ unlinks a b o'.

(** The last call that concerns the pair was a link. *)
Definition last_call_links (t : list sobs) (a b : nat) : Prop :=
  exists t1 o t2, t = t1 ++ o :: t2
    /\ (o = OLink a b \/ o = OLink b a)
    /\ ~ In (OUnlink a b) t2 /\ ~ In (OUnlink b a) t2.

(** The reports of the death of [a] that were put into the mailbox of [b]. *)
Fixpoint reports (a b : nat) (t : list sobs) : list reason :=
  match t with
  | [] => []
  | OPush c (SLinkDied d r) :: t' =>
      if Nat.eqb c b then if Nat.eqb d a then r :: reports a b t' else reports a b t'
      else reports a b t'
  | _ :: t' => reports a b t'
  end.

(** The signals put into the mailbox of [b], and those its loop took out. *)
Fixpoint pushed (b : nat) (t : list sobs) : list sig :=
  match t with
  | [] => []
  | OPush c g :: t' => if Nat.eqb c b then g :: pushed b t' else pushed b t'
  | _ :: t' => pushed b t'
  end.
Fixpoint taken (b : nat) (t : list sobs) : list sig :=
  match t with
  | [] => []
  | OHandled c g _ :: t' => if Nat.eqb c b then g :: taken b t' else taken b t'
  | OTaken c g :: t' => if Nat.eqb c b then g :: taken b t' else taken b t'
  | _ :: t' => taken b t'
  end.

(** The documented default reaction to the death of a link (src/actor.rs 205-206). *)
Inductive documented_policy (id : nat) : reason -> sverdict -> Prop :=
| normal_goes_on : documented_policy id RNormal VContinue
| peer_lost : documented_policy id RPeerDisconnected (VLeave RPeerDisconnected)
| abnormal_stops : forall r, r <> RNormal -> r <> RPeerDisconnected ->
    documented_policy id r (VLeave (RLinkDied id r)).

(** Nothing that goes on by itself can happen any more: no loop can handle anything, no
    ending actor can take a further step. (Starting, sending, linking and killing are
    up to the environment.) *)
Definition settled (s : sys) : Prop :=
  (forall a v, sstep s (EHandle a v) = None)
  /\ (forall a, sstep s (EDrain a) = None)
  /\ (forall a ok, sstep s (EOnStop a ok) = None)
  /\ (forall a b, sstep s (ENotify a b) = None)
  /\ (forall a, sstep s (EFinish a) = None)
  /\ (forall a r, sstep s (EFailDone a r) = None).

(** [a] and [b] were linked before either had drained its links, and never unlinked
    afterwards. *)
Definition linked_for_good (t : list sobs) (a b : nat) : Prop :=
  exists t1 o t2, t = t1 ++ o :: t2
    /\ (o = OLink a b \/ o = OLink b a)
    /\ (forall r l, ~ In (ODrained a r l) t1) /\ (forall r l, ~ In (ODrained b r l) t1)
    /\ ~ In (OUnlink a b) t2 /\ ~ In (OUnlink b a) t2.

(** Connected by such links. *)
Definition connected (t : list sobs) : nat -> nat -> Prop :=
  clos_refl_trans_1n nat (linked_for_good t).

(** One pair, named in either order. *)
Definition same_pair (a b x y : nat) : Prop := (x = a /\ y = b) \/ (x = b /\ y = a).

(** The steps [a] itself takes while it ends. *)
Definition own_exit_step (a : nat) (e : sevent) : bool :=
  match e with
  | EDrain x | EOnStop x _ | EFinish x => Nat.eqb x a
  | ENotify x _ => Nat.eqb x a
  | _ => false
  end.
