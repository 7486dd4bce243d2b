(** Specification vocabulary for attached streams. *)
From Coq Require Import List PeanoNat.
From Verif Require Import Stream.
Import ListNotations.

Section Spec.
  Context {M T F : Type}.

  (** The first [n] items of a stream. *)
  Inductive first_items (src : nat -> option M) : nat -> list M -> Prop :=
  | first_none : first_items src 0 []
  | first_more : forall n l m, first_items src n l -> src n = Some m -> first_items src (S n) (l ++ [m]).

  (** [Started], items from the first on, and [Finished] only after the last one. *)
  Definition in_stream_order (src : nat -> option M) (sv : T) (fv : F)
      (ms : list (stream_message M T F)) : Prop :=
    ms = []
    \/ exists n l, first_items src n l
        /\ (ms = Started sv :: map Next l
            \/ (src n = None /\ ms = Started sv :: map Next l ++ [Finished fv])).

  (** The messages of the stream that went into the mailbox, and those that the actor
      took from it. *)
  Fixpoint accepted (t : list (obs M T F)) : list (stream_message M T F) :=
    match t with
    | [] => []
    | OAccepted m :: t' => m :: accepted t'
    | _ :: t' => accepted t'
    end.
  Fixpoint ours (q : list (item M T F)) : list (stream_message M T F) :=
    match q with
    | [] => []
    | Ours m :: q' => m :: ours q'
    | Theirs _ :: q' => ours q'
    end.
  Fixpoint taken (t : list (obs M T F)) : list (item M T F) :=
    match t with
    | [] => []
    | OTaken i :: t' => i :: taken t'
    | _ :: t' => taken t'
    end.

  (** A step of the task. *)
  Definition task_step (e : event) : bool :=
    match e with ESent | ERefused | ENext | EShutdown => true | _ => false end.
End Spec.
