(** Property theorems about the message bus (C45): every strategy and every history. *)
From Coq Require Import List Bool PeanoNat.
From Verif Require Import Errors Delivery MessageBus Delivery_spec Delivery_proofs Delivery_line_proofs Broker_proofs Broker_examples.
Import ListNotations.

Section Bus.
  Context {msg : Type}.
  Variable st : strategy.
  Local Notation bus_run := (@bus_run msg st).
  Local Notation subscriptions := (@subscriptions nat nat registration msg Nat.eqb actor_id).
  Local Notation is_attempt := (@is_attempt nat nat registration msg Nat.eqb actor_id).

  (** A publication of a type is sent once for each registration for that type, and not
      for those of other types. *)
  Theorem C45_copies : forall cap caps es s tr T1 n ty m T2,
    bus_run cap caps es = Some (s, tr) -> tr = T1 ++ OPublished n ty m :: T2 ->
    n = count is_publication T1 /\ forall k id,
      count (is_attempt n k id) tr <= (if k =? ty then subscriptions T1 k id else 0) /\
      (In (OFinished n) tr -> count (is_attempt n k id) tr = if k =? ty then subscriptions T1 k id else 0).
  Proof. exact (bus_copies st). Qed.

  (** A send is made with a recipient of the type published, to the actor registered. *)
  Theorem C45_types : forall cap caps es s tr n k r, bus_run cap caps es = Some (s, tr) -> In (OAttempt n k r) tr ->
    boxed_type r = k /\ actor_id r = boxed_actor r /\ exists m, In (OPublished n k m) tr.
  Proof. exact (bus_types st). Qed.

  (** So the downcast of the recipient never fails. *)
  Theorem C45_no_panic : forall cap caps es s tr n, bus_run cap caps es = Some (s, tr) -> ~ In (OPanicked n) tr.
  Proof. exact (bus_no_panic st). Qed.

  (** The table holds the registrations of the history: unregistering and the removal of
      dead recipients affect only the given type and actor. *)
  Theorem C45_table : forall cap caps es s tr k id,
    bus_run cap caps es = Some (s, tr) ->
    match get Nat.eqb k (subs s) with
    | Some rs => rs <> [] /\ count (fun r => actor_id r =? id) rs = subscriptions tr k id
    | None => subscriptions tr k id = 0
    end.
  Proof. exact (bus_table st). Qed.

  (** Only registrations found dead during a publication are removed at its end. *)
  Theorem C45_only_dead : forall cap caps es s tr T1 k id T2,
    bus_run cap caps es = Some (s, tr) -> tr = T1 ++ OExpired k id :: T2 ->
    exists n t m H1 H2 o, T1 = H1 ++ OPublished n t m :: H2 /\ Forall within H2 /\ In o H2 /\
      found_dead actor_id n k id o.
  Proof. exact (@expired_found _ _ _ _ _ Nat.eqb_spec _ _ _ _ _ _ st). Qed.

  (** Until it stops and while its mailbox has room a request is accepted: a registration of a
      recipient under the type of messages it is for, an unregistration for one type, any
      publication; there is no unregistration for all types. *)
  Theorem C45_accepts : forall cap caps es s tr b, bus_run cap caps es = Some (s, tr) ->
    (exists s', bus_run cap caps (es ++ [ESend b]) = Some (s', tr)) <->
    match b with
    | Subscribe ty r => boxed_type r = ty /\ actor_id r = boxed_actor r
    | Unsubscribe ty _ => ty <> None
    | Publish _ _ => True
    end /\ ph s <> Stopped
    /\ match cap with Some c => length (sent es) + length (reported tr) < c + length (handled tr) | None => True end.
  Proof. exact (bus_accepts st). Qed.

  Theorem C45_one_type : forall cap caps es s tr id, bus_run cap caps es = Some (s, tr) ->
    ~ In (OUnsubscribed None id) tr.
  Proof. exact (@bus_one_type msg st). Qed.
End Bus.
Print Assumptions C45_accepts.
Print Assumptions C45_one_type.
Print Assumptions C45_copies.
Print Assumptions C45_types.
Print Assumptions C45_no_panic.
Print Assumptions C45_table.
Print Assumptions C45_only_dead.

(** Actor 1 gets one send of type 3; actor 2, which has ended, is removed for type 3 and
    stays registered for type 4. *)
Example C45_case : exists s, bus Guaranteed ex_bus = Some (s, tr_bus)
  /\ count (is_attempt Nat.eqb actor_id 0 3 1) tr_bus = 1 /\ count (is_attempt Nat.eqb actor_id 0 3 2) tr_bus = 1
  /\ count (is_attempt Nat.eqb actor_id 0 4 1) tr_bus = 0 /\ In (OFinished 0) tr_bus
  /\ In (OAttempt 0 3 (registration_new 3 1)) tr_bus /\ In (OExpired 3 2) tr_bus
  /\ get Nat.eqb 3 (subs s) = Some [registration_new 3 1]
  /\ get Nat.eqb 4 (subs s) = Some [registration_new 4 1; registration_new 4 2].
Proof. at_end. repeat (split; [solve [reflexivity | tauto]|]). reflexivity. Qed.

(** An unregistration from everything is not accepted where one from type 4 is. *)
Example C45_accepts_case :
  (exists s, bus Guaranteed (ex_bus ++ [ESend (Unsubscribe (Some 4) 1)]) = Some (s, tr_bus)
     /\ bopen (inbox s) = true /\ has_room (inbox s))
  /\ bus Guaranteed (ex_bus ++ [ESend (Unsubscribe None 1)]) = None
  /\ bus Guaranteed (ex_bus ++ [ESend (Subscribe 3 (registration_new 4 1))]) = None.
Proof. split; [at_end; auto 10|split; vm_compute; reflexivity]. Qed.
