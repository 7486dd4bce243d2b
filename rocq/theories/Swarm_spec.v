(** Vocabulary of the properties of the swarm task (C48, C49), over what can be seen
    of a run: calls sent, answers, queries and requests given to the network. *)
From Coq Require Import List Bool Arith Init.Byte Strings.Byte.
From Verif Require Import ActorId Swarm.
Import ListNotations.

Section Spec.
Variable T : swarm_types.
Notation peer_t := (peer (st_peers T)).

(** Everything seen in a run, in order. *)
Definition seen (tr : list (event T * list (obs T))) : list (obs T) := flat_map snd tr.

(** The observation ends the wait of caller [c]. *)
Definition ends (c : nat) (o : obs T) : bool :=
  match o with
  | OReply c' _ => Nat.eqb c c'
  | ODrop c' => Nat.eqb c c'
  | _ => false
  end.

(** How often the wait of [c] ended. *)
Definition endings (c : nat) (os : list (obs T)) : nat := length (filter (ends c) os).

(** How many answers were given. *)
Definition replies (os : list (obs T)) : nat :=
  length (filter (fun o => match o with OReply _ _ => true | _ => false end) os).

(** The call [x] is a request: where it belongs and what it asks for. A link, unlink or
    death notice concerns the links or the mailbox of its *second* actor and belongs to
    that actor's node. *)
Inductive means (me : peer_t) : call T -> peer_t -> request T -> Prop :=
| means_ask : forall p to b, means me (CAsk p to b) p (QAsk to b)
| means_tell : forall p to b, means me (CTell p to b) p (QTell to b)
| means_link : forall a ra s rs p, kind_peer (st_peers T) (Some me) (kind s) = Some p ->
    means me (CLink a ra s rs) p (QLink s rs a ra)
| means_unlink : forall a s rs p, kind_peer (st_peers T) (Some me) (kind s) = Some p ->
    means me (CUnlink a s rs) p (QUnlink s rs a)
| means_signal : forall d n rn w p, kind_peer (st_peers T) (Some me) (kind n) = Some p ->
    means me (CSignal d n rn w) p (QSignal d n rn w).

(** The kind of answer a request calls for. *)
Definition kind_wanted (x : call T) : option kind_of :=
  match x with
  | CAsk _ _ _ => Some KAsk
  | CTell _ _ _ => Some KTell
  | CLink _ _ _ _ => Some KLink
  | CUnlink _ _ _ => Some KUnlink
  | CSignal _ _ _ _ => Some KSignal
  | _ => None
  end.

(** The network error a failed request is reported as. *)
Inductive failure_means : outbound_failure -> net_error -> Prop :=
| fm_dial : failure_means OfDial NeDial
| fm_timeout : failure_means OfTimeout NeTimeout
| fm_closed : failure_means OfClosed NeClosed
| fm_unsupported : failure_means OfUnsupported NeUnsupported
| fm_io : forall n, failure_means (OfIo n) (NeIo (Some n)).

(** [own_answer me store before e c x a]: the event [e], after what was seen in
    [before] and with the node's record [store], answers the call [x] of caller [c]
    with [a] and is about that caller's own query, request or command. *)
Inductive own_answer (me : peer_t) (store : list byte -> option (record T))
  (before : list (obs T)) (e : event T) (c : nat) : call T -> answer T -> Prop :=
| own_dial : forall n ok, e = ECommand n ok -> own_answer me store before e c CDial ADial
| own_found : forall k qid v, In (OGet c qid k) before -> e = ENet (NFound qid v) ->
    own_answer me store before e c (CLookup k) (AFound v)
| own_not_found : forall k qid err, In (OGet c qid k) before -> e = ENet (NGetError qid err) ->
    own_answer me store before e c (CLookup k) (AGetError err)
| own_local_none : forall k n ok, e = ECommand n ok -> store k = None ->
    own_answer me store before e c (CLookupLocal k) (ALocal None)
| own_local_some : forall k n ok r g, e = ECommand n ok -> store k = Some r ->
    reg_from_bytes (st_peers T) (rc_value r) = Some g ->
    own_answer me store before e c (CLookupLocal k) (ALocal (Some g))
| own_register_alone : forall k v, e = ECommand 0 true ->
    own_answer me store before e c (CRegister k v) (AStored PrOk)
| own_register : forall k v qid r, In (OPut c qid k v) before -> e = ENet (NPut qid r) ->
    own_answer me store before e c (CRegister k v) (AStored r)
| own_unregister_alone : forall k ok, e = ECommand 0 ok ->
    own_answer me store before e c (CUnregister k) (AStored PrOk)
| own_unregister : forall k qid r, In (OPut c qid k []) before -> e = ENet (NPut qid r) ->
    own_answer me store before e c (CUnregister k) (AStored r)
| own_response : forall x p q rid r, means me x p q -> In (OWire c rid p q) before ->
    e = ENet (NResponse rid r) -> own_answer me store before e c x (AResponse r)
| own_failure : forall x p q rid f err, means me x p q -> In (OWire c rid p q) before ->
    e = ENet (NFailure rid f) -> failure_means f err ->
    own_answer me store before e c x (AResponse (RFailure err))
| own_served : forall x p q t k r, means me x p q -> kind_wanted x = Some k ->
    In (OServe t c q) before -> e = ETask t (Some r) ->
    own_answer me store before e c x (AResponse (RResult k r)).

(** The call of [c] has left the channel: a query, a request or a task was started for
    it, or its wait has ended. *)
Definition started (c : nat) (os : list (obs T)) : Prop :=
  exists o, In o os /\
    match o with
    | OReply c' _ | ODrop c' | OGet c' _ _ | OPut c' _ _ _ | OWire c' _ _ _ | OServe _ c' _ => c' = c
    | _ => False
    end.

(** The observation starts a query, a request or a task for caller [c]. *)
Definition starts (c : nat) (o : obs T) : bool :=
  match o with
  | OGet c' _ _ | OPut c' _ _ _ | OWire c' _ _ _ | OServe _ c' _ => Nat.eqb c c'
  | _ => false
  end.

(** ** C49 *)

(** What the caller [c] gets from the observations: its answer, or [None] when its
    sender was dropped. *)
Fixpoint answer_in (c : nat) (os : list (obs T)) : option (answer T) :=
  match os with
  | [] => None
  | OReply c' a :: os' => if Nat.eqb c c' then Some a else answer_in c os'
  | _ :: os' => answer_in c os'
  end.

(** What [lookup_local] of a type with remote id [rid] and Rust type [ty] must give,
    from the record stored under the name and the node's table of actors. *)
Inductive local_verdict (me : peer_t) (rid : list byte) (ty : nat)
  (table : list (actor_id (st_peers T) * entry)) :
  option (record T) -> outcome (option nat + reg_error) -> Prop :=
| lv_absent : local_verdict me rid ty table None (Value (inl None))
| lv_garbage : forall r, reg_from_bytes (st_peers T) (rc_value r) = None ->
    local_verdict me rid ty table (Some r) CallerPanic
| lv_other_type : forall r g, reg_from_bytes (st_peers T) (rc_value r) = Some g ->
    reg_remote g <> rid -> local_verdict me rid ty table (Some r) (Value (inr ReBadActorType))
| lv_gone : forall r g, reg_from_bytes (st_peers T) (rc_value r) = Some g ->
    reg_remote g = rid ->
    (forall y e, In (y, e) table -> id_eqb (st_peers T) (Some me) y (reg_id g) = false) ->
    local_verdict me rid ty table (Some r) (Value (inl None))
| lv_clash : forall r g y e, reg_from_bytes (st_peers T) (rc_value r) = Some g ->
    reg_remote g = rid -> In (y, e) table ->
    id_eqb (st_peers T) (Some me) y (reg_id g) = true -> en_rust_type e <> ty ->
    local_verdict me rid ty table (Some r) (Value (inr ReBadActorType))
| lv_found : forall r g y e, reg_from_bytes (st_peers T) (rc_value r) = Some g ->
    reg_remote g = rid -> In (y, e) table ->
    id_eqb (st_peers T) (Some me) y (reg_id g) = true -> en_rust_type e = ty ->
    local_verdict me rid ty table (Some r) (Value (inl (Some (en_actor_no e)))).

(** What [lookup] of a type with remote id [rid] must give, from what the network
    found. *)
Inductive remote_verdict (rid : list byte) :
  list byte + get_error -> outcome (option (actor_id (st_peers T)) + reg_error) -> Prop :=
| rv_emptied : remote_verdict rid (inl []) (Value (inl None))
| rv_garbage : forall v, v <> [] -> reg_from_bytes (st_peers T) v = None ->
    remote_verdict rid (inl v) CallerPanic
| rv_other_type : forall v g, reg_from_bytes (st_peers T) v = Some g -> reg_remote g <> rid ->
    remote_verdict rid (inl v) (Value (inr ReBadActorType))
| rv_found : forall v g, reg_from_bytes (st_peers T) v = Some g -> reg_remote g = rid ->
    remote_verdict rid (inl v) (Value (inl (Some (reg_id g))))
| rv_not_found : remote_verdict rid (inr GeNotFound) (Value (inl None))
| rv_quorum : forall q, remote_verdict rid (inr (GeQuorum q)) (Value (inr (ReQuorum q)))
| rv_timeout : remote_verdict rid (inr GeTimeout) (Value (inr ReTimeout)).

(** The table has one entry per actor (a [HashMap]). *)
Definition one_per_actor (me : peer_t) (table : list (actor_id (st_peers T) * entry)) : Prop :=
  forall i j y1 e1 y2 e2, nth_error table i = Some (y1, e1) -> nth_error table j = Some (y2, e2) ->
    id_eqb (st_peers T) (Some me) y1 y2 = true -> i = j.

End Spec.
Arguments seen {T} tr.
Arguments ends {T} c o.
Arguments endings {T} c os.
Arguments replies {T} os.
Arguments means {T} me.
Arguments kind_wanted {T} x.
Arguments own_answer {T} me store before e c.
Arguments started {T} c os.
Arguments starts {T} c o.
Arguments answer_in {T} c os.
Arguments remote_verdict {T} rid.
Arguments local_verdict {T} me rid ty table.
Arguments one_per_actor {T} me table.
