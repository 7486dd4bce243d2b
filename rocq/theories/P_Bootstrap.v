(** Property theorems about bootstrapping the swarm of a process (C64): any number of
    calls of the bootstrap functions, from any number of threads, interleaved piece by
    piece with [ActorSwarm::get] and with commands. *)
From Coq Require Import List Bool.
From Verif Require Import Bootstrap Bootstrap_spec Bootstrap_proofs Bootstrap_examples.
Import ListNotations.

(** ** C64 *)

(** Whatever anyone is ever shown of a swarm is one and the same swarm. *)
Theorem C64_one_swarm : forall es p h o o' s s', exec boot es = Some (p, h) ->
  In o h -> shows o s -> In o' h -> shows o' s' -> s = s'.
Proof. exact one_swarm. Qed.
Print Assumptions C64_one_swarm.

(** Once someone has been shown a swarm, nobody is told that there is none. *)
Theorem C64_stays : forall es p h1 o s h2 o', exec boot es = Some (p, h1 ++ o :: h2) ->
  shows o s -> In o' h2 -> ~ shows_none o'.
Proof. exact shown_stays. Qed.
Print Assumptions C64_stays.

(** How each function ends. A call that got the process its swarm returns its own swarm,
    with the peer id it was given; one that says that there is a swarm shows another
    call's. *)
Theorem C64_ended : forall es p h i r, exec boot es = Some (p, h) -> In (OEnd i r) h ->
  exists m peer, nth_error (entered es) i = Some (m, peer) /\ may_end m r /\
    (forall s, wins r s -> s = mk_swarm i peer) /\ (forall s own, r = Already s own -> sw_maker s <> i).
Proof. exact ended. Qed.
Print Assumptions C64_ended.

(** A call ends at most once. *)
Theorem C64_ends_once : forall es p h i, exec boot es = Some (p, h) -> ends h i <= 1.
Proof. exact ends_once. Qed.
Print Assumptions C64_ends_once.

(** At most one call gets the process its swarm. *)
Theorem C64_one_wins : forall es p h i r s i' r' s', exec boot es = Some (p, h) ->
  In (OEnd i r) h -> wins r s -> In (OEnd i' r') h -> wins r' s' -> i = i' /\ r = r' /\ s = s'.
Proof. exact one_wins. Qed.
Print Assumptions C64_one_wins.

(** A call that goes on alone, inside a runtime and without a failure in libp2p, ends; if
    [get] would have returned none, it gets the process its swarm. *)
Theorem C64_first_wins : forall es p h i m peer, exec boot es = Some (p, h) -> nth_error (entered es) i = Some (m, peer) ->
  ends h i = 0 ->
  exists n p' h' r, exec p (repeat (Go i true) n) = Some (p', h') /\ In (OEnd i r) h' /\
    (step p Get = Some (p, [OGet None]) -> wins r (mk_swarm i peer)).
Proof. exact first_wins. Qed.
Print Assumptions C64_first_wins.

(** A call made when there is a swarm ends so with that swarm and leaves everything else
    as it was: [bootstrap_with_swarm] gives its libp2p swarm back, the two functions
    before it do not, [bootstrap_manual] returns none. *)
Theorem C64_already : forall es p h s m peer, exec boot es = Some (p, h) -> step p Get = Some (p, [OGet (Some s)]) ->
  exists n p' h' r, exec p (Enter m peer :: repeat (Go (length (entered es)) true) n) = Some (p', h') /\
    h' = [OEnd (length (entered es)) r] /\
    match m with Manual => r = Refused | Given => r = Already s true | _ => r = Already s false end.
Proof. exact already_there. Qed.
Print Assumptions C64_already.

(** Commands are taken by the handler in the order in which they were accepted, each once;
    those it has not taken when it is dropped are lost with it, and none waits then. *)
Theorem C64_commands : forall es p h, exec boot es = Some (p, h) ->
  exists waiting, accepted h = taken h ++ lost h ++ waiting /\
    ((exists o, In o h /\ shows_gone o) -> waiting = []).
Proof. exact commands. Qed.
Print Assumptions C64_commands.

(** Once the handler is known to be gone, no command is accepted or taken any more, no
    call gets the process a new swarm, and [get] still returns the old one. *)
Theorem C64_gone : forall es p h1 o h2 o', exec boot es = Some (p, h1 ++ o :: h2) ->
  shows_gone o -> In o' h2 -> ~ shows_alive o' /\ ~ shows_none o'.
Proof. exact gone_stays. Qed.
Print Assumptions C64_gone.

(** It does not hold that commands can be sent through the swarm that [get] returns: the
    static is filled before [tokio::spawn], which panics outside a runtime. *)
Theorem C64_usable_refuted : ~ (forall es p h s c, exec boot es = Some (p, h) -> step p Get = Some (p, [OGet (Some s)]) ->
  exists p', step p (Send c) = Some (p', [OAccepted c])).
Proof. exact usable_refuted. Qed.
Print Assumptions C64_usable_refuted.

(** Nor if a call has returned it with success: its task ends with its runtime. *)
Theorem C64_started_usable_refuted : ~ (forall es p h i s c, exec boot es = Some (p, h) -> In (OEnd i (Started s)) h ->
  exists p', step p (Send c) = Some (p', [OAccepted c])).
Proof. exact started_usable_refuted. Qed.
Print Assumptions C64_started_usable_refuted.

(** It does not hold that a call made when there is a swarm says so: the behaviour is made
    first, and may fail. *)
Theorem C64_already_refuted : ~ (forall es p h s m peer es' p' h' r, exec boot es = Some (p, h) ->
  step p Get = Some (p, [OGet (Some s)]) -> m <> Manual ->
  exec p (Enter m peer :: es') = Some (p', h') -> In (OEnd (length (entered es)) r) h' ->
  exists own, r = Already s own).
Proof. exact already_refuted. Qed.
Print Assumptions C64_already_refuted.

(** Three calls race: all hypotheses of the theorems on one run. *)
Example C64_case : exists p, exec boot race = Some (p, race_h1 ++ OLost 3 :: race_h2) /\
  shows (OGet (Some s8)) s8 /\ shows (OEnd 0 (Already s8 true)) s8 /\ wins (Started s8) s8 /\
  In (OEnd 1 (Started s8)) race_h1 /\ In (OEnd 0 (Already s8 true)) race_h1 /\ shows_gone (OLost 3) /\
  entered race = [(Identity, 7); (Given, 8); (Manual, 9)] /\
  accepted (race_h1 ++ OLost 3 :: race_h2) = [2; 3] /\ taken (race_h1 ++ OLost 3 :: race_h2) = [2] /\
  lost (race_h1 ++ OLost 3 :: race_h2) = [3] /\
  step p Get = Some (p, [OGet (Some s8)]) /\ step p (Send 5) = Some (p, [OSendPanic 5]).
Proof. eexists. split; [vm_compute; reflexivity|]. split; [constructor|]. split; [constructor|].
  split; [left; reflexivity|]. split; [cbn; auto 10|]. split; [cbn; auto 10|]. split; [constructor|].
  repeat split; reflexivity. Qed.

(** Two calls on their way, no swarm yet: the hypotheses of the theorem on the first. *)
Example C64_first_case : exists p, exec boot racing = Some (p, []) /\ step p Get = Some (p, [OGet None]) /\
  nth_error (entered racing) 0 = Some (Identity, 7) /\ ends [] 0 = 0 /\
  exists p', exec p [Go 0 true; Go 0 true; Go 0 true] = Some (p', [OEnd 0 (Started (mk_swarm 0 7))]).
Proof. eexists. split; [vm_compute; reflexivity|]. repeat split. eexists. vm_compute. reflexivity. Qed.
