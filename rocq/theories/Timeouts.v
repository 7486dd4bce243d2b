(** Model of the timeouts of requests: how a caller sets them, how they reach the code
    that sends the message, on this node or on another, and when they run out.

    src/request.rs, src/request/ask.rs, src/request/tell.rs, src/actor/actor_ref.rs
    1453-1463, src/remote.rs 150-197, src/remote/_internal.rs 82-224, and where
    src/remote/swarm.rs hands a request on (614-690, 868-915, 1538-1585). The sending
    itself is that of Requests, whose polls are told which timers have run out; here a
    clock tells it.

    Simplified: [Duration] and [Instant] are numbers, without an upper bound; a timer of
    tokio runs out at its deadline or at most [gran] later (it rounds up to its
    resolution); in a request that waits for its reply the first poll of the reply may
    come later than in the code, where it is part of the poll that sent the message. *)
From Coq Require Import List Bool NArith.
Import ListNotations.
From Verif Require Import Errors Dyn Reply Requests.

Set Implicit Arguments.

(** std [Duration]. *)
Definition duration : Type := N.

(** ** How a timeout is written down *)

(** request.rs 25-34: [MaybeRequestTimeout]. *)
Inductive maybe_timeout : Type :=
| NoTimeout
| TimeoutAfter (d : duration).

(** request.rs 17-34: the values of the types a request's timeout can have:
    [WithoutRequestTimeout], [WithRequestTimeout], [MaybeRequestTimeout]. *)
Inductive setting : Type :=
| Without
| With (d : option duration)
| Maybe (d : maybe_timeout).

(** request.rs 36-43: [From<Option<Duration>> for MaybeRequestTimeout]. *)
Definition maybe_of_option (o : option duration) : maybe_timeout :=
  match o with Some d => TimeoutAfter d | None => NoTimeout end.

(** request.rs 45-58: [From] the other two for [MaybeRequestTimeout]. *)
Definition maybe_of_setting (s : setting) : maybe_timeout :=
  match s with
  | Without => NoTimeout                                               (* 45-49 *)
  | With (Some d) => TimeoutAfter d                                    (* 51-58 *)
  | With None => NoTimeout
  | Maybe x => x                                                       (* std, reflexive *)
  end.

(** request.rs 60-79: [From] each of them for [Option<Duration>]. *)
Definition option_of_setting (s : setting) : option duration :=
  match s with
  | Without => None                                                    (* 60-64 *)
  | With o => o                                                        (* 66-70 *)
  | Maybe NoTimeout => None                                            (* 72-79 *)
  | Maybe (TimeoutAfter d) => Some d
  end.

(** ** Building a request *)

(** The requests: [ActorRef::ask] and [tell] (actor_ref.rs 438-495), [Recipient::tell]
    (947-957), [RemoteActorRef::ask] and [tell] (1050-1112). *)
Inductive target : Type := LocalAsk | LocalTell | RecipientTell | RemoteAsk | RemoteTell.

(** The timeouts of a request (ask.rs 33-34, 654-655, tell.rs 30, 166, 270). A tell has no
    reply timeout; its field stays [Without]. *)
Record conf : Type := mk_conf { cf_mailbox : setting; cf_reply : setting }.

(** [new] with [Tm], [Tr] = [WithoutRequestTimeout], whose default it is (ask.rs 44-62,
    666-685, tell.rs 38-56, 175-192, 282-296; actor_ref.rs 441, 484, 950, 1053, 1101). *)
Definition new_conf : conf := mk_conf Without Without.

(** ask.rs 73-85, tell.rs 64-75, 202-213, 313-324: [mailbox_timeout_opt]. *)
Definition mailbox_timeout_opt (c : conf) (d : option duration) : conf := mk_conf (With d) (cf_reply c).

(** ask.rs 92-104: [reply_timeout_opt]. *)
Definition reply_timeout_opt (c : conf) (d : option duration) : conf := mk_conf (cf_mailbox c) (With d).

(** The calls a caller can make on a request before sending it (ask.rs 66, 88, 688, 703,
    tell.rs 60, 195, 306). *)
Inductive setter : Type := SetMailbox (d : duration) | SetReply (d : duration).

(** One of them; [None]: there is no such method. *)
Definition set_timeout (t : target) (c : conf) (x : setter) : option conf :=
  match t, x with
  | LocalAsk, SetMailbox d => Some (mailbox_timeout_opt c (Some d))             (* ask.rs 66-71 *)
  | LocalAsk, SetReply d => Some (reply_timeout_opt c (Some d))                 (* ask.rs 88-90 *)
  | LocalTell, SetMailbox d => Some (mailbox_timeout_opt c (Some d))            (* tell.rs 60-62 *)
  | RecipientTell, SetMailbox d => Some (mailbox_timeout_opt c (Some d))        (* tell.rs 195-200 *)
  | RemoteTell, SetMailbox d => Some (mailbox_timeout_opt c (Some d))           (* tell.rs 306-311 *)
  | RemoteAsk, SetMailbox d => Some (mk_conf (With (Some d)) (cf_reply c))      (* ask.rs 688-700 *)
  | RemoteAsk, SetReply d => Some (mk_conf (cf_mailbox c) (With (Some d)))      (* ask.rs 703-715 *)
  | _, SetReply _ => None
  end.

(** A chain of such calls (ask.rs 66-104, 688-715, tell.rs 60-75, 195-213, 306-324). *)
Fixpoint set_all (t : target) (c : conf) (l : list setter) : option conf :=
  match l with
  | [] => Some c
  | x :: l' => match set_timeout t c x with Some c' => set_all t c' l' | None => None end
  end.

(** ** Sending it *)

(** The sending methods; awaiting the request is [Send] (ask.rs 587-589, 779-781, tell.rs
    152-154, 250-254, 362-364). *)
Inductive how : Type :=
| Send | TrySend | BlockingSend
| Enqueue | TryEnqueue | BlockingEnqueue
| Forward | TryForward | BlockingForward.

(** What is to be done: a method of Requests and the timeouts it uses (ask.rs 114-134,
    tell.rs 91-99). *)
Record plan : Type := mk_plan { p_method : method; p_mailbox : option duration; p_reply : option duration }.

(** A timeout is set (ask.rs 116-124). *)
Definition is_set (o : option duration) : bool := match o with Some _ => true | None => false end.

(** The type of the field is [WithoutRequestTimeout] (the impl blocks of ask.rs 243, 286,
    321, 446 and tell.rs 103, 227, 341 require it). *)
Definition unset (s : setting) : bool := match s with Without => true | _ => false end.

(** [self.mailbox_timeout.into()] and [self.reply_timeout.into()] (ask.rs 116, 127, tell.rs 95). *)
Definition waiting (k : bool -> bool -> method) (c : conf) : plan :=
  mk_plan (k (is_set (option_of_setting (cf_mailbox c))) (is_set (option_of_setting (cf_reply c))))
    (option_of_setting (cf_mailbox c)) (option_of_setting (cf_reply c)).

(** The methods of [AskRequest]; [None]: not available for these timeouts. *)
Definition ask_plan (h : how) (c : conf) : option plan :=
  let tr := option_of_setting (cf_reply c) in
  match h with
  | Send => Some (waiting MAsk c)                                               (* ask.rs 107-157 *)
  | Enqueue => Some (waiting MEnqueue c)                                        (* ask.rs 186-240 *)
  | Forward =>                                                                  (* ask.rs 243-283 *)
      if unset (cf_reply c) then Some (waiting (fun tm _ => MForward tm) c) else None
  | TrySend =>                                                                  (* ask.rs 321-367 *)
      if unset (cf_mailbox c) then Some (mk_plan (MAskTry (is_set tr)) None tr) else None
  | TryEnqueue =>                                                               (* ask.rs 397-443 *)
      if unset (cf_mailbox c) then Some (mk_plan (MEnqueueTry (is_set tr)) None tr) else None
  | TryForward =>                                                               (* ask.rs 286-319 *)
      if unset (cf_mailbox c) && unset (cf_reply c) then Some (mk_plan MForwardTry None None) else None
  | BlockingSend =>                                                             (* ask.rs 446-482 *)
      if unset (cf_mailbox c) && unset (cf_reply c) then Some (mk_plan MAskBlocking None None) else None
  | BlockingForward =>                                                          (* ask.rs 486-510 *)
      if unset (cf_mailbox c) && unset (cf_reply c) then Some (mk_plan MForwardBlocking None None) else None
  | BlockingEnqueue =>                                                          (* ask.rs 545-574 *)
      if unset (cf_mailbox c) && unset (cf_reply c) then Some (mk_plan MEnqueueBlocking None None) else None
  end.

(** The methods of [TellRequest]. *)
Definition tell_plan (h : how) (c : conf) : option plan :=
  match h with
  | Send => Some (waiting (fun tm _ => MTell tm) c)                             (* tell.rs 78-100 *)
  | TrySend => if unset (cf_mailbox c) then Some (mk_plan MTellTry None None) else None       (* 103-121 *)
  | BlockingSend => if unset (cf_mailbox c) then Some (mk_plan MTellBlocking None None) else None (* 124-140 *)
  | _ => None
  end.

(** The methods of [RecipientTellRequest], by way of [MessageHandler] of the actor
    reference (actor_ref.rs 1453-1478), which makes a [TellRequest]. *)
Definition recipient_plan (h : how) (c : conf) : option plan :=
  match h with
  | Send => tell_plan Send (mailbox_timeout_opt new_conf (option_of_setting (cf_mailbox c)))
                                                                                (* tell.rs 216-223, 250-254 *)
  | TrySend => if unset (cf_mailbox c) then tell_plan TrySend new_conf else None       (* tell.rs 227-234 *)
  | BlockingSend => if unset (cf_mailbox c) then tell_plan BlockingSend new_conf else None (* tell.rs 237-239 *)
  | _ => None
  end.

(** What travels to the other node beside the message (swarm.rs 1234-1275:
    [SwarmRequest::Ask], [SwarmRequest::Tell]; also [SwarmCommand], 1078-1118). *)
Record wire : Type := mk_wire { wi_ask : bool; wi_mailbox : option duration; wi_reply : option duration; wi_now : bool }.

(** The methods of [RemoteAskRequest] and [RemoteTellRequest] (ask.rs 718-762, 784-816, tell.rs
    335-349, 367-395), then the swarm (swarm.rs 614-690, 868-915, 1538-1585). *)
Definition remote_wire (ask : bool) (h : how) (c : conf) : option wire :=
  let tm := option_of_setting (cf_mailbox c) in
  let tr := option_of_setting (cf_reply c) in
  match h with
  | Send => Some (if ask then mk_wire true tm tr false else mk_wire false tm None false)
  | TrySend =>
      if unset (cf_mailbox c)
      then Some (if ask then mk_wire true None tr true else mk_wire false tm None true)
      else None
  | _ => None
  end.

(** remote.rs 150-172, 175-197 and _internal.rs 82-224: what the actor's node does. *)
Definition serve (x : wire) : option plan :=
  match wi_ask x, wi_now x with
  | true, false => ask_plan Send (reply_timeout_opt (mailbox_timeout_opt new_conf (wi_mailbox x)) (wi_reply x))
                                                                                (* _internal.rs 108-113 *)
  | true, true => ask_plan TrySend (reply_timeout_opt new_conf (wi_reply x))    (* _internal.rs 150-154 *)
  | false, false => tell_plan Send (mailbox_timeout_opt new_conf (wi_mailbox x)) (* _internal.rs 189-193 *)
  | false, true => tell_plan TrySend new_conf                                   (* _internal.rs 218 *)
  end.

(** From the caller's code to what is done at the mailbox, on whichever node it is (ask.rs
    66-157, 688-762, tell.rs 60-140, 195-239, 306-349). *)
Definition plan_of (t : target) (l : list setter) (h : how) : option plan :=
  match set_all t new_conf l with
  | None => None
  | Some c =>
      match t with
      | LocalAsk => ask_plan h c
      | LocalTell => tell_plan h c
      | RecipientTell => recipient_plan h c
      | RemoteAsk => match remote_wire true h c with Some x => serve x | None => None end
      | RemoteTell => match remote_wire false h c with Some x => serve x | None => None end
      end
  end.

(** ** Running it against a clock *)

Section Timed.
Variable user : nat -> Type.
Variable gran : N.
Variables (m : ty) (r : rty) (p : plan) (msg : den user m) (chn : nat) (within : bool).

(** The clock, the deadlines of the timers once made (tokio [timeout], [send_timeout]), and
    the request (Requests; ask.rs 107-157). *)
Record timed : Type := mk_timed {
  t_now : N;
  t_mailbox : option N;
  t_reply : option N;
  t_rq : rq_state user m r (p_method p)
}.

(** Events: time passes, the request is polled (its timer may be as late as [gran] unless
    [prompt]), and what others do, as in Requests. *)
Inductive tevent : Type :=
| Pass (d : N)
| PollAt (prompt : bool)
| Box (b : mailbox user)
| Answer (v : boxed_reply user)
| NoAnswer.

(** What happens and when. *)
Inductive tobs : Type :=
| Polled (at_ : N)
| Enqueued (at_ : N)
| Finished (at_ : N).

(** tokio [timeout]: the deadline is made when the timer is (at the first poll that comes to
    it: ask.rs 118, 128, 210, 217, tell.rs 96). *)
Definition deadline (made : option N) (d : option duration) (now : N) : option N :=
  match made with
  | Some x => Some x
  | None => match d with Some d => Some (now + d)%N | None => None end
  end.

(** tokio [Sleep]: it has run out. *)
Definition fired (x : option N) (prompt : bool) (now : N) : bool :=
  match x with
  | Some x => if prompt then (x <=? now)%N else (x + gran <=? now)%N
  | None => false
  end.

(** Whether the code goes on to wait for the reply in the poll that sent the message (ask.rs
    127-129, 345-347) or in a future returned to the caller, which makes its timer when it is
    polled (ask.rs 215-219, 416-420). *)
Definition at_once (k : method) : bool :=
  match k with MAsk _ _ | MAskTry _ => true | _ => false end.

(** The request has its result (ask.rs 107-157). *)
Definition over {k : method} (x : rq_pc user m r k) : bool :=
  match x with RqDone _ | RqFailed _ => true | _ => false end.

(** One poll (ask.rs 114-134). *)
Definition tpoll (s : timed) (prompt : bool) : option (timed * list tobs) :=
  let now := t_now s in
  match rq_pos (t_rq s) with
  | RqSend =>
      let dl := deadline (t_mailbox s) (p_mailbox p) now in
      match rq_step msg chn within (t_rq s) (RPoll (fired dl prompt now) false) with
      | None => None
      | Some (q, sent) =>
          let rl := match rq_pos q with
                    | RqWait => if at_once (p_method p) then deadline None (p_reply p) now else None
                    | _ => None
                    end in
          Some (mk_timed now dl rl q,
                Polled now :: (match sent with [] => [] | _ => [Enqueued now] end)
                ++ (if over (rq_pos q) then [Finished now] else []))
      end
  | _ =>
      let dl := deadline (t_reply s) (p_reply p) now in
      match rq_step msg chn within (t_rq s) (RPoll false (fired dl prompt now)) with
      | None => None
      | Some (q, _) =>
          Some (mk_timed now (t_mailbox s) dl q,
                Polled now :: (if over (rq_pos q) then [Finished now] else []))
      end
  end.

(** One event; [None]: it cannot happen (ask.rs 107-157, tell.rs 78-100). *)
Definition tstep (s : timed) (e : tevent) : option (timed * list tobs) :=
  match e with
  | Pass d => Some (mk_timed (t_now s + d) (t_mailbox s) (t_reply s) (t_rq s), [])
  | PollAt prompt => tpoll s prompt
  | Box b =>
      match rq_step msg chn within (t_rq s) (REnv b) with
      | Some (q, _) => Some (mk_timed (t_now s) (t_mailbox s) (t_reply s) q, [])
      | None => None
      end
  | Answer v =>
      match rq_step msg chn within (t_rq s) (RReply v) with
      | Some (q, _) => Some (mk_timed (t_now s) (t_mailbox s) (t_reply s) q, [])
      | None => None
      end
  | NoAnswer =>
      match rq_step msg chn within (t_rq s) RReplyDrop with
      | Some (q, _) => Some (mk_timed (t_now s) (t_mailbox s) (t_reply s) q, [])
      | None => None
      end
  end.

(** Runs (ask.rs 107-157, tell.rs 78-100). *)
Fixpoint texec (s : timed) (es : list tevent) : option (timed * list tobs) :=
  match es with
  | [] => Some (s, [])
  | e :: es' =>
      match tstep s e with
      | None => None
      | Some (s1, o1) =>
          match texec s1 es' with
          | None => None
          | Some (s2, o2) => Some (s2, o1 ++ o2)
          end
      end
  end.

(** A request that has not been polled (ask.rs 27-63, tell.rs 22-57). *)
Definition tstart (now : N) (b : mailbox user) : timed := mk_timed now None None (rq_start m r (p_method p) b).

End Timed.
Arguments Pass {user} d.
Arguments PollAt {user} prompt.
Arguments NoAnswer {user}.
