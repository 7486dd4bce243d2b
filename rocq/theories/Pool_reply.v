(** The answer to a [Dispatch] that was asked (actors/src/pool.rs 243-298, 320-339). *)
From Coq Require Import List.
From Verif Require Import Errors Dyn Reply.
Import ListNotations.

(** The worker replies to the asker of the pool with its [Result<Ok, SendError<M, Error>>]
    (248-259), the asker reads it as [WorkerReply] (279-282), whose [downcast_ok] and
    [downcast_err] are the defaults (src/reply.rs 103-110), as for [DelegatedReply]. [N]: the
    type of the asker's message, [Dispatch<M>]. *)
Definition pool_answer (user : nat -> Type) (m N : ty) (r : rty)
    (w : result (den user (r_ok r)) (send_error (den user m) (den user (r_err r))))
  : answer user N (RDeleg r) :=
  match sender_send (user := user) (RRes (r_ok r) (TSendErr m (r_err r))) w with
  | Some b => receive N (RDeleg r) b
  | None => AnsPanic
  end.
