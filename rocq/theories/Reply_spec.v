(** Specification vocabulary for replies. *)
From Coq Require Import List.
From Verif Require Import Errors Dyn Reply.

Section Spec.
Variable user : nat -> Type.

(** Two values of possibly different Rust types are the same value of the same
    type. *)
Definition same {t t' : ty} (v : den user t) (v' : den user t') : Prop :=
  existT (den user) t v = existT (den user) t' v'.

(** The asker receives the value (or the handler error) [res] the handler replied
    with, unchanged. *)
Definition delivers {t e : ty} {N : ty} {r : rty} (res : result (den user t) (den user e))
  (a : answer user N r) : Prop :=
  match res with
  | Ok v => exists v', a = AnsOk v' /\ same v v'
  | Err x => exists x', a = AnsErr (HandlerError x') /\ same x x'
  end.

(** The values that are errors, with the boxed error they carry: an [Err] result, and a
    forward that failed. *)
Inductive is_error : forall r : rty, rval user r -> any user -> Prop :=
| error_result : forall t e (x : den user e),
    is_error (RRes t e) (Err x : rval user (RRes t e)) (box user x)
| error_forward : forall m r (x : send_error (den user m) (den user (r_err r))),
    is_error (RFwd m r) (Err x : rval user (RFwd m r)) (box user (t := TSendErr m (r_err r)) x).
End Spec.
