(** Property theorems C23, C24, C25. *)
From Coq Require Import List String.
From Verif Require Import Errors Errors_spec Dyn Errors_proofs.
Import ListNotations.

(** ** C23: SendError algebra *)

Theorem C23_map_functor :
  (forall M E (x : send_error M E), se_map_msg (fun m => m) x = x) /\
  (forall M E (x : send_error M E), se_map_err (fun e => e) x = x) /\
  (forall M N O E (f : M -> N) (g : N -> O) (x : send_error M E),
     se_map_msg g (se_map_msg f x) = se_map_msg (fun m => g (f m)) x) /\
  (forall M E F G (f : E -> F) (g : F -> G) (x : send_error M E),
     se_map_err g (se_map_err f x) = se_map_err (fun e => g (f e)) x) /\
  (forall M N E F (f : M -> N) (g : E -> F) (x : send_error M E),
     se_map_err g (se_map_msg f x) = se_map_msg f (se_map_err g x)).
Proof.
  exact (conj se_map_msg_id (conj se_map_err_id (conj se_map_msg_comp
        (conj se_map_err_comp se_map_comm)))).
Qed.
Print Assumptions C23_map_functor.

(** Mapping keeps the class and acts on the payload, on nothing else. *)
Theorem C23_map_payload :
  (forall M N E (f : M -> N) (x : send_error M E) k,
     has_class x k <-> has_class (se_map_msg f x) k) /\
  (forall M N E (f : M -> N) (x : send_error M E) m,
     carries_msg x m -> carries_msg (se_map_msg f x) (f m)) /\
  (forall M E F (f : E -> F) (x : send_error M E) k,
     has_class x k <-> has_class (se_map_err f x) k) /\
  (forall M E F (f : E -> F) (x : send_error M E) e,
     carries_err x e -> carries_err (se_map_err f x) (f e)) /\
  (forall M E F (f : E -> F) (x : send_error M E) m,
     carries_msg x m <-> carries_msg (se_map_err f x) m).
Proof.
  exact (conj se_map_msg_class (conj se_map_msg_carries (conj se_map_err_class
        (conj se_map_err_carries se_map_err_msg)))).
Qed.
Print Assumptions C23_map_payload.

Example C23_map_example :
  carries_msg (E := nat) (se_map_msg (Nat.add 1) (Timeout (Some 4))) 5 /\
  has_class (M := nat) (se_map_err (Nat.add 1) (HandlerError 4)) KHandler.
Proof. split; constructor. Qed.

(** The panicking accessors return exactly the payload and panic exactly when
    there is none; the infallible reset panics exactly on handler errors. *)
Theorem C23_accessors :
  (forall M E (x : send_error M E) m, se_unwrap_msg x = Some m <-> carries_msg x m) /\
  (forall M E (x : send_error M E) e, se_unwrap_err x = Some e <-> carries_err x e) /\
  (forall M E F (x : send_error M E),
     se_reset_err_infallible (F := F) x = None <-> has_class x KHandler) /\
  (forall M E F (x : send_error M E) (y : send_error M F),
     se_reset_err_infallible x = Some y ->
     (forall k, has_class x k <-> has_class y k) /\
     (forall m, carries_msg x m <-> carries_msg y m)).
Proof.
  exact (conj se_unwrap_msg_iff (conj se_unwrap_err_iff (conj se_reset_iff se_reset_same))).
Qed.
Print Assumptions C23_accessors.

Example C23_accessors_example :
  se_unwrap_msg (E := nat) (Timeout (M := nat) None) = None /\
  se_reset_err_infallible (F := bool) (Timeout (M := nat) (E := nat) (Some 3))
    = Some (Timeout (Some 3)).
Proof. split; reflexivity. Qed.

(** [flatten] is the join of a monad: unit laws, associativity, naturality. *)
Theorem C23_flatten_laws :
  (forall M E (x : send_error M E), se_flatten (HandlerError x) = x) /\
  (forall M E (x : send_error M E), se_flatten (se_map_err HandlerError x) = x) /\
  (forall M E (x : send_error M (send_error M (send_error M E))),
     se_flatten (se_flatten x) = se_flatten (se_map_err se_flatten x)) /\
  (forall M E F (f : E -> F) (x : send_error M (send_error M E)),
     se_flatten (se_map_err (se_map_err f) x) = se_map_err f (se_flatten x)) /\
  (forall M N E (f : M -> N) (x : send_error M (send_error M E)),
     se_flatten (se_map_msg f (se_map_err (se_map_msg f) x)) = se_map_msg f (se_flatten x)).
Proof.
  exact (conj se_flatten_unit_l (conj se_flatten_unit_r (conj se_flatten_assoc
        (conj se_flatten_map_err se_flatten_map_msg)))).
Qed.
Print Assumptions C23_flatten_laws.

Example C23_flatten_example :
  se_flatten (HandlerError (MailboxFull 7) : send_error nat (send_error nat bool)) = MailboxFull 7 /\
  se_flatten (Timeout (Some 7) : send_error nat (send_error nat bool)) = Timeout (Some 7).
Proof. split; reflexivity. Qed.

(** Downcasting a boxed error succeeds exactly on boxes of those very types and
    then returns the boxed error; otherwise the box comes back unchanged. *)
Theorem C23_downcast_exact :
  forall (user : nat -> Type) (m e : ty) (b : box_send_error user),
    (forall x, se_try_downcast m e b = Ok x <-> @se_boxed user m e x = b) /\
    (forall b', se_try_downcast m e b = Err b' <->
       b' = b /\ forall x : send_error (den user m) (den user e), @se_boxed user m e x <> b) /\
    (se_downcast m e b = None <->
       forall x : send_error (den user m) (den user e), @se_boxed user m e x <> b).
Proof.
  exact (fun user m e b =>
    conj (se_try_downcast_ok m e b) (conj (se_try_downcast_err m e b) (se_downcast_none m e b))).
Qed.
Print Assumptions C23_downcast_exact.

Theorem C23_downcast_boxed :
  forall (user : nat -> Type) (m e : ty) (x : send_error (den user m) (den user e)),
    se_try_downcast m e (@se_boxed user m e x) = Ok x.
Proof. exact (fun user m e x => se_downcast_boxed m e x). Qed.
Print Assumptions C23_downcast_boxed.

Example C23_downcast_example :
  let user := fun _ : nat => nat in
  let b := @se_boxed user (TUser 1) (TUser 2) (HandlerError 9) in
  se_try_downcast (TUser 5) (TUser 2) b = Ok (HandlerError 9) /\
  se_try_downcast (TUser 1) (TUser 3) b = Err b /\
  se_downcast (TUser 1) (TUser 3) b = None.
Proof. repeat split; reflexivity. Qed.

(** ** C24: RemoteSendError algebra and conversion *)

Theorem C24_remote_laws :
  (forall E (x : remote_send_error E), re_map_err (fun e => e) x = x) /\
  (forall E F G (f : E -> F) (g : F -> G) (x : remote_send_error E),
     re_map_err g (re_map_err f x) = re_map_err (fun e => g (f e)) x) /\
  (forall E (x : remote_send_error E), re_flatten (RHandlerError x) = x) /\
  (forall E (x : remote_send_error E), re_flatten (re_map_err RHandlerError x) = x) /\
  (forall E (x : remote_send_error (remote_send_error (remote_send_error E))),
     re_flatten (re_flatten x) = re_flatten (re_map_err re_flatten x)) /\
  (forall E F (f : E -> F) (x : remote_send_error (remote_send_error E)),
     re_flatten (re_map_err (re_map_err f) x) = re_map_err f (re_flatten x)).
Proof.
  exact (conj re_map_err_id (conj re_map_err_comp (conj re_flatten_unit_l
        (conj re_flatten_unit_r (conj re_flatten_assoc re_flatten_map_err))))).
Qed.
Print Assumptions C24_remote_laws.

Theorem C24_conversion :
  (forall M E (x : send_error M E) k, has_class x k -> remote_class k (re_of_send_error x)) /\
  (forall M E (x : send_error M E) e, carries_err x e <-> re_of_send_error x = RHandlerError e) /\
  (forall M E F (f : E -> F) (x : send_error M E),
     re_of_send_error (se_map_err f x) = re_map_err f (re_of_send_error x)) /\
  (forall M N E (f : M -> N) (x : send_error M E),
     re_of_send_error (se_map_msg f x) = re_of_send_error x) /\
  (forall M E (x : send_error M (send_error M E)),
     re_of_send_error (se_flatten x) =
     re_flatten (re_map_err re_of_send_error (re_of_send_error x))).
Proof.
  exact (conj re_of_class (conj re_of_err (conj re_of_map_err (conj re_of_map_msg re_of_flatten)))).
Qed.
Print Assumptions C24_conversion.

(** Finding: a mailbox timeout (which hands the message back locally) is reported
    to a remote caller as a reply timeout, so the two cannot be told apart. *)
Theorem C24_timeout_kind_kept_refuted :
  exists x y : send_error nat nat,
    carries_msg x 1 /\ (forall m, ~ carries_msg y m) /\ re_of_send_error x = re_of_send_error y.
Proof.
  exists (Timeout (Some 1)), (Timeout None). split; [constructor|].
  split; [|reflexivity]. intros m H. inversion H.
Qed.
Print Assumptions C24_timeout_kind_kept_refuted.

Example C24_example :
  re_flatten (RHandlerError (RUnknownMessage "a" "m") : remote_send_error (remote_send_error nat))
    = RUnknownMessage "a" "m" /\
  re_of_send_error (HandlerError 3 : send_error nat nat) = RHandlerError 3.
Proof. split; reflexivity. Qed.

(** ** C25: panic payloads *)

(** String payloads of a panic stay readable as that string; an error value
    keeps its type and value. *)
Theorem C25_payload_kept :
  forall (user : nat -> Type),
    (forall s, pe_str (pe_new_from_panic_any (box user (t := TStr) s)) = Some s) /\
    (forall s, pe_str (pe_new_from_panic_any (box user (t := TString) s)) = Some s) /\
    (forall t (v : den user t), pe_downcast t (pe_new user v) = Some v).
Proof.
  exact (fun user => conj (@pe_from_str user) (conj (@pe_from_string user) (@pe_new_downcast user))).
Qed.
Print Assumptions C25_payload_kept.

(** Finding: a panic payload of any other type is boxed twice, so it is not
    visible at its own type. *)
Theorem C25_other_payload_hidden :
  forall (user : nat -> Type) t (v : den user t),
    t <> TStr -> t <> TString ->
    pe_new_from_panic_any (box user v) = PEBoxed (box user v) /\
    pe_str (pe_new_from_panic_any (box user v)) = None /\
    forall t', pe_downcast t' (pe_new_from_panic_any (box user v)) = None.
Proof. exact (fun user t v H1 H2 => pe_from_other t v H1 H2). Qed.
Print Assumptions C25_other_payload_hidden.

(** Finding: every network hop prepends "panicked: " and forgets the type. *)
Theorem C25_hops :
  forall (user : nat -> Type) (e : panic_error user) n,
    (forall s, pe_str e = Some s ->
       pe_str (Nat.iter n (@pe_hop user) e) = Some (repeat_prefix "panicked: " n s)) /\
    (pe_str e = None ->
       pe_str (Nat.iter (S n) (@pe_hop user) e) = Some (repeat_prefix "panicked: " n "panicked")) /\
    (forall t, t <> TString -> pe_downcast t (pe_hop e) = None).
Proof.
  exact (fun user e n =>
    conj (fun s => pe_hops n e s) (conj (pe_hops_opaque n e) (pe_hop_typed e))).
Qed.
Print Assumptions C25_hops.

Theorem C25_serde_roundtrip_refuted :
  forall user : nat -> Type, exists e : panic_error user, pe_str (pe_hop e) <> pe_str e.
Proof. intros user. exists (pe_new user (t := TString) "x"%string). vm_compute. discriminate. Qed.
Print Assumptions C25_serde_roundtrip_refuted.

Example C25_example :
  let user := fun _ : nat => nat in
  pe_str (Nat.iter 2 (@pe_hop user) (pe_new user (t := TStr) "boom"%string))
    = Some "panicked: panicked: boom"%string /\
  pe_downcast (TUser 4) (pe_new_from_panic_any (box user (t := TUser 4) 6)) = None /\
  pe_downcast (TUser 4) (pe_new user (t := TUser 4) 6) = Some 6.
Proof. repeat split; reflexivity. Qed.
