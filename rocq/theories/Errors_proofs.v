From Coq Require Import List String Eqdep_dec PeanoNat.
From Verif Require Import Errors Errors_spec Dyn.

Ltac crush_se :=
  repeat match goal with
  | x : send_error _ _ |- _ => destruct x; simpl
  | x : option _ |- _ => destruct x; simpl
  end; try reflexivity.

Lemma se_map_msg_id M E (x : send_error M E) : se_map_msg (fun m => m) x = x.
Proof. crush_se. Qed.

Lemma se_map_msg_comp M N O E (f : M -> N) (g : N -> O) (x : send_error M E) :
  se_map_msg g (se_map_msg f x) = se_map_msg (fun m => g (f m)) x.
Proof. crush_se. Qed.

Lemma se_map_err_id M E (x : send_error M E) : se_map_err (fun m => m) x = x.
Proof. crush_se. Qed.

Lemma se_map_err_comp M E F G (f : E -> F) (g : F -> G) (x : send_error M E) :
  se_map_err g (se_map_err f x) = se_map_err (fun m => g (f m)) x.
Proof. crush_se. Qed.

Lemma se_map_comm M N E F (f : M -> N) (g : E -> F) (x : send_error M E) :
  se_map_err g (se_map_msg f x) = se_map_msg f (se_map_err g x).
Proof. crush_se. Qed.

Lemma se_map_msg_carries M N E (f : M -> N) (x : send_error M E) m :
  carries_msg x m -> carries_msg (se_map_msg f x) (f m).
Proof. destruct 1; constructor. Qed.

Lemma se_map_msg_class M N E (f : M -> N) (x : send_error M E) k :
  has_class x k <-> has_class (se_map_msg f x) k.
Proof. destruct x; simpl; split; inversion 1; constructor. Qed.

Lemma se_map_err_carries M E F (f : E -> F) (x : send_error M E) e :
  carries_err x e -> carries_err (se_map_err f x) (f e).
Proof. destruct 1; constructor. Qed.

Lemma se_map_err_class M E F (f : E -> F) (x : send_error M E) k :
  has_class x k <-> has_class (se_map_err f x) k.
Proof. destruct x; simpl; split; inversion 1; constructor. Qed.

Lemma se_map_err_msg M E F (f : E -> F) (x : send_error M E) m :
  carries_msg x m <-> carries_msg (se_map_err f x) m.
Proof. destruct x; simpl; split; inversion 1; constructor. Qed.

Lemma se_unwrap_msg_iff M E (x : send_error M E) m :
  se_unwrap_msg x = Some m <-> carries_msg x m.
Proof.
  split.
  - destruct x; simpl; intros H; inversion H; subst; constructor.
  - destruct 1; reflexivity.
Qed.

Lemma se_unwrap_err_iff M E (x : send_error M E) e :
  se_unwrap_err x = Some e <-> carries_err x e.
Proof.
  split.
  - destruct x; simpl; intros H; inversion H; subst; constructor.
  - destruct 1; reflexivity.
Qed.

Lemma se_reset_iff M E F (x : send_error M E) :
  se_reset_err_infallible (F := F) x = None <-> has_class x KHandler.
Proof. destruct x; simpl; split; inversion 1; try constructor; reflexivity. Qed.

Lemma se_reset_same M E F (x : send_error M E) y :
  se_reset_err_infallible (F := F) x = Some y ->
  (forall k, has_class x k <-> has_class y k) /\ (forall m, carries_msg x m <-> carries_msg y m).
Proof.
  destruct x; simpl; intros H; inversion H; subst; split; intros;
    split; inversion 1; subst; constructor.
Qed.

Lemma se_flatten_unit_l M E (x : send_error M E) : se_flatten (HandlerError x) = x.
Proof. crush_se. Qed.

Lemma se_flatten_unit_r M E (x : send_error M E) : se_flatten (se_map_err HandlerError x) = x.
Proof. crush_se. Qed.

Lemma se_flatten_assoc M E (x : send_error M (send_error M (send_error M E))) :
  se_flatten (se_flatten x) = se_flatten (se_map_err se_flatten x).
Proof. crush_se. Qed.

Lemma se_flatten_map_err M E F (f : E -> F) (x : send_error M (send_error M E)) :
  se_flatten (se_map_err (se_map_err f) x) = se_map_err f (se_flatten x).
Proof. crush_se. Qed.

Lemma se_flatten_map_msg M N E (f : M -> N) (x : send_error M (send_error M E)) :
  se_flatten (se_map_msg f (se_map_err (se_map_msg f) x)) = se_map_msg f (se_flatten x).
Proof. crush_se. Qed.

(** ** Boxes *)
Section Boxes.
Context {user : nat -> Type}.
Notation den := (den user).
Notation any := (any user).

Lemma unbox_box t (v : den t) : unbox t (box user v) = Some v.
Proof.
  unfold unbox, box; simpl. destruct (ty_eq_dec t t) as [e|n]; [|congruence].
  f_equal. symmetry. apply (eq_rect_eq_dec ty_eq_dec).
Qed.

Lemma unbox_other t t' (v : den t) : t <> t' -> unbox t' (box user v) = None.
Proof. unfold unbox, box; simpl. destruct (ty_eq_dec t t'); congruence. Qed.

Lemma unbox_inv t (a : any) (v : den t) : unbox t a = Some v <-> a = box user v.
Proof.
  split.
  - destruct a as [t' v']. unfold unbox, box; simpl.
    destruct (ty_eq_dec t' t) as [e|]; [|discriminate]. destruct e. simpl. intros H.
    inversion H. reflexivity.
  - intros ->. apply unbox_box.
Qed.

Lemma unbox_none t (a : any) : unbox t a = None <-> forall v : den t, a <> box user v.
Proof.
  split.
  - intros H v ->. rewrite unbox_box in H. discriminate.
  - destruct (unbox t a) eqn:E; [|auto]. apply unbox_inv in E. intros H. destruct (H _ E).
Qed.

Lemma box_inj t (v w : den t) : box user v = box user w -> v = w.
Proof.
  intros H. assert (unbox t (box user v) = unbox t (box user w)) by (rewrite H; reflexivity).
  rewrite !unbox_box in H0. congruence.
Qed.

Lemma se_downcast_boxed m e (x : send_error (den m) (den e)) :
  se_try_downcast m e (@se_boxed user m e x) = Ok x.
Proof. destruct x as [v| |v|v|[v|]]; simpl; rewrite ?unbox_box; reflexivity. Qed.

Lemma se_boxed_inj m e (x y : send_error (den m) (den e)) :
  @se_boxed user m e x = @se_boxed user m e y -> x = y.
Proof.
  intros H. pose proof (se_downcast_boxed m e x) as Hx.
  rewrite H, se_downcast_boxed in Hx. congruence.
Qed.

Lemma se_try_downcast_ok m e b (x : send_error (den m) (den e)) :
  se_try_downcast m e b = Ok x <-> @se_boxed user m e x = b.
Proof.
  split.
  - destruct b as [v| |v|v|[v|]]; simpl;
      try (destruct (unbox _ v) eqn:E; [apply unbox_inv in E; subst|discriminate]);
      intros H; inversion H; subst; reflexivity.
  - intros <-. apply se_downcast_boxed.
Qed.

Lemma se_try_downcast_err m e b b' :
  se_try_downcast m e b = Err b' <->
  b' = b /\ forall x : send_error (den m) (den e), @se_boxed user m e x <> b.
Proof.
  split.
  - intros H. split.
    + destruct b as [v| |v|v|[v|]]; simpl in H;
        try (destruct (unbox _ v) eqn:E); inversion H; reflexivity.
    + intros x Hx. subst b. rewrite se_downcast_boxed in H. discriminate.
  - intros [-> Hn]. destruct (se_try_downcast m e b) eqn:E.
    + apply se_try_downcast_ok in E. destruct (Hn _ E).
    + f_equal. destruct b as [v| |v|v|[v|]]; simpl in E;
        try (destruct (unbox _ v)); inversion E; reflexivity.
Qed.

Lemma se_downcast_none m e b :
  se_downcast m e b = None <-> forall x : send_error (den m) (den e), @se_boxed user m e x <> b.
Proof.
  unfold se_downcast. destruct (se_try_downcast m e b) eqn:E.
  - apply se_try_downcast_ok in E. split; [discriminate|]. intros H. destruct (H _ E).
  - apply se_try_downcast_err in E. split; tauto.
Qed.

(** A handler error boxed at one type never downcasts at another. *)
Lemma se_try_downcast_wrong m e e' (v : den e) :
  e <> e' ->
  se_try_downcast m e' (HandlerError (box user v)) = Err (HandlerError (box user v)).
Proof. intros H. simpl. rewrite unbox_other by assumption. reflexivity. Qed.

(** ** Panic errors *)
Lemma pe_new_downcast t (v : den t) : pe_downcast t (pe_new user v) = Some v.
Proof. apply unbox_box. Qed.

Lemma pe_from_str s : pe_str (pe_new_from_panic_any (box user (t := TStr) s)) = Some s.
Proof.
  unfold pe_new_from_panic_any. rewrite unbox_box. unfold pe_str.
  rewrite pe_new_downcast. reflexivity.
Qed.

Lemma pe_from_string s : pe_str (pe_new_from_panic_any (box user (t := TString) s)) = Some s.
Proof.
  unfold pe_new_from_panic_any. rewrite unbox_other by discriminate. rewrite unbox_box.
  unfold pe_str, pe_new, pe_downcast. rewrite unbox_other by discriminate. exact (unbox_box TString _).
Qed.

Lemma pe_from_other t (v : den t) :
  t <> TStr -> t <> TString ->
  pe_new_from_panic_any (box user v) = PEBoxed (box user v) /\
  pe_str (pe_new_from_panic_any (box user v)) = None /\
  forall t', pe_downcast t' (pe_new_from_panic_any (box user v)) = None.
Proof.
  intros H1 H2. unfold pe_new_from_panic_any.
  rewrite !unbox_other by assumption. auto.
Qed.

Lemma pe_hop_str (e : panic_error user) : pe_str (pe_hop e) = Some (pe_display e).
Proof.
  unfold pe_hop, pe_deserialize, pe_serialize, pe_str, pe_new, pe_downcast.
  rewrite unbox_other by discriminate. exact (unbox_box TString _).
Qed.

Lemma pe_hop_typed (e : panic_error user) t : t <> TString -> pe_downcast t (pe_hop e) = None.
Proof. intros H. unfold pe_hop, pe_deserialize, pe_new, pe_downcast. apply unbox_other. congruence. Qed.

Lemma pe_hops n (e : panic_error user) s :
  pe_str e = Some s ->
  pe_str (Nat.iter n (@pe_hop user) e) = Some (repeat_prefix "panicked: " n s).
Proof.
  intros H. induction n as [|n IH]; [exact H|].
  change (Nat.iter (S n) (@pe_hop user) e) with (pe_hop (Nat.iter n (@pe_hop user) e)).
  rewrite pe_hop_str. unfold pe_display. rewrite IH. reflexivity.
Qed.

Lemma pe_hops_opaque n (e : panic_error user) :
  pe_str e = None ->
  pe_str (Nat.iter (S n) (@pe_hop user) e) = Some (repeat_prefix "panicked: " n "panicked").
Proof.
  intros H. induction n as [|n IH].
  - change (pe_str (pe_hop e) = Some "panicked"%string). rewrite pe_hop_str. unfold pe_display.
    rewrite H. reflexivity.
  - change (Nat.iter (S (S n)) (@pe_hop user) e) with (pe_hop (Nat.iter (S n) (@pe_hop user) e)).
    rewrite pe_hop_str. unfold pe_display. rewrite IH. reflexivity.
Qed.
End Boxes.

(** ** Remote errors *)
Lemma re_map_err_id E (x : remote_send_error E) : re_map_err (fun e => e) x = x.
Proof. destruct x; reflexivity. Qed.

Lemma re_map_err_comp E F G (f : E -> F) (g : F -> G) (x : remote_send_error E) :
  re_map_err g (re_map_err f x) = re_map_err (fun e => g (f e)) x.
Proof. destruct x; reflexivity. Qed.

Lemma re_flatten_unit_l E (x : remote_send_error E) : re_flatten (RHandlerError x) = x.
Proof. destruct x; reflexivity. Qed.

Lemma re_flatten_unit_r E (x : remote_send_error E) : re_flatten (re_map_err RHandlerError x) = x.
Proof. destruct x; reflexivity. Qed.

Lemma re_flatten_assoc E (x : remote_send_error (remote_send_error (remote_send_error E))) :
  re_flatten (re_flatten x) = re_flatten (re_map_err re_flatten x).
Proof. destruct x as [| | | | | | |[| | | | | | |[]| | | | | | | | | | |]| | | | | | | | | | |]; reflexivity. Qed.

Lemma re_flatten_map_err E F (f : E -> F) (x : remote_send_error (remote_send_error E)) :
  re_flatten (re_map_err (re_map_err f) x) = re_map_err f (re_flatten x).
Proof. destruct x as [| | | | | | |[]| | | | | | | | | | |]; reflexivity. Qed.

Lemma re_of_class M E (x : send_error M E) k : has_class x k -> remote_class k (re_of_send_error x).
Proof. destruct 1; constructor. Qed.

Lemma re_of_err M E (x : send_error M E) e :
  carries_err x e <-> re_of_send_error x = RHandlerError e.
Proof.
  destruct x; simpl; split; intros H; inversion H; subst; try constructor.
Qed.

Lemma re_of_map_err M E F (f : E -> F) (x : send_error M E) :
  re_of_send_error (se_map_err f x) = re_map_err f (re_of_send_error x).
Proof. destruct x; reflexivity. Qed.

Lemma re_of_map_msg M N E (f : M -> N) (x : send_error M E) :
  re_of_send_error (se_map_msg f x) = re_of_send_error x.
Proof. destruct x; reflexivity. Qed.

Lemma re_of_flatten M E (x : send_error M (send_error M E)) :
  re_of_send_error (se_flatten x) =
  re_flatten (re_map_err re_of_send_error (re_of_send_error x)).
Proof. destruct x as [| | |[]|]; reflexivity. Qed.
