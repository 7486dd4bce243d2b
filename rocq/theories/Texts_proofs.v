(** Proofs about texts. *)
From Coq Require Import NArith Init.Byte Ascii String Decimal DecimalString DecimalFacts DecimalN List Lia Bool.
Import ListNotations.
From Verif Require Import Errors Dyn Errors_proofs ActorId ActorId_spec ActorId_proofs Texts Texts_spec.
Local Open Scope string_scope.

(** ** Strings *)
Lemma app_assoc_s : forall a b c : string, (a ++ b) ++ c = a ++ (b ++ c).
Proof. induction a as [|x a IH]; cbn; intros; [reflexivity|now rewrite IH]. Qed.

Lemma app_nil_s : forall a : string, a ++ "" = a.
Proof. induction a as [|x a IH]; cbn; [reflexivity|now rewrite IH]. Qed.

Lemma app_cancel_l : forall a b c : string, a ++ b = a ++ c -> b = c.
Proof. induction a as [|x a IH]; cbn; intros b c E; [exact E|injection E as E; auto]. Qed.

Lemma length_app_s : forall a b : string, String.length (a ++ b) = String.length a + String.length b.
Proof. induction a as [|x a IH]; cbn; intros; [reflexivity|now rewrite IH]. Qed.

Lemma app_cancel_r : forall a b c : string, a ++ c = b ++ c -> a = b.
Proof.
  induction a as [|x a IH]; intros [|y b] c E; cbn in E.
  - reflexivity.
  - apply (f_equal String.length) in E. cbn in E. rewrite length_app_s in E. lia.
  - apply (f_equal String.length) in E. cbn in E. rewrite length_app_s in E. lia.
  - injection E as <- E. f_equal. eauto.
Qed.

Lemma letters_app : forall a b, letters (a ++ b) = (letters a ++ letters b)%list.
Proof. induction a as [|x a IH]; cbn; intros; [reflexivity|now rewrite IH]. Qed.

(** Cutting at the first occurrence of a character. *)
Lemma cut : forall c a a' r r', ~ occurs c a -> ~ occurs c a' ->
  a ++ String c r = a' ++ String c r' -> a = a' /\ r = r'.
Proof.
  unfold occurs. intros c. induction a as [|x a IH]; intros [|y a'] r r' N N' E; cbn in *.
  - injection E as E. auto.
  - injection E as E _. exfalso. apply N'. auto.
  - injection E as E _. exfalso. apply N. auto.
  - injection E as <- E. destruct (IH a' r r') as [-> ->]; auto.
Qed.

(** ** Decimals *)
Definition digits : list ascii := letters "0123456789".

Lemma uint_digits : forall d c, In c (letters (NilEmpty.string_of_uint d)) -> In c digits.
Proof.
  induction d; cbn; intros c I; try contradiction;
    (destruct I as [<-|I]; [cbn; tauto|exact (IHd c I)]).
Qed.

Lemma decimal_digits : forall n c, occurs c (decimal n) -> In c digits.
Proof. intros n c. apply uint_digits. Qed.

Lemma decimal_inj : forall n m, decimal n = decimal m -> n = m.
Proof.
  intros n m E. unfold decimal in E.
  apply (f_equal NilEmpty.uint_of_string) in E. rewrite !NilEmpty.usu in E. injection E as E.
  now apply Unsigned.to_uint_inj.
Qed.

Lemma not_digit : forall c n, ~ In c digits -> ~ occurs c (decimal n).
Proof. intros c n N O. apply N. eapply decimal_digits; eauto. Qed.

Ltac no_digit := apply not_digit; cbn; intuition discriminate.

Section Ids.
Variable P : peers.
Variable show : peer P -> string.
Hypothesis S58 : names58 P show.

Lemma show_inj : forall p q, show p = show q -> p = q.
Proof. exact (proj2 S58). Qed.

Lemma not_in_show : forall c p, ~ In c alphabet58 -> ~ occurs c (show p).
Proof. intros c p N O. apply N. eapply (proj1 S58); eauto. Qed.

Lemma show_not_local : forall p, show p <> "local".
Proof.
  intros p E. apply (not_in_show "l"%char p).
  - cbn. intuition discriminate.
  - rewrite E. left. reflexivity.
Qed.

Lemma denotes_kind : forall b x, denotes P b x = (seq_id x, kind_peer P b (kind x)).
Proof. intros b [n k]. unfold denotes, kind_peer. reflexivity. Qed.

(** What stands after the number. *)
Definition place (o : option (peer P)) : string := match o with Some p => show p | None => "local" end.

Lemma place_inj : forall o o', place o = place o' -> o = o'.
Proof.
  intros [p|] [q|] E; cbn in E.
  - f_equal. now apply show_inj.
  - now apply show_not_local in E.
  - symmetry in E. now apply show_not_local in E.
  - reflexivity.
Qed.

Lemma id_display_eq : forall b x,
  id_display P show b x = "ActorID(" ++ decimal (seq_id x) ++ String "," (" " ++ place (kind_peer P b (kind x)) ++ ")").
Proof. intros b x. unfold id_display. destruct (kind_peer P b (kind x)); reflexivity. Qed.

Lemma display_two_nodes : forall b c x y,
  id_display P show b x = id_display P show c y <-> denotes P b x = denotes P c y.
Proof.
  intros b c x y. rewrite !denotes_kind, !id_display_eq. split.
  - intros E. apply app_cancel_l in E.
    apply cut in E; [|no_digit|no_digit]. destruct E as [E1 E2].
    apply (app_cancel_l " ") in E2. apply app_cancel_r in E2.
    apply decimal_inj in E1. apply place_inj in E2. now rewrite E1, E2.
  - intros E. injection E as -> ->. reflexivity.
Qed.

Lemma id_display_text : forall b x y,
  id_display P show b x = id_display P show b y <-> same_actor P b x y.
Proof. intros. apply display_two_nodes. Qed.

Lemma peer_eqb_refl : forall p, peer_eqb P p p = true.
Proof. intros p. now apply (peer_eqb_eq P). Qed.

Lemma id_eqb_denotes : forall b x y, id_eqb P b x y = true <-> denotes P b x = denotes P b y.
Proof.
  intros b x y. rewrite !denotes_kind. unfold id_eqb. rewrite andb_true_iff, N.eqb_eq.
  destruct (kind_peer P b (kind x)) as [p|], (kind_peer P b (kind y)) as [q|]; cbn; split;
    try (intros [E1 E2]; try discriminate; try apply (peer_eqb_eq P) in E2; congruence);
    intros E; injection E; intros; subst; try discriminate; auto using peer_eqb_refl.
Qed.

Lemma id_display_eqb : forall b x y,
  id_display P show b x = id_display P show b y <-> id_eqb P b x y = true.
Proof. intros. rewrite id_eqb_denotes. apply id_display_text. Qed.

(** ** Debug *)
Lemma opt_peer_debug_prefix : forall o o' r r',
  opt_peer_debug P show o ++ r = opt_peer_debug P show o' ++ r' -> o = o' /\ r = r'.
Proof.
  intros [p|] [q|] r r' E; unfold opt_peer_debug in E; try discriminate.
  - rewrite !app_assoc_s in E. apply app_cancel_l in E.
    change ("""))" ++ r) with (String """" ("))" ++ r)) in E.
    change ("""))" ++ r') with (String """" ("))" ++ r')) in E.
    apply cut in E.
    + destruct E as [E1 E2]. apply app_cancel_l in E2. apply show_inj in E1. now subst.
    + apply not_in_show. cbn. intuition discriminate.
    + apply not_in_show. cbn. intuition discriminate.
  - apply app_cancel_l in E. auto.
Qed.

Lemma id_debug_prefix : forall b c x y r r',
  id_debug P show b x ++ r = id_debug P show c y ++ r' -> denotes P b x = denotes P c y /\ r = r'.
Proof.
  intros b c x y r r' E. rewrite !denotes_kind. unfold id_debug in E.
  rewrite !app_assoc_s in E. apply app_cancel_l in E.
  match type of E with _ ++ ", " ++ ?s = _ ++ ", " ++ ?s' =>
    change (", " ++ s) with (String "," (" " ++ s)) in E; change (", " ++ s') with (String "," (" " ++ s')) in E end.
  apply cut in E; [|no_digit|no_digit]. destruct E as [E1 E2].
  apply (app_cancel_l " ") in E2. apply opt_peer_debug_prefix in E2. destruct E2 as [E2 E3].
  apply (app_cancel_l ")") in E3. apply decimal_inj in E1. rewrite E1, E2. auto.
Qed.

Lemma id_debug_same : forall b c x y, denotes P b x = denotes P c y ->
  id_debug P show b x = id_debug P show c y.
Proof.
  intros b c x y E. rewrite !denotes_kind in E. injection E as E1 E2. unfold id_debug. now rewrite E1, E2.
Qed.

Lemma id_debug_text : forall b x y,
  id_debug P show b x = id_debug P show b y <-> same_actor P b x y.
Proof.
  intros b x y. split.
  - intros E. apply (f_equal (fun s => s ++ "")) in E. apply id_debug_prefix in E. exact (proj1 E).
  - apply id_debug_same.
Qed.

(** Texts of ids with a node are the same everywhere; of ids without, they name the node. *)
Lemma id_display_fixed : forall b c n p,
  id_display P show b (mk_id n (PeerId p)) = id_display P show c (mk_id n (PeerId p)).
Proof. reflexivity. Qed.

Lemma id_display_moves : forall b c n,
  id_display P show b (mk_id n Local) = id_display P show c (mk_id n Local) <-> b = c.
Proof.
  intros b c n. rewrite display_two_nodes, !denotes_kind. cbn. split; [|now intros ->].
  intros E. injection E as E. exact E.
Qed.

(** ** serde of ids *)
Lemma serde_borrowed : forall b x, id_ok P x ->
  exists y, id_deserialize P (Borrowed (id_serialize P b x)) = DeOk y /\ id_eqb P b x y = true.
Proof.
  intros b x O. destruct (roundtrip_same_node P b x O) as (y & E & Q). exists y.
  unfold id_deserialize, id_serialize. now rewrite E.
Qed.

Lemma serde_any_node : forall p c x, id_ok P x ->
  exists y, id_deserialize P (Borrowed (id_serialize P (Some p) x)) = DeOk y /\
    denotes P c y = denotes P (Some p) x.
Proof.
  intros p c x O. destruct (roundtrip_any_node P p c x O) as (y & E & Q). exists y.
  unfold id_deserialize, id_serialize. now rewrite E.
Qed.

Lemma serde_transient : forall bs, id_deserialize P (Transient bs) = DeInvalidType.
Proof. reflexivity. Qed.

Lemma serde_no_invalid_length : forall h n, id_deserialize P h <> DeInvalidLength n.
Proof.
  intros h n E. assert (X : forall bs, id_from_bytes P bs <> FbMissingSequence).
  { intros bs. unfold id_from_bytes, slice. cbn [Nat.leb andb].
    destruct bs as [|b0 [|b1 [|b2 [|b3 [|b4 [|b5 [|b6 [|b7 bs]]]]]]]]; cbn; try discriminate.
    destruct bs; cbn; try discriminate. destruct (peer_parse P _); discriminate. }
  destruct h as [bs|bs|bs]; cbn in E; try discriminate;
    specialize (X bs); destruct (id_from_bytes P bs); congruence.
Qed.

Lemma from_bytes_short : forall bs, length bs < 8 <-> id_from_bytes P bs = FbPanic.
Proof.
  intros bs. unfold id_from_bytes, slice. cbn [Nat.leb andb].
  destruct bs as [|b0 [|b1 [|b2 [|b3 [|b4 [|b5 [|b6 [|b7 bs]]]]]]]];
    try (split; [reflexivity|intros; cbn; lia]).
  split; [intros L; cbn in L; lia|]. cbn.
  destruct bs; cbn; try discriminate. destruct (peer_parse P _); discriminate.
Qed.

Lemma serde_short : forall h bs, h = Borrowed bs \/ h = BorrowedStr bs ->
  (length bs < 8 <-> id_deserialize P h = DePanic).
Proof.
  intros h bs H. rewrite from_bytes_short.
  destruct H as [-> | ->]; cbn; destruct (id_from_bytes P bs); split; congruence.
Qed.

Lemma serde_refused : forall h,
  (id_deserialize P h = DeInvalidType <-> exists bs, h = Transient bs) /\
  (id_deserialize P h = DeCustom <-> exists bs, (h = Borrowed bs \/ h = BorrowedStr bs) /\
     8 < length bs /\ peer_parse P (skipn 8 bs) = None).
Proof.
  assert (X : forall bs, id_from_bytes P bs = FbParsePeer <-> 8 < length bs /\ peer_parse P (skipn 8 bs) = None).
  { intros bs. unfold id_from_bytes, slice. cbn [Nat.leb andb].
    destruct bs as [|b0 [|b1 [|b2 [|b3 [|b4 [|b5 [|b6 [|b7 bs]]]]]]]]; cbn; try (split; [discriminate|intros [L _]; lia]).
    destruct bs as [|b8 bs]; cbn; [split; [discriminate|intros [L _]; lia]|].
    destruct (peer_parse P (b8 :: bs)).
    - split; [discriminate|intros [_ ?]; discriminate].
    - split; [intros _; split; [lia|reflexivity]|reflexivity]. }
  intros h. destruct h as [bs|bs|bs]; cbn.
  1,2: specialize (X bs); destruct (id_from_bytes P bs) eqn:E; (split; split; intros H; try discriminate H).
  all: try (destruct H as [bs' H]; discriminate H).
  all: try (destruct H as (bs' & [H|H] & L); try discriminate H; injection H as <-; apply X in L; discriminate L).
  all: try (exists bs; split; [auto|]; apply X; reflexivity).
  all: try reflexivity.
  split; split; intros H; try reflexivity; try discriminate H; [eauto|destruct H as (bs' & [H|H] & _); discriminate H].
Qed.

(** ** Stop reasons *)
Variable user : nat -> Type.
Notation reason := (reason P user).

Lemma said_str : forall (e : panic_error user) s, said user e s <-> pe_str e = Some s.
Proof.
  intros e s. unfold said, pe_str. split.
  - intros [-> | ->]; unfold pe_downcast.
    + now rewrite unbox_box.
    + rewrite unbox_other by discriminate. now rewrite unbox_box.
  - destruct e as [v|v]; [|discriminate]. unfold pe_downcast. intros E.
    destruct (unbox (user := user) TStr v) as [x|] eqn:X.
    + injection E as ->. apply unbox_inv in X. left. now rewrite X.
    + apply (unbox_inv (user := user) TString v s) in E. right. now rewrite E.
Qed.

Lemma said_same : forall e f : panic_error user,
  (forall s, said user e s <-> said user f s) <-> pe_display e = pe_display f.
Proof.
  intros e f. unfold pe_display. split.
  - intros H. destruct (pe_str e) as [s|] eqn:E.
    + apply said_str in E. apply H in E. apply said_str in E. now rewrite E.
    + destruct (pe_str f) as [s|] eqn:F; [|reflexivity].
      apply said_str in F. apply H in F. apply said_str in F. congruence.
  - intros H s. rewrite !said_str.
    destruct (pe_str e) as [a|], (pe_str f) as [c|]; try discriminate; [|tauto].
    apply app_cancel_l in H. now subst.
Qed.

Lemma pe_display_begins : forall e : panic_error user, exists s, pe_display e = "panicked" ++ s.
Proof.
  intros e. unfold pe_display. destruct (pe_str e) as [s|].
  - exists (": " ++ s). reflexivity.
  - exists "". reflexivity.
Qed.

Lemma reason_display_text : forall b (r s : reason),
  reason_display P show user b r = reason_display P show user b s <-> alike P user b r s.
Proof.
  intros b r s. split.
  - destruct r as [| |e|x r|], s as [| |f|y s|]; cbn [reason_display]; intros E;
      try (destruct (pe_display_begins e) as [t T]; rewrite T in E; discriminate);
      try (destruct (pe_display_begins f) as [t T]; rewrite T in E; discriminate);
      try discriminate; try constructor.
    + now apply said_same.
    + apply app_cancel_l in E. apply app_cancel_r in E. now apply id_display_text.
  - intros A. destruct A as [| |e f H|x y r s H|]; cbn [reason_display]; try reflexivity.
    + now apply said_same.
    + f_equal. f_equal. now apply id_display_text.
Qed.

Lemma reason_debug_prefix : forall b c (r s : reason) t t',
  reason_debug P show user b r ++ t = reason_debug P show user c s ++ t' ->
  same_chain P user b c r s /\ t = t'.
Proof.
  intros b c. induction r as [| |e|x r IH|]; intros s t t' E; destruct s as [| |f|y s|];
    cbn [reason_debug] in E; try discriminate;
    try (apply app_cancel_l in E; split; [constructor|exact E]).
  rewrite !app_assoc_s in E. apply app_cancel_l in E.
  apply id_debug_prefix in E. destruct E as [D E]. apply app_cancel_l in E.
  apply IH in E. destruct E as [C E]. apply app_cancel_l in E.
  split; [now apply chain_link|exact E].
Qed.

Lemma reason_debug_same : forall b c (r s : reason),
  same_chain P user b c r s -> reason_debug P show user b r = reason_debug P show user c s.
Proof.
  intros b c r s C. induction C; cbn [reason_debug]; try reflexivity.
  rewrite IHC. now rewrite (id_debug_same b c x y).
Qed.

Lemma reason_debug_text : forall b c (r s : reason),
  reason_debug P show user b r = reason_debug P show user c s <-> same_chain P user b c r s.
Proof.
  intros b c r s. split.
  - intros E. apply (f_equal (fun x => x ++ "")) in E. apply reason_debug_prefix in E. exact (proj1 E).
  - apply reason_debug_same.
Qed.

(** One hop over the network. *)
Lemma hop_chain : forall p c (r : reason), reason_ok P user r ->
  exists s, reason_hop P user Borrowed (Some p) r = Some s /\
    same_chain P user (Some p) c r s /\
    last_panic P user s = option_map (@pe_hop user) (last_panic P user r).
Proof.
  intros p c r. induction r as [| |e|x r IH|]; intros O; cbn [reason_hop].
  1-3,5: eexists; (split; [reflexivity|split; [constructor|reflexivity]]).
  destruct O as [O1 O2]. destruct (IH O2) as (s & E & C & L). rewrite E.
  destruct (serde_any_node p c x O1) as (y & Y & D). rewrite Y.
  eexists. split; [reflexivity|]. split; [|exact L].
  apply chain_link; [now symmetry|exact C].
Qed.

Lemma hop_text : forall p c (r s : reason), reason_ok P user r ->
  reason_hop P user Borrowed (Some p) r = Some s ->
  reason_display P show user c s =
    match r with
    | Panicked e => "panicked: " ++ reason_display P show user (Some p) r
    | _ => reason_display P show user (Some p) r
    end.
Proof.
  intros p c r s O E. destruct r as [| |e|x r|]; cbn [reason_hop] in E;
    try (injection E as <-; reflexivity).
  destruct O as [O1 O2]. destruct (serde_any_node p c x O1) as (y & Y & D). rewrite Y in E.
  destruct (reason_hop P user Borrowed (Some p) r) as [s'|]; [|discriminate].
  injection E as <-. cbn [reason_display]. f_equal. f_equal.
  now apply display_two_nodes.
Qed.

Lemma hop_transient : forall b (r : reason),
  reason_hop P user Transient b r = None <-> by_link P user r.
Proof.
  intros b r. unfold by_link. destruct r as [| |e|x r|]; cbn; split;
    try discriminate; try (intros (x' & r' & E); discriminate); eauto.
Qed.
End Ids.

(** ** Send errors *)
Lemma se_display_kind : forall M E N F (f : E -> string) (g : F -> string) (x : send_error M E) (y : send_error N F),
  (forall e, x <> HandlerError e) -> (forall e, y <> HandlerError e) ->
  (se_display f x = se_display g y <-> same_send_kind x y).
Proof.
  intros M E N F f g x y X Y. split.
  - destruct x as [m| |m|e|m], y as [n| |n|e'|n]; cbn; intros Q; try discriminate;
      try (now specialize (X _ eq_refl)); try (now specialize (Y _ eq_refl)); constructor.
  - intros K. destruct K; cbn; try reflexivity. now specialize (X _ eq_refl).
Qed.

Lemma se_debug_kind : forall M E N F (f : E -> string) (g : F -> string) (x : send_error M E) (y : send_error N F),
  (forall e, x <> HandlerError e) -> (forall e, y <> HandlerError e) ->
  (se_debug f x = se_debug g y <-> same_send_kind x y).
Proof.
  intros M E N F f g x y X Y. split.
  - destruct x as [m| |m|e|m], y as [n| |n|e'|n]; cbn; intros Q; try discriminate;
      try (now specialize (X _ eq_refl)); try (now specialize (Y _ eq_refl)); constructor.
  - intros K. destruct K; cbn; try reflexivity. now specialize (X _ eq_refl).
Qed.

Lemma se_display_map_msg : forall M N E (f : E -> string) (g : M -> N) (x : send_error M E),
  se_display f (se_map_msg g x) = se_display f x.
Proof. intros. destruct x; reflexivity. Qed.

Lemma se_display_map_err : forall M E F (f : F -> string) (g : E -> F) (x : send_error M E),
  se_display f (se_map_err g x) = se_display (fun e => f (g e)) x.
Proof. intros. destruct x; reflexivity. Qed.

Lemma se_display_flatten : forall M E (f : E -> string) (x : send_error M (send_error M E)),
  se_display f (se_flatten x) = se_display (se_display f) x.
Proof. intros. destruct x as [m| |m|[m| |m|e|m]|m]; reflexivity. Qed.

Lemma re_display_of_send : forall M E io (f : E -> string) (x : send_error M E),
  re_display io f (re_of_send_error x) = se_display f x.
Proof. intros. destruct x; reflexivity. Qed.

Lemma re_display_map_err : forall E F io (f : F -> string) (g : E -> F) (x : remote_send_error E),
  re_display io f (re_map_err g x) = re_display io (fun e => f (g e)) x.
Proof. intros. destruct x as [| | | | | | | | | | | | | | | | | |[c|]]; reflexivity. Qed.

Lemma re_display_flatten : forall E io (f : E -> string) (x : remote_send_error (remote_send_error E)),
  re_display io f (re_flatten x) = re_display io (re_display io f) x.
Proof.
  intros. destruct x as [| | | | | | |e| | | | | | | | | | |[c|]]; try reflexivity.
  destruct e as [| | | | | | | | | | | | | | | | | |[c|]]; reflexivity.
Qed.

(** The library's own texts tell the errors apart. *)
Lemma re_display_tells : forall E io (f : E -> string) (x y : remote_send_error E),
  own_text x -> own_text y -> re_display io f x = re_display io f y ->
  x = y \/ (about_message x /\ about_message y).
Proof.
  intros E io f x y [X1 X2] [Y1 Y2] Q.
  destruct x as [| |a|a m| | | |e|s|s|s|s|s| | | | | |[c|]];
    try (now specialize (X1 _ eq_refl)); try (now specialize (X2 _ eq_refl));
  destruct y as [| |a'|a' m'| | | |e'|s'|s'|s'|s'|s'| | | | | |[c'|]];
    try (now specialize (Y1 _ eq_refl)); try (now specialize (Y2 _ eq_refl));
    cbn [re_display] in Q; try discriminate; try (left; reflexivity);
    try (left; f_equal; now apply app_cancel_l in Q).
  - left. f_equal. apply app_cancel_l in Q. now apply app_cancel_r in Q.
  - right. split; [exists a, m|exists a', m']; reflexivity.
Qed.

Lemma re_display_message : forall E io (f : E -> string) a m a' m',
  ~ occurs "'"%char m -> ~ occurs "'"%char m' ->
  re_display io f (RUnknownMessage a m) = re_display io f (RUnknownMessage a' m') -> a = a' /\ m = m'.
Proof.
  intros E io f a m a' m' N N' Q. cbn [re_display] in Q. apply app_cancel_l in Q.
  change ("' for actor '" ++ a ++ "'") with (String "'" (" for actor '" ++ a ++ "'")) in Q.
  change ("' for actor '" ++ a' ++ "'") with (String "'" (" for actor '" ++ a' ++ "'")) in Q.
  apply cut in Q; auto. destruct Q as [-> Q]. apply app_cancel_l in Q. apply app_cancel_r in Q. auto.
Qed.

Lemma re_display_message_refuted : exists a m a' m', (a, m) <> (a', m') /\
  forall E io (f : E -> string), re_display io f (RUnknownMessage a m) = re_display io f (RUnknownMessage a' m').
Proof.
  exists "c", "x' for actor 'b", "b' for actor 'c", "x". split; [discriminate|reflexivity].
Qed.

(** A handler's error can look like any error of the library. *)
Lemma re_display_handler_refuted : forall (x : remote_send_error string) io, own_text x ->
  exists e, RHandlerError e <> x /\ re_display io (fun s => s) (RHandlerError e) = re_display io (fun s => s) x.
Proof.
  intros x io [X _]. exists (re_display io (fun s => s) x). split; [|reflexivity].
  intros E. symmetry in E. exact (X _ E).
Qed.

Lemma registry_display_inj : forall x y, registry_display x = registry_display y -> x = y.
Proof.
  intros [| |q|] [| |q'|] E; cbn [registry_display] in E; try discriminate; try reflexivity.
  apply app_cancel_l in E. apply app_cancel_r in E. apply decimal_inj in E. congruence.
Qed.
