(** Property theorems about the derive macros and the tables of remote actors and messages
    (C61). Programs, attributes and tokens are arbitrary; the order in which the linker collects
    the registrations is any. *)
From Coq Require Import String List Bool Permutation.
Import ListNotations.
From Verif Require Import Errors Dyn Reply RemoteDispatch Derives Derives_spec Derives_examples Derives_proofs.
Open Scope string_scope.
Open Scope list_scope.

Theorem C61_name : forall d s, derive_actor d = Ok s <-> named d s.
Proof. exact derive_name. Qed.
Print Assumptions C61_name.

Example C61_name_case : named d_amazing "my_amazing_actor" /\ named d_counter "Counter".
Proof. split; [right; left; reflexivity|left; split; [left|]; reflexivity]. Qed.

(** Refuted: the option [mailbox] of the documentation (macros/src/lib.rs 87, 100). *)
Theorem C61_options_refuted : forall d l w, In (Some l) (brackets_of "actor" (d_attrs d)) -> In (Word w) l -> w <> "name" ->
  exists e, derive_actor d = Err e.
Proof. exact other_option. Qed.
Print Assumptions C61_options_refuted.

Example C61_options_case : derive_actor d_documented = Err BadArgs
  /\ exists l, In (Some l) (brackets_of "actor" (d_attrs d_documented)) /\ In (Word "mailbox") l.
Proof. split; [reflexivity|]. eexists. split; [left; reflexivity|]. cbn. tauto. Qed.

Theorem C61_remote_id : forall d r,
  derive_remote_actor d = Ok r <-> remote_named d (ra_id r) /\ ra_static_params r = d_generics d.
Proof. exact derive_remote. Qed.
Print Assumptions C61_remote_id.

Example C61_remote_id_case : remote_named d_counter "counter" /\ remote_named d_log "demo::log::Log".
Proof. split; [left; reflexivity|right; split; reflexivity]. Qed.

(** And otherwise the compiler says what is wrong: which error the attributes give, ... *)
Theorem C61_name_error : forall d e,
  derive_actor d = Err e <-> attrs_wrong actor_wrong (brackets_of "actor" (d_attrs d)) e.
Proof. exact name_error. Qed.
Print Assumptions C61_name_error.

Theorem C61_remote_id_error : forall d e,
  derive_remote_actor d = Err e <-> attrs_wrong remote_wrong (brackets_of "remote_actor" (d_attrs d)) e.
Proof. exact remote_id_error. Qed.
Print Assumptions C61_remote_id_error.

(** ... and which a block gives. *)
Theorem C61_message_error : forall i e, remote_message i = Err e <-> impl_wrong i e.
Proof. exact message_error. Qed.
Print Assumptions C61_message_error.

Example C61_error_case :
  derive_actor (mk_decl "m" "A" [] [mk_attr (Some "actor") None]) = Err BadArgs
  /\ derive_actor (mk_decl "m" "A" [] [mk_attr (Some "actor")
       (Some [Word "name"; Equals; Lit "a"; Comma; Word "name"; Equals; Lit "b"])]) = Err NameAlreadySet
  /\ derive_actor (mk_decl "m" "A" [] [mk_attr (Some "actor") (Some []); mk_attr (Some "actor") None]) = Err AlreadySpecified
  /\ derive_remote_actor (mk_decl "m" "A" [] [mk_attr (Some "remote_actor") (Some [Word "name"; Equals; Lit "a"])]) = Err ExpectedId
  /\ remote_message (mk_rimpl [] (Some (Some (TUser 0))) [] 0 (RPlain TUnit)) = Err BadArgs
  /\ remote_message (mk_rimpl [Lit "x"] None [] 0 (RPlain TUnit)) = Err NotTraitImpl
  /\ remote_message (mk_rimpl [Lit "x"] (Some None) [] 0 (RPlain TUnit)) = Err NoBrackets.
Proof. repeat split. Qed.

Theorem C61_default_ids : forall m1 m2 i1 i2, no_colon i1 -> no_colon i2 ->
  String.append m1 (String.append "::" i1) = String.append m2 (String.append "::" i2) -> m1 = m2 /\ i1 = i2.
Proof. exact default_inj. Qed.
Print Assumptions C61_default_ids.

Example C61_default_ids_case : no_colon "Log"
  /\ String.append "demo::log" (String.append "::" "Log") <> String.append "demo" (String.append "::" "Log").
Proof. split; [cbn; repeat split; discriminate|discriminate]. Qed.

Theorem C61_compiles : forall p, (exists o, compile p = Some o) <-> remotable p.
Proof. exact compiles_iff. Qed.
Print Assumptions C61_compiles.

Example C61_compiles_case : remotable p_two.
Proof. apply C61_compiles. eexists. vm_compute. reflexivity. Qed.

(** Refuted: a type with parameters can derive [RemoteActor]; a program with one that has no
    errors of the macros does not compile. *)
Theorem C61_generic_refuted : forall m i g gs rest impls, exists r,
  derive_remote_actor (mk_decl m i (g :: gs) []) = Ok r /\ compile (mk_program (mk_decl m i (g :: gs) [] :: rest) impls) = None.
Proof.
  intros. eexists. split; [reflexivity|].
  destruct (compile _) as [o|] eqn:E; [|reflexivity]. exfalso.
  destruct (proj1 (C61_compiles _) (ex_intro _ o E)) as [A _].
  destruct (A _ (or_introl eq_refl)) as [G _]. discriminate.
Qed.
Print Assumptions C61_generic_refuted.

Theorem C61_lookup : forall p a m m' tbl, compile p = Some (a, m) -> Permutation m m' -> messages_map m' = Some tbl ->
  forall k f, table_get key_eqb k tbl = Some f <-> exists i, In i (pr_impls p) /\ registers p i k f.
Proof. exact lookup. Qed.
Print Assumptions C61_lookup.

Theorem C61_clash : forall p a m m', compile p = Some (a, m) -> Permutation m m' ->
  (messages_map m' = None <-> two_with (fun i k => exists f, registers p i k f) (pr_impls p)).
Proof. exact clash. Qed.
Print Assumptions C61_clash.

Example C61_lookup_case : exists a m tbl, compile p_two = Some (a, m) /\ messages_map (rev m) = Some tbl
  /\ Permutation m (rev m)
  /\ table_get key_eqb ("counter", "inc") tbl = Some (mk_fns 0 (TUser 0) (RPlain TUnit))
  /\ table_get key_eqb ("demo::log::Log", "inc") tbl = Some (mk_fns 1 (TUser 0) (RPlain TUnit))
  /\ table_get key_eqb ("demo::log::Log", "reset") tbl = None.
Proof.
  do 3 eexists. split; [vm_compute; reflexivity|]. split; [vm_compute; reflexivity|].
  split; [apply Permutation_rev|]. split; [reflexivity|]. split; reflexivity.
Qed.

Example C61_clash_case : exists a m, compile (mk_program [d_counter; d_log] [i_inc; i_reset; i_log; i_inc]) = Some (a, m)
  /\ messages_map m = None.
Proof. do 2 eexists. split; [vm_compute; reflexivity|]. reflexivity. Qed.

Theorem C61_actors : forall p a m a' tbl, compile p = Some (a, m) -> Permutation a a' -> actors_map a' = Some tbl ->
  forall s n, table_get String.eqb s tbl = Some n <-> exists d, nth_error (pr_actors p) n = Some d /\ remote_named d s.
Proof. exact actors_lookup. Qed.
Print Assumptions C61_actors.

Example C61_actors_case : exists a m tbl, compile p_two = Some (a, m) /\ actors_map (rev a) = Some tbl
  /\ table_get String.eqb "counter" tbl = Some 0 /\ table_get String.eqb "Counter" tbl = None.
Proof.
  do 3 eexists. split; [vm_compute; reflexivity|]. split; [vm_compute; reflexivity|]. split; reflexivity.
Qed.

Theorem C61_actors_clash : forall p a m a', compile p = Some (a, m) -> Permutation a a' ->
  (actors_map a' = None <-> two_with remote_named (pr_actors p)).
Proof. exact actors_clash. Qed.
Print Assumptions C61_actors_clash.

(** Two types that are different to Rust but have one name within one module, for they are
    declared in functions, have one default id. *)
Example C61_actors_clash_case : exists a m, compile p_local = Some (a, m) /\ actors_map a = None.
Proof. do 2 eexists. split; [vm_compute; reflexivity|]. reflexivity. Qed.
