(** Property theorems about the attribute macro [#[messages]] (C59, C60). The block is any block
    of any methods; [camel] is any way of naming the structs. *)
From Coq Require Import String List Bool Permutation.
Import ListNotations.
From Verif Require Import Macros Macros_spec Macros_examples Macros_proofs Macros_line_proofs.

(** ** C59 *)
Theorem C59_expands : forall camel i x, expand camel i = Expanded x ->
  pairs_out (fun f ps s h => describes camel f ps s h /\ calls_method f ps h) i x.
Proof. exact expands. Qed.
Print Assumptions C59_expands.

Example C59_expands_case : exists x s1 h1 s2 h2, expand camel_ex counter = Expanded x
  /\ combine (x_structs x) (x_handlers x) = [(s1, h1); (s2, h2)]
  /\ st_name s1 = "Inc"%string /\ declared_fields s1 = [("amount"%string, T_ "u32")] /\ h_reply h1 = T_ "i64"
  /\ st_name s2 = "Dec"%string /\ st_attrs s2 = ["derive(Clone, Copy)"%string]
  /\ run_handler counter_methods (h_body h1) [("amount"%string, 4)] = Some 8
  /\ run_handler counter_methods (h_body h2) [("twice"%string, 1); ("amount"%string, 4)] = Some 401.
Proof. do 5 eexists. split; [vm_compute; reflexivity|]. repeat split; reflexivity. Qed.

Theorem C59_errors : forall camel i x, expand camel i = Expanded x ->
  (x_errors x = [] <-> forall f, In (IFn f) (i_items i) -> marked f -> exists ps, accepted f ps).
Proof. exact errors_iff. Qed.
Print Assumptions C59_errors.

(** And which errors there are: those of the items, in their order. *)
Theorem C59_which_errors : forall camel i x, expand camel i = Expanded x ->
  exists ess, Forall2 item_errors (i_items i) ess /\ x_errors x = concat ess.
Proof. exact which_errors. Qed.
Print Assumptions C59_which_errors.

Theorem C59_errors_determined : forall f es es', method_errors f es -> method_errors f es' -> es = es'.
Proof. exact method_errors_fun. Qed.
Print Assumptions C59_errors_determined.

Example C59_errors_case : exists x, expand camel_ex bad_counter = Expanded x /\ x_errors x = [EReference; ENoSelf]
  /\ map st_name (x_structs x) = ["Inc"%string].
Proof. eexists. split; [vm_compute; reflexivity|]. split; reflexivity. Qed.

Theorem C59_block : forall camel i x, expand camel i = Expanded x ->
  i_generics (x_block x) = i_generics i /\ i_where (x_block x) = i_where i /\ i_self (x_block x) = i_self i
  /\ Forall2 item_kept (i_items i) (i_items (x_block x)).
Proof. exact block_kept. Qed.
Print Assumptions C59_block.

Example C59_block_case : exists x, expand camel_ex counter = Expanded x
  /\ nth_error (i_items (x_block x)) 1 = Some (IFn f_new)
  /\ option_map (fun y => match y with IFn f => f_attrs f | IOther _ => [] end) (nth_error (i_items (x_block x)) 3)
     = Some [MPath ["inline"%string]].
Proof. eexists. split; [vm_compute; reflexivity|]. split; reflexivity. Qed.

(** Refused is exactly a block whose type is no path. *)
Theorem C59_refused : forall camel i e, expand camel i = Refused e <->
  e = ESelfType /\ ~ exists q g segs s, i_self i = TPath q (mk_path g (segs ++ [s])).
Proof. exact refused_iff. Qed.
Print Assumptions C59_refused.

Example C59_refused_case : expand camel_ex (mk_impl [] [] (TTuple [T_ "u32"]) [IFn f_take]) = Refused ESelfType.
Proof. reflexivity. Qed.

Theorem C59_no_panic : forall camel i,
  (forall f, In (IFn f) (i_items i) -> i_generics i = [] \/ no_lifetimes (i_generics i) /\ no_lifetimes (f_generics f)) ->
  expand camel i <> Panicked.
Proof. exact never_panics. Qed.
Print Assumptions C59_no_panic.

Example C59_no_panic_case : expand camel_ex (block_T f_put_own) <> Panicked /\ f_generics f_put_own <> [].
Proof.
  split; [|discriminate]. apply C59_no_panic. intros f [E|[]]. injection E as <-. right. split; intros g H; cbn in H; intuition (subst; discriminate || auto).
Qed.

Theorem C59_no_panic_refuted : forall camel, exists f, f_generics f = [GLifetime "'a" ""]
  /\ (exists ps, accepted f ps) /\ expand camel (block_T f) = Panicked.
Proof.
  intros camel. exists f_lifetime. split; [reflexivity|]. split; [exact lifetime_accepted|exact (refuted_panics camel)].
Qed.
Print Assumptions C59_no_panic_refuted.

(** Exactly when: a message takes something from the block and would have both lifetimes and
    types. *)
Theorem C59_panics : forall camel i, (forall f, In (IFn f) (i_items i) -> params_apart i f) ->
  (expand camel i = Panicked <->
   (exists q g segs s, i_self i = TPath q (mk_path g (segs ++ [s])))
   /\ exists f, In (IFn f) (i_items i) /\ marked f /\ mixed i f).
Proof. exact panics_iff. Qed.
Print Assumptions C59_panics.

Example C59_panics_case : params_apart (block_aT f_both) f_both /\ mixed (block_aT f_both) f_both
  /\ expand camel_ex (block_aT f_both) = Panicked /\ exists x, expand camel_ex (block_aT f_visit) = Expanded x.
Proof.
  split; [unfold params_apart; cbn; repeat constructor; cbn; intuition discriminate|].
  assert (L : takes_lifetime (block_aT f_both) f_both "'a").
  { split; [left; reflexivity|]. left. eexists _, _, _. split; [right; left; reflexivity|]. apply Nl_dyn. right. left. reflexivity. }
  assert (T : takes_type (block_aT f_both) f_both "T").
  { split; [left; reflexivity|]. left. eexists _, _, _. split; [right; right; left; reflexivity|]. apply Mb_path. }
  split; [split; [eauto|split; eauto]|]. split; [vm_compute; reflexivity|]. eexists. vm_compute. reflexivity.
Qed.

(** ** C60 *)
Theorem C60_declares : forall camel i x, expand camel i = Expanded x ->
  pairs_out (fun f ps s h => params_apart i f ->
    forall y, (In y (type_names (i_generics i)) ->
                 (In y (type_names (st_generics s)) <-> ps <> [] /\ (bare_in_args ps y \/ bare_in_output f y)))
              /\ (In y (type_names (f_generics f)) -> ps <> [] -> In y (type_names (st_generics s)))) i x.
Proof. exact declares. Qed.
Print Assumptions C60_declares.

Example C60_declares_case : params_apart (block_T f_put_own) f_put_own /\ exists x s, expand camel_ex (block_T f_put_own) = Expanded x
  /\ x_structs x = [s] /\ In "T"%string (type_names (i_generics (block_T f_put_own)))
  /\ In "K"%string (type_names (f_generics f_put_own)) /\ type_names (st_generics s) = ["T"; "K"]%string.
Proof.
  split; [unfold params_apart; cbn; repeat constructor; cbn; intuition discriminate|]. eexists _, _. split; [vm_compute; reflexivity|].
  split; [reflexivity|]. split; [left; reflexivity|]. split; [left; reflexivity|reflexivity].
Qed.

(** The lifetimes a message declares are the method's own and those of the block that stand in
    its types. *)
Theorem C60_lifetimes : forall camel i x, expand camel i = Expanded x ->
  pairs_out (fun f ps s h => params_apart i f ->
    forall l, In l (lifetime_names (st_generics s)) <->
      ps <> [] /\ (takes_lifetime i f l \/ In l (lifetime_names (f_generics f)))) i x.
Proof. exact lifetimes_declared. Qed.
Print Assumptions C60_lifetimes.

Example C60_lifetimes_case : params_apart (block_aT f_visit) f_visit /\ exists x s,
  expand camel_ex (block_aT f_visit) = Expanded x /\ x_structs x = [s]
  /\ lifetime_names (st_generics s) = ["'a"%string] /\ type_names (st_generics s) = [].
Proof.
  split; [unfold params_apart; cbn; repeat constructor; cbn; intuition discriminate|].
  eexists _, _. split; [vm_compute; reflexivity|]. repeat split.
Qed.

Theorem C60_compiles : forall camel i x, expand camel i = Expanded x -> only_types (i_generics i) ->
  pairs_out (fun f ps s h => params_apart i f -> only_types (f_generics f) ->
    (struct_compiles (param_names (i_generics i ++ f_generics f)) s (h_msg h) <-> generics_fit i f ps)) i x.
Proof. exact compiles. Qed.
Print Assumptions C60_compiles.

Example C60_compiles_case : generics_fit (block_T f_put) f_put
    [("key"%string, T_ "String"); ("value"%string, TTuple [T_ "T"; T_ "T"]); ("more"%string, T_ "T")]
  /\ (exists x, expand camel_ex (block_T f_put_own) = Expanded x /\ rust_accepts (block_T f_put_own)
        /\ map (fun s => map gname (st_generics s)) (x_structs x) = [["T"; "K"]%string]
        /\ map (fun h => ap_args (h_msg h)) (x_handlers x) = [["T"; "K"]%string]).
Proof. split; [exact put_fits|]. exact put_own_case. Qed.

Theorem C60_compiles_refuted : forall camel,
  Forall (fun i => rust_accepts i /\ exists x, expand camel i = Expanded x /\ x_errors x = [] /\ ~ all_compile i x)
    [block_T f_extend; block_TU f_swap; block_T f_take].
Proof.
  intros camel. constructor; [|constructor; [|constructor; [|constructor]]].
  - split; [apply accepts_T|apply refuted_inside].
  - split; [apply accepts_TU|apply refuted_twice].
  - split; [apply accepts_T|apply refuted_returned].
Qed.
Print Assumptions C60_compiles_refuted.

Theorem C60_actor : forall camel i x n args h, expand camel i = Expanded x -> In h (x_handlers x) ->
  only_types (i_generics i) -> i_self i = TPath None (mk_path false [mk_seg n args]) ->
  (args = None /\ i_generics i = [] \/ args = Some (map plain_arg (param_names (i_generics i)))) ->
  same_type (h_actor h) (i_self i).
Proof. exact for_actor. Qed.
Print Assumptions C60_actor.

Example C60_actor_case : exists x h, expand camel_ex (block_T f_put) = Expanded x /\ x_handlers x = [h]
  /\ i_self (block_T f_put) = TPath None (mk_path false [mk_seg "Store"%string (Some (map plain_arg ["T"%string]))])
  /\ h_actor h = mk_applied "Store" ["T"%string].
Proof. eexists _, _. split; [vm_compute; reflexivity|]. repeat split. Qed.

(** The handlers are for a type named by the last segment of the block's path. *)
Theorem C60_actor_name : forall camel i x q g segs s h, expand camel i = Expanded x ->
  i_self i = TPath q (mk_path g (segs ++ [s])) -> In h (x_handlers x) -> ap_name (h_actor h) = sg_ident s.
Proof. exact actor_named. Qed.
Print Assumptions C60_actor_name.

(** For [impl shop::Store] they are written for [Store]. *)
Example C60_actor_name_case : exists x h,
  expand camel_ex (mk_impl [] [] (TPath None (mk_path false ([mk_seg "shop"%string None] ++ [mk_seg "Store"%string None]))) [IFn f_take])
    = Expanded x /\ In h (x_handlers x) /\ h_actor h = mk_applied "Store" [].
Proof. do 2 eexists. split; [vm_compute; reflexivity|]. split; [left; reflexivity|reflexivity]. Qed.

Theorem C60_actor_refuted : forall camel, exists i x h, rust_accepts i /\ expand camel i = Expanded x /\ x_errors x = []
  /\ In h (x_handlers x) /\ ~ same_type (h_actor h) (i_self i).
Proof.
  intros camel. exists (block_u32 f_take). destruct (refuted_actor camel) as (x & h & H). exists x, h.
  split; [exact accepts_u32|exact H].
Qed.
Print Assumptions C60_actor_refuted.
