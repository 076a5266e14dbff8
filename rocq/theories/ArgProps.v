(** C71 to C74: calls bind arguments to parameters as written. *)

From Coq Require Import ZArith List Bool.
From Verif Require Import ArgModel ArgSpec ArgProofs ArgKwProofs ArgCallProofs ArgJitProofs
  ArgFwdProofs ArgBadProofs.
Import ListNotations.
Open Scope nat_scope.

(** ** C71 *)

Theorem C71_positional : forall p f l u,
  total_pos p <= length f ->
  (p_block p = false /\ ~ accepts p (length l) /\
   fill_positional p f (src_of u l) (length l) u = Err (EArity (length l)))
  \/ exists cs, positional p l cs /\
       fill_positional p f (src_of u l) (length l) u = Ok (cs ++ skipn (length cs) f).
Proof. exact fill_positional_spec. Qed.
Print Assumptions C71_positional.

Theorem C71_unique : forall p l cs cs', positional p l cs -> positional p l cs' -> cs = cs'.
Proof. exact positional_fun. Qed.
Print Assumptions C71_unique.

Example C71_ex :
  let p := par 1 2 (Some false) 1 [] false false in
  fill_positional p (repeat Junk 6) (down [o 1; o 2; o 3]) 3 false
    = Ok [Val (o 1); Val (o 2); Unset; Val (VArr []); Val (o 3); Junk] /\
  fill_positional p (repeat Junk 5) (up [o 1; o 2; o 3; o 4; o 5]) 5 true
    = Ok [Val (o 1); Val (o 2); Val (o 3); Val (VArr [o 4]); Val (o 5)] /\
  fill_positional p (repeat Junk 5) (up [o 1]) 1 true = Err (EArity 1).
Proof. repeat split. Qed.

(** ** C72 *)

Theorem C72_call_partial : forall toary p f pos kws fwd,
  params_ok p -> lits_first kws -> hashes_ok (splats kws) -> args_ok pos ->
  plain toary p pos kws -> no_flight p pos kws -> slots p <= length f ->
  exists r, call_result toary p pos kws r /\
            agrees f (set_callee toary p f (compile_site pos kws fwd)) r.
Proof. exact set_callee_ok. Qed.
Print Assumptions C72_call_partial.

Theorem C72_determined : forall toary p pos kws a b,
  call_result toary p pos kws a -> call_result toary p pos kws b -> same_result a b.
Proof. exact call_result_fun. Qed.
Print Assumptions C72_determined.

Theorem C72_order_refuted :
  let p := par 0 0 None 0 [(1%Z, true)] false false in
  let kws := [KSplat (Some [(KSym 1%Z, o 10)]); KLit 1%Z (o 20)] in
  params_ok p /\
  set_callee no_conv p [Junk] (compile_site [] kws false) = Ok [Val (o 10)] /\
  call_result no_conv p [] kws (inl [Val (o 20)]) /\
  wrong no_conv p [] kws [Junk] (set_callee no_conv p [Junk] (compile_site [] kws false)).
Proof. exact later_keyword_lost. Qed.
Print Assumptions C72_order_refuted.

Theorem C72_splat_block_refuted :
  let pos := [(VArr [], true); (VArr [o 1; o 2], false)] in
  set_callee no_conv b2 [Junk; Junk] (compile_site pos [] false) = Ok [Val (VArr [o 1; o 2]); Val VNil] /\
  call_result no_conv b2 pos [] (inl [Val (o 1); Val (o 2)]) /\
  wrong no_conv b2 pos [] [Junk; Junk] (set_callee no_conv b2 [Junk; Junk] (compile_site pos [] false)).
Proof. exact splat_not_taken_apart. Qed.
Print Assumptions C72_splat_block_refuted.

Theorem C72_splat_to_ary_refuted :
  let conv := fun v => TArr [o 1; o 2] in
  let pos := [(VArr [o 7], true)] in
  set_callee conv b2 [Junk; Junk] (compile_site pos [] false) = Ok [Val (o 7); Val VNil] /\
  call_result conv b2 pos [] (inl [Val (o 1); Val (o 2)]) /\
  wrong conv b2 pos [] [Junk; Junk] (set_callee conv b2 [Junk; Junk] (compile_site pos [] false)).
Proof. exact splat_not_converted. Qed.
Print Assumptions C72_splat_to_ary_refuted.

Theorem C72_no_keywords_refuted :
  let pos := [(VArr [VHash true [(KSym 1%Z, o 5)]], true)] in
  set_callee no_conv pnil [Junk] (compile_site pos [] false) = Ok [Val VNil] /\
  call_result no_conv pnil pos [] (inr ENoKw) /\
  wrong no_conv pnil pos [] [Junk] (set_callee no_conv pnil [Junk] (compile_site pos [] false)).
Proof. exact flagged_hash_dropped. Qed.
Print Assumptions C72_no_keywords_refuted.

Example C72_ex :
  let p := par 1 0 (Some false) 0 [(1%Z, true); (2%Z, false)] true false in
  set_callee no_conv p (repeat Junk 6)
    (compile_site [(o 1, false); (VArr [o 2; o 3], true)]
       [KLit 1%Z (o 4); KSplat (Some [(KSym 3%Z, o 5); (KObj 9%Z, o 6)])] false)
  = Ok [Val (o 1); Val (VArr [o 2; o 3]); Val (o 4); Unset;
        Val (VHash false [(KSym 3%Z, o 5); (KObj 9%Z, o 6)]); Junk] /\
  set_callee no_conv p (repeat Junk 5) (compile_site [(o 1, false)] [KLit 3%Z (o 4)] false)
  = Err (EMissing [1%Z]).
Proof. repeat split. Qed.

(** ** C73 *)

Theorem C73_compiled_partial : forall toary p pos kws fwd f,
  params_ok p -> is_simple_call p (compile_site pos kws fwd) = true ->
  NoDup (map fst (lits kws)) -> all_known p kws ->
  implicit_kept p (length pos) -> post_kept p (length pos) -> slots p <= length f ->
  exists cs, call_result toary p pos kws (inl cs) /\
             jit_call p (compile_site pos kws fwd) f = Some (Ok (cs ++ skipn (length cs) f)).
Proof. exact jit_call_ok. Qed.
Print Assumptions C73_compiled_partial.

Theorem C73_types_partial : forall p pos kws fwd f f',
  let s := compile_site pos kws fwd in
  params_ok p -> is_simple_call p s = true -> NoDup (map fst (lits kws)) ->
  post_kept p (length pos) -> slots p <= length f ->
  jit_call p s f = Some (Ok f') ->
  length (jit_types p s) = slots p /\
  forall i src, nth_error (jit_types p s) i = Some src ->
  exists c, nth_error f' i = Some c /\ describes s src c.
Proof. exact jit_types_sound. Qed.
Print Assumptions C73_types_partial.

Theorem C73_post_refuted :
  let pos := bare [o 1; o 2; o 3; o 4] in
  let f := [Junk; Junk; Junk] in
  is_simple_call bpost (compile_site pos [] false) = true /\
  jit_call bpost (compile_site pos [] false) f = Some (Ok [Val (o 1); Val (o 2); Val (o 4)]) /\
  set_callee no_conv bpost f (compile_site pos [] false) = Ok [Val (o 1); Val (o 2); Val (o 3)] /\
  nth_error (jit_types bpost (compile_site pos [] false)) 2 = Some (SArg 2) /\
  call_result no_conv bpost pos [] (inl [Val (o 1); Val (o 2); Val (o 3)]) /\
  wrong no_conv bpost pos [] f (Ok [Val (o 1); Val (o 2); Val (o 4)]).
Proof. exact compiled_post_wrong. Qed.
Print Assumptions C73_post_refuted.

Theorem C73_type_refuted :
  let s := compile_site (bare [o 1; o 2; o 3; VArr []]) [] false in
  exists f', jit_call bpost s [Junk; Junk; Junk] = Some (Ok f') /\
  exists src c, nth_error (jit_types bpost s) 2 = Some src /\ nth_error f' 2 = Some c /\ ~ describes s src c.
Proof. exact compiled_post_mistyped. Qed.
Print Assumptions C73_type_refuted.

Theorem C73_arity_refuted :
  let pos := bare [o 1; o 2] in
  let f := [Junk; Junk] in
  is_simple_call lam (compile_site pos [] false) = true /\
  jit_call lam (compile_site pos [] false) f = Some (Ok [Val (o 1); Val (VArr [o 2])]) /\
  set_callee no_conv lam f (compile_site pos [] false) = Err (EArity 2) /\
  call_result no_conv lam pos [] (inr (EArity 2)) /\
  wrong no_conv lam pos [] f (Ok [Val (o 1); Val (VArr [o 2])]).
Proof. exact compiled_implicit_rest. Qed.
Print Assumptions C73_arity_refuted.

Theorem C73_unknown_refuted :
  let kws := [KLit 2%Z (o 5)] in
  is_simple_call mkw (compile_site [] kws false) = true /\
  jit_call mkw (compile_site [] kws false) [Junk] = Some (Ok [Unset]) /\
  set_callee no_conv mkw [Junk] (compile_site [] kws false) = Err (EUnknown [KSym 2%Z]) /\
  call_result no_conv mkw [] kws (inr (EUnknown [KSym 2%Z])) /\
  wrong no_conv mkw [] kws [Junk] (Ok [Unset]).
Proof. exact compiled_unknown_keyword. Qed.
Print Assumptions C73_unknown_refuted.

Theorem C73_duplicate_refuted :
  let p := par 0 0 None 0 [] true false in
  let kws := [KLit 1%Z (o 1); KLit 2%Z (o 7); KLit 1%Z (o 2)] in
  is_simple_call p (compile_site [] kws false) = true /\
  jit_call p (compile_site [] kws false) [Junk] = None /\
  set_callee no_conv p [Junk] (compile_site [] kws false)
    = Ok [Val (VHash false [(KSym 1%Z, o 2); (KSym 2%Z, o 7)])].
Proof. exact compiled_duplicate_keyword. Qed.
Print Assumptions C73_duplicate_refuted.

Theorem C73_define_method_refuted :
  let pos := bare [VArr [o 1; o 2]] in
  let s := compile_site (bare [o 1; o 2; o 3]) [] false in
  set_callee no_conv (method_of b2) [Junk; Junk] s = Err (EArity 3) /\
  is_simple_call b2 s = true /\
  jit_call b2 s [Junk; Junk] = Some (Ok [Val (o 1); Val (o 2)]) /\
  set_callee no_conv (method_of b2) [Junk; Junk] (compile_site pos [] false) = Err (EArity 1) /\
  set_callee no_conv b2 [Junk; Junk] (compile_site pos [] false) = Ok [Val (o 1); Val (o 2)].
Proof. exact compiled_define_method. Qed.
Print Assumptions C73_define_method_refuted.

Example C73_ex :
  let p := par 1 1 (Some false) 1 [(1%Z, false)] true false in
  let s := compile_site (bare [o 1; o 2; o 3; o 4]) [KLit 1%Z (o 5); KLit 2%Z (o 6)] false in
  is_simple_call p s = true /\
  jit_call p s (repeat Junk 6)
  = Some (Ok [Val (o 1); Val (o 2); Val (VArr [o 3]); Val (o 4); Val (o 5);
              Val (VHash false [(KSym 2%Z, o 6)])]).
Proof. repeat split. Qed.

(** ** C74 *)

Theorem C74_yield : forall toary p f l fwd,
  params_ok p -> vals_ok l -> slots p <= length f ->
  exists r, call_result toary p (bare l) [] r /\
            agrees f (set_yield toary p f (compile_site (bare l) [] fwd)) r.
Proof. exact set_yield_ok. Qed.
Print Assumptions C74_yield.

Theorem C74_simple : forall toary p f l fwd,
  params_ok p -> vals_ok l -> slots p <= length f ->
  exists r, call_result toary p (bare l) [] r /\
            agrees f (set_simple toary p f (compile_site (bare l) [] fwd) l) r.
Proof. exact set_simple_ok. Qed.
Print Assumptions C74_simple.

Theorem C74_forwarded_partial : forall toary p f a v b kws,
  params_ok p -> lits_first kws -> hashes_ok (splats kws) -> args_ok (forwarding a v b) ->
  plain toary p (forwarding a v b) kws -> no_flight p (forwarding a v b) kws ->
  no_flag p kws (a ++ mid v ++ b) -> slots p <= length f ->
  exists r, call_result toary p (forwarding a v b) kws r /\
    agrees f (forwarded_core toary p f (compile_site (forwarding a v b) kws true)) r.
Proof. exact forwarded_ok_call. Qed.
Print Assumptions C74_forwarded_partial.

Theorem C74_lazy_partial : forall toary p f a orig b kws,
  params_ok p -> merge kws = [] -> p_kws p = [] -> (no_keyword p = true \/ kws <> []) ->
  no_flag p kws (a ++ orig ++ b) -> single_arg_expand p = false -> slots p <= length f ->
  exists r, call_result toary p (forwarding a (VArr orig) b) kws r /\
    agrees f (lazy_fill p f (compile_site (forwarding a (VArr orig) b) kws true) (length a) orig) r.
Proof. exact lazy_fill_ok. Qed.
Print Assumptions C74_lazy_partial.

Theorem C74_deferred_partial : forall toary p f a orig kws s,
  deferred_gate p (length a) (length orig) = true ->
  params_ok p -> merge kws = [] -> (no_keyword p = true \/ kws <> []) ->
  no_flag p kws (a ++ orig) -> slots p <= length f ->
  s_pos s = a ++ orig ->
  exists st r, deferred_stores p (length a) (length orig) = Some st /\
    call_result toary p (forwarding a (VArr orig) []) kws r /\
    agrees f (run_stores s st f) r.
Proof. exact deferred_ok. Qed.
Print Assumptions C74_deferred_partial.

Theorem C74_invoked_partial : forall p f args u kw,
  params_ok p -> kw_ok kw -> slots p <= length f ->
  (p_kwrest p = false -> p_kws p <> [] -> leftover p (kw_hash kw) = []) ->
  exists r, call_result no_conv p (bare args) [KSplat kw] r /\
            agrees f (i_frame (invoke_args p f args u kw)) r.
Proof. exact invoke_ok. Qed.
Print Assumptions C74_invoked_partial.

Theorem C74_invoker_effects : forall p f args u kw,
  params_ok p -> kw_ok kw -> slots p <= length f ->
  i_kw (invoke_args p f args u kw) = option_map (leftover p) kw /\
  (i_args (invoke_args p f args u kw) = args \/
   i_args (invoke_args p f args u kw) = rev args /\ u = false /\ no_keyword p = true /\ kw_hash kw <> []).
Proof. exact invoke_effects. Qed.
Print Assumptions C74_invoker_effects.

Theorem C74_flag_refuted :
  let h := [(KSym 1%Z, o 5)] in
  let pos := [(VArr [VHash true h], true)] in
  set_frame no_conv rest_only [Junk] (compile_site pos [] true) = Ok [Val (VArr [VHash true h])] /\
  set_callee no_conv rest_only [Junk] (compile_site pos [] true) = Ok [Val (VArr [VHash false h])] /\
  call_result no_conv rest_only pos [] (inl [Val (VArr [VHash false h])]) /\
  wrong no_conv rest_only pos [] [Junk] (set_frame no_conv rest_only [Junk] (compile_site pos [] true)).
Proof. exact forwarded_flag_kept. Qed.
Print Assumptions C74_flag_refuted.

Theorem C74_to_ary_refuted :
  let conv := fun v => TArr [o 1; o 2] in
  i_frame (invoke_args b2 [Junk; Junk] [o 7] true None) = Ok [Val (o 7); Val VNil] /\
  set_callee conv b2 [Junk; Junk] (compile_site (bare [o 7]) [] false) = Ok [Val (o 1); Val (o 2)] /\
  wrong conv b2 (bare [o 7]) [] [Junk; Junk] (i_frame (invoke_args b2 [Junk; Junk] [o 7] true None)).
Proof. exact invoker_not_converted. Qed.
Print Assumptions C74_to_ary_refuted.

Theorem C74_consumed_refuted :
  let kw := Some [(KSym 1%Z, o 5)] in
  let first := invoke_args mkw [Junk] [] true kw in
  i_frame first = Ok [Val (o 5)] /\
  i_kw first = Some [] /\
  i_frame (invoke_args mkw [Junk] [] true (i_kw first)) = Ok [Unset].
Proof. exact invoker_keyword_consumed. Qed.
Print Assumptions C74_consumed_refuted.

Theorem C74_reversed_refuted :
  let p := par 3 0 None 0 [] false false in
  let r := invoke_args p [Junk; Junk; Junk] [o 1; o 2] false (Some [(KSym 1%Z, o 5)]) in
  i_frame r = Ok [Val (o 1); Val (o 2); Val (VHash false [(KSym 1%Z, o 5)])] /\ i_args r = [o 2; o 1].
Proof. exact invoker_reverses. Qed.
Print Assumptions C74_reversed_refuted.

Theorem C74_error_refuted :
  let p := par 1 0 None 0 [(1%Z, true)] false false in
  let kw := Some [(KSym 2%Z, o 5)] in
  i_frame (invoke_args p [Junk; Junk] [] true kw) = Err (EUnknown [KSym 2%Z]) /\
  set_callee no_conv p [Junk; Junk] (compile_site [] [KSplat kw] false) = Err (EArity 0).
Proof. exact invoker_order. Qed.
Print Assumptions C74_error_refuted.

Example C74_ex :
  set_yield no_conv b2 [Junk; Junk] (compile_site (bare [VArr [o 1; o 2; o 3]]) [] false)
    = Ok [Val (o 1); Val (o 2)] /\
  set_frame no_conv (par 2 1 (Some false) 0 [] true false) (repeat Junk 5)
    (compile_site (forwarding [o 1] (VArr [o 2; o 3; o 4]) []) [KSplat None] true)
    = Ok [Val (o 1); Val (o 2); Val (o 3); Val (VArr [o 4]); Val VNil] /\
  deferred_stores (par 2 1 (Some false) 0 [] true false) 1 3
    = Some [(0, SArg 0); (1, SArg 1); (2, SArg 2); (3, SRest 3 1); (4, SNil)] /\
  i_frame (invoke_args mkw [Junk] [] false (Some [(KSym 1%Z, o 5)])) = Ok [Val (o 5)].
Proof. repeat split. Qed.
