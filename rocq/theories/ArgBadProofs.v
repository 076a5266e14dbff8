(** Calls that do not do what the call says: witnesses. *)

From Coq Require Import ZArith List Bool Lia Arith.
From Verif Require Import ArgModel ArgSpec ArgProofs ArgKwProofs ArgCallProofs ArgJitProofs ArgFwdProofs.
Import ListNotations.
Open Scope nat_scope.

(** [wrong toary p pos kws x]: whatever the call should give, [x] is not it. *)
Definition wrong (toary : value -> to_ary) (p : params) (pos : list (value * bool))
    (kws : list kwarg) (f : frame) (x : res frame) : Prop :=
  (exists r, call_result toary p pos kws r) /\
  forall r, call_result toary p pos kws r -> ~ agrees f x r.

Definition closed_result (r : list cell + err) : Prop :=
  match r with
  | inl cs => forall pre c, cs = pre ++ [c] -> ~ is_kwrest [] c
  | inr (EUnknown _) => False
  | inr _ => True
  end.

Lemma wrong_intro : forall toary p pos kws f x r,
  call_result toary p pos kws r -> closed_result r -> ~ agrees f x r -> wrong toary p pos kws f x.
Proof.
  intros toary p pos kws f x r C CL N. split; [eauto|]. intros r' C'.
  destruct (call_result_fun _ _ _ _ _ _ C C') as [->|[(u & u' & -> & _)|(pre & c & c' & -> & _ & K & _)]].
  - exact N.
  - destruct CL.
  - destruct (CL pre c eq_refl K).
Qed.

Lemma closed_last : forall cs c, ~ is_kwrest [] c -> closed_result (inl (cs ++ [c])).
Proof.
  intros cs c N pre c' E. apply app_inj_tail in E as [_ <-]. exact N.
Qed.

Lemma not_kwrest_obj : forall z, ~ is_kwrest [] (Val (VObj z)).
Proof. intros z [H|[_ H]]; discriminate. Qed.

Lemma not_kwrest_arr : forall l, ~ is_kwrest [] (Val (VArr l)).
Proof. intros z [H|[_ H]]; discriminate. Qed.

Definition par (req opt : nat) (rest : option bool) (post : nat) (kws : list (name * bool))
    (kwrest block : bool) : params :=
  {| p_req := req; p_opt := opt; p_rest := rest; p_post := post; p_kws := kws;
     p_kwrest := kwrest; p_forbid := false; p_block := block; p_r2k := false |}.

Definition o (z : Z) : value := VObj z.

(** Bound without keyword parameters and keywords. *)
Lemma bound_simple : forall toary p pos args cs,
  flight p (existsb snd pos) [] (spread pos) = (args, []) -> no_keyword p = true ->
  p_forbid p = false ->
  forall l, autosplat toary p args (inl l) -> positional p l cs ->
  call_result toary p pos [] (inl cs).
Proof.
  intros toary p pos args cs FL N FO l AS P. rewrite <- (app_nil_r cs).
  destruct (no_keyword_parts p N) as [K1 K2].
  apply (cr_bound toary p pos [] args [] l cs []); auto.
  - unfold fold_keywords. rewrite N. cbn [fst]. now rewrite app_nil_r.
  - unfold fold_keywords. rewrite N. cbn [snd].
    replace (@nil cell) with (kw_cells p []) by (unfold kw_cells; now rewrite K1).
    apply kwr_plain; [unfold missing_kws; now rewrite K1|exact K2|reflexivity].
Qed.

Ltac cutting := repeat split; cbn; try lia; try congruence; try discriminate.

(** f([**{a: 1}, a: 2]) binds 1. *)
Lemma later_keyword_lost :
  let p := par 0 0 None 0 [(1%Z, true)] false false in
  let kws := [KSplat (Some [(KSym 1%Z, o 10)]); KLit 1%Z (o 20)] in
  params_ok p /\
  set_callee no_conv p [Junk] (compile_site [] kws false) = Ok [Val (o 10)] /\
  call_result no_conv p [] kws (inl [Val (o 20)]) /\
  wrong no_conv p [] kws [Junk] (set_callee no_conv p [Junk] (compile_site [] kws false)).
Proof.
  intros p kws.
  assert (C : call_result no_conv p [] kws (inl [Val (o 20)])).
  { apply (cr_bound no_conv p [] kws [] [(KSym 1%Z, o 20)] [] [] [Val (o 20)]); try reflexivity.
    - discriminate.
    - apply as_several. discriminate.
    - apply (pos_method p [] [] [] [] []); cutting.
    - apply (kwr_plain p [(KSym 1%Z, o 20)]); reflexivity. }
  split; [split; [repeat constructor; cbn; tauto|discriminate]|].
  split; [reflexivity|]. split; [exact C|].
  apply (wrong_intro _ _ _ _ _ _ _ C); [apply (closed_last []), not_kwrest_obj|discriminate].
Qed.

(** yield( *[], [1, 2]) to |a, b|. *)
Definition b2 : params := par 2 0 None 0 [] false true.

Lemma splat_not_taken_apart :
  let pos := [(VArr [], true); (VArr [o 1; o 2], false)] in
  set_callee no_conv b2 [Junk; Junk] (compile_site pos [] false) = Ok [Val (VArr [o 1; o 2]); Val VNil] /\
  call_result no_conv b2 pos [] (inl [Val (o 1); Val (o 2)]) /\
  wrong no_conv b2 pos [] [Junk; Junk] (set_callee no_conv b2 [Junk; Junk] (compile_site pos [] false)).
Proof.
  intros pos.
  assert (C : call_result no_conv b2 pos [] (inl [Val (o 1); Val (o 2)])).
  { eapply (bound_simple _ _ _ [VArr [o 1; o 2]]); try reflexivity.
    - now apply as_array.
    - apply (pos_block b2 [o 1; o 2] [o 1; o 2] [] [] []); cutting. }
  split; [reflexivity|]. split; [exact C|].
  apply (wrong_intro _ _ _ _ _ _ _ C); [apply (closed_last [_]), not_kwrest_obj|discriminate].
Qed.

(** yield( *[x]) to |a, b| where x converts to an Array. *)
Lemma splat_not_converted :
  let conv := fun v => TArr [o 1; o 2] in
  let pos := [(VArr [o 7], true)] in
  set_callee conv b2 [Junk; Junk] (compile_site pos [] false) = Ok [Val (o 7); Val VNil] /\
  call_result conv b2 pos [] (inl [Val (o 1); Val (o 2)]) /\
  wrong conv b2 pos [] [Junk; Junk] (set_callee conv b2 [Junk; Junk] (compile_site pos [] false)).
Proof.
  intros conv pos.
  assert (C : call_result conv b2 pos [] (inl [Val (o 1); Val (o 2)])).
  { eapply (bound_simple _ _ _ [o 7]); try reflexivity.
    - apply (as_conv conv b2 [o 7] (o 7)); reflexivity.
    - apply (pos_block b2 [o 1; o 2] [o 1; o 2] [] [] []); cutting. }
  split; [reflexivity|]. split; [exact C|].
  apply (wrong_intro _ _ _ _ _ _ _ C); [apply (closed_last [_]), not_kwrest_obj|discriminate].
Qed.

(** A flagged Hash splatted to a [**nil] method disappears. *)
Definition pnil : params :=
  {| p_req := 0; p_opt := 0; p_rest := None; p_post := 0; p_kws := []; p_kwrest := true;
     p_forbid := true; p_block := false; p_r2k := false |}.

Lemma flagged_hash_dropped :
  let pos := [(VArr [VHash true [(KSym 1%Z, o 5)]], true)] in
  set_callee no_conv pnil [Junk] (compile_site pos [] false) = Ok [Val VNil] /\
  call_result no_conv pnil pos [] (inr ENoKw) /\
  wrong no_conv pnil pos [] [Junk] (set_callee no_conv pnil [Junk] (compile_site pos [] false)).
Proof.
  intros pos.
  assert (C : call_result no_conv pnil pos [] (inr ENoKw)).
  { apply (cr_nokw no_conv pnil pos [] [] [(KSym 1%Z, o 5)]); try reflexivity. discriminate. }
  split; [reflexivity|]. split; [exact C|].
  apply (wrong_intro _ _ _ _ _ _ _ C); [exact I|discriminate].
Qed.

(** ** Compiled calls *)

(** proc { |a, b = 0, c| }.call(1, 2, 3, 4): c is 3, compiled 4, and the
    compiler takes it for argument number 2 (the third). *)
Definition bpost : params := par 1 1 None 1 [] false true.

Lemma compiled_post_wrong :
  let pos := bare [o 1; o 2; o 3; o 4] in
  let f := [Junk; Junk; Junk] in
  is_simple_call bpost (compile_site pos [] false) = true /\
  jit_call bpost (compile_site pos [] false) f = Some (Ok [Val (o 1); Val (o 2); Val (o 4)]) /\
  set_callee no_conv bpost f (compile_site pos [] false) = Ok [Val (o 1); Val (o 2); Val (o 3)] /\
  nth_error (jit_types bpost (compile_site pos [] false)) 2 = Some (SArg 2) /\
  call_result no_conv bpost pos [] (inl [Val (o 1); Val (o 2); Val (o 3)]) /\
  wrong no_conv bpost pos [] f (Ok [Val (o 1); Val (o 2); Val (o 4)]).
Proof.
  intros pos f.
  assert (C : call_result no_conv bpost pos [] (inl [Val (o 1); Val (o 2); Val (o 3)])).
  { eapply (bound_simple _ _ _ [o 1; o 2; o 3; o 4]); try reflexivity.
    - apply as_several. discriminate.
    - apply (pos_block bpost [o 1; o 2; o 3; o 4] [o 1] [o 2] [] [o 3]); cutting. }
  repeat (split; [reflexivity|]). split; [exact C|].
  apply (wrong_intro _ _ _ _ _ _ _ C); [apply (closed_last [_; _]), not_kwrest_obj|discriminate].
Qed.

(** The type the compiler believes for a slot is not the type of what is there. *)
Lemma compiled_post_mistyped :
  let s := compile_site (bare [o 1; o 2; o 3; VArr []]) [] false in
  exists f', jit_call bpost s [Junk; Junk; Junk] = Some (Ok f') /\
  exists src c, nth_error (jit_types bpost s) 2 = Some src /\ nth_error f' 2 = Some c /\ ~ describes s src c.
Proof.
  eexists. split; [reflexivity|]. exists (SArg 2), (Val (VArr [])).
  split; [reflexivity|]. split; [reflexivity|]. intros (v & H & E). cbn in H. injection H as <-. discriminate.
Qed.

(** lambda { |a,| }.call(1, 2) compiled does not complain. *)
Definition lam : params := par 1 0 (Some true) 0 [] false false.

Lemma compiled_implicit_rest :
  let pos := bare [o 1; o 2] in
  let f := [Junk; Junk] in
  is_simple_call lam (compile_site pos [] false) = true /\
  jit_call lam (compile_site pos [] false) f = Some (Ok [Val (o 1); Val (VArr [o 2])]) /\
  set_callee no_conv lam f (compile_site pos [] false) = Err (EArity 2) /\
  call_result no_conv lam pos [] (inr (EArity 2)) /\
  wrong no_conv lam pos [] f (Ok [Val (o 1); Val (VArr [o 2])]).
Proof.
  intros pos f.
  assert (C : call_result no_conv lam pos [] (inr (EArity 2))).
  { apply (cr_arity no_conv lam pos [] [o 1; o 2] [] [o 1; o 2]); try reflexivity.
    - apply as_several. discriminate.
    - intros [_ [H|H]]; cbn in H; [lia|discriminate]. }
  repeat (split; [reflexivity|]). split; [exact C|].
  apply (wrong_intro _ _ _ _ _ _ _ C); [exact I|discriminate].
Qed.

(** def m(a: 0); m(b: 1) compiled drops b. *)
Definition mkw : params := par 0 0 None 0 [(1%Z, false)] false false.

Lemma compiled_unknown_keyword :
  let kws := [KLit 2%Z (o 5)] in
  is_simple_call mkw (compile_site [] kws false) = true /\
  jit_call mkw (compile_site [] kws false) [Junk] = Some (Ok [Unset]) /\
  set_callee no_conv mkw [Junk] (compile_site [] kws false) = Err (EUnknown [KSym 2%Z]) /\
  call_result no_conv mkw [] kws (inr (EUnknown [KSym 2%Z])) /\
  wrong no_conv mkw [] kws [Junk] (Ok [Unset]).
Proof.
  intros kws.
  assert (C : call_result no_conv mkw [] kws (inr (EUnknown [KSym 2%Z]))).
  { apply (cr_keyword no_conv mkw [] kws [] [(KSym 2%Z, o 5)] [] []); try reflexivity.
    - discriminate.
    - apply as_several. discriminate.
    - apply (pos_method mkw [] [] [] [] []); cutting.
    - apply (kwr_unknown mkw [(KSym 2%Z, o 5)]); try reflexivity. discriminate. }
  repeat (split; [reflexivity|]). split; [exact C|].
  split; [eauto|]. intros r R.
  destruct (call_result_fun _ _ _ _ _ _ C R) as [<-|[(u & u' & _ & -> & _)|(pre & c & c' & X & _)]];
    discriminate.
Qed.

(** m(a: 1, a: 2): compiling it panics. *)
Lemma compiled_duplicate_keyword :
  let p := par 0 0 None 0 [] true false in
  let kws := [KLit 1%Z (o 1); KLit 2%Z (o 7); KLit 1%Z (o 2)] in
  is_simple_call p (compile_site [] kws false) = true /\
  jit_call p (compile_site [] kws false) [Junk] = None /\
  set_callee no_conv p [Junk] (compile_site [] kws false)
    = Ok [Val (VHash false [(KSym 1%Z, o 2); (KSym 2%Z, o 7)])].
Proof. repeat split. Qed.

(** define_method(:m) { |a, b| }: interpreted m(1) raises, compiled it does not. *)
Lemma compiled_define_method :
  let pos := bare [VArr [o 1; o 2]] in
  let s := compile_site (bare [o 1; o 2; o 3]) [] false in
  set_callee no_conv (method_of b2) [Junk; Junk] s = Err (EArity 3) /\
  is_simple_call b2 s = true /\
  jit_call b2 s [Junk; Junk] = Some (Ok [Val (o 1); Val (o 2)]) /\
  set_callee no_conv (method_of b2) [Junk; Junk] (compile_site pos [] false) = Err (EArity 1) /\
  set_callee no_conv b2 [Junk; Junk] (compile_site pos [] false) = Ok [Val (o 1); Val (o 2)].
Proof. repeat split. Qed.

(** ** Forwarding and builtin callers *)

(** ruby2_keywords def m( *args) = super, to a parent def m( *args): the flag
    stays, so the parent's own splat passes keywords. *)
Definition rest_only : params := par 0 0 (Some false) 0 [] false false.

Lemma forwarded_flag_kept :
  let h := [(KSym 1%Z, o 5)] in
  let pos := [(VArr [VHash true h], true)] in
  set_frame no_conv rest_only [Junk] (compile_site pos [] true) = Ok [Val (VArr [VHash true h])] /\
  set_callee no_conv rest_only [Junk] (compile_site pos [] true) = Ok [Val (VArr [VHash false h])] /\
  call_result no_conv rest_only pos [] (inl [Val (VArr [VHash false h])]) /\
  wrong no_conv rest_only pos [] [Junk] (set_frame no_conv rest_only [Junk] (compile_site pos [] true)).
Proof.
  intros h pos.
  assert (C : call_result no_conv rest_only pos [] (inl [Val (VArr [VHash false h])])).
  { eapply (bound_simple _ _ _ [VHash false h]); try reflexivity.
    - apply as_not. reflexivity.
    - apply (pos_method rest_only [VHash false h] [] [] [VHash false h] []); cutting. now right. }
  split; [reflexivity|]. split; [reflexivity|]. split; [exact C|].
  apply (wrong_intro _ _ _ _ _ _ _ C); [apply (closed_last []), not_kwrest_arr|discriminate].
Qed.

(** A builtin calling a block does not ask for #to_ary. *)
Lemma invoker_not_converted :
  let conv := fun v => TArr [o 1; o 2] in
  i_frame (invoke_args b2 [Junk; Junk] [o 7] true None) = Ok [Val (o 7); Val VNil] /\
  set_callee conv b2 [Junk; Junk] (compile_site (bare [o 7]) [] false) = Ok [Val (o 1); Val (o 2)] /\
  wrong conv b2 (bare [o 7]) [] [Junk; Junk] (i_frame (invoke_args b2 [Junk; Junk] [o 7] true None)).
Proof.
  intros conv.
  assert (C : call_result conv b2 (bare [o 7]) [] (inl [Val (o 1); Val (o 2)])).
  { eapply (bound_simple _ _ _ [o 7]); try reflexivity.
    - apply (as_conv conv b2 [o 7] (o 7)); reflexivity.
    - apply (pos_block b2 [o 1; o 2] [o 1; o 2] [] [] []); cutting. }
  split; [reflexivity|]. split; [reflexivity|].
  apply (wrong_intro _ _ _ _ _ _ _ C); [apply (closed_last [_]), not_kwrest_obj|discriminate].
Qed.

(** Calling again with the same keyword Hash: the keyword is gone. *)
Lemma invoker_keyword_consumed :
  let kw := Some [(KSym 1%Z, o 5)] in
  let first := invoke_args mkw [Junk] [] true kw in
  i_frame first = Ok [Val (o 5)] /\
  i_kw first = Some [] /\
  i_frame (invoke_args mkw [Junk] [] true (i_kw first)) = Ok [Unset].
Proof. repeat split. Qed.

(** Arguments 1, 2 and a keyword to a builtin's downward caller: the caller's
    arguments are reversed. *)
Lemma invoker_reverses :
  let p := par 3 0 None 0 [] false false in
  let r := invoke_args p [Junk; Junk; Junk] [o 1; o 2] false (Some [(KSym 1%Z, o 5)]) in
  i_frame r = Ok [Val (o 1); Val (o 2); Val (VHash false [(KSym 1%Z, o 5)])] /\ i_args r = [o 2; o 1].
Proof. repeat split. Qed.

(** def m(x, a: 0) called by a builtin without x and with an unknown keyword. *)
Lemma invoker_order :
  let p := par 1 0 None 0 [(1%Z, true)] false false in
  let kw := Some [(KSym 2%Z, o 5)] in
  i_frame (invoke_args p [Junk; Junk] [] true kw) = Err (EUnknown [KSym 2%Z]) /\
  set_callee no_conv p [Junk; Junk] (compile_site [] [KSplat kw] false) = Err (EArity 0).
Proof. repeat split. Qed.
