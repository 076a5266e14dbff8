(** C94 to C96: constants, their caches, the code compiled with their values. *)
From Coq Require Import List Bool Arith.
From Verif Require Import ConstModel ConstSpec ConstProofs ConstCacheProofs ConstGuardProofs ConstDefProofs ConstLookProofs ConstBadProofs.
Import ListNotations.

(** C94. *)
(** For all programs and histories: if every definition by keyword, autoload, change of
    visibility and change of a lexical context concerns names (code) that no current cache and no
    compiled code knows, and no reference takes its value from [const_missing], then every
    reference, interpreted or compiled, gives what it would without caches. *)
Theorem C94_reads_partial : forall info s l, fresh s -> fair_all info s l ->
  snd (run info s l) = snd (wrun info (senv s, lexs s) l).
Proof. exact reads_right. Qed.
Print Assumptions C94_reads_partial.
(** Assignments, an include, a removal; a unit that is salvaged because the name is another, one
    whose value is compared, one that is given up. *)
Example C94_reads_ex :
  let l := [rd 0; rd 1; EKeyword OBJECT BAR 6; rd 3; ECompile 0 7 false [0; 3]; EAssign M MOD (VMod M); ERun 0 0 None 7 no_hook; ERun 0 0 None 7 no_hook;
            EAssign OBJECT BAR (VMod 6); ERun 0 3 None 7 no_hook; ERun 0 3 None 7 no_hook; ERun 0 3 None 7 no_hook;
            EAssign M FOO (VInt 4); ERun 0 0 None 7 no_hook; ERun 0 0 None 7 no_hook;
            EInclude (fun c => [c]); rd 3; ERemove M FOO; rd 0] in
  fair_all sites s0 (firstn 15 l) /\ fresh s0 /\
  got l = [val (VMod 5); Some (RErr (ErrName M FOO)); None; val (VMod 6); None; None; val (VMod 5); val (VMod 5);
           None; val (VMod 6); val (VMod 6); val (VMod 6); None; val (VInt 4); val (VInt 4);
           None; Some (RErr (ErrName M BAR)); None; Some (RErr (ErrName M FOO))].
Proof.
  cbn zeta. split; [|split; [split; intros; reflexivity|vm_compute; reflexivity]].
  cbn [firstn fair_all]. repeat split; try exact I; try (intros v H; vm_compute in H; discriminate).
  intros i c H Hn. exfalso. destruct i as [|[|[|i]]]; vm_compute in H; try discriminate. vm_compute in Hn. destruct Hn as [Hn|[]]. discriminate.
Qed.

(** Without caches: a name in a method is the one of the nearest of the classes around it, inside
    out, then of the ancestors of the innermost, then of [Object]. *)
Theorem C94_lookup : forall e h l s k, rooted e -> l_frame l = None ->
  s_top s = false -> s_prefix s = [] -> s_check s = false -> live k ->
  nearest e (s_name s) (around e (l_meth l)) k -> resolve e h l s None None = ends k.
Proof. exact name_right. Qed.
Print Assumptions C94_lookup.
(** If there is none, [const_missing] of the innermost class is asked. *)
Theorem C94_lookup_missing : forall e h l s, rooted e -> l_frame l = None ->
  s_top s = false -> s_prefix s = [] -> s_check s = false ->
  (forall c, In c (around e (l_meth l)) -> ~ has e (s_name s) c) ->
  resolve e h l s None None = match h (hd OBJECT (l_meth l)) (s_name s) with
                              | Some v => RVal v true | None => RErr (ErrName (hd OBJECT (l_meth l)) (s_name s)) end.
Proof. exact name_missing. Qed.
Print Assumptions C94_lookup_missing.
(** In [class 7; module Mod]: [Mod]'s, then 7's, then those of [Mod]'s ancestors. *)
Example C94_lookup_ex :
  let l := mkLex None None [M; 7] (fun _ c => c) in
  let e1 := put env0 KERNEL FOO (VInt 1) in let e2 := put e1 7 FOO (VInt 2) in let e3 := put e2 M FOO (VInt 3) in
  rooted env0 /\ around env0 (l_meth l) = [M; 7; M; OBJECT; KERNEL; BASIC; OBJECT]
  /\ map (fun e => resolve e no_hook l (sites 0) None None) [env0; e1; e2; e3; set_tbl e1 OBJECT FOO None; put_autoload env0 7 FOO; put_state (put_autoload env0 7 FOO) 7 FOO Loading]
     = [RVal (VMod 5) false; RVal (VMod 5) false; RVal (VInt 2) false; RVal (VInt 3) false; RVal (VInt 1) false; RFire; RVal (VMod 5) false].
Proof.
  cbn zeta. split; [|vm_compute; split; reflexivity]. intros c H. unfold env0, chain.
  apply Nat.eqb_neq in H. rewrite H. destruct (c =? OBJECT); [left; reflexivity|right; left; reflexivity].
Qed.
(** In a class that was computed: the nearest of its ancestors', not [Object]'s, nothing private. *)
Theorem C94_in_class : forall e h l s c k, s_prefix s = [] -> s_check s = false -> live k ->
  nearest e (s_name s) (filter (fun d => negb ((d =? OBJECT) && negb (c =? OBJECT))) (chain e c)) k ->
  (forall d, In d (chain e c) -> has e (s_name s) d -> is_priv e d (s_name s) = false) ->
  resolve e h l s (Some (VMod c)) None = ends k.
Proof. exact in_class_right. Qed.
Print Assumptions C94_in_class.
Theorem C94_in_class_private : forall e h l s c d, s_prefix s = [] -> s_check s = false ->
  nearest_class e (s_name s) (chain e c) d -> is_priv e d (s_name s) = true ->
  resolve e h l s (Some (VMod c)) None = match h c (s_name s) with Some v => RVal v true | None => RErr (ErrPriv d (s_name s)) end.
Proof. exact in_class_private. Qed.
Print Assumptions C94_in_class_private.
Example C94_in_class_ex :
  let e1 := put env0 KERNEL FOO (VInt 1) in let e2 := put e1 7 FOO (VInt 2) in let e3 := put_priv e2 7 FOO true in
  map (fun e => resolve e no_hook in_mod (sites 0) (Some (VMod 7)) None) [env0; e1; e2; e3]
  = [RErr (ErrName 7 FOO); RVal (VInt 1) false; RVal (VInt 2) false; RErr (ErrPriv 7 FOO)]
  /\ resolve env0 no_hook in_mod (sites 0) (Some (VMod OBJECT)) None = RVal (VMod 5) false
  /\ resolve env0 no_hook in_mod (sites 0) (Some (VInt 3)) None = RErr ErrType.
Proof. vm_compute. repeat split. Qed.
(** [A::B] is [B] in what [A] is. *)
Theorem C94_path : forall e h l s p k, s_top s = false -> s_prefix s = [p] ->
  resolve e h l s None k =
  match resolve e h l (alone s p false) None k with
  | RVal (VMod c) hk => mark hk (resolve e h l (mkS (s_name s) [] false true (s_iseq s) (s_single s) (s_check s)) (Some (VMod c)) k)
  | RVal _ _ => RErr ErrType
  | r => r
  end.
Proof. exact path_right. Qed.
Print Assumptions C94_path.
Example C94_path_ex : resolve (put env0 5 BAR (VInt 3)) no_hook in_mod (mkS BAR [FOO] false false 0 false false) None None = RVal (VInt 3) false
  /\ resolve (put env0 OBJECT BAR (VInt 3)) no_hook in_mod (mkS BAR [FOO] false false 0 false false) None None = RErr (ErrName 5 BAR)
  /\ resolve (put env0 5 BAR (VInt 3)) no_hook in_mod (mkS FOO [FOO; BAR] true false 0 false false) None None = RErr ErrType
  /\ resolve (put_priv (put env0 5 BAR (VMod M)) 5 BAR true) no_hook in_mod (mkS FOO [FOO; BAR] true false 0 false false) None None = RErr (ErrPriv 5 BAR).
Proof. vm_compute. repeat split. Qed.
(** In [eval] inside [class 7], called from a method of [Mod], with [instance_eval "..."] on an
    object of singleton class 8; in [class << obj] the receiver's own class comes first. *)
Example C94_eval_ex :
  let l := mkLex (Some [9; 7]) (Some 8) [M] (fun k c => if c =? 9 then k else c) in
  let e1 := put env0 M FOO (VInt 1) in let e2 := put e1 7 FOO (VInt 2) in
  let e3 := put e2 8 FOO (VInt 3) in let e4 := put e3 9 FOO (VInt 4) in let e5 := put e4 6 FOO (VInt 5) in
  map (fun e => resolve e no_hook l (sites 0) None None) [env0; e1; e2; e3; e4]
  = [RVal (VMod 5) false; RVal (VInt 1) false; RVal (VInt 2) false; RVal (VInt 3) false; RVal (VInt 4) false]
  /\ resolve e5 no_hook l (sites 0) None (Some 6) = RVal (VInt 5) false
  /\ resolve (put env0 9 FOO (VInt 6)) no_hook (mkLex (Some [9]) None [M] (fun _ c => c)) (sites 0) None None = RVal (VInt 6) false
  /\ (let e := mkEnv (tbl (put env0 4 FOO (VInt 7))) (fun c => if c =? 9 then [9; 4; OBJECT; KERNEL; BASIC] else chain env0 c) in
      resolve e no_hook (mkLex (Some [9]) None [M] (fun _ c => c)) (sites 0) None None = RVal (VInt 7) false
      /\ resolve e no_hook (mkLex (Some [OBJECT]) None [M] (fun _ c => c)) (sites 0) None None = RVal (VMod 5) false
      /\ resolve e no_hook (mkLex (Some [OBJECT]) None [9] (fun _ c => c)) (sites 3) None None = RErr (ErrName 9 BAR)).
Proof. vm_compute. repeat split. Qed.

(** Assigning a constant keeps its visibility and touches nothing else. *)
Theorem C94_put : forall e c n v d m,
  is_priv (put e c n v) d m = is_priv e d m
  /\ tbl (put e c n v) c n = Some (mkE (Loaded v) (is_priv e c n))
  /\ (d <> c \/ m <> n -> tbl (put e c n v) d m = tbl e d m)
  /\ chain (put e c n v) = chain e.
Proof. exact put_keeps. Qed.
Print Assumptions C94_put.
Example C94_put_ex : is_priv (put (put_priv (put env0 M FOO (VInt 1)) M FOO true) M FOO (VInt 2)) M FOO = true.
Proof. reflexivity. Qed.

(** A resolution depends on the tables only at the names that are written in the reference. *)
Theorem C94_names : forall e1 e2 h l s b k,
  (forall c, chain e1 c = chain e2 c) -> (forall c n, In n (names s) -> tbl e1 c n = tbl e2 c n) ->
  resolve e1 h l s b k = resolve e2 h l s b k.
Proof. intros e1 e2 h l s b k H1 H2. exact (agree_resolve e1 e2 h l s b k (conj H1 H2)). Qed.
Print Assumptions C94_names.
Example C94_names_ex : resolve (put env0 M BAR (VInt 1)) no_hook in_mod (sites 0) None None = RVal (VMod 5) false
  /\ resolve (put env0 M FOO (VInt 1)) no_hook in_mod (sites 0) None None = RVal (VInt 1) false.
Proof. vm_compute. split; reflexivity. Qed.

(** A definition by keyword that hides a cached constant is not seen. *)
Theorem C94_keyword_refuted : got keyword_hist = [val (VMod 5); None; val (VMod 5)] /\ want keyword_hist = [val (VMod 5); None; val (VMod 6)].
Proof. exact keyword_bad. Qed.
Print Assumptions C94_keyword_refuted.
(** Nor is an autoload. *)
Theorem C94_autoload_refuted : got autoload_hist = [val (VMod 5); None; val (VMod 5)] /\ want autoload_hist = [val (VMod 5); None; Some RFire].
Proof. exact autoload_bad. Qed.
Print Assumptions C94_autoload_refuted.
(** A constant made private is still readable from outside where it was read before. *)
Theorem C94_private_refuted : got private_hist = [None; val (VInt 1); None; val (VInt 1)]
  /\ want private_hist = [None; val (VInt 1); None; Some (RErr (ErrPriv M FOO))].
Proof. exact private_bad. Qed.
Print Assumptions C94_private_refuted.
(** [const_missing] is asked once. *)
Theorem C94_hook_refuted : map (option_map vis) (got hook_hist) = [val (VInt 1); val (VInt 1)]
  /\ map (option_map vis) (want hook_hist) = [val (VInt 1); val (VInt 2)].
Proof. exact hook_bad. Qed.
Print Assumptions C94_hook_refuted.
(** [X ||= v] keeps finding nothing after [class X]. *)
Theorem C94_check_refuted : got check_hist = [val VNil; None; val VNil] /\ want check_hist = [val VNil; None; val (VMod 6)].
Proof. exact check_bad. Qed.
Print Assumptions C94_check_refuted.
(** The body of a class entered for another class. *)
Theorem C94_context_refuted : got stamp_hist = [None; None; val (VInt 1); None; val (VInt 1)]
  /\ want stamp_hist = [None; None; val (VInt 1); None; val (VInt 2)].
Proof. exact stamp_bad. Qed.
Print Assumptions C94_context_refuted.

(** C95. *)
(** Compiled code entered after any such history, with one guard for a run of reads: if what
    keeps the guard does not move the version, it reads what there is. *)
Theorem C95_guard_partial : forall info s l u un h p, fresh s -> fair_all info s l ->
  let t := fst (run info s l) in units t u = Some un ->
  tame_insts info (senv t, lexs t) u (u_self un) h p ->
  run_jit info t u un false h p = wrun_inst info (senv t, lexs t) (u_self un) h p.
Proof. exact compiled_right. Qed.
Print Assumptions C95_guard_partial.
Example C95_guard_ex : exists un, units s1 0 = Some un /\ tame_insts sites (senv s1, lexs s1) 0 (u_self un) no_hook by_call
  /\ run_jit sites s1 0 un false no_hook (by_call ++ [ICall [EAssign OBJECT FOO (VMod 5)]; IFold 0 None])
     = [RVal (VMod 5) false; RVal (VInt 2) false; RVal (VMod 5) false].
Proof.
  eexists. split; [reflexivity|]. split; [|vm_compute; reflexivity].
  cbn [tame_insts by_call]. repeat split; try exact I; try (intros v H; vm_compute in H; discriminate).
  intros self b is [H|[]]. discriminate.
Qed.
(** A salvaged unit is one whose values are those of the constants now. *)
Theorem C95_salvage_partial : forall info s l u un un', fresh s -> fair_all info s l ->
  let t := fst (run info s l) in units t u = Some un -> salvage t un = Some un' -> u_word un' = ver t ->
  forall f, In f (u_folds un') ->
  resolve_at info (senv t) (lexs t) no_hook (f_site f) (c_base (f_cache f)) (c_key (f_cache f)) = RVal (c_val (f_cache f)) false.
Proof. exact salvage_right. Qed.
Print Assumptions C95_salvage_partial.
Example C95_salvage_ex : let t := fst (run sites s0 [rd 0; ECompile 0 7 false [0]; EAssign OBJECT BAR (VInt 1)]) in
  match units t 0 with
  | Some un => u_word un <> ver t /\ match salvage t un with Some un' => u_word un' = ver t | None => False end
  | None => False
  end.
Proof. vm_compute. split; [discriminate|reflexivity]. Qed.
(** What is folded: the value of a cache that is current, that was made for objects of this class if the
    site depends on the object, and that knows its base if the site has one. *)
Theorem C95_folded : forall info s self i f, fold_site info s self i = Some f <->
  (caches s i = Some (f_cache f) /\ c_ver (f_cache f) = ver s /\ f_site f = i /\ f_names f = names (info i) /\
   match c_key (f_cache f) with Some k => k = self | None => s_single (info i) = false end /\
   (s_base (info i) = true -> c_base (f_cache f) <> None)).
Proof. exact fold_site_spec. Qed.
Print Assumptions C95_folded.
(** A site that was read is folded; it is not after an assignment. *)
Example C95_folded_ex :
  let t := fst (run sites s0 [rd 0]) in let t' := fst (run sites s0 [rd 0; EAssign OBJECT BAR (VInt 1)]) in
  match fold_site sites t 7 0 with Some f => f_names f = names (sites 0) /\ c_ver (f_cache f) = ver t | None => False end
  /\ fold_site sites t' 7 0 = None /\ fold_site sites t 7 1 = None.
Proof. vm_compute. repeat split; reflexivity. Qed.

(** A constant assigned in the [to_s] of an interpolated object: the code goes on with the old one. *)
Theorem C95_helper_refuted : exists un, units s1 0 = Some un
  /\ run_jit sites s1 0 un false no_hook interp = [RVal (VMod 5) false; RVal (VMod 5) false]
  /\ run_jit sites s1 0 un false no_hook by_call = [RVal (VMod 5) false; RVal (VInt 2) false]
  /\ run_vm sites s1 7 no_hook interp = [RVal (VMod 5) false; RVal (VInt 2) false].
Proof. exact helper_bad. Qed.
Print Assumptions C95_helper_refuted.
(** A unit is declared valid again although a definition by keyword has changed its constant. *)
Theorem C95_salvage_refuted : got salvage_hist = [val (VMod 5); None; None; None; val (VMod 6); val (VMod 6); val (VMod 5)]
  /\ want salvage_hist = [val (VMod 5); None; None; None; val (VMod 6); val (VMod 6); val (VMod 6)].
Proof. exact salvage_bad. Qed.
Print Assumptions C95_salvage_refuted.

(** C96. *)
(** [defined?] of a name, or of a name in a class, is true just when reading it finds a constant
    (or an autoload), where the name is not both [Object]'s own and that of a class behind it. *)
Theorem C96_defined_partial : forall e l s base, s_check s = false ->
  length (s_prefix s) <= (match base with Some _ => 0 | None => if s_top s then 0 else 1 end) ->
  (forall p, In p (s_prefix s) -> first_in e p (scopes e l None) <> LFire) ->
  (forall c, plain e c (s_name s)) ->
  probe e l s base None = true <-> found (resolve e no_hook l s base None).
Proof. exact defined_right. Qed.
Print Assumptions C96_defined_partial.
Example C96_defined_ex :
  (forall c, plain (put_priv (put env0 M FOO (VInt 1)) M FOO true) c FOO)
  /\ probe (put_priv (put env0 M FOO (VInt 1)) M FOO true) in_mod (sites 1) None None = false
  /\ probe (put env0 M FOO (VInt 1)) in_mod (sites 1) None None = true
  /\ probe env0 in_mod (sites 1) None None = false /\ probe env0 in_mod (sites 0) None None = true.
Proof.
  split; [|vm_compute; repeat split]. intros c. destruct c as [|[|[|c]]].
  - right. right. reflexivity.
  - left. reflexivity.
  - right. left. vm_compute. discriminate.
  - right. right. destruct c as [|c]; vm_compute; reflexivity.
Qed.
(** A private class on the way. *)
Theorem C96_private_refuted : probe env_priv in_mod q3 None None = true
  /\ resolve env_priv no_hook in_mod q3 None None = RErr (ErrPriv M FOO).
Proof. exact defined_private. Qed.
Print Assumptions C96_private_refuted.
(** A class on the way that is only there at the top. *)
Theorem C96_toplevel_refuted : probe env_top in_mod q3 None None = true
  /\ resolve env_top no_hook in_mod q3 None None = RErr (ErrName M FOO).
Proof. exact defined_toplevel. Qed.
Print Assumptions C96_toplevel_refuted.
(** A private constant of [Kernel] is readable when [Object] has one of the same name. *)
Theorem C96_behind_refuted : probe env_kernel in_mod (sites 1) None None = false
  /\ resolve env_kernel no_hook in_mod (sites 1) None None = RVal (VInt 1) false
  /\ resolve env_kernel no_hook in_mod (sites 1) None None <> resolve (set_tbl env_kernel OBJECT FOO None) no_hook in_mod (sites 1) None None.
Proof. exact read_private. Qed.
Print Assumptions C96_behind_refuted.
