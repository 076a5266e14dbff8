(** C41: method lookup.  C60: call sites.  C61: super. *)
From Coq Require Import ZArith List Bool.
From Verif Require Import ClassModel ClassSpec LookupModel LookupSpec LookupWalkProofs LookupCacheProofs LookupProofs LookupSiteProofs LookupSuperProofs LookupBadProofs.
Import ListNotations.
Open Scope Z_scope.

(** * C41 *)
(** After any history, a lookup through the cache finds the first definition along the
    ancestors, stops at an undef, and takes the nearest visibility.  Missing: 2^32
    operations in a row without a lookup ([C41_wrap_refuted]); a declaration without a
    definition ([orphan], [C41_orphan_refuted]). *)
Theorem C41_lookup_partial : forall l w c n r, after_history l w -> sparse l -> defined (ws w) c = true ->
  is_class (hp (ws w)) (head (ws w) c) = true -> resolves (wt w) n (ancestors (ws w) c) r -> answer (fst (look w c n)) = r.
Proof. exact history_answer_class. Qed.
Theorem C41_every_table : forall T n l, (exists r, resolves T n l r) \/ orphan T n l.
Proof. exact resolves_total. Qed.
Theorem C41_one_answer : forall T n l r r', good_tables T -> resolves T n l r -> resolves T n l r' -> r = r'.
Proof. exact (fun T n l r r' G A B => eq_trans (eq_sym (lwalk_resolves T n G l r A)) (lwalk_resolves T n G l r' B)). Qed.
(** For a module the search goes on behind its ancestors. *)
Theorem C41_lookup_module_partial : forall l w c n r, after_history l w -> sparse l -> defined (ws w) c = true ->
  resolves (wt w) n (positions (hp (ws w)) (head (ws w) c)) r -> answer (fst (look w c n)) = r.
Proof. exact history_answer. Qed.
Theorem C41_module_positions : forall s c, inv s -> exists t, positions (hp s) (head s c) = ancestors s c ++ t.
Proof. exact module_positions. Qed.
(** The cache is never seen. *)
Theorem C41_cache_partial : forall l w c n, after_history l w -> sparse l -> defined (ws w) c = true -> fst (look w c n) = find w c n.
Proof. exact history_look. Qed.

(** What an operation does to the next lookup, in the class and below it. *)
Theorem C41_define_partial : forall l w c n f v w' d l1 l2, after_history l w -> mstep w (Def c n f v) = Fine w' -> sparse (l ++ [Def c n f v]) ->
  defined (ws w) d = true -> positions (hp (ws w)) (head (ws w) d) = l1 ++ c :: l2 -> ~ In c l1 -> Forall (silent (wt w) n) l1 ->
  answer (fst (look w' d n)) = Some (f, v, c).
Proof. exact def_seen. Qed.
Theorem C41_undef_partial : forall l w c n w' d l1 l2, after_history l w -> mstep w (Undef c n) = Fine w' -> sparse (l ++ [Undef c n]) ->
  defined (ws w) d = true -> positions (hp (ws w)) (head (ws w) d) = l1 ++ c :: l2 -> ~ In c l1 -> Forall (passes (wt w) n) l1 ->
  answer (fst (look w' d n)) = None.
Proof. exact undef_seen. Qed.
Theorem C41_remove : forall l w c n w', after_history l w -> mstep w (Remove c n) = Fine w' ->
  silent (wt w') n c /\ (forall a m, (a, m) <> (c, n) -> wt w' a m = wt w a m) /\ ws w' = ws w /\ exists e, wt w c n = Some e.
Proof. exact remove_seen. Qed.
Theorem C41_remove_raises : forall l w c n w', after_history l w -> defined (ws w) c = true -> silent (wt w) n c -> mstep w (Remove c n) = w' ->
  exists w1, w' = Raise w1 /\ wt w1 = wt w /\ ws w1 = ws w.
Proof. exact remove_raises. Qed.
Theorem C41_visibility_partial : forall l w c n v w' f u o t, after_history l w -> mstep w (SetVis c n v) = Fine w' -> sparse (l ++ [SetVis c n v]) ->
  positions (hp (ws w)) (head (ws w) c) = c :: t -> ~ In c t -> ~ orphan (wt w) n (c :: t) -> answer (fst (look w c n)) = Some (f, u, o) ->
  exists o', answer (fst (look w' c n)) = Some (f, v, o').
Proof. exact vis_seen. Qed.
Theorem C41_alias_partial : forall l w c new old w', after_history l w -> sparse l -> mstep w (Alias c new old) = Fine w' ->
  exists f v o, answer (fst (look w c old)) = Some (f, v, o) /\ defines (wt w') new c f v /\
    (forall a m, (a, m) <> (c, new) -> wt w' a m = wt w a m) /\ ws w' = ws w.
Proof. exact alias_seen. Qed.
(** Activated refinements. *)
Theorem C41_refined : forall h T rs n l1 x l2 e, (forall y, In y l1 -> refined T (idof h y) n rs = None /\ T (idof h y) n = None) ->
  refined T (idof h x) n rs = Some e -> forall v sh, walk h T rs n v sh (l1 ++ x :: l2) = Some (with_vis e (or_else v (evis e))).
Proof. exact refined_first. Qed.
Theorem C41_not_refined : forall h T rs n l, (forall x, In x l -> refined T (idof h x) n rs = None) -> forall v sh,
  walk h T rs n v sh l = walk h T [] n v sh l.
Proof. exact refined_none. Qed.
(** The shared lookup for true and false. *)
Theorem C41_boolean_partial : forall l w n e, after_history l w -> sparse l -> fst (look_bool w n) = Some e ->
  exists t f, find w TRUE n = Some t /\ find w FALSE n = Some f /\ efid e = efid t /\ efid e = efid f.
Proof. exact bool_sound. Qed.
Theorem C41_method_defined_partial : forall l w c n, after_history l w -> sparse l -> defined (ws w) c = true ->
  is_class (hp (ws w)) (head (ws w) c) = true ->
  method_defined w c n = match find w c n with Some e => Some (evis e) | None => None end.
Proof. exact class_method_defined. Qed.

(** After [private :m] in B < A, removing A's m leaves m in B. *)
Theorem C41_orphan_refuted : ~ (forall l w c n, after_history l w -> sparse l -> (forall a, ~ exists f v, defines (wt w) n a f v) ->
  answer (fst (look w c n)) = None).
Proof. intros H. destruct bad_orphan as (a & b & c & d). rewrite (H _ _ 6 70 a b c) in d. discriminate. Qed.
(** 2^32 definitions after a lookup, the cache answers with the old one. *)
Theorem C41_wrap_refuted : ~ (forall l w c n, after_history l w -> defined (ws w) c = true -> fst (look w c n) = find w c n).
Proof. intros H. destruct bad_wrap as (w & a & b & c & d). rewrite (H _ _ 5 70 a b) in d. rewrite c in d. discriminate. Qed.
(** An undefined method can be removed, which brings the inherited one back. *)
Theorem C41_remove_undefined_refuted : ~ (forall l w c n w', after_history l w -> sparse l -> undefines (wt w) n c ->
  mstep w (Remove c n) <> Fine w').
Proof. intros H. destruct bad_remove as (w & a & b & c & d & e). now apply (H _ _ 6 70 w a b c). Qed.
(** method_defined? of a module goes on after an undef. *)
Theorem C41_method_defined_refuted : ~ (forall l w c n, after_history l w -> sparse l -> defined (ws w) c = true -> find w c n = None ->
  method_defined w c n = None).
Proof. intros H. destruct bad_method_defined as (a & b & c & d & e). rewrite (H _ _ 6 70 a b c d) in e. discriminate. Qed.
(** The shared lookup for booleans gives the visibility of true's method. *)
Theorem C41_boolean_visibility_refuted : ~ (forall l w n e f, after_history l w -> sparse l -> fst (look_bool w n) = Some e ->
  find w FALSE n = Some f -> evis e = evis f).
Proof. intros H. destruct bad_bool as (e & f & a & b & c & d & x & y). pose proof (H _ _ 70 e f a b c d) as q. rewrite x, y in q. discriminate. Qed.
(** A class that is allocated, looked up in, and then initialized. *)
Theorem C41_allocate_refuted : ~ (forall l w c p n, after_history l w -> sparse l ->
  let w1 := initialize (snd (look (allocate w) c n)) c p in fst (look w1 c n) = find w1 c n).
Proof. intros H. destruct bad_allocate as (a & b & c & d & e). pose proof (H _ _ 6 5 70 a b) as q. cbv zeta in q. change (fst (look born 6 70) = find born 6 70) in q. rewrite d in q. rewrite <- q in e. discriminate. Qed.

Example C41_example : let w := lived (ab ++ [Def 5 70 100 Public; Def OBJECT 70 99 Public; SetVis 6 70 Private]) in
  ancestors (ws w) 6 = [6; 5; 1; 2; 0] /\ answer (fst (look w 6 70)) = Some (100, Private, 6) /\
  answer (fst (look w 5 70)) = Some (100, Public, 5) /\ answer (fst (look w 3 70)) = Some (99, Public, 1) /\
  resolves (wt w) 70 [6; 5; 1; 2; 0] (Some (100, Private, 6)).
Proof.
  cbv zeta. do 4 (split; [vm_compute; reflexivity|]). apply (res_found _ _ [6] 5 [1; 2; 0] 100 Public Private 6).
  - constructor; [right; exists Private, true, (mke 6 (Some 100) Private true)|constructor]. repeat split; discriminate.
  - exists (mke 5 (Some 100) Public false). repeat split.
  - apply (near_declared _ _ _ _ _ _ true). exists (mke 6 (Some 100) Private true). repeat split; discriminate.
  - apply (list_declared _ _ _ _ _ Private). exists (mke 6 (Some 100) Private true). repeat split; discriminate.
Qed.
Example C41_example_undef : let w := lived (ab ++ [Def 5 70 100 Public; Look 6 70; Undef 5 70; Look 6 70; Def 6 71 101 Public; Alias 6 70 71; Remove 6 71]) in
  answer (fst (look w 5 70)) = None /\ answer (fst (look w 6 70)) = Some (101, Public, 6) /\ answer (fst (look w 6 71)) = None /\
  method_defined w 5 70 = None /\ method_defined w 6 70 = Some Public.
Proof. repeat split; vm_compute; reflexivity. Qed.

(** * C60 *)
(** An interpreted call site, whatever happened between its calls: the inline cache is
    not seen, unless a protected method is called with a receiver. *)
Theorem C60_inline_cache_partial : forall n fc l w k caller c a k1 w1, site n fc start None l w k -> Z.of_nat (length l) < TWO32 ->
  defined (ws w) c = true -> vm_call w k n fc caller c = (a, k1, w1) ->
  fc = true \/ (forall e, find w c n = Some e -> evis e <> Protected) -> a = dispatch w n fc caller c.
Proof. exact site_call_right. Qed.
Theorem C60_inline_body_partial : forall n fc l w k caller c f k1 w1, site n fc start None l w k -> Z.of_nat (length l) < TWO32 ->
  defined (ws w) c = true -> vm_call w k n fc caller c = (Body f, k1, w1) -> exists e, find w c n = Some e /\ efid e = Some f.
Proof. exact site_call_body. Qed.
(** A compiled call site: it runs the body that is found; with nothing to check it does
    what a call does. *)
Theorem C60_compiled_body_partial : forall n fc l w u caller c a u1 w1, csite n fc start None l w u -> Z.of_nat (length l) < TWO32 ->
  defined (ws w) c = true -> enter w u n fc caller c = (a, u1, w1) ->
  a = dispatch w n fc caller c \/ exists f e, a = Body f /\ find w c n = Some e /\ efid e = Some f.
Proof. exact csite_enter_right. Qed.
Theorem C60_compiled_partial : forall n fc l w u caller c a u1 w1, csite n fc start None l w u -> Z.of_nat (length l) < TWO32 ->
  defined (ws w) c = true -> enter w u n fc caller c = (a, u1, w1) -> fc = true \/ (forall e, find w c n = Some e -> evis e = Public) ->
  a = dispatch w n fc caller c.
Proof. exact csite_enter_same. Qed.
(** The inline cache lets a caller through that may not call a protected method, and
    keeps one out that may. *)
Theorem C60_protected_refuted : ~ (forall n fc l w k caller c f k1 w1, site n fc start None l w k -> (length l <= 3)%nat -> defined (ws w) c = true ->
  vm_call w k n fc caller c = (Body f, k1, w1) -> dispatch w n fc caller c = Body f).
Proof. intros H. destruct bad_protected as (l & w & k & k1 & w1 & a & b & c & d & e). rewrite (H _ _ _ _ _ _ _ _ _ _ a b c d) in e. discriminate. Qed.
Theorem C60_refused_refuted : ~ (forall n fc l w k caller c k1 w1, site n fc start None l w k -> (length l <= 3)%nat -> defined (ws w) c = true ->
  vm_call w k n fc caller c = (Missing, k1, w1) -> dispatch w n fc caller c = Missing).
Proof. intros H. destruct bad_refused as (l & w & k & k1 & w1 & a & b & c & d & e). rewrite (H _ _ _ _ _ _ _ _ _ a b c d) in e. discriminate. Qed.
(** Compiled code goes on calling a method that has become private, and any protected
    method. *)
Theorem C60_private_refuted : ~ (forall n fc l w u caller c f u1 w1, csite n fc start None l w u -> defined (ws w) c = true ->
  (exists e, find w c n = Some e /\ evis e <> Protected) -> enter w u n fc caller c = (Body f, u1, w1) -> dispatch w n fc caller c = Body f).
Proof.
  intros H. destruct bad_private as (l & w & k & k1 & w1 & a & b & c & d & e & g). rewrite (H _ _ _ _ _ _ _ _ _ _ a c g d) in e. discriminate.
Qed.
Theorem C60_compiled_protected_refuted : ~ (forall n fc l w u caller c f u1 w1, csite n fc start None l w u -> (length l <= 3)%nat -> defined (ws w) c = true ->
  enter w u n fc caller c = (Body f, u1, w1) -> dispatch w n fc caller c = Body f).
Proof. intros H. destruct bad_compiled_protected as (l & w & k & k1 & w1 & a & b & c & d & e). rewrite (H _ _ _ _ _ _ _ _ _ _ a b c d) in e. discriminate. Qed.

Example C60_example : let w := lived open in let '(a, k, w1) := vm_call w None 70 false mustnot 5 in
  let w2 := next w1 (Def 5 70 200 Public) in
  a = Body 100 /\ fst (fst (vm_call w1 k 70 false mustnot 5)) = Body 100 /\ fst (fst (vm_call w2 k 70 false mustnot 5)) = Body 200 /\
  fst (fst (vm_call (next w2 (Undef 5 70)) k 70 false mustnot 5)) = Missing.
Proof. vm_compute. repeat split. Qed.
Example C60_example_compiled : let '(u, w) := compile (lived open) 70 false 5 in
  fst (fst (enter w u 70 false mustnot 5)) = Body 100 /\
  fst (fst (enter (next w (Def 5 71 300 Public)) u 70 false mustnot 5)) = Body 100 /\
  fst (fst (enter (next w (Def 5 70 200 Public)) u 70 false mustnot 5)) = Body 200 /\
  fst (fst (enter (next w (Undef 5 70)) u 70 false mustnot 5)) = Missing.
Proof. vm_compute. repeat split. Qed.

(** * C61 *)
(** When the running body has one position in the chain, super is what a lookup of the
    chain behind that position finds. *)
Theorem C61_unique : forall inner owners h T f n, good_tables T -> forall a l1 x l2 r, a :: above h a = l1 ++ x :: l2 ->
  at_position inner h T n f x = true -> (forall y, In y (l1 ++ l2) -> at_position inner h T n f y = false) ->
  resolves T n (places h l2) r -> check_super inner owners h T a f n = body_of r.
Proof. exact super_unique. Qed.
(** The k-th position of several; when the rest of the chain has an answer, or no other
    position. *)
Theorem C61_kth_partial : forall inner owners h T f n a k l1 x l2 g, a :: above h a = l1 ++ x :: l2 -> at_position inner h T n f x = true ->
  k = S (length (filter (at_position inner h T n f) l1)) -> body_in h T n l2 = Some g ->
  super_at inner owners h T a f n (Some k) = Some g.
Proof. exact super_kth. Qed.
Theorem C61_last : forall inner owners h T f n a k l1 x l2, a :: above h a = l1 ++ x :: l2 -> at_position inner h T n f x = true ->
  k = S (length (filter (at_position inner h T n f) l1)) -> (forall y, In y l2 -> at_position inner h T n f y = false) ->
  super_at inner owners h T a f n (Some k) = body_in h T n l2.
Proof. exact super_last. Qed.
Theorem C61_body_in : forall h T n l r, good_tables T -> resolves T n (places h l) r -> body_in h T n l = body_of r.
Proof. exact body_in_resolves. Qed.
(** A body that has lost its entry: behind the class it was defined in. *)
Theorem C61_owner : forall inner owners h T f n a l1 x l2 g, a :: above h a = l1 ++ x :: l2 ->
  (forall y, In y (a :: above h a) -> at_position inner h T n f y = false) -> norg (at_ h x) = None -> In (idof h x) (owners f) ->
  (forall y, In y l1 -> ~ (norg (at_ h y) = None /\ In (idof h y) (owners f))) -> body_in h T n l2 = Some g -> g <> f ->
  check_super inner owners h T a f n = Some g.
Proof. exact super_owner. Qed.
(** A method bound to an unrelated object: the whole chain. *)
Theorem C61_foreign : forall inner owners h T f n, good_tables T -> forall a r, (forall y, In y (a :: above h a) -> at_position inner h T n f y = false) ->
  (forall y, In y (a :: above h a) -> ~ (norg (at_ h y) = None /\ In (idof h y) (owners f))) ->
  resolves T n (places h (a :: above h a)) r -> check_super inner owners h T a f n = body_of r.
Proof. exact super_foreign. Qed.
(** Never the running body itself, unless it has several positions. *)
Theorem C61_progress : forall inner owners h T f n a g, check_super inner owners h T a f n = Some g -> g <> f.
Proof. exact super_other. Qed.
(** An undef behind the position is jumped over if the body comes again behind it. *)
Theorem C61_undef_refuted : ~ (forall inner owners h T f n a k l1 x l2, a :: above h a = l1 ++ x :: l2 -> at_position inner h T n f x = true ->
  k = S (length (filter (at_position inner h T n f) l1)) -> super_at inner owners h T a f n (Some k) = body_in h T n l2).
Proof.
  intros H. destruct bad_super as (l1 & x & l2 & B). cbv zeta in B. destruct B as (a & b & c & d & e & f & g).
  rewrite (H _ _ _ _ _ _ _ _ l1 x l2 c d) in g; [rewrite f in g; discriminate|]. now rewrite e.
Qed.
Example C61_example : let w := lived (ab ++ [Def 5 70 100 Public; Def 6 70 200 Public; SetVis 6 70 Private]) in
  check_super (fun _ => None) (fun _ => []) (hp (ws w)) (wt w) (head (ws w) 6) 200 70 = Some 100 /\
  check_super (fun _ => None) (fun _ => []) (hp (ws w)) (wt w) (head (ws w) 6) 100 70 = None /\
  check_super (fun g => if g =? 200 then Some 201 else None) (fun _ => []) (hp (ws w)) (wt w) (head (ws w) 6) 201 70 = Some 100 /\
  check_super (fun _ => None) (fun _ => [5]) (hp (ws w)) (wt w) (head (ws w) 6) 300 70 = None /\
  check_super (fun _ => None) (fun _ => [6]) (hp (ws w)) (wt w) (head (ws w) 6) 300 70 = Some 100.
Proof. vm_compute. repeat split. Qed.

Print Assumptions C41_lookup_partial.
Print Assumptions C41_every_table.
Print Assumptions C41_one_answer.
Print Assumptions C41_lookup_module_partial.
Print Assumptions C41_module_positions.
Print Assumptions C41_cache_partial.
Print Assumptions C41_define_partial.
Print Assumptions C41_undef_partial.
Print Assumptions C41_remove.
Print Assumptions C41_remove_raises.
Print Assumptions C41_visibility_partial.
Print Assumptions C41_alias_partial.
Print Assumptions C41_refined.
Print Assumptions C41_not_refined.
Print Assumptions C41_boolean_partial.
Print Assumptions C41_method_defined_partial.
Print Assumptions C41_orphan_refuted.
Print Assumptions C41_wrap_refuted.
Print Assumptions C41_remove_undefined_refuted.
Print Assumptions C41_method_defined_refuted.
Print Assumptions C41_boolean_visibility_refuted.
Print Assumptions C41_allocate_refuted.
Print Assumptions C60_inline_cache_partial.
Print Assumptions C60_inline_body_partial.
Print Assumptions C60_compiled_body_partial.
Print Assumptions C60_compiled_partial.
Print Assumptions C60_protected_refuted.
Print Assumptions C60_refused_refuted.
Print Assumptions C60_private_refuted.
Print Assumptions C60_compiled_protected_refuted.
Print Assumptions C61_unique.
Print Assumptions C61_kth_partial.
Print Assumptions C61_last.
Print Assumptions C61_body_in.
Print Assumptions C61_owner.
Print Assumptions C61_foreign.
Print Assumptions C61_progress.
Print Assumptions C61_undef_refuted.
