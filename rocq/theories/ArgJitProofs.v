(** Proofs about the inline argument setup of compiled calls. *)

From Coq Require Import ZArith List Bool Lia.
From Verif Require Import ArgModel ArgSpec ArgProofs ArgKwProofs ArgCallProofs.
Import ListNotations.

Local Open Scope nat_scope.

Ltac pairs := repeat match goal with |- pair _ _ = pair _ _ => apply f_equal2 end; lia.

Lemma run_app : forall s l1 l2 f,
  run_stores s (l1 ++ l2) f = let! f := run_stores s l1 f in run_stores s l2 f.
Proof.
  intros s l1. induction l1 as [|[i c] l1 IH]; intros l2 f; cbn; [reflexivity|].
  destruct (eval_source s c) as [x|]; [|reflexivity]. destruct (put f i x); cbn; auto.
Qed.

Lemma run_seq : forall s g n a f,
  run_stores s (map (fun i => (i, g i)) (seq a n)) f = put_range f a n (fun j => eval_source s (g j)).
Proof.
  intros s g n. induction n as [|n IH]; intros a f; cbn; [reflexivity|].
  destruct (eval_source s (g a)) as [c|]; [|reflexivity]. destruct (put f a c); cbn; auto.
Qed.

Lemma run_range : forall s g a b f,
  run_stores s (range (a, b) (fun i => (i, g i))) f = put_range f a (b - a) (fun j => eval_source s (g j)).
Proof. intros s g a b f. apply run_seq. Qed.

Lemma layout_write : forall p L f f', total_pos p <= length f -> length f' = length f ->
  min_args p <= length L -> (length L <= max_args p \/ is_rest p = true) ->
  (forall j, nth_error f' j =
     if j <? p_req p + given p (length L) then option_map Val (nth_error L j)
     else if j <? reqopt p then Some Unset
     else if j <? reqopt p + (if is_rest p then 1 else 0) then Some (Val (VArr (cutC p L)))
     else if j <? total_pos p then
       option_map Val (nth_error L (length L - p_post p + (j - (reqopt p + (if is_rest p then 1 else 0)))))
     else nth_error f j) ->
  f' = layout p (cutA p L) (cutB p L) (cutC p L) (cutD p L) ++ skipn (total_pos p) f.
Proof.
  intros p L f f' H Lf HL HM N. apply ext. intros j. rewrite N, nth_app.
  rewrite (layout_length p L) by (now apply cut_canonical).
  rewrite layout_nth by assumption. rewrite nth_skip.
  assert (p_req p + given p (length L) <= reqopt p) by (unfold given, reqopt; lia).
  assert (reqopt p + (if is_rest p then 1 else 0) <= total_pos p)
    by (unfold reqopt, total_pos, max_args; lia).
  destruct (Nat.ltb_spec j (total_pos p)); [reflexivity|].
  cmp; try lia. f_equal. lia.
Qed.

Lemma eval_arg : forall s i, eval_source s (SArg i) = option_map Val (nth_error (s_pos s) i).
Proof. intros s i. cbn. now rewrite read_down. Qed.

Lemma eval_arg_some : forall s i, i < length (s_pos s) -> exists c, eval_source s (SArg i) = Some c.
Proof.
  intros s i H. rewrite eval_arg. destruct (nth_error (s_pos s) i) eqn:E; [cbn; eauto|].
  apply nth_error_None in E. lia.
Qed.

(** The stores of the positional part, for any fill counts within bounds. *)
Lemma jit_run : forall p s f r o q rl,
  let n := length (s_pos s) in
  let rr := if is_rest p then 1 else 0 in
  let st := reqopt p + rr in
  apply_args p n = ((0, r), (p_req p, p_req p + o), (st, st + q), rl) ->
  total_pos p <= length f -> r <= p_req p -> o <= p_opt p -> q <= p_post p ->
  r + o <= n -> q <= n -> r + o + rl <= n -> (o = 0 \/ r = p_req p) ->
  exists f', run_stores s (jit_positional p n) f = Ok f' /\ length f' = length f /\
  forall j, nth_error f' j =
    if j <? r then option_map Val (nth_error (s_pos s) j)
    else if j <? p_req p then Some (Val VNil)
    else if j <? p_req p + o then option_map Val (nth_error (s_pos s) j)
    else if j <? reqopt p then Some Unset
    else if j <? st then Some (Val (VArr (slice (s_pos s) (r + o) (r + o + rl))))
    else if j <? st + q then option_map Val (nth_error (s_pos s) (n - q + (j - st)))
    else if j <? total_pos p then Some (Val VNil)
    else nth_error f j.
Proof.
  intros p s f r o q rl n rr st AA LF Hr Ho Hq B1 B2 B3 RO.
  assert (RR : rr <= 1) by (subst rr; destruct (is_rest p); lia).
  assert (T : total_pos p = st + p_post p) by (unfold total_pos, max_args, st, reqopt; fold rr; lia).
  assert (RQ : reqopt p = p_req p + p_opt p) by reflexivity.
  assert (ST : st = reqopt p + rr) by reflexivity.
  unfold jit_positional. rewrite AA. cbn [fst snd].
  replace (r - 0) with r by lia. replace (p_req p + o - p_req p) with o by lia.
  replace (st + q - st) with q by lia.
  rewrite run_app, run_range.
  destruct (put_range_ok (r - 0) f 0 (fun j => eval_source s (SArg j))) as (f1 & E1 & L1 & N1);
    [lia|intros; apply eval_arg_some; fold n; lia|].
  rewrite E1. cbn [bind]. rewrite run_app, run_range.
  destruct (put_range_ok (p_req p - r) f1 r (fun j => eval_source s SNil)) as (f2 & E2 & L2 & N2);
    [lia|cbn; eauto|].
  rewrite E2. cbn [bind]. rewrite run_app, run_range.
  destruct (put_range_ok (p_req p + o - p_req p) f2 (p_req p)
    (fun j => eval_source s (SArg (r + (j - p_req p))))) as (f3 & E3 & L3 & N3);
    [lia|intros; apply eval_arg_some; fold n; lia|].
  rewrite E3. cbn [bind]. rewrite run_app, run_range.
  destruct (put_range_ok (reqopt p - (p_req p + o)) f3 (p_req p + o)
    (fun j => eval_source s SNone)) as (f4 & E4 & L4 & N4); [lia|cbn; eauto|].
  rewrite E4. cbn [bind]. rewrite run_app.
  assert (E5' : exists f5, run_stores s (if is_rest p then [(reqopt p, SRest (r + o) rl)] else []) f4 = Ok f5
    /\ length f5 = length f4 /\
    forall j, nth_error f5 j =
      if (reqopt p <=? j) && (j <? st) then Some (Val (VArr (slice (s_pos s) (r + o) (r + o + rl))))
      else nth_error f4 j).
  { subst st. subst rr. destruct (is_rest p).
    - cbn [run_stores eval_source].
      assert (RS := read_rest_ok false (s_pos s) (r + o) (r + o + rl)). cbn [src_of] in RS.
      rewrite RS by (fold n; lia).
      cbn [option_map]. destruct (put_ok f4 (reqopt p) (Val (VArr (slice (s_pos s) (r + o) (r + o + rl)))))
        as (f5 & E5 & L5 & N5); [lia|].
      rewrite E5. cbn [bind]. exists f5. split; [reflexivity|]. split; [exact L5|]. intros j. rewrite N5.
      repeat cmp1; try reflexivity; lia.
    - exists f4. split; [reflexivity|]. split; [reflexivity|]. intros j. repeat cmp1; try reflexivity; lia. }
  destruct E5' as (f5 & E5 & L5 & N5).
  rewrite E5. cbn [bind]. rewrite run_app, run_range.
  destruct (put_range_ok (st + q - st) f5 st (fun j => eval_source s (SArg (n - q + (j - st)))))
    as (f6 & E6 & L6 & N6); [lia|intros; apply eval_arg_some; fold n; lia|].
  rewrite E6. cbn [bind]. rewrite run_range.
  destruct (put_range_ok (st + p_post p - (st + q)) f6 (st + q) (fun j => eval_source s SNil))
    as (f7 & E7 & L7 & N7); [lia|cbn; eauto|].
  exists f7. split; [exact E7|]. split; [lia|]. intros j.
  rewrite N7, N6, N5, N4, N3, N2, N1, !eval_arg. cbn [eval_source]. unfold within.
  clear AA E1 E2 E3 E4 E5 E6 E7 N1 N2 N3 N4 N5 N6 N7. clearbody n rr st.
  repeat cmp1; try reflexivity; do 2 f_equal; lia.
Qed.

(** A compiled call of a block with trailing parameters and no rest takes the
    last arguments for them instead of the next ones. *)
Definition post_kept (p : params) (n : nat) : Prop :=
  n <= max_args p \/ is_rest p = true \/ p_post p = 0.

Lemma jit_positional_ok : forall p s f,
  let n := length (s_pos s) in
  total_pos p <= length f -> (p_block p = false -> accepts p n) -> post_kept p n ->
  let L := loosen p (s_pos s) in
  run_stores s (jit_positional p n) f =
    Ok (layout p (cutA p L) (cutB p L) (cutC p L) (cutD p L) ++ skipn (total_pos p) f).
Proof.
  intros p s f n LF Acc PK L.
  assert (HL : min_args p <= length L).
  { subst L. rewrite loosen_length. unfold min_args, max_args. destruct (is_rest p); lia. }
  assert (HM : length L <= max_args p \/ is_rest p = true).
  { subst L. rewrite loosen_length. destruct (is_rest p); [now right|left; lia]. }
  set (rr := if is_rest p then 1 else 0) in *. set (st := reqopt p + rr) in *.
  assert (MM : min_args p = p_req p + p_post p) by reflexivity.
  assert (MX : max_args p = reqopt p + p_post p) by reflexivity.
  assert (RQ : reqopt p = p_req p + p_opt p) by reflexivity.
  assert (TT : total_pos p = st + p_post p) by (unfold total_pos, st; fold rr; lia).
  assert (LN : forall j, nth_error L j =
    if negb (is_rest p) && (max_args p <=? j) then None
    else if j <? length (s_pos s) then nth_error (s_pos s) j
    else if j <? min_args p then Some VNil else None) by (intros; apply loosen_nth).
  assert (LL : length L = if is_rest p then Nat.max n (min_args p)
    else Nat.min (max_args p) (Nat.max n (min_args p))) by apply loosen_length.
  assert (RB : is_rest p = true -> rr = 1) by (intros X; subst rr; now rewrite X).
  assert (RB' : is_rest p = false -> rr = 0) by (intros X; subst rr; now rewrite X).
  fold n in LN.
  destruct (Nat.le_gt_cases n (p_req p)) as [C1|C1].
  { destruct (jit_run p s f n 0 0 0) as (f' & E & L' & N); fold n; try lia.
    - unfold apply_args. fold rr. fold st.
      replace (n <=? p_req p) with true by (symmetry; apply Nat.leb_le; lia).
      pairs.
    - fold n rr st in N, E. rewrite E. f_equal. apply layout_write; try assumption.
      intros j. rewrite N. fold rr st.
      assert (LX : length L = min_args p) by (rewrite LL; destruct (is_rest p); lia).
      assert (GV : given p (length L) = 0) by (unfold given; lia).
      assert (CN : cutC p L = []) by (unfold cutC; rewrite GV; apply slice_nil; lia).
      rewrite CN, GV, LX, !LN. rewrite slice_nil by lia.
      clear N E L' LN LL Acc HM PK. clearbody n rr.
      destruct (is_rest p); [specialize (RB eq_refl)|specialize (RB' eq_refl)]; subst st; subst rr; cbn [negb andb];
      repeat cmp1; try reflexivity; try (do 2 f_equal; lia). }
  destruct (Nat.le_gt_cases n (min_args p)) as [C2|C2].
  { destruct (jit_run p s f (p_req p) 0 (n - p_req p) 0) as (f' & E & L' & N); fold n; try lia.
    - unfold apply_args. fold rr. fold st.
      replace (n <=? p_req p) with false by (symmetry; apply Nat.leb_gt; lia).
      replace (n <=? min_args p) with true by (symmetry; apply Nat.leb_le; lia).
      pairs.
    - fold n rr st in N, E. rewrite E. f_equal. apply layout_write; try assumption.
      intros j. rewrite N. fold rr st.
      assert (LX : length L = min_args p) by (rewrite LL; destruct (is_rest p); lia).
      assert (GV : given p (length L) = 0) by (unfold given; lia).
      assert (CN : cutC p L = []) by (unfold cutC; rewrite GV; apply slice_nil; lia).
      rewrite CN, GV, LX, !LN. rewrite slice_nil by lia.
      clear N E L' LN LL Acc HM PK. clearbody n rr.
      destruct (is_rest p); [specialize (RB eq_refl)|specialize (RB' eq_refl)]; subst st; subst rr; cbn [negb andb];
      repeat cmp1; try reflexivity; try (do 2 f_equal; lia). }
  destruct (Nat.le_gt_cases n (max_args p)) as [C3|C3].
  { destruct (jit_run p s f (p_req p) (n - min_args p) (p_post p) 0) as (f' & E & L' & N); fold n; try lia.
    - unfold apply_args. fold rr. fold st.
      replace (n <=? p_req p) with false by (symmetry; apply Nat.leb_gt; lia).
      replace (n <=? min_args p) with false by (symmetry; apply Nat.leb_gt; lia).
      replace (max_args p <? n) with false by (symmetry; apply Nat.ltb_ge; lia).
      pairs.
    - fold n rr st in N, E. rewrite E. f_equal. apply layout_write; try assumption.
      intros j. rewrite N. fold rr st.
      assert (LX : length L = n) by (rewrite LL; destruct (is_rest p); lia).
      assert (GV : given p (length L) = n - min_args p) by (unfold given; lia).
      assert (CN : cutC p L = []) by (unfold cutC; rewrite GV; apply slice_nil; lia).
      rewrite CN, GV, LX, !LN. rewrite slice_nil by lia.
      clear N E L' LN LL Acc HM PK. clearbody n rr.
      destruct (is_rest p); [specialize (RB eq_refl)|specialize (RB' eq_refl)]; subst st; subst rr; cbn [negb andb];
      repeat cmp1; try reflexivity; try (do 2 f_equal; lia). }
  set (rl := if p_block p && negb (is_rest p) then 0 else n - max_args p).
  destruct (jit_run p s f (p_req p) (p_opt p) (p_post p) rl) as (f' & E & L' & N); fold n; try lia.
  - unfold apply_args. fold rr. fold st.
    replace (n <=? p_req p) with false by (symmetry; apply Nat.leb_gt; lia).
    replace (n <=? min_args p) with false by (symmetry; apply Nat.leb_gt; lia).
    replace (max_args p <? n) with true by (symmetry; apply Nat.ltb_lt; lia).
    reflexivity.
  - subst rl. destruct (p_block p && negb (is_rest p)); lia.
  - fold n rr st in N, E. rewrite E. f_equal. apply layout_write; try assumption.
    intros j. rewrite N. fold rr st.
    assert (GV : given p (length L) = p_opt p) by (unfold given; rewrite LL; destruct (is_rest p); lia).
    rewrite GV, !LN. destruct (is_rest p) eqn:R.
    + assert (LX : length L = n) by lia.
      assert (CN : cutC p L = slice (s_pos s) (p_req p + p_opt p) (p_req p + p_opt p + rl)).
      { subst L. rewrite loosen_same in * by (fold n; lia || (right; exact R)). unfold cutC. fold n.
        fold n in GV. rewrite GV. f_equal. subst rl. cbn [negb]. rewrite andb_false_r. lia. }
      rewrite CN, LX. clear N E L' LN LL Acc HM PK CN. specialize (RB eq_refl).
      clearbody n rr rl. subst st; subst rr; cbn [negb andb].
      repeat cmp1; try reflexivity; try (do 2 f_equal; lia).
    + assert (LX : length L = max_args p) by lia.
      assert (PZ : p_post p = 0) by (destruct PK as [PK|[PK|PK]]; [lia|congruence|assumption]).
      rewrite LX. clear N E L' LN LL Acc HM PK. specialize (RB' eq_refl).
      clearbody n rr rl. subst st; subst rr; cbn [negb andb].
      repeat cmp1; try reflexivity; try (do 2 f_equal; lia).
Qed.

(** ** Keywords *)

Lemma im_put_new : forall m n i, ~ In n (map fst m) -> im_put m n i = m ++ [(n, i)].
Proof.
  induction m as [|[n' i'] m IH]; intros n i H; cbn; [reflexivity|].
  destruct (Z.eqb_spec n' n) as [->|D]; [exfalso; apply H; now left|].
  rewrite IH; [reflexivity|]. intros X. apply H. now right.
Qed.

Lemma im_fill_nodup : forall l m i, NoDup (map fst m ++ map fst l) ->
  im_fill m i l = m ++ combine (map fst l) (seq i (length l)).
Proof.
  induction l as [|[n v] l IH]; intros m i ND; cbn; [now rewrite app_nil_r|].
  cbn in ND. rewrite im_put_new.
  - rewrite IH.
    + now rewrite <- app_assoc.
    + rewrite map_app, <- app_assoc. exact ND.
  - apply NoDup_remove_2 in ND. intros X. apply ND. apply in_or_app. now left.
Qed.

Lemma im_get_combine : forall names i n j,
  im_get (combine names (seq i (length names))) n = Some j ->
  i <= j < i + length names /\ nth_error names (j - i) = Some n.
Proof.
  induction names as [|x names IH]; intros i n j H; cbn in *; [discriminate|].
  destruct (Z.eqb_spec x n) as [->|D].
  - injection H as <-. rewrite Nat.sub_diag. split; [lia|reflexivity].
  - apply IH in H as [H1 H2]. split; [lia|].
    replace (j - i) with (S (j - S i)) by lia. exact H2.
Qed.

Lemma jit_keywords_run : forall lits s kws a b, site_ok lits s -> length kws <= length b ->
  run_stores s (fst (jit_keywords (s_kw_args s) (length a) kws)) (a ++ b) =
    Ok (a ++ map (fun e => cell_of (hget (lit_hash lits) (KSym (fst e)))) kws ++ skipn (length kws) b).
Proof.
  intros lits s kws. induction kws as [|[n r] kws IH]; intros a b S L; [reflexivity|].
  destruct b as [|x b]; [cbn in L; lia|]. cbn [length] in L. cbn [jit_keywords map fst].
  assert (K := kw_value_ok lits s n S).
  specialize (IH (a ++ [cell_of (hget (lit_hash lits) (KSym n))]) b S).
  rewrite app_length, Nat.add_1_r, <- app_assoc in IH. cbn [app] in IH. specialize (IH ltac:(lia)).
  destruct (jit_keywords (s_kw_args s) (Datatypes.S (length a)) kws) as [l used].
  cbn [fst] in IH. destruct (im_get (s_kw_args s) n) as [i|].
  - destruct K as (v & E & G). cbn [fst run_stores eval_source]. unfold kw_value in E.
    destruct (nth_error (s_kw_slots s) i); [|discriminate]. injection E as ->. cbn [option_map].
    rewrite put_app by reflexivity. cbn [bind]. rewrite G in IH. cbn [cell_of] in IH. rewrite IH.
    rewrite <- app_assoc, G. reflexivity.
  - cbn [fst run_stores eval_source]. rewrite put_app by reflexivity. cbn [bind].
    rewrite K in IH. cbn [cell_of] in IH. rewrite IH, <- app_assoc, K. reflexivity.
Qed.

Lemma jit_keywords_used : forall m kws i j,
  In j (snd (jit_keywords m i kws)) <-> exists e, In e kws /\ im_get m (fst e) = Some j.
Proof.
  intros m kws. induction kws as [|[n r] kws IH]; intros i j; cbn.
  - split; [contradiction|]. intros (e & [] & _).
  - specialize (IH (S i) j). destruct (jit_keywords m (S i) kws) as [l used]. cbn [snd] in IH.
    destruct (im_get m n) as [k|] eqn:E; cbn [snd].
    + split.
      * intros [->|H]; [exists (n, r); auto|]. apply IH in H as (e & E1 & E2). eauto.
      * intros (e & [<-|E1] & E2); [left; cbn in E2; congruence|]. right. apply IH. eauto.
    + rewrite IH. split.
      * intros (e & E1 & E2). eauto.
      * intros (e & [<-|E1] & E2); [cbn in E2; congruence|]. eauto.
Qed.

Lemma jit_unused_ok : forall names used i,
  jit_unused (combine names (seq i (length names))) used i =
  Some (filter (fun e => negb (existsb (Nat.eqb (snd e)) used)) (combine names (seq i (length names)))).
Proof.
  induction names as [|n names IH]; intros used i; cbn; [reflexivity|].
  rewrite IH. destruct (existsb (Nat.eqb i) used); cbn; [reflexivity|].
  now rewrite Nat.eqb_refl.
Qed.

Lemma unused_undeclared : forall p (names : list name) i, NoDup names ->
  let m := combine names (seq i (length names)) in
  filter (fun e => negb (existsb (Nat.eqb (snd e)) (snd (jit_keywords m (kw_base p) (p_kws p))))) m
  = filter (fun e => negb (declared p (fst e))) m.
Proof.
  intros p names i ND m. apply filter_ext_in. intros [n j] I. cbn [fst snd]. f_equal.
  apply eq_true_iff_eq. unfold declared. rewrite !existsb_exists.
  assert (NM : i <= j < i + length names /\ nth_error names (j - i) = Some n).
  { subst m. clear ND. revert i I. induction names as [|x names IH]; intros i I; cbn in I; [contradiction|].
    destruct I as [E|I].
    - injection E as -> ->. rewrite Nat.sub_diag. split; [cbn; lia|reflexivity].
    - apply IH in I as [I1 I2]. split; [cbn; lia|]. now replace (j - i) with (S (j - S i)) by lia. }
  split.
  - intros (k & K1 & K2). apply Nat.eqb_eq in K2. subst k.
    apply jit_keywords_used in K1 as (e & E1 & E2). apply im_get_combine in E2 as [_ E2].
    exists e. split; [exact E1|]. apply Z.eqb_eq. destruct NM as [_ NM]. unfold name in *. congruence.
  - intros (e & E1 & E2). apply Z.eqb_eq in E2. exists j. split; [|apply Nat.eqb_refl].
    apply jit_keywords_used. exists e. split; [exact E1|].
    unfold name in *. destruct (im_get m (fst e)) as [j'|] eqn:G.
    + apply im_get_combine in G as [G1 G2]. destruct NM as [NM1 NM2]. f_equal.
      unfold name in *. assert (j' - i = j - i); [|lia].
      apply (proj1 (NoDup_nth_error names) ND); [lia|]. congruence.
    + exfalso. subst m n. clear -I G. revert i I G. induction names as [|x names IH]; intros i I G; cbn in *; [contradiction|].
      destruct (Z.eqb_spec x (fst e)); [discriminate|].
      destruct I as [E|I]; [congruence|]. exact (IH _ I G).
Qed.

Lemma simple_call_parts : forall p pos kws fwd,
  is_simple_call p (compile_site pos kws fwd) = true ->
  splats kws = [] /\ existsb snd pos = false /\
  (no_keyword p || p_forbid p = true -> kws = []) /\
  (length pos = 1 -> single_arg_expand p = false) /\
  positional_arity_ok p (length pos) = true /\
  missing_kws p (lit_hash kws) = [].
Proof.
  intros p pos kws fwd H. unfold is_simple_call in H.
  assert (SO := compile_site_ok pos kws fwd).
  rewrite (kw_may_exists_ok kws _ SO) in H.
  set (s := compile_site pos kws fwd) in *. change (s_pos s) with (map fst pos) in H.
  rewrite map_length in H.
  destruct ((length pos =? 1) && single_arg_expand p) eqn:H1; [discriminate|].
  destruct ((no_keyword p || p_forbid p) && match kws with [] => false | _ => true end) eqn:H2; [discriminate|].
  destruct (existsb _ (p_kws p)) eqn:H3; [discriminate|].
  change (s_splat s) with (splat_positions 0 pos) in H. change (s_hsplat s) with (splats kws) in H.
  assert (SN := splat_positions_nil pos 0).
  destruct (splat_positions 0 pos); [|discriminate]. destruct (splats kws); [|discriminate].
  split; [reflexivity|]. split; [exact SN|]. split; [|split; [|split; [exact H|]]].
  - intros X. rewrite X in H2. cbn [andb] in H2. destruct kws; [reflexivity|discriminate].
  - intros X. rewrite X in H1. exact H1.
  - unfold missing_kws. replace (filter _ (p_kws p)) with (@nil (name * bool)); [reflexivity|].
    symmetry. clear -H3 SO. revert H3. generalize (p_kws p). intros l.
    induction l as [|e l IH]; intros H; [reflexivity|]. cbn [existsb filter] in *.
    apply orb_false_iff in H as [H1 H2]. rewrite (IH H2).
    assert (K := kw_value_ok kws s (fst e) SO).
    destruct (im_get (s_kw_args s) (fst e)).
    + destruct K as (v & _ & ->). now rewrite andb_false_r.
    + rewrite K, H1. reflexivity.
Qed.

Lemma lits_only : forall kws, splats kws = [] -> lits_first kws.
Proof.
  induction kws as [|[n v|o] kws IH]; intros H; cbn in *; [exact I|auto|discriminate].
Qed.

Definition implicit_kept (p : params) (n : nat) : Prop :=
  p_block p = false -> p_rest p = Some true -> n <= max_args p.

Definition all_known (p : params) (kws : list kwarg) : Prop :=
  p_kwrest p = false -> forall n v, In (n, v) (lits kws) -> declared p n = true.

Lemma lit_hash_in : forall kws n, In (KSym n) (map fst (lit_hash kws)) <-> In n (map fst (lits kws)).
Proof.
  intros kws n. unfold lit_hash. rewrite in_hput_all. unfold lit_pairs. rewrite map_map. cbn.
  split.
  - intros [[]|H]. apply in_map_iff in H as (e & E & H). injection E as E. apply in_map_iff. eauto.
  - intros H. right. apply in_map_iff in H as (e & E & H). apply in_map_iff. exists e. split; [congruence|exact H].
Qed.

Lemma lit_hash_sym : forall kws k, In k (map fst (lit_hash kws)) -> exists n, k = KSym n.
Proof.
  intros kws k. unfold lit_hash. rewrite in_hput_all. unfold lit_pairs. rewrite map_map. cbn.
  intros [[]|H]. apply in_map_iff in H as (e & E & H). eauto.
Qed.

(** Running the stores after the positional ones. *)
Lemma jit_tail : forall p pos kws fwd cs f,
  let s := compile_site pos kws fwd in
  params_ok p -> splats kws = [] -> NoDup (map fst (lits kws)) ->
  length cs = total_pos p -> slots p <= length f ->
  run_stores s (jit_positional p (length (s_pos s))) f = Ok (cs ++ skipn (total_pos p) f) ->
  exists ks, jit_call p s f = Some (Ok (cs ++ ks ++ skipn (length (cs ++ ks)) f)) /\
    (p_kwrest p = true -> exists c, ks = kw_cells p (lit_hash kws) ++ [c] /\
                                    is_kwrest (leftover p (lit_hash kws)) c) /\
    (p_kwrest p = false -> ks = kw_cells p (lit_hash kws)).
Proof.
  intros p pos kws fwd cs f s PO SP ND LC LF RP.
  assert (SO : site_ok kws s) by apply compile_site_ok.
  unfold jit_call, jit_stores.
  assert (KA : s_kw_args s = combine (map fst (lits kws)) (seq 0 (length (map fst (lits kws))))).
  { cbn [s compile_site s_kw_args]. rewrite im_fill_nodup by exact ND. now rewrite map_length. }
  assert (KR := fun a b => jit_keywords_run kws s (p_kws p) a b SO).
  assert (UN := unused_undeclared p (map fst (lits kws)) 0 ND). cbn zeta in UN.
  rewrite <- KA in UN.
  assert (JU := fun used => jit_unused_ok (map fst (lits kws)) used 0).
  rewrite <- KA in JU.
  unfold slots in LF.
  specialize (KR cs (skipn (total_pos p) f)).
  replace (length cs) with (kw_base p) in KR by (unfold kw_base; lia).
  destruct (jit_keywords (s_kw_args s) (kw_base p) (p_kws p)) as [kst used]. cbn [fst snd] in *.
  rewrite JU, UN. cbn [option_map].
  rewrite run_app, RP. cbn [bind]. rewrite run_app, KR by (rewrite skipn_length; lia). cbn [bind].
  fold (kw_cells p (lit_hash kws)).
  set (un := filter (fun e => negb (declared p (fst e))) (s_kw_args s)).
  destruct (p_kwrest p) eqn:R.
  - assert (B : exists x b, skipn (length (p_kws p)) (skipn (total_pos p) f) = x :: b).
    { destruct (skipn (length (p_kws p)) (skipn (total_pos p) f)) eqn:E; [|eauto].
      assert (Q := f_equal (@length cell) E). rewrite !skipn_length in Q. cbn in Q. lia. }
    destruct B as (x & b & B). rewrite B. cbn [run_stores].
    assert (EV : exists c, eval_source s (match un with [] => SNil | _ => SKwRest un end) = Some c /\
                           is_kwrest (leftover p (lit_hash kws)) c).
    { assert (LK : look (s_kw_slots s) un = leftover p (lit_hash kws)).
      { subst un. rewrite leftover_look. now rewrite (so_look _ _ SO). }
      destruct un as [|e un'] eqn:EU.
      - exists (Val VNil). split; [reflexivity|]. right. split; [|reflexivity]. now rewrite <- LK.
      - cbn [eval_source]. rewrite lit_entries_look.
        2:{ rewrite <- EU. apply Forall_forall. intros y Y. apply filter_In in Y as [Y _].
            assert (Bd := so_slots _ _ SO). rewrite Forall_forall in Bd. auto. }
        rewrite LK. exists (Val (VHash false (leftover p (lit_hash kws)))). split; [|now left].
        rewrite hput_all_nil by (apply filter_ok; apply lit_hash_ok). reflexivity. }
    destruct EV as (c & EV & IK). rewrite EV.
    assert (W : put (cs ++ kw_cells p (lit_hash kws) ++ x :: b) (kwrest_slot p) c =
                Ok (cs ++ kw_cells p (lit_hash kws) ++ c :: b)).
    { rewrite !(app_assoc cs). apply put_app. rewrite app_length, kw_cells_length. unfold kwrest_slot. lia. }
    rewrite W. cbn [bind]. exists (kw_cells p (lit_hash kws) ++ [c]).
    split; [|split; [|discriminate]].
    + f_equal. f_equal. f_equal. rewrite <- app_assoc. f_equal. cbn [app]. f_equal.
      apply skipn_cons in B. rewrite <- B. apply ext. intros j.
      rewrite !nth_skip, !app_length, kw_cells_length. f_equal. cbn. lia.
    + intros _. eauto.
  - cbn [run_stores]. exists (kw_cells p (lit_hash kws)). split; [|split; [discriminate|reflexivity]].
    do 4 f_equal. apply ext. intros j. rewrite !nth_skip, app_length, kw_cells_length. f_equal. lia.
Qed.

Theorem jit_call_ok : forall toary p pos kws fwd f,
  params_ok p -> is_simple_call p (compile_site pos kws fwd) = true ->
  NoDup (map fst (lits kws)) -> all_known p kws ->
  implicit_kept p (length pos) -> post_kept p (length pos) -> slots p <= length f ->
  exists cs, call_result toary p pos kws (inl cs) /\
             jit_call p (compile_site pos kws fwd) f = Some (Ok (cs ++ skipn (length cs) f)).
Proof.
  intros toary p pos kws fwd f PO SC ND AK IK PK LF.
  destruct (simple_call_parts p pos kws fwd SC) as (SP & NS & NK & SA & AR & MI).
  assert (F := lits_only kws SP).
  assert (MG : merge kws = lit_hash kws) by (rewrite merge_split by exact F; now rewrite SP).
  assert (Acc : p_block p = false -> accepts p (length pos)).
  { intros B. unfold positional_arity_ok in AR. rewrite B in AR. cbn [orb] in AR. unfold accepts.
    destruct (is_rest p) eqn:R.
    - apply Nat.leb_le in AR. split; [exact AR|]. unfold is_rest in R.
      destruct (p_rest p) as [[|]|] eqn:PR; [left; now apply IK|now right|discriminate].
    - apply andb_true_iff in AR as [A1 A2]. apply Nat.leb_le in A1. apply Nat.leb_le in A2. auto. }
  assert (LT : total_pos p <= length f) by (unfold slots in LF; lia).
  set (s := compile_site pos kws fwd) in *.
  assert (LP : length (s_pos s) = length pos) by (cbn; apply map_length).
  assert (RP := jit_positional_ok p s f LT). rewrite LP in RP. specialize (RP Acc PK).
  change (s_pos s) with (map fst pos) in RP.
  set (L := loosen p (map fst pos)) in *.
  assert (POS : positional p (map fst pos) (layout p (cutA p L) (cutB p L) (cutC p L) (cutD p L))).
  { assert (HL : min_args p <= length L).
    { subst L. rewrite loosen_length. unfold min_args, max_args. destruct (is_rest p); lia. }
    assert (HM : length L <= max_args p \/ is_rest p = true).
    { subst L. rewrite loosen_length. destruct (is_rest p); [now right|left; lia]. }
    assert (CC := cut_canonical p L HL HM).
    destruct (p_block p) eqn:B; [now apply pos_block|].
    apply pos_method; [exact B|rewrite map_length; now apply Acc|].
    subst L. rewrite loosen_same in CC.
    - rewrite loosen_same; [exact CC| |]; rewrite map_length; destruct (Acc eq_refl) as [A1 A2]; [exact A1|].
      destruct A2 as [A2|A2]; [now left|right; unfold is_rest; now rewrite A2].
    - rewrite map_length. now destruct (Acc eq_refl).
    - rewrite map_length. destruct (Acc eq_refl) as [_ [A2|A2]]; [now left|right; unfold is_rest; now rewrite A2]. }
  assert (LC := positional_length _ _ _ POS).
  destruct (jit_tail p pos kws fwd _ f PO SP ND LC LF) as (ks & J & K1 & K2).
  { cbn [s_pos compile_site]. rewrite map_length. exact RP. }
  exists (layout p (cutA p L) (cutB p L) (cutC p L) (cutD p L) ++ ks). split.
  2:{ subst s. rewrite J. now rewrite <- app_assoc. }
  assert (FL : flight p (existsb snd pos) kws (spread pos) = (map fst pos, lit_hash kws)).
  { rewrite NS, spread_plain, <- MG by exact NS. unfold flight. now destruct kws. }
  assert (NKW : no_keyword p = true -> lit_hash kws = []).
  { intros N. rewrite NK by (now rewrite N). reflexivity. }
  apply (cr_bound toary p pos kws _ _ (map fst pos) _ ks FL).
  - intros FO. rewrite NK by (rewrite FO; apply orb_true_r). reflexivity.
  - assert (FF : fst (fold_keywords p (map fst pos) (lit_hash kws)) = map fst pos).
    { unfold fold_keywords. destruct (no_keyword p); [|reflexivity]. rewrite NKW by reflexivity.
      cbn. apply app_nil_r. }
    rewrite FF. destruct (single_arg_expand p) eqn:SAE; [|now apply as_not].
    apply as_several. intros v E. assert (Q := f_equal (@length value) E). rewrite map_length in Q.
    now specialize (SA Q).
  - exact POS.
  - assert (SF : snd (fold_keywords p (map fst pos) (lit_hash kws)) = lit_hash kws).
    { unfold fold_keywords. destruct (no_keyword p); [|reflexivity]. now rewrite NKW. }
    rewrite SF. destruct (p_kwrest p) eqn:R.
    + destruct (K1 eq_refl) as (c & -> & IKR). now apply kwr_rest.
    + rewrite (K2 eq_refl). apply kwr_plain; [exact MI|exact R|].
      destruct (leftover p (lit_hash kws)) as [|e l] eqn:LO; [reflexivity|]. exfalso.
      assert (I : In (fst e) (map fst (leftover p (lit_hash kws)))) by (rewrite LO; now left).
      apply in_leftover in I as [I T]. destruct (lit_hash_sym _ _ I) as [n E]. rewrite E in I, T.
      apply lit_hash_in in I. apply in_map_iff in I as ([n' v] & X & I). cbn in X. subst n'.
      cbn in T. rewrite (AK R n v I) in T. discriminate.
Qed.

(** ** What the compiler takes the slots to be *)

Definition describes (s : site) (src : source) (c : cell) : Prop :=
  match src with
  | SArg i => exists v, nth_error (s_pos s) i = Some v /\ c = Val v
  | SNil => c = Val VNil
  | SNone => c = Unset
  | SRest _ _ => exists l, c = Val (VArr l)
  | SKw i => exists v, nth_error (s_kw_slots s) i = Some v /\ c = Val v
  | SKwRest _ => c = Val VNil \/ exists h, c = Val (VHash false h)
  end.

Lemma apply_cases : forall p n,
  let st := reqopt p + (if is_rest p then 1 else 0) in
  exists r o q rl,
    apply_args p n = ((0, r), (p_req p, p_req p + o), (st, st + q), rl) /\
    r <= p_req p /\ o <= p_opt p /\ q <= p_post p /\
    r + o <= n /\ q <= n /\ r + o + rl <= n /\ (o = 0 \/ r = p_req p) /\
    (post_kept p n -> q = 0 \/ r + o + rl = n - q).
Proof.
  intros p n st.
  assert (MM : min_args p = p_req p + p_post p) by reflexivity.
  assert (MX : max_args p = reqopt p + p_post p) by reflexivity.
  assert (RQ : reqopt p = p_req p + p_opt p) by reflexivity.
  unfold apply_args. fold st.
  destruct (Nat.leb_spec n (p_req p)).
  { exists n, 0, 0, 0. split; [pairs|]. lia. }
  destruct (Nat.leb_spec n (min_args p)).
  { exists (p_req p), 0, (n - p_req p), 0. split; [pairs|]. lia. }
  destruct (Nat.ltb_spec (max_args p) n).
  { exists (p_req p), (p_opt p), (p_post p), (if p_block p && negb (is_rest p) then 0 else n - max_args p).
    split; [reflexivity|]. unfold post_kept. destruct (is_rest p) eqn:R.
    - cbn [negb]. rewrite andb_false_r. lia.
    - destruct (p_block p); cbn [negb andb]; intuition (lia || discriminate). }
  exists (p_req p), (n - min_args p), (p_post p), 0. split; [pairs|]. lia.
Qed.

Lemma nth_range : forall {A} a b (g : nat -> A) j,
  nth_error (range (a, b) g) j = if j <? b - a then Some (g (a + j)) else None.
Proof.
  intros A a b g j. unfold range. cbn [fst snd]. rewrite nth_map.
  assert (G : forall n a j, nth_error (seq a n) j = if j <? n then Some (a + j) else None).
  { clear. induction n as [|n IH]; intros a [|j]; cbn [seq nth_error]; try reflexivity.
    - now rewrite Nat.add_0_r.
    - rewrite IH. replace (a + S j) with (S a + j) by lia.
      change (S j <? S n) with (j <? n). reflexivity. }
  rewrite G. destruct (j <? b - a); reflexivity.
Qed.

Lemma range_length : forall {A} a b (g : nat -> A), length (range (a, b) g) = b - a.
Proof. intros A a b g. unfold range. now rewrite map_length, seq_length. Qed.

Lemma nth_seq_map : forall {A} (T : nat -> A) c n j,
  nth_error (map T (seq c n)) j = if j <? n then Some (T (c + j)) else None.
Proof.
  intros A T c n j. assert (R := nth_range c (c + n) T j). unfold range in R. cbn [fst snd] in R.
  now replace (c + n - c) with n in R by lia.
Qed.

Lemma range_shift : forall {A} (T g : nat -> A) a b c,
  (forall k, k < b - a -> g (a + k) = T (c + k)) -> range (a, b) g = map T (seq c (b - a)).
Proof.
  intros A T g a b c H. apply ext. intros j. rewrite nth_range, nth_seq_map.
  destruct (Nat.ltb_spec j (b - a)); [|reflexivity]. now rewrite H.
Qed.

(** The positional part of what the compiler takes the slots to be. *)
Lemma types_positional : forall p r o q rl,
  let rr := if is_rest p then 1 else 0 in
  let st := reqopt p + rr in
  r <= p_req p -> o <= p_opt p -> q <= p_post p ->
  range (0, r) SArg ++ range (r, p_req p) (fun _ => SNil) ++ range (r, r + o) SArg
  ++ range (o, p_opt p) (fun _ => SNone) ++ (if is_rest p then [SRest 0 0] else [])
  ++ range (r + o + rl, r + o + rl + q) SArg ++ range (q, p_post p) (fun _ => SNil)
  = map (fun j => if j <? r then SArg j else if j <? p_req p then SNil
                  else if j <? p_req p + o then SArg (r + (j - p_req p))
                  else if j <? reqopt p then SNone else if j <? st then SRest 0 0
                  else if j <? st + q then SArg (r + o + rl + (j - st)) else SNil)
        (seq 0 (total_pos p)).
Proof.
  intros p r o q rl rr st B1 B2 B3.
  assert (RQ : reqopt p = p_req p + p_opt p) by reflexivity.
  assert (ST : st = reqopt p + rr) by reflexivity.
  assert (RR : rr <= 1) by (subst rr; destruct (is_rest p); lia).
  assert (TT : total_pos p = st + p_post p) by (unfold total_pos, max_args, st, reqopt; fold rr; lia).
  match goal with |- _ = map ?g _ => set (T := g) end.
  assert (RE : (if is_rest p then [SRest 0 0] else []) = map T (seq (reqopt p) rr)).
  { subst rr. destruct (is_rest p); [|reflexivity]. cbn [seq map]. f_equal. subst T. cbn beta.
    clearbody st. cbn in ST. repeat cmp1; try reflexivity; lia. }
  rewrite RE. clear RE. clearbody rr st.
  rewrite (range_shift T SArg 0 r 0).
  2:{ intros k Hk. subst T. cbn beta. repeat cmp1. reflexivity. }
  rewrite (range_shift T (fun _ => SNil) r (p_req p) r).
  2:{ intros k Hk. subst T. cbn beta. repeat cmp1. reflexivity. }
  rewrite (range_shift T SArg r (r + o) (p_req p)).
  2:{ intros k Hk. subst T. cbn beta. repeat cmp1. f_equal. lia. }
  rewrite (range_shift T (fun _ => SNone) o (p_opt p) (p_req p + o)).
  2:{ intros k Hk. subst T. cbn beta. repeat cmp1. reflexivity. }
  rewrite (range_shift T SArg (r + o + rl) (r + o + rl + q) st).
  2:{ intros k Hk. subst T. cbn beta. repeat cmp1. f_equal. lia. }
  rewrite (range_shift T (fun _ => SNil) q (p_post p) (st + q)).
  2:{ intros k Hk. subst T. cbn beta. repeat cmp1. reflexivity. }
  clearbody T. rewrite <- !map_app. f_equal.
  replace (total_pos p) with ((r - 0) + ((p_req p - r) + ((r + o - r) + ((p_opt p - o)
     + (rr + ((r + o + rl + q - (r + o + rl)) + (p_post p - q))))))) by lia.
  rewrite !seq_app.
  repeat match goal with |- seq ?a ?n ++ _ = seq ?b ?n ++ _ =>
    replace b with a by lia; apply f_equal end.
  f_equal; lia.
Qed.

Theorem jit_types_sound : forall p pos kws fwd f f',
  let s := compile_site pos kws fwd in
  params_ok p -> is_simple_call p s = true -> NoDup (map fst (lits kws)) ->
  post_kept p (length pos) -> slots p <= length f ->
  jit_call p s f = Some (Ok f') ->
  length (jit_types p s) = slots p /\
  forall i src, nth_error (jit_types p s) i = Some src ->
  exists c, nth_error f' i = Some c /\ describes s src c.
Proof.
  intros p pos kws fwd f f' s PO SC ND PK LF J.
  destruct (simple_call_parts p pos kws fwd SC) as (SP & NS & NK & SA & AR & MI).
  assert (SO : site_ok kws s) by apply compile_site_ok.
  assert (LP : length (s_pos s) = length pos) by (cbn; apply map_length).
  set (n := length (s_pos s)) in *. rewrite <- LP in PK.
  destruct (apply_cases p n) as (r & o & q & rl & AA & B1 & B2 & B3 & B4 & B5 & B6 & B7 & BP).
  specialize (BP PK).
  set (rr := if is_rest p then 1 else 0) in *. set (st := reqopt p + rr) in *.
  assert (RQ : reqopt p = p_req p + p_opt p) by reflexivity.
  assert (ST : st = reqopt p + rr) by reflexivity.
  assert (RR : rr <= 1) by (subst rr; destruct (is_rest p); lia).
  assert (TT : total_pos p = st + p_post p) by (unfold total_pos, max_args, st, reqopt; fold rr; lia).
  assert (LT : total_pos p <= length f) by (unfold slots in LF; lia).
  destruct (jit_run p s f r o q rl AA LT) as (f1 & E1 & L1 & N1); auto.
  fold n rr st in N1.
  set (cs := firstn (total_pos p) f1).
  assert (LC : length cs = total_pos p) by (subst cs; rewrite firstn_length; lia).
  assert (FE : f1 = cs ++ skipn (total_pos p) f).
  { rewrite <- (firstn_skipn (total_pos p) f1) at 1. fold cs. f_equal.
    apply ext. intros j. rewrite !nth_skip, N1. repeat cmp1. reflexivity. }
  rewrite FE in E1.
  destruct (jit_tail p pos kws fwd cs f PO SP ND LC LF E1) as (ks & J' & K1 & K2).
  fold s in J'. rewrite J in J'. injection J' as ->.
  assert (LK : length ks = length (p_kws p) + (if p_kwrest p then 1 else 0)).
  { destruct (p_kwrest p).
    - destruct (K1 eq_refl) as (c & -> & _). rewrite app_length, kw_cells_length. reflexivity.
    - rewrite (K2 eq_refl), kw_cells_length. lia. }
  unfold jit_types. fold n. rewrite AA. cbn [fst snd].
  replace (r - 0) with r by lia. replace (p_req p + o - p_req p) with o by lia.
  replace (st + q - st) with q by lia.
  replace (range (0, r) SArg ++ _) with
    ((range (0, r) SArg ++ range (r, p_req p) (fun _ => SNil) ++ range (r, r + o) SArg
      ++ range (o, p_opt p) (fun _ => SNone) ++ (if is_rest p then [SRest 0 0] else [])
      ++ range (r + o + rl, r + o + rl + q) SArg ++ range (q, p_post p) (fun _ => SNil))
     ++ map (fun e => match im_get (s_kw_args s) (fst e) with Some j => SKw j | None => SNone end) (p_kws p)
     ++ (if p_kwrest p then [SKwRest []] else [])) by (rewrite <- !app_assoc; reflexivity).
  rewrite (types_positional p r o q rl) by assumption. fold rr st.
  split.
  { rewrite !app_length, !map_length, seq_length. unfold slots.
    destruct (p_kwrest p); cbn [length]; lia. }
  intros i src H.
  rewrite nth_app, map_length, seq_length, nth_seq_map in H. cbn [Nat.add] in H.
  destruct (Nat.lt_ge_cases i (total_pos p)) as [I|I].
  - assert (NF : nth_error (cs ++ ks ++ skipn (length (cs ++ ks)) f) i = nth_error f1 i).
    { rewrite FE, !nth_app, LC. repeat cmp1. reflexivity. }
    rewrite NF, N1. clear N1 NF J E1 FE K1 K2.
    assert (IB : i <? total_pos p = true) by (apply Nat.ltb_lt; exact I).
    rewrite IB in *. injection H as <-.
    assert (AV : forall j, j < n -> exists v, nth_error (s_pos s) j = Some v).
    { intros j Hj. destruct (nth_error (s_pos s) j) eqn:E; [eauto|]. apply nth_error_None in E. fold n in E. lia. }
    clear LK LF LT L1 LC LP SA AR PK AA. clearbody st rr n cs.
    repeat cmp1; cbn [describes]; try (eexists; split; [reflexivity|]; solve [reflexivity|eexists; reflexivity]).
    + destruct (AV i) as [v E]; [lia|]. exists (Val v). rewrite E. split; [reflexivity|].
      exists v. split; reflexivity.
    + destruct (AV i) as [v E]; [lia|]. exists (Val v). rewrite E. split; [reflexivity|].
      exists v. split; [|reflexivity]. rewrite <- E. f_equal. lia.
    + destruct (AV (n - q + (i - st))) as [v E]; [lia|]. exists (Val v). rewrite E. split; [reflexivity|].
      exists v. split; [|reflexivity]. rewrite <- E. f_equal. lia.
  - assert (IB : i <? total_pos p = false) by (apply Nat.ltb_ge; exact I). rewrite IB in H.
    clear N1 E1. rewrite (nth_app cs), LC, IB.
    rewrite nth_app, map_length, nth_map in H.
    rewrite nth_app, LK.
    set (k := i - total_pos p) in *.
    assert (KC : k < length (p_kws p) -> nth_error ks k = nth_error (kw_cells p (lit_hash kws)) k).
    { intros Hk. destruct (p_kwrest p).
      - destruct (K1 eq_refl) as (c & -> & _). rewrite nth_app, kw_cells_length. repeat cmp1. reflexivity.
      - now rewrite (K2 eq_refl). }
    destruct (Nat.ltb_spec k (length (p_kws p))).
    + destruct (nth_error (p_kws p) k) as [e|] eqn:E; [|discriminate]. cbn [option_map] in H. injection H as <-.
      replace (k <? _) with true by (symmetry; apply Nat.ltb_lt; destruct (p_kwrest p); lia).
      rewrite KC by assumption. unfold kw_cells. rewrite nth_map, E. cbn [option_map].
      eexists. split; [reflexivity|].
      assert (KV := kw_value_ok kws s (fst e) SO). unfold name in *.
      change (im_get (im_fill [] 0 (lits kws)) (fst e)) with (im_get (s_kw_args s) (fst e)).
      destruct (im_get (s_kw_args s) (fst e)) as [j|].
      * destruct KV as (v & V1 & ->). cbn [describes cell_of]. exists v. split; [|reflexivity]. unfold kw_value in V1.
        destruct (nth_error (s_kw_slots s) j); congruence.
      * rewrite KV. reflexivity.
    + destruct (p_kwrest p).
      * destruct (k - length (p_kws p)) as [|k'] eqn:KK; [|cbn in H; destruct k'; discriminate].
        cbn in H. injection H as <-. assert (EK : k = length (p_kws p)) by lia.
        replace (k <? _) with true by (symmetry; apply Nat.ltb_lt; lia).
        destruct (K1 eq_refl) as (c & -> & IK). rewrite nth_app, kw_cells_length, EK, Nat.ltb_irrefl, Nat.sub_diag.
        cbn. exists c. split; [reflexivity|]. destruct IK as [->|[_ ->]]; [right; eauto|now left].
      * cbn in H. destruct (k - length (p_kws p)); discriminate.
Qed.
