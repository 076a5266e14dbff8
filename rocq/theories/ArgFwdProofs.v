(** The other ways a call is made: [yield], forwarding calls, builtin methods
    calling back. *)

From Coq Require Import ZArith List Bool Lia Arith.
From Verif Require Import ArgModel ArgSpec ArgProofs ArgKwProofs ArgCallProofs ArgJitProofs.
Import ListNotations.
Open Scope nat_scope.

Definition bare (l : list value) : list (value * bool) := map (fun v => (v, false)) l.

Lemma bare_fst : forall l, map fst (bare l) = l.
Proof. intros l. unfold bare. rewrite map_map. apply map_id. Qed.

Lemma bare_splat : forall l, existsb snd (bare l) = false.
Proof. induction l; cbn; auto. Qed.

Lemma bare_spread : forall l, spread (bare l) = l.
Proof. intros l. rewrite spread_plain by apply bare_splat. apply bare_fst. Qed.

Lemma splat_positions_bare : forall l i, splat_positions i (bare l) = [].
Proof. induction l as [|v l IH]; intros i; cbn; [reflexivity|apply IH]. Qed.

(** ** yield and send *)

Lemma bare_plain : forall toary p l, plain toary p (bare l) [].
Proof.
  intros toary p l S args h x FL E. right. left.
  rewrite bare_splat, bare_spread in FL. unfold flight in FL. injection FL as <- <-.
  unfold fold_keywords in E. cbn [merge fold_left] in E.
  assert (X : l = [x]) by (destruct (no_keyword p); cbn [fst] in E; [now rewrite app_nil_r in E|exact E]).
  subst l. reflexivity.
Qed.

Theorem set_simple_callee : forall toary p f l fwd,
  params_ok p ->
  set_simple toary p f (compile_site (bare l) [] fwd) l
  = set_callee toary p f (compile_site (bare l) [] fwd).
Proof.
  intros toary p f l fwd [_ PF].
  unfold set_simple, set_callee, bind_positional, excess.
  cbn [compile_site s_pos s_splat s_kw_args s_hsplat kw_may_exists lits splats im_fill].
  rewrite splat_positions_bare, bare_fst.
  unfold kw_may_exists. cbn [s_kw_args s_hsplat compile_site lits splats im_fill negb andb orb].
  assert (FA : p_forbid p && any_keyword_passed (compile_site (bare l) [] fwd) = false)
    by (destruct (p_forbid p); reflexivity).
  assert (FN : no_keyword p = true -> p_forbid p = false).
  { intros N. destruct (no_keyword_parts p N) as [_ K]. destruct (p_forbid p); [|reflexivity].
    destruct PF; congruence. }
  assert (HK : forall g, (if no_keyword p then Ok g
             else handle_keyword p g (compile_site (bare l) [] fwd) None) =
             handle_keyword p g (compile_site (bare l) [] fwd) None).
  { intros g. destruct (no_keyword p) eqn:N; [|reflexivity].
    symmetry. apply handle_keyword_none; auto. }
  destruct (no_keyword p && negb (p_forbid p) && negb (single_arg_expand p) && negb (p_r2k p)) eqn:FAST.
  - repeat (apply andb_true_iff in FAST as [FAST ?]). rewrite !negb_true_iff in *.
    rewrite H0, FAST. destruct (fill_slots p f (down l) (length l)); reflexivity.
  - rewrite FA, andb_false_r. cbn [bind]. rewrite orb_true_r.
    destruct (single_arg_expand p); cbn [bind].
    2:{ destruct (fill_slots p f (down l) (length l)); cbn [bind]; try reflexivity.
        apply HK. }
    destruct l as [|v [|w l]]; cbn [bind check_expand].
    + destruct (fill_slots p f (down []) (length [])); cbn [bind]; try reflexivity. apply HK.
    + destruct v as [|z|l|b h]; cbn [is_array].
      * destruct (toary VNil); cbn [bind check_expand]; try reflexivity.
        -- destruct (fill_slots p f (down [VNil]) (length [VNil])); cbn [bind]; try reflexivity. apply HK.
        -- destruct (fill_slice p f l); cbn [bind]; try reflexivity. apply HK.
      * destruct (toary (VObj z)); cbn [bind check_expand]; try reflexivity.
        -- destruct (fill_slots p f (down [VObj z]) (length [VObj z])); cbn [bind]; try reflexivity. apply HK.
        -- destruct (fill_slice p f l); cbn [bind]; try reflexivity. apply HK.
      * cbn [bind check_expand]. destruct (fill_slice p f l); cbn [bind]; try reflexivity. apply HK.
      * destruct (toary (VHash b h)); cbn [bind check_expand]; try reflexivity.
        -- destruct (fill_slots p f (down [VHash b h]) (length [VHash b h])); cbn [bind]; try reflexivity. apply HK.
        -- destruct (fill_slice p f l); cbn [bind]; try reflexivity. apply HK.
    + destruct (fill_slots p f (down (v :: w :: l)) (length (v :: w :: l))); destruct v;
        cbn [bind]; try reflexivity; apply HK.
Qed.

Definition vals_ok (l : list value) : Prop := forall b h, In (VHash b h) l -> hash_ok h.

Theorem set_simple_ok : forall toary p f l fwd,
  params_ok p -> vals_ok l -> slots p <= length f ->
  exists r, call_result toary p (bare l) [] r /\
            agrees f (set_simple toary p f (compile_site (bare l) [] fwd) l) r.
Proof.
  intros toary p f l fwd PO VO LF. rewrite set_simple_callee by exact PO.
  apply set_callee_ok; auto.
  - exact I.
  - constructor.
  - intros b h H. rewrite bare_spread in H. eapply VO, H.
  - apply bare_plain.
  - intros _ _ args h FL. rewrite bare_splat in FL. unfold flight in FL. now injection FL as _ <-.
Qed.

Theorem set_yield_ok : forall toary p f l fwd,
  params_ok p -> vals_ok l -> slots p <= length f ->
  exists r, call_result toary p (bare l) [] r /\
            agrees f (set_yield toary p f (compile_site (bare l) [] fwd)) r.
Proof.
  intros toary p f l fwd PO VO LF. unfold set_yield.
  cbn [compile_site s_pos]. rewrite bare_fst.
  destruct (is_simple p && (p_req p =? length l)) eqn:S.
  2:{ now apply set_simple_ok. }
  apply andb_true_iff in S as [S E]. apply Nat.eqb_eq in E.
  unfold is_simple in S. repeat (apply andb_true_iff in S as [S ?]).
  apply Nat.eqb_eq in S. apply Nat.eqb_eq in H1. apply negb_true_iff in H0.
  destruct (no_keyword_parts p H) as [K1 K2].
  assert (RE : p_rest p = None) by (unfold is_rest in H0; destruct (p_rest p); congruence).
  assert (TP : total_pos p = length l) by (unfold total_pos, max_args; rewrite H0; lia).
  destruct (memcpy_ok false f 0 l 0 (length l)) as (f' & E' & L' & N'); [lia|unfold slots in LF; lia|].
  cbn [src_of] in E'.
  assert (CU : cut p l l [] [] []).
  { repeat split; cbn; try lia; rewrite ?app_nil_r; try reflexivity; congruence. }
  assert (LY : layout p l [] [] [] = map Val l).
  { unfold layout. rewrite S, RE. cbn. now rewrite !app_nil_r. }
  assert (P : positional p l (map Val l)).
  { rewrite <- LY. destruct (p_block p) eqn:B.
    - apply pos_block; [exact B|]. unfold loosen. rewrite H0.
      unfold min_args, max_args. replace (p_req p + p_post p - length l) with 0 by lia. cbn [repeat].
      rewrite app_nil_r, firstn_all2 by lia. exact CU.
    - apply pos_method; [exact B| |exact CU]. unfold accepts, min_args, max_args. lia. }
  exists (inl (map Val l ++ [])). split.
  - apply (cr_bound toary p (bare l) [] l [] l (map Val l) []).
    + now rewrite bare_splat, bare_spread.
    + reflexivity.
    + unfold fold_keywords. rewrite H. cbn [fst]. rewrite app_nil_r.
      destruct (single_arg_expand p) eqn:SA; [|now apply as_not].
      apply as_several. intros v ->. unfold single_arg_expand in SA. rewrite TP in SA. cbn in SA.
      destruct (p_block p); discriminate.
    + exact P.
    + unfold fold_keywords. rewrite H. cbn [snd].
      replace (@nil cell) with (kw_cells p []) by (unfold kw_cells; now rewrite K1).
      apply kwr_plain; [unfold missing_kws; now rewrite K1|exact K2|reflexivity].
  - cbn [agrees]. rewrite E'. f_equal. rewrite app_nil_r. apply ext. intros j.
    rewrite N', nth_app, map_length, nth_map, nth_skip. unfold within. cbn [Nat.leb andb Nat.add].
    replace (length l - 0) with (length l) by lia. rewrite Nat.sub_0_r.
    destruct (Nat.ltb_spec j (length l)); [reflexivity|]. f_equal. lia.
Qed.

(** ** Forwarding *)

(** Forwarded arguments: [lead] written before, the forwarded ones, [tail]
    after (an implicit [super] has its post arguments there). *)
Definition forwarding (lead : list value) (v : value) (tail : list value) : list (value * bool) :=
  bare lead ++ (v, true) :: bare tail.

Lemma forwarding_fst : forall a v b, map fst (forwarding a v b) = a ++ v :: b.
Proof. intros a v b. unfold forwarding. rewrite map_app. cbn. now rewrite !bare_fst. Qed.

Lemma forwarding_splat : forall a v b, existsb snd (forwarding a v b) = true.
Proof. intros a v b. unfold forwarding. rewrite existsb_app. cbn. now rewrite orb_true_r. Qed.

Lemma spread_app : forall a b, spread (a ++ b) = spread a ++ spread b.
Proof. intros a b. unfold spread. apply flat_map_app. Qed.

Definition mid (v : value) : list value := match v with VArr l => l | VNil => [] | v => [v] end.

Lemma forwarding_spread : forall a v b, spread (forwarding a v b) = a ++ mid v ++ b.
Proof.
  intros a v b. unfold forwarding. rewrite spread_app, bare_spread. f_equal.
  cbn [spread flat_map snd fst]. f_equal; [now destruct v|apply bare_spread].
Qed.

Lemma splat_positions_app : forall a b i,
  splat_positions i (a ++ b) = splat_positions i a ++ splat_positions (i + length a) b.
Proof.
  induction a as [|[v c] a IH]; intros b i; cbn; [now rewrite Nat.add_0_r|].
  rewrite IH. replace (S i + length a) with (i + S (length a)) by lia. destruct c; reflexivity.
Qed.

Lemma forwarding_positions : forall a v b, splat_positions 0 (forwarding a v b) = [length a].
Proof.
  intros a v b. unfold forwarding. rewrite splat_positions_app, splat_positions_bare.
  cbn. rewrite splat_positions_bare. unfold bare. now rewrite map_length.
Qed.

Lemma kw_empty_merge : forall pos kws fwd, kw_empty (compile_site pos kws fwd) = true -> merge kws = [].
Proof.
  intros pos kws fwd H. unfold kw_empty in H. cbn [compile_site s_kw_args s_hsplat] in H.
  assert (SO := compile_site_ok pos kws fwd).
  destruct (im_fill [] 0 (lits kws)) eqn:IM; [|discriminate].
  assert (LN : lits kws = []).
  { apply lit_hash_nil. apply (kw_args_nil _ _ SO). exact IM. }
  clear IM SO. rewrite merge_split.
  - unfold lit_hash. rewrite LN. cbn [lit_pairs map hput_all fold_left].
    induction kws as [|[n v|[h|]] kws IH]; cbn in *; [reflexivity|discriminate| |].
    + apply andb_true_iff in H as [H1 H2]. destruct h; [|discriminate]. cbn. now apply IH.
    + now apply IH.
  - clear H. induction kws as [|[n v|h] kws IH]; cbn in *; [exact I|discriminate|]. exact LN.
Qed.

(** The trailing argument is not a flagged Hash in flight. *)
Definition no_flag (p : params) (kws : list kwarg) (l : list value) : Prop :=
  kws <> [] \/ p_r2k p = true \/ forall hd h, split_last l <> Some (hd, VHash true h).

Lemma fast_result : forall toary p f pos kws l,
  params_ok p -> merge kws = [] -> p_kws p = [] ->
  (no_keyword p = true \/ kws <> []) ->
  spread pos = l -> no_flag p kws l -> single_arg_expand p = false ->
  slots p <= length f ->
  exists r, call_result toary p pos kws r /\
    agrees f (let! f := fill_slice p f l in store_empty_kw_rest p f) r.
Proof.
  intros toary p f pos kws l PO M K1 NK SP NF SA LF.
  assert (FL : flight p (existsb snd pos) kws (spread pos) = (l, [])).
  { rewrite SP. destruct kws as [|k kws].
    - destruct NK as [N|N]; [|congruence]. unfold flight. rewrite N.
      destruct (existsb snd pos); [|reflexivity].
      destruct (split_last l) as [[hd [| | |[|] h]]|] eqn:E; try reflexivity.
      destruct NF as [X|[X|X]]; [congruence| |].
      + rewrite X. apply split_last_some in E. now rewrite E.
      + exfalso. exact (X _ _ E).
    - rewrite flight_written by discriminate. now rewrite M. }
  assert (FO : fst (fold_keywords p l []) = l /\ snd (fold_keywords p l []) = []).
  { unfold fold_keywords. destruct (no_keyword p); cbn; rewrite ?app_nil_r; auto. }
  assert (LT : total_pos p <= length f) by (unfold slots in LF; lia).
  destruct (fill_positional_spec p f l true LT) as [(B & A & E)|(cs & P & E)];
    cbn [src_of] in E; unfold fill_slice; rewrite E.
  - exists (inr (EArity (length l))). split; [|reflexivity].
    eapply cr_arity; try eassumption; [reflexivity|]. destruct FO as [-> _]. now apply as_not.
  - cbn [bind]. assert (LC := positional_length _ _ _ P).
    assert (MK : missing_kws p [] = []) by (unfold missing_kws; now rewrite K1).
    unfold store_empty_kw_rest. destruct (p_kwrest p) eqn:KR.
    + exists (inl (cs ++ (kw_cells p [] ++ [Val VNil]))). split.
      * eapply cr_bound; try eassumption; [reflexivity| |].
        -- destruct FO as [-> _]. now apply as_not.
        -- destruct FO as [_ ->]. apply kwr_rest; auto. right. auto.
      * unfold kw_cells. rewrite K1. cbn [map app agrees].
        unfold slots in LF. rewrite KR in LF. rewrite K1 in LF. cbn [length] in LF.
        destruct (skipn (length cs) f) as [|c rest] eqn:SK.
        { assert (X := skipn_length (length cs) f). rewrite SK in X. cbn in X. lia. }
        rewrite put_app by (unfold kwrest_slot; rewrite K1; cbn; lia).
        f_equal. rewrite <- app_assoc. cbn. do 2 f_equal. apply ext. intros j.
        rewrite nth_skip, app_length. cbn [length].
        assert (X : nth_error (skipn (length cs) f) (S j) = nth_error rest j) by now rewrite SK.
        rewrite nth_skip in X. rewrite <- X. f_equal. lia.
    + exists (inl (cs ++ kw_cells p [])). split.
      * eapply cr_bound; try eassumption; [reflexivity| |].
        -- destruct FO as [-> _]. now apply as_not.
        -- destruct FO as [_ ->]. now apply kwr_plain.
      * unfold kw_cells. rewrite K1. cbn [map agrees]. now rewrite app_nil_r.
Qed.

(** forwarded_core: the fast path does what the general path does. *)
Theorem forwarded_ok_call : forall toary p f a v b kws,
  params_ok p -> lits_first kws -> hashes_ok (splats kws) -> args_ok (forwarding a v b) ->
  plain toary p (forwarding a v b) kws -> no_flight p (forwarding a v b) kws ->
  no_flag p kws (a ++ mid v ++ b) -> slots p <= length f ->
  exists r, call_result toary p (forwarding a v b) kws r /\
    agrees f (forwarded_core toary p f (compile_site (forwarding a v b) kws true)) r.
Proof.
  intros toary p f a v b kws PO F OK AO PL NF NG LF. unfold forwarded_core.
  destruct (kw_empty (compile_site (forwarding a v b) kws true)
            && forwarded_ok p (compile_site (forwarding a v b) kws true)
            && negb (single_arg_expand p)) eqn:G.
  2:{ now apply set_callee_ok. }
  apply andb_true_iff in G as [G SA]. apply andb_true_iff in G as [KE FO].
  apply negb_true_iff in SA. apply kw_empty_merge in KE.
  cbn [compile_site s_splat s_pos]. rewrite forwarding_positions, forwarding_fst.
  rewrite nth_error_app2, Nat.sub_diag by lia. cbn [nth_error].
  replace (firstn (length a) (a ++ v :: b)) with a.
  2:{ rewrite firstn_app, Nat.sub_diag, firstn_all. cbn. now rewrite app_nil_r. }
  replace (skipn (S (length a)) (a ++ v :: b)) with b.
  2:{ rewrite skipn_app. replace (S (length a) - length a) with 1 by lia.
      rewrite skipn_all2 by lia. reflexivity. }
  unfold forwarded_ok in FO. rewrite (kw_may_exists_ok kws _ (compile_site_ok _ _ _)) in FO.
  apply fast_result; auto.
  - apply orb_true_iff in FO as [N|N]; [now apply no_keyword_parts in N|].
    apply andb_true_iff in N as [N _]. destruct (p_kws p); [reflexivity|discriminate].
  - apply orb_true_iff in FO as [N|N]; [now left|right].
    apply andb_true_iff in N as [_ N]. destruct kws; [discriminate|congruence].
  - now rewrite forwarding_spread.
Qed.

(** The Array that is never built. *)
Theorem lazy_fill_ok : forall toary p f a orig b kws,
  params_ok p -> merge kws = [] -> p_kws p = [] -> (no_keyword p = true \/ kws <> []) ->
  no_flag p kws (a ++ orig ++ b) -> single_arg_expand p = false -> slots p <= length f ->
  exists r, call_result toary p (forwarding a (VArr orig) b) kws r /\
    agrees f (lazy_fill p f (compile_site (forwarding a (VArr orig) b) kws true) (length a) orig) r.
Proof.
  intros toary p f a orig b kws PO M K1 NK NF SA LF. unfold lazy_fill.
  cbn [compile_site s_pos]. rewrite forwarding_fst.
  replace (firstn (length a) (a ++ VArr orig :: b)) with a.
  2:{ rewrite firstn_app, Nat.sub_diag, firstn_all. cbn. now rewrite app_nil_r. }
  replace (skipn (S (length a)) (a ++ VArr orig :: b)) with b.
  2:{ rewrite skipn_app. replace (S (length a) - length a) with 1 by lia.
      rewrite skipn_all2 by lia. reflexivity. }
  apply fast_result; auto. now rewrite forwarding_spread.
Qed.

Lemma range_split : forall {A} a b c (g : nat -> A), a <= b <= c ->
  range (a, b) g ++ range (b, c) g = range (a, c) g.
Proof.
  intros A a b c g H. unfold range. cbn [fst snd]. rewrite <- map_app. f_equal.
  replace (c - a) with ((b - a) + (c - b)) by lia. rewrite seq_app. do 2 f_equal. lia.
Qed.

Lemma range_same : forall {A} a b a' b' (g h : nat -> A), a = a' -> b = b' ->
  (forall i, a <= i < b -> g i = h i) -> range (a, b) g = range (a', b') h.
Proof.
  intros A a b a' b' g h <- <- E. unfold range. cbn [fst snd]. apply map_ext_in. intros i I.
  apply in_seq in I. apply E. lia.
Qed.

Lemma range_empty : forall {A} a b (g : nat -> A), b <= a -> range (a, b) g = [].
Proof. intros A a b g H. unfold range. cbn. now replace (b - a) with 0 by lia. Qed.

(** The stores of the deferred form are those of a call written out. *)
Lemma deferred_stores_ok : forall p lead len, deferred_gate p lead len = true ->
  deferred_stores p lead len =
    Some (jit_positional p (lead + len) ++ (if p_kwrest p then [(kwrest_slot p, SNil)] else [])).
Proof.
  intros p lead len G. unfold deferred_gate in G. repeat (apply andb_true_iff in G as [G ?]).
  apply Nat.eqb_eq in G. apply Nat.leb_le in H4. apply Nat.leb_le in H1. clear H2 H.
  unfold deferred_stores. set (n := lead + len) in *.
  assert (RQ : reqopt p = p_req p + p_opt p) by reflexivity.
  assert (MX : max_args p = reqopt p) by (unfold max_args; lia).
  assert (MM : min_args p = p_req p) by (unfold min_args; lia).
  destruct (Nat.ltb_spec (Nat.min n (reqopt p)) lead) as [X|X]; [lia|].
  f_equal. rewrite !app_assoc. f_equal.
  set (st := reqopt p + (if is_rest p then 1 else 0)).
  assert (E : exists o, apply_args p n = ((0, p_req p), (p_req p, p_req p + o), (st, st),
                (if is_rest p then n - Nat.min n (reqopt p) else snd (apply_args p n)))
              /\ p_req p + o = Nat.min n (reqopt p)).
  { unfold apply_args. fold st. rewrite MX, MM, G.
    destruct (Nat.leb_spec n (p_req p)).
    { exists 0. split; [|lia]. replace n with (p_req p) by lia. rewrite Nat.add_0_r.
      destruct (is_rest p); [|reflexivity]. cbn [snd]. f_equal; lia. }
    destruct (Nat.ltb_spec (reqopt p) n).
    { exists (p_opt p). split; [|lia]. rewrite Nat.add_0_r.
      destruct (is_rest p); [|reflexivity]. cbn [snd negb]. rewrite andb_false_r. f_equal. lia. }
    exists (n - p_req p). split; [|lia]. rewrite Nat.add_0_r.
    replace (p_req p + n - p_req p) with (p_req p + (n - p_req p)) by lia.
    destruct (is_rest p); [|reflexivity]. cbn [snd]. f_equal; lia. }
  destruct E as (o & E & EO). unfold jit_positional. rewrite E. cbn [fst snd].
  rewrite !Nat.sub_0_r, !Nat.sub_diag, G.
  replace (p_req p + o - p_req p) with o by lia.
  rewrite (range_empty (p_req p) (p_req p)), (range_empty st st), (range_empty (st + 0)) by lia.
  rewrite !app_nil_r.
  replace (lead + (Nat.min n (reqopt p) - lead)) with (p_req p + o) by lia.
  replace (Nat.min n (reqopt p) + (reqopt p - Nat.min n (reqopt p))) with (reqopt p) by lia.
  rewrite <- EO. rewrite (range_split 0 lead) by lia.
  rewrite <- (range_split 0 (p_req p) (p_req p + o)) by lia.
  rewrite <- !app_assoc. cbn [app]. f_equal. f_equal; [|f_equal].
  - apply range_same; auto. intros i I. do 2 f_equal. lia.
  - destruct (is_rest p); [|reflexivity]. now rewrite EO.
Qed.

Theorem deferred_ok : forall toary p f a orig kws s,
  deferred_gate p (length a) (length orig) = true ->
  params_ok p -> merge kws = [] -> (no_keyword p = true \/ kws <> []) ->
  no_flag p kws (a ++ orig) -> slots p <= length f ->
  s_pos s = a ++ orig ->
  exists st r, deferred_stores p (length a) (length orig) = Some st /\
    call_result toary p (forwarding a (VArr orig) []) kws r /\
    agrees f (run_stores s st f) r.
Proof.
  intros toary p f a orig kws s G PO M NK NF LF SE.
  rewrite (deferred_stores_ok _ _ _ G). eexists. 
  unfold deferred_gate in G. repeat (apply andb_true_iff in G as [G ?]).
  apply Nat.eqb_eq in G. apply Nat.leb_le in H1. apply negb_true_iff in H3.
  assert (K1 : p_kws p = []) by (destruct (p_kws p); [reflexivity|discriminate]).
  assert (LT : total_pos p <= length f) by (unfold slots in LF; lia).
  destruct (fast_result toary p f (forwarding a (VArr orig) []) kws (a ++ orig)) as (r & R1 & R2); auto.
  { rewrite forwarding_spread. cbn [mid]. now rewrite app_nil_r. }
  exists r. split; [reflexivity|]. split; [exact R1|].
  assert (LS : length (s_pos s) = length a + length orig) by (rewrite SE; apply app_length).
  assert (ACC : accepts p (length a + length orig)).
  { unfold accepts, min_args, max_args, reqopt in *. split; [lia|].
    destruct (is_rest p) eqn:R; cbn [negb orb] in *.
    - right. unfold is_explicit_rest in H2. destruct (p_rest p) as [[|]|]; congruence.
    - left. apply Nat.leb_le in H0. lia. }
  assert (RP := jit_positional_ok p s f LT). rewrite LS in RP.
  specialize (RP (fun _ => ACC) (or_intror (or_intror G))).
  set (L := loosen p (s_pos s)) in *.
  assert (POS : positional p (a ++ orig) (layout p (cutA p L) (cutB p L) (cutC p L) (cutD p L))).
  { assert (HL : min_args p <= length L).
    { subst L. rewrite loosen_length. unfold min_args, max_args. destruct (is_rest p); lia. }
    assert (HM : length L <= max_args p \/ is_rest p = true).
    { subst L. rewrite loosen_length. destruct (is_rest p); [now right|left; lia]. }
    assert (CC := cut_canonical p L HL HM).
    assert (LA : length (a ++ orig) = length a + length orig) by apply app_length.
    subst L. rewrite SE in *.
    destruct (p_block p) eqn:B; [now apply pos_block|].
    apply pos_method; [exact B|now rewrite LA|].
    destruct ACC as [A1 A2]. rewrite loosen_same in CC |- *; rewrite ?LA; auto.
    - destruct A2 as [A2|A2]; [now left|right; unfold is_rest; now rewrite A2].
    - destruct A2 as [A2|A2]; [now left|right; unfold is_rest; now rewrite A2]. }
  assert (LC := positional_length _ _ _ POS).
  rewrite run_app, RP. cbn [bind].
  destruct (fill_positional_spec p f (a ++ orig) true LT) as [(B & A & E)|(cs & P & E)].
  { exfalso. apply A. now rewrite app_length. }
  rewrite (positional_fun _ _ _ _ P POS) in E. unfold fill_slice in R2. cbn [src_of] in E.
  rewrite E in R2. cbn [bind] in R2. rewrite LC in R2.
  unfold store_empty_kw_rest in R2. destruct (p_kwrest p); [|exact R2].
  cbn [run_stores eval_source]. destruct (put _ (kwrest_slot p) (Val VNil)); exact R2.
Qed.

(** ** Calls by builtin methods *)

Definition kw_hash (kw : option hash) : hash := match kw with Some h => h | None => [] end.

Definition kw_ok (kw : option hash) : Prop := match kw with Some h => hash_ok h | None => True end.

Lemma hget_hdel : forall h k k', hash_ok h -> k <> k' -> hget (hdel h k) k' = hget h k'.
Proof.
  intros h k k' H D. induction h as [|[k0 v0] h IH]; cbn; [reflexivity|].
  inversion H; subst. destruct (key_eqb_spec k0 k) as [->|D0]; cbn.
  - destruct (key_eqb_spec k k') as [->|]; [congruence|reflexivity].
  - rewrite IH by assumption. reflexivity.
Qed.

Lemma hash_ok_hdel : forall h k, hash_ok h -> hash_ok (hdel h k).
Proof. intros h k H. rewrite hdel_filter by exact H. now apply filter_ok. Qed.

Lemma invoker_keywords_ok : forall kws a b kw, kw_ok kw -> NoDup (map fst kws) ->
  length kws <= length b ->
  invoker_keywords (a ++ b) (length a) kws kw =
    Ok (a ++ map (fun e => cell_of (hget (kw_hash kw) (KSym (fst e)))) kws ++ skipn (length kws) b,
        option_map (fun h => fold_left (fun h e => hdel h (KSym (fst e))) kws h) kw).
Proof.
  induction kws as [|[n r] kws IH]; intros a b kw KO ND L.
  - cbn. destruct kw; reflexivity.
  - destruct b as [|c b]; cbn in L; [lia|]. inversion ND; subst.
    destruct kw as [h|]; cbn [invoker_keywords].
    + rewrite put_app by reflexivity. cbn [bind].
      replace (a ++ cell_of (hget h (KSym n)) :: b) with ((a ++ [cell_of (hget h (KSym n))]) ++ b)
        by (now rewrite <- app_assoc).
      replace (S (length a)) with (length (a ++ [cell_of (hget h (KSym n))])) by (rewrite app_length; cbn; lia).
      rewrite (IH (a ++ [cell_of (hget h (KSym n))]) b (Some (hdel h (KSym n))));
        [|now apply hash_ok_hdel|assumption|lia].
      cbn [option_map kw_hash map fst fold_left length skipn]. do 2 f_equal.
      rewrite <- app_assoc. cbn [app]. do 3 f_equal. apply map_ext_in. intros e I. f_equal.
      apply hget_hdel; [exact KO|]. intros E. injection E as E. apply H1. rewrite E. now apply in_map.
    + rewrite put_app by reflexivity. cbn [bind].
      replace (a ++ Unset :: b) with ((a ++ [Unset]) ++ b) by (now rewrite <- app_assoc).
      replace (S (length a)) with (length (a ++ [Unset])) by (rewrite app_length; cbn; lia).
      rewrite (IH (a ++ [Unset]) b None); [|exact I|assumption|lia].
      cbn [option_map kw_hash map fst length skipn]. do 2 f_equal. now rewrite <- app_assoc.
Qed.

(** The keyword slots written, the positional ones still to come. *)
Definition with_keywords (p : params) (f : frame) (kw : option hash) : frame :=
  firstn (total_pos p) f ++ kw_cells p (kw_hash kw) ++ skipn (total_pos p + length (p_kws p)) f.

Lemma invoker_keywords_frame : forall p f kw, params_ok p -> kw_ok kw -> slots p <= length f ->
  invoker_keywords f (kw_base p) (p_kws p) kw =
    Ok (with_keywords p f kw, option_map (leftover p) kw).
Proof.
  intros p f kw [ND _] KO LF. unfold slots in LF.
  assert (X := invoker_keywords_ok (p_kws p) (firstn (total_pos p) f) (skipn (total_pos p) f) kw KO ND).
  rewrite firstn_skipn, firstn_length, skipn_length in X.
  replace (Nat.min (total_pos p) (length f)) with (kw_base p) in X by (unfold kw_base; lia).
  rewrite X by lia. f_equal. f_equal.
  - unfold with_keywords, kw_cells. do 2 f_equal.
    apply ext. intros j. rewrite !nth_skip. f_equal. lia.
  - destruct kw as [h|]; [|reflexivity]. cbn. f_equal. now apply remove_declared_leftover.
Qed.

Lemma fill_with : forall p f kw l u, slots p <= length f ->
  (p_block p = false /\ ~ accepts p (length l) /\
   fill_positional p (with_keywords p f kw) (src_of u l) (length l) u = Err (EArity (length l)))
  \/ exists cs, positional p l cs /\
     fill_positional p (with_keywords p f kw) (src_of u l) (length l) u =
       Ok (cs ++ kw_cells p (kw_hash kw) ++ skipn (total_pos p + length (p_kws p)) f).
Proof.
  intros p f kw l u LF. unfold slots in LF.
  assert (A : length (firstn (total_pos p) f) = total_pos p) by (rewrite firstn_length; lia).
  destruct (fill_positional_spec p (with_keywords p f kw) l u) as [X|(cs & P & E)].
  - unfold with_keywords. rewrite app_length. lia.
  - now left.
  - right. exists cs. split; [exact P|]. rewrite E. do 2 f_equal.
    rewrite (positional_length _ _ _ P). unfold with_keywords.
    rewrite skipn_app, A, Nat.sub_diag. rewrite skipn_all2 by lia. reflexivity.
Qed.

Lemma put_kwrest : forall p cs ks f c, length cs = total_pos p -> length ks = length (p_kws p) ->
  total_pos p + length (p_kws p) < length f ->
  put (cs ++ ks ++ skipn (total_pos p + length (p_kws p)) f) (kwrest_slot p) c =
    Ok (cs ++ ks ++ c :: skipn (S (total_pos p + length (p_kws p))) f).
Proof.
  intros p cs ks f c LC LK LF. 
  destruct (skipn (total_pos p + length (p_kws p)) f) as [|x rest] eqn:SK.
  { assert (X := skipn_length (total_pos p + length (p_kws p)) f). rewrite SK in X. cbn in X. lia. }
  rewrite !app_assoc, put_app by (unfold kwrest_slot; rewrite app_length; lia).
  do 3 f_equal. apply ext. intros j. rewrite nth_skip.
  assert (X : nth_error (skipn (total_pos p + length (p_kws p)) f) (S j) = nth_error rest j) by now rewrite SK.
  rewrite nth_skip in X. rewrite <- X. f_equal. lia.
Qed.

Lemma fill_front : forall p a T l u, length a = total_pos p ->
  (p_block p = false /\ ~ accepts p (length l) /\
   fill_positional p (a ++ T) (src_of u l) (length l) u = Err (EArity (length l)))
  \/ exists cs, positional p l cs /\
     fill_positional p (a ++ T) (src_of u l) (length l) u = Ok (cs ++ T).
Proof.
  intros p a T l u LA.
  destruct (fill_positional_spec p (a ++ T) l u) as [X|(cs & P & E)].
  - rewrite app_length. lia.
  - now left.
  - right. exists cs. split; [exact P|]. rewrite E. do 2 f_equal.
    rewrite (positional_length _ _ _ P), skipn_app, LA, Nat.sub_diag. now rewrite skipn_all2 by lia.
Qed.

Definition no_conv (v : value) : to_ary := TNone.

(** The arguments a builtin passes, after the block has taken a lone Array apart. *)
Lemma positional_invoker_ok : forall p f args u ex,
  (forall v, ex = Some v -> is_array v = false) ->
  exists l u', autosplat no_conv p (args ++ opt_list ex) (inl l) /\
    fst (positional_invoker p f args u ex) = fill_positional p f (src_of u' l) (length l) u'.
Proof.
  intros p f args u ex EX. unfold positional_invoker.
  assert (REST : (single_arg_expand p = false \/ (forall l, args ++ opt_list ex <> [VArr l])) ->
    exists l u', autosplat no_conv p (args ++ opt_list ex) (inl l) /\
    fst (match ex with
         | Some v => (fill_slice p f (args ++ [v]), if u then args else rev args)
         | None => (fill_positional p f (if u then up args else down args) (length args) u, args)
         end) = fill_positional p f (src_of u' l) (length l) u').
  { intros H. exists (args ++ opt_list ex).
    assert (X : exists u', fst (match ex with
         | Some v => (fill_slice p f (args ++ [v]), if u then args else rev args)
         | None => (fill_positional p f (if u then up args else down args) (length args) u, args)
         end) = fill_positional p f (src_of u' (args ++ opt_list ex)) (length (args ++ opt_list ex)) u').
    { destruct ex as [v|]; cbn [opt_list fst].
      - exists true. reflexivity.
      - exists u. rewrite app_nil_r. reflexivity. }
    destruct X as [u' X]. exists u'. split; [|exact X].
    destruct H as [H|H]; [now apply as_not|].
    destruct (single_arg_expand p) eqn:S; [|now apply as_not].
    destruct (args ++ opt_list ex) as [|v [|w l]] eqn:E.
    - apply as_several. discriminate.
    - apply (as_conv no_conv p [v] v); auto. destruct v as [| |l|]; try reflexivity. now contradiction (H l).
    - apply as_several. discriminate. }
  destruct (single_arg_expand p) eqn:S.
  2:{ apply REST. now left. }
  destruct (check_expand [] args ex) as [l|] eqn:CE.
  - assert (A : args = [VArr l] /\ ex = None).
    { destruct args as [|v [|w args]]; cbn in CE.
      - destruct ex as [[| |xl|]|]; try discriminate. now specialize (EX _ eq_refl).
      - destruct ex; [discriminate|]. destruct v; try discriminate. injection CE as ->. auto.
      - discriminate. }
    destruct A as [-> ->]. exists l, true. split; [now apply as_array|reflexivity].
  - apply REST. right. intros l E. destruct args as [|v [|w args]]; cbn in E.
    + destruct ex as [v|]; cbn in E; [|discriminate]. injection E as ->. now specialize (EX _ eq_refl).
    + destruct ex as [x|]; cbn in E; [discriminate|]. injection E as ->. cbn in CE. discriminate.
    + discriminate.
Qed.

Lemma merge_one : forall kw, kw_ok kw -> merge [KSplat kw] = kw_hash kw.
Proof. intros [h|] H; [|reflexivity]. cbn. now apply hput_all_nil. Qed.

Lemma invoke_args_eq : forall p f args u kw, params_ok p -> kw_ok kw -> slots p <= length f ->
  invoke_args p f args u kw =
  let left := leftover p (kw_hash kw) in
  let kw' := option_map (leftover p) kw in
  let a := firstn (total_pos p) f in
  let ks := kw_cells p (kw_hash kw) in
  let b := total_pos p + length (p_kws p) in
  let fail e := {| i_frame := Err e; i_args := args; i_kw := kw' |} in
  let go T ex :=
    {| i_frame := (let! f := fst (positional_invoker p (a ++ ks ++ T) args u ex) in check_missing p f);
       i_args := snd (positional_invoker p (a ++ ks ++ T) args u ex); i_kw := kw' |} in
  if p_forbid p && match left with [] => false | _ => true end then fail ENoKw
  else if p_kwrest p then
    go (Val (match left with [] => VNil | h => VHash false h end) :: skipn (S b) f) None
  else match p_kws p, left with
       | _, [] => go (skipn b f) None
       | [], h => go (skipn b f) (Some (VHash (p_r2k p) h))
       | _, h => fail (EUnknown (map fst h))
       end.
Proof.
  intros p f args u kw PO KO LF. unfold invoke_args.
  rewrite (invoker_keywords_frame p f kw PO KO LF). cbv zeta.
  assert (LE : match option_map (leftover p) kw with Some (e :: h) => Some (e :: h) | _ => None end
               = match leftover p (kw_hash kw) with [] => None | h => Some h end).
  { destruct kw as [h|]; [|reflexivity]. cbn [option_map kw_hash]. destruct (leftover p h); reflexivity. }
  rewrite LE. clear LE.
  assert (FN : length (firstn (total_pos p) f) = total_pos p)
    by (rewrite firstn_length; unfold slots in LF; lia).
  assert (PK : forall c, p_kwrest p = true ->
    put (with_keywords p f kw) (kwrest_slot p) c =
    Ok (firstn (total_pos p) f ++ kw_cells p (kw_hash kw)
        ++ c :: skipn (S (total_pos p + length (p_kws p))) f)).
  { intros c R. apply put_kwrest; [exact FN|apply map_length|]. unfold slots in LF. rewrite R in LF. lia. }
  destruct (leftover p (kw_hash kw)) as [|e h] eqn:LO.
  - rewrite andb_false_r. destruct (p_kwrest p) eqn:R.
    + rewrite PK by reflexivity. destruct (positional_invoker _ _ _ _ _). reflexivity.
    + unfold with_keywords.
      destruct (p_kws p); destruct (positional_invoker _ _ _ _ _); reflexivity.
  - rewrite andb_true_r. destruct (p_forbid p); [reflexivity|]. destruct (p_kwrest p) eqn:R.
    + rewrite PK by reflexivity. destruct (positional_invoker _ _ _ _ _). reflexivity.
    + unfold with_keywords. destruct (p_kws p); [|reflexivity].
      destruct (positional_invoker _ _ _ _ _); reflexivity.
Qed.

Theorem invoke_ok : forall p f args u kw,
  params_ok p -> kw_ok kw -> slots p <= length f ->
  (p_kwrest p = false -> p_kws p <> [] -> leftover p (kw_hash kw) = []) ->
  exists r, call_result no_conv p (bare args) [KSplat kw] r /\
            agrees f (i_frame (invoke_args p f args u kw)) r.
Proof.
  intros p f args u kw PO KO LF NU. rewrite invoke_args_eq by assumption. cbv zeta.
  assert (FL : flight p (existsb snd (bare args)) [KSplat kw] (spread (bare args)) = (args, kw_hash kw)).
  { rewrite flight_written by discriminate. now rewrite bare_spread, merge_one. }
  assert (FN : length (firstn (total_pos p) f) = total_pos p)
    by (rewrite firstn_length; unfold slots in LF; lia).
  assert (FH : p_forbid p = true -> leftover p (kw_hash kw) = kw_hash kw).
  { intros FO. destruct PO as [_ PF]. destruct (PF FO) as [_ K]. unfold leftover, declared. rewrite K.
    cbn. clear. induction (kw_hash kw) as [|[[n|z] v] h IH]; cbn; [reflexivity| |]; now rewrite IH. }
  (* the part after the checks *)
  assert (GO : forall T ex,
    (p_forbid p = true -> kw_hash kw = []) ->
    args ++ opt_list ex = fst (fold_keywords p args (kw_hash kw)) ->
    snd (fold_keywords p args (kw_hash kw)) = (if no_keyword p then [] else kw_hash kw) ->
    (forall v, ex = Some v -> is_array v = false) ->
    (missing_kws p (kw_hash kw) = [] ->
     exists ks, kw_result p (snd (fold_keywords p args (kw_hash kw))) (inl ks) /\
       forall cs : list cell, length cs = total_pos p ->
       cs ++ kw_cells p (kw_hash kw) ++ T = (cs ++ ks) ++ skipn (length (cs ++ ks)) f) ->
    exists r, call_result no_conv p (bare args) [KSplat kw] r /\
      agrees f (let! f := fst (positional_invoker p (firstn (total_pos p) f ++ kw_cells p (kw_hash kw) ++ T)
                               args u ex) in check_missing p f) r).
  { intros T ex FO EA ES EX KR.
    destruct (positional_invoker_ok p (firstn (total_pos p) f ++ kw_cells p (kw_hash kw) ++ T) args u ex EX)
      as (l & u' & AS & PE).
    rewrite PE. rewrite EA in AS.
    destruct (fill_front p (firstn (total_pos p) f) (kw_cells p (kw_hash kw) ++ T) l u' FN)
      as [(B & A & E)|(cs & P & E)]; rewrite E; cbn [bind].
    - exists (inr (EArity (length l))). split; [|reflexivity]. eapply cr_arity; eassumption.
    - assert (LC := positional_length _ _ _ P).
      rewrite check_missing_ok by exact LC.
      destruct (missing_kws p (kw_hash kw)) as [|m ms] eqn:MI.
      + destruct (KR eq_refl) as (ks & K1 & K2). exists (inl (cs ++ ks)).
        split; [eapply cr_bound; eassumption|]. cbn [agrees]. f_equal. now apply K2.
      + exists (inr (EMissing (m :: ms))). split; [|reflexivity].
        eapply cr_keyword; try eassumption. rewrite ES.
        destruct (no_keyword p) eqn:N.
        * destruct (no_keyword_parts p N) as [K _]. unfold missing_kws in MI. rewrite K in MI. discriminate.
        * rewrite <- MI. apply kwr_missing. rewrite MI. discriminate. }
  destruct (p_forbid p && match leftover p (kw_hash kw) with [] => false | _ => true end) eqn:FB.
  { apply andb_true_iff in FB as [FO FB]. cbn [i_frame]. exists (inr ENoKw). split; [|reflexivity].
    apply (cr_nokw no_conv p (bare args) [KSplat kw] args (kw_hash kw) FL FO).
    rewrite <- (FH FO). intros E. rewrite E in FB. discriminate. }
  assert (FO : p_forbid p = true -> kw_hash kw = []).
  { intros FO. rewrite FO in FB. cbn [andb] in FB. rewrite <- (FH FO).
    destruct (leftover p (kw_hash kw)); [reflexivity|discriminate]. }
  assert (NS : p_kwrest p = true \/ p_kws p <> [] -> no_keyword p = false).
  { unfold no_keyword. intros [R|R]; destruct (p_kws p); auto; [now rewrite R|congruence]. }
  assert (LEN : forall cs : list cell, length cs = total_pos p ->
    length (cs ++ kw_cells p (kw_hash kw)) = total_pos p + length (p_kws p)).
  { intros cs L. rewrite app_length. unfold kw_cells. rewrite map_length. lia. }
  destruct (p_kwrest p) eqn:R.
  - assert (N := NS (or_introl eq_refl)). cbn [i_frame]. apply GO; auto.
    + unfold fold_keywords. rewrite N. cbn. apply app_nil_r.
    + unfold fold_keywords. now rewrite N.
    + discriminate.
    + intros MI. exists (kw_cells p (kw_hash kw) ++
        [Val (match leftover p (kw_hash kw) with [] => VNil | h => VHash false h end)]).
      split.
      * unfold fold_keywords. rewrite N. cbn [snd]. apply kwr_rest; auto. unfold is_kwrest.
        destruct (leftover p (kw_hash kw)); [right|left]; auto.
      * intros cs L.
        match goal with |- _ = _ ++ skipn ?n f =>
          replace n with (S (total_pos p + length (p_kws p)))
        end.
        -- rewrite <- !app_assoc. now destruct (leftover p (kw_hash kw)).
        -- assert (X := LEN cs L). rewrite !app_length in *. cbn [length]. lia.
  - destruct (p_kws p) as [|e kws] eqn:K.
    + assert (N : no_keyword p = true) by (unfold no_keyword; now rewrite K, R).
      assert (LH : leftover p (kw_hash kw) = kw_hash kw).
      { unfold leftover, declared. rewrite K. cbn. clear.
        induction (kw_hash kw) as [|[[n|z] v] h IH]; cbn; [reflexivity| |]; now rewrite IH. }
      assert (KC : kw_cells p (kw_hash kw) = []) by (unfold kw_cells; now rewrite K).
      rewrite LH. cbn [length]. rewrite Nat.add_0_r.
      assert (KR : missing_kws p (kw_hash kw) = [] ->
         exists ks, kw_result p (snd (fold_keywords p args (kw_hash kw))) (inl ks) /\
           forall cs : list cell, length cs = total_pos p ->
           cs ++ kw_cells p (kw_hash kw) ++ skipn (total_pos p) f = (cs ++ ks) ++ skipn (length (cs ++ ks)) f).
      { intros _. exists []. split.
        - unfold fold_keywords. rewrite N. cbn [snd].
          replace (@nil cell) with (kw_cells p []) by (unfold kw_cells; now rewrite K).
          apply kwr_plain; [unfold missing_kws; now rewrite K|exact R|reflexivity].
        - intros cs L. rewrite KC, app_nil_r, L. reflexivity. }
      destruct (kw_hash kw) as [|x h] eqn:KH; cbn [i_frame]; apply GO; auto;
        try (unfold fold_keywords; now rewrite N).
      * discriminate.
      * intros v E. injection E as <-. reflexivity.
    + assert (N : no_keyword p = false) by (apply NS; right; discriminate).
      rewrite (NU eq_refl) by discriminate. cbn [i_frame]. rewrite <- K in *. apply GO; auto.
      * unfold fold_keywords. rewrite N. cbn. apply app_nil_r.
      * unfold fold_keywords. now rewrite N.
      * discriminate.
      * intros MI. exists (kw_cells p (kw_hash kw)). split.
        -- unfold fold_keywords. rewrite N. cbn [snd]. apply kwr_plain; auto. apply NU; auto. rewrite K. discriminate.
        -- intros cs L. now rewrite app_assoc, (LEN cs L).
Qed.

(** What is left of the caller's keyword Hash and arguments. *)
Theorem invoke_effects : forall p f args u kw,
  params_ok p -> kw_ok kw -> slots p <= length f ->
  i_kw (invoke_args p f args u kw) = option_map (leftover p) kw /\
  (i_args (invoke_args p f args u kw) = args \/
   i_args (invoke_args p f args u kw) = rev args /\ u = false /\ no_keyword p = true /\ kw_hash kw <> []).
Proof.
  intros p f args u kw PO KO LF. rewrite invoke_args_eq by assumption. cbv zeta.
  assert (NONE : forall g, snd (positional_invoker p g args u None) = args).
  { intros g. unfold positional_invoker.
    destruct (if single_arg_expand p then check_expand [] args None else None); reflexivity. }
  assert (SOME : forall g v, snd (positional_invoker p g args u (Some v)) = args \/
    snd (positional_invoker p g args u (Some v)) = rev args /\ u = false).
  { intros g v. unfold positional_invoker.
    destruct (if single_arg_expand p then check_expand [] args (Some v) else None); [now left|].
    destruct u; [now left|right]. auto. }
  destruct (p_forbid p && match leftover p (kw_hash kw) with [] => false | _ => true end); [split; [reflexivity|now left]|].
  destruct (p_kwrest p) eqn:R; [split; [reflexivity|left; apply NONE]|].
  destruct (p_kws p) as [|e kws] eqn:K.
  - destruct (leftover p (kw_hash kw)) as [|x h] eqn:LO; [split; [reflexivity|left; apply NONE]|].
    split; [reflexivity|]. cbn [i_args].
    edestruct SOME as [E|[E U]]; [left; exact E|right]. split; [exact E|]. split; [exact U|].
    split; [unfold no_keyword; now rewrite K, R|]. intros E'. rewrite E' in LO. discriminate.
  - destruct (leftover p (kw_hash kw)); [split; [reflexivity|left; apply NONE]|].
    split; [reflexivity|now left].
Qed.
