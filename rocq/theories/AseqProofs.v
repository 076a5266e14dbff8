(** Lemmas about arithmetic sequences. *)
From Coq Require Import ZArith Bool Lia List Floats.SpecFloat.
From Verif Require Import IntModel IntProofs ImSpec ImBitProofs AseqModel AseqSpec.
Import ListNotations.
Open Scope Z_scope.
Ltac Zify.zify_post_hook ::= idtac.

(** ** Counting *)

Lemma count_unique b e s excl n m : is_count b e s excl n -> is_count b e s excl m -> n = m.
Proof.
  intros [N H] [M K].
  destruct (Z.lt_trichotomy n m) as [L|[E|L]]; [|exact E|]; exfalso.
  - specialize (H n N). specialize (K n N). assert (n < n) by tauto. lia.
  - specialize (H m M). specialize (K m M). assert (m < m) by tauto. lia.
Qed.

Lemma le_div d s k : 0 < s -> (k * s <= d <-> k <= d / s).
Proof.
  intros S. split; intros H.
  - apply Z.div_le_lower_bound; lia.
  - pose proof (Z.mul_div_le d s S). nia.
Qed.

Lemma fixnum_count_ok b e s excl : s <> 0 ->
  exists n, is_count b e s excl n /\ fixnum_count b e s excl = Finite (Z.min n I64_MAX).
Proof.
  intros S. unfold fixnum_count, is_count, within.
  assert (M0 : Z.min 0 I64_MAX = 0) by reflexivity.
  destruct (Z.ltb_spec 0 s) as [P|P].
  - replace (s <? 0) with false by (symmetry; apply Z.ltb_ge; lia). cbn [andb orb]. rewrite orb_false_r.
    destruct (Z.ltb_spec (e - b) 0) as [D|D].
    { exists 0. rewrite M0. split; [|reflexivity]. split; [lia|]. intros k K. destruct excl; nia. }
    rewrite Z.quot_div_nonneg by lia.
    pose proof (Z.div_mod (e - b) s S) as E. pose proof (Z.mod_pos_bound (e - b) s P) as B.
    pose proof (Z.div_pos (e - b) s D P) as Q0.
    pose proof (le_div (e - b) s) as LD.
    set (q := (e - b) / s) in *. set (r := (e - b) mod s) in *. clearbody q r.
    destruct excl; cbn [andb].
    + destruct (Z.leb_spec e (b + q * s)) as [O|O].
      * destruct (Z.ltb_spec (q - 1) 0).
        -- exists 0. rewrite M0. split; [|reflexivity]. split; [lia|]. intros k K. nia.
        -- exists q. replace (q - 1 + 1) with q by lia. split; [|reflexivity]. split; [lia|].
           intros k K. nia.
      * destruct (Z.ltb_spec q 0); [lia|]. exists (q + 1). split; [|reflexivity]. split; [lia|].
        intros k K. split; intros; nia.
    + destruct (Z.ltb_spec q 0); [lia|]. exists (q + 1). split; [|reflexivity]. split; [lia|].
      intros k K. specialize (LD k P). split; intros; [|]; nia.
  - replace (s <? 0) with true by (symmetry; apply Z.ltb_lt; lia). cbn [andb orb].
    destruct (Z.ltb_spec 0 (e - b)) as [D|D].
    { exists 0. rewrite M0. split; [|reflexivity]. split; [lia|]. intros k K. destruct excl; nia. }
    assert (EQ : Z.quot (e - b) s = (b - e) / (- s)).
    { rewrite <- Z.quot_div_nonneg by lia.
      replace (b - e) with (- (e - b)) by lia. rewrite Z.quot_opp_opp by lia. reflexivity. }
    rewrite EQ.
    pose proof (Z.div_mod (b - e) (- s) ltac:(lia)) as E.
    pose proof (Z.mod_pos_bound (b - e) (- s) ltac:(lia)) as B.
    pose proof (Z.div_pos (b - e) (- s) ltac:(lia) ltac:(lia)) as Q0.
    set (q := (b - e) / - s) in *. set (r := (b - e) mod - s) in *. clearbody q r.
    destruct excl; cbn [andb].
    + destruct (Z.leb_spec (b + q * s) e) as [O|O].
      * destruct (Z.ltb_spec (q - 1) 0).
        -- exists 0. rewrite M0. split; [|reflexivity]. split; [lia|]. intros k K. nia.
        -- exists q. replace (q - 1 + 1) with q by lia. split; [|reflexivity]. split; [lia|].
           intros k K. nia.
      * destruct (Z.ltb_spec q 0); [lia|]. exists (q + 1). split; [|reflexivity]. split; [lia|].
        intros k K. split; intros; nia.
    + destruct (Z.ltb_spec q 0); [lia|]. exists (q + 1). split; [|reflexivity]. split; [lia|].
      intros k K. split; intros; nia.
Qed.

Lemma count_exists b e s excl : s <> 0 -> exists n, is_count b e s excl n.
Proof. intros S. destruct (fixnum_count_ok b e s excl S) as [n [H _]]. eauto. Qed.

Lemma fixnum_count_eq b e s excl n : s <> 0 -> is_count b e s excl n ->
  fixnum_count b e s excl = Finite (Z.min n I64_MAX).
Proof.
  intros S H. destruct (fixnum_count_ok b e s excl S) as [m [K E]].
  now rewrite (count_unique _ _ _ _ _ _ H K).
Qed.

Lemma step_nz s : s <> 0 -> is_zero (AI (NFix s)) = false.
Proof. intros S. cbn. now apply Z.eqb_neq. Qed.

Lemma size_ok b e s excl n : s <> 0 -> is_count b e s excl n ->
  size (fixseq b (Some e) s excl) = AOk (Some (Z.min n I64_MAX)).
Proof.
  intros S H. unfold size. cbn [fixseq sstep sbeg send sexcl option_map].
  rewrite step_nz by assumption. cbn [finite_count]. now rewrite (fixnum_count_eq _ _ _ _ n).
Qed.
Lemma size_exact b e s excl n : s <> 0 -> is_count b e s excl n -> n < 2 ^ 63 ->
  size (fixseq b (Some e) s excl) = AOk (Some n).
Proof.
  intros S H B. rewrite (size_ok _ _ _ _ n) by assumption.
  rewrite Z.min_l; [reflexivity|unfold I64_MAX; lia].
Qed.

(** ** Terms *)

Lemma build_ok b s start n : are_ints (AOk (build_terms (AI (NFix b)) (AI (NFix s)) start n)) (terms b s start n).
Proof.
  eexists. split; [reflexivity|]. unfold build_terms, terms, indices. rewrite map_map.
  generalize (seq 0 (Z.to_nat n)). induction l as [|k l IH]; cbn [map]; constructor; [|exact IH].
  cbn [term_at]. eexists. split; [reflexivity|]. apply vb.
Qed.

Lemma ruby_build_ok b s start n : are_ints (AOk (map (fun i => ruby_term (AI b) i (AI s)) (indices start n))) (terms (ival b) (ival s) start n).
Proof.
  eexists. split; [reflexivity|]. unfold terms, indices. rewrite map_map.
  generalize (seq 0 (Z.to_nat n)). induction l as [|k l IH]; cbn [map]; constructor; [|exact IH].
  unfold ruby_term. cbn [r_add r_mul]. eexists. split; [reflexivity|].
  assert (E : ival (value_bigint ((start + Z.of_nat k) * ival s)) = (start + Z.of_nat k) * ival s)
    by (apply (vb _)).
  rewrite E. apply vb.
Qed.

Lemma first_ok b e s excl n m : s <> 0 -> is_count b e s excl n -> 0 <= m < 2 ^ 63 ->
  are_ints (first_n (fixseq b (Some e) s excl) m) (terms b s 0 (Z.min m n)).
Proof.
  intros S H M. unfold first_n. cbn [fixseq sstep sbeg send sexcl option_map].
  rewrite step_nz by assumption. destruct (Z.ltb_spec m 0); [lia|].
  destruct (Z.eqb_spec m 0) as [->|].
  - destruct H as [N _]. rewrite Z.min_l by lia. exists []. split; [reflexivity|constructor].
  - cbn [finite_count]. rewrite (fixnum_count_eq _ _ _ _ n) by assumption.
    replace (Z.min m (Z.min n I64_MAX)) with (Z.min m n) by (unfold I64_MAX; lia). apply build_ok.
Qed.

Lemma first_endless b s excl m : s <> 0 -> 0 <= m ->
  are_ints (first_n (fixseq b None s excl) m) (terms b s 0 m).
Proof.
  intros S M. unfold first_n. cbn [fixseq sstep sbeg send sexcl option_map].
  rewrite step_nz by assumption. destruct (Z.ltb_spec m 0); [lia|].
  destruct (Z.eqb_spec m 0) as [->|]; [exists []; split; [reflexivity|constructor]|]. apply build_ok.
Qed.

Lemma last_count_ok b e s excl n : s <> 0 -> is_count b e s excl n -> n < 2 ^ 63 ->
  last_count (fixseq b (Some e) s excl) = AOk (AI (NFix b), n).
Proof.
  intros S H B. unfold last_count. cbn [fixseq sstep sbeg send sexcl option_map].
  rewrite step_nz by assumption. cbn [finite_count]. rewrite (fixnum_count_eq _ _ _ _ n) by assumption.
  rewrite Z.min_l; [reflexivity|unfold I64_MAX; lia].
Qed.

Lemma last_ok b e s excl n : s <> 0 -> is_count b e s excl n -> n < 2 ^ 63 ->
  match last_term (fixseq b (Some e) s excl) with
  | AOk None => n = 0
  | AOk (Some v) => 0 < n /\ exists x, v = AI x /\ is_int x (b + (n - 1) * s)
  | AErr _ => False
  end.
Proof.
  intros S H B. unfold last_term. rewrite (last_count_ok _ _ _ _ n) by assumption.
  destruct H as [N _]. destruct (Z.eqb_spec n 0); [assumption|].
  split; [lia|]. cbn [fixseq sstep term_at]. eexists. split; [reflexivity|apply vb].
Qed.

Lemma last_n_ok b e s excl n m : s <> 0 -> is_count b e s excl n -> n < 2 ^ 63 -> 0 <= m ->
  are_ints (last_n (fixseq b (Some e) s excl) m) (terms b s (n - Z.min m n) (Z.min m n)).
Proof.
  intros S H B M. unfold last_n. rewrite (last_count_ok _ _ _ _ n) by assumption.
  destruct H as [N _]. destruct (Z.ltb_spec m 0); [lia|].
  destruct (Z.eqb_spec n 0) as [->|]; cbn [orb].
  { rewrite Z.min_r by lia. exists []. split; [reflexivity|constructor]. }
  destruct (Z.eqb_spec m 0) as [->|]; cbn [orb].
  { rewrite Z.min_l by lia. exists []. split; [reflexivity|constructor]. }
  apply build_ok.
Qed.

Lemma each_ok b e s excl n fuel : s <> 0 -> is_count b e s excl n -> n < 2 ^ 63 ->
  are_ints (each fuel (fixseq b (Some e) s excl)) (terms b s 0 (Z.min n (Z.of_nat fuel))).
Proof.
  intros S H B. unfold each. rewrite (size_exact _ _ _ _ n) by assumption.
  cbn [fixseq sstep sbeg send sexcl option_map]. rewrite step_nz by assumption. apply (ruby_build_ok (NFix b) (NFix s)).
Qed.
Lemma each_endless b s excl fuel : s <> 0 ->
  are_ints (each fuel (fixseq b None s excl)) (terms b s 0 (Z.of_nat fuel)).
Proof.
  intros S. unfold each, size. cbn [fixseq sstep sbeg send sexcl option_map].
  rewrite step_nz by assumption. apply (ruby_build_ok (NFix b) (NFix s)).
Qed.
Lemma to_a_ok b e s excl n : s <> 0 -> is_count b e s excl n -> n < 2 ^ 63 ->
  are_ints (to_a (fixseq b (Some e) s excl)) (terms b s 0 n).
Proof.
  intros S H B. unfold to_a. rewrite (size_exact _ _ _ _ n) by assumption.
  apply (ruby_build_ok (NFix b) (NFix s)).
Qed.

(** ** With a block, any Integers *)

Lemma in_bound_iff s excl i e : in_bound s excl i e = true <-> within s excl i e.
Proof.
  unfold in_bound, within. destruct (0 <? s), excl; rewrite ?Z.ltb_lt, ?Z.leb_le; reflexivity.
Qed.

Lemma terms_cons b s start n : 0 < n ->
  terms b s start n = (b + start * s) :: terms b s (start + 1) (n - 1).
Proof.
  intros N. unfold terms. replace (Z.to_nat n) with (S (Z.to_nat (n - 1))) by lia.
  cbn [seq map]. f_equal; [f_equal; f_equal; lia|]. rewrite <- seq_shift, map_map.
  apply map_ext. intros k. rewrite Nat2Z.inj_succ. f_equal. f_equal. lia.
Qed.
Lemma terms_shift b s start n : terms (b + s) s start n = terms b s (start + 1) n.
Proof. unfold terms. apply map_ext. intros k. ring. Qed.

Lemma count_next b e s excl n : is_count b e s excl n -> 0 < n -> is_count (b + s) e s excl (n - 1).
Proof.
  intros [N H] P. split; [lia|]. intros k K. specialize (H (k + 1) ltac:(lia)).
  replace (b + s + k * s) with (b + (k + 1) * s) by ring. rewrite <- H. lia.
Qed.

Lemma int_loop_ok e s excl : forall fuel b n, is_count b e s excl n ->
  int_loop fuel b s (Some e) excl = terms b s 0 (Z.min n (Z.of_nat fuel)).
Proof.
  induction fuel as [|fuel IH]; intros b n H.
  - destruct H as [N _]. rewrite Z.min_r by lia. reflexivity.
  - cbn [int_loop]. pose proof (proj2 H 0 ltac:(lia)) as H0. rewrite Z.add_0_r in H0.
    destruct (in_bound s excl b e) eqn:I.
    + apply in_bound_iff in I. assert (P : 0 < n) by tauto.
      rewrite (IH _ (n - 1)) by now apply count_next.
      rewrite (terms_cons b s 0) by lia. f_equal; [lia|].
      rewrite terms_shift. f_equal. lia.
    + assert (~ within s excl b e) by (rewrite <- in_bound_iff; congruence).
      destruct H as [N _]. assert (n = 0) as -> by (destruct (Z.eq_dec n 0); [assumption|]; assert (0 < n) by lia; tauto).
      rewrite Z.min_l by lia. reflexivity.
Qed.
Lemma int_loop_endless s excl : forall fuel b,
  int_loop fuel b s None excl = terms b s 0 (Z.of_nat fuel).
Proof.
  induction fuel as [|fuel IH]; intros b; [reflexivity|].
  cbn [int_loop]. rewrite IH, (terms_cons b s 0) by lia. f_equal; [lia|].
  rewrite terms_shift. f_equal. lia.
Qed.

Lemma wrap_ints zs : are_ints (AOk (map (fun z => AI (value_bigint z)) zs)) zs.
Proof.
  eexists. split; [reflexivity|]. induction zs as [|z zs IH]; cbn; constructor; [|exact IH].
  eexists. split; [reflexivity|apply vb].
Qed.

Lemma block_ok b e s excl n fuel : ival s <> 0 -> is_count (ival b) (ival e) (ival s) excl n ->
  are_ints (step_block fuel (mkseq (Some (AI b)) (Some (AI e)) (AI s) excl))
           (terms (ival b) (ival s) 0 (Z.min n (Z.of_nat fuel))).
Proof.
  intros S H. unfold step_block. cbn [sstep sbeg send sexcl is_zero].
  destruct (Z.eqb_spec (ival s) 0); [contradiction|].
  rewrite (int_loop_ok _ _ _ _ _ n) by assumption. apply wrap_ints.
Qed.
Lemma block_endless b s excl fuel : ival s <> 0 ->
  are_ints (step_block fuel (mkseq (Some (AI b)) None (AI s) excl))
           (terms (ival b) (ival s) 0 (Z.of_nat fuel)).
Proof.
  intros S. unfold step_block. cbn [sstep sbeg send sexcl is_zero].
  destruct (Z.eqb_spec (ival s) 0); [contradiction|]. rewrite int_loop_endless. apply wrap_ints.
Qed.

(** ** The methods agree with each other on Floats *)

Lemma float_terms b i s : term_at (AF b) i (AF s) = ruby_term (AF b) i (AF s).
Proof. reflexivity. Qed.

Lemma map_add_seq a k : forall c, map (fun x => (a + x)%nat) (seq c k) = seq (a + c) k.
Proof.
  induction k as [|k IH]; intros c; [reflexivity|]. cbn [seq map]. f_equal.
  rewrite IH. f_equal. lia.
Qed.

Lemma indices_split start n m : 0 <= m <= n ->
  indices start n = indices start m ++ indices (start + m) (n - m).
Proof.
  intros H. unfold indices.
  replace (Z.to_nat n) with (Z.to_nat m + Z.to_nat (n - m))%nat by lia.
  rewrite seq_app, map_app. f_equal. cbn [plus].
  rewrite <- (Nat.add_0_r (Z.to_nat m)) at 1. rewrite <- map_add_seq, map_map.
  apply map_ext. intros x. lia.
Qed.
Lemma indices_len start n : length (indices start n) = Z.to_nat n.
Proof. unfold indices. now rewrite map_length, seq_length. Qed.

Lemma finite_nonneg b e s excl n : finite_count b e s excl = Finite n -> 0 <= n.
Proof.
  assert (F : forall b e s, fixnum_count b e s excl = Finite n -> 0 <= n).
  { intros b0 e0 s0. unfold fixnum_count. cbv zeta. destruct (_ || _); [intros E; injection E; lia|].
    match goal with |- (if ?c then _ else _) = _ -> _ => destruct c eqn:Q end; intros E; injection E as <-;
      [lia|]; apply Z.ltb_ge in Q; unfold I64_MAX; lia. }
  assert (G : forall b e s, float_count b e s excl = Finite n -> 0 <= n).
  { intros b0 e0 s0. unfold float_count. cbv zeta. destruct (f_inf s0).
    - destruct (if f_lt f_zero s0 then _ else _); intros E; injection E; lia.
    - destruct (_ || _); [intros E; injection E; lia|].
      destruct (_ || _); [intros E; injection E; lia|]. destruct (f_inf _); [discriminate|].
      match goal with |- (if ?c then _ else _) = _ -> _ => destruct c eqn:Q end; intros E; injection E as <-;
      [lia|]; apply Z.ltb_ge in Q; unfold I64_MAX; lia. }
  unfold finite_count. intros E.
  destruct b as [[]|]; try exact (G _ _ _ E); destruct e as [[]|]; try exact (G _ _ _ E);
    destruct s as [[]|]; try exact (G _ _ _ E). exact (F _ _ _ E).
Qed.

(** Sequences whose terms are the same natively and in Ruby. *)
Lemma agree q b n l m : sbeg q = Some b ->
  (forall i, term_at b i (sstep q) = ruby_term b i (sstep q)) ->
  size q = AOk (Some n) -> to_a q = AOk l -> 0 <= m ->
  first_n q m = AOk (firstn (Z.to_nat m) l) /\
  last_n q m = AOk (skipn (Z.to_nat (n - m)) l) /\
  length l = Z.to_nat n /\
  last_term q = AOk (nth_error l (Z.to_nat (n - 1))) /\
  forall fuel, each fuel q = AOk (firstn fuel l).
Proof.
  intros EB T SZ TA M. unfold to_a in TA. rewrite SZ, EB in TA. injection TA as <-.
  unfold size in SZ. destruct (is_zero (sstep q)) eqn:Z0; [discriminate|]. rewrite EB in SZ.
  destruct (send q) as [e|] eqn:EE; [|discriminate].
  destruct (finite_count b e (sstep q) (sexcl q)) as [c|] eqn:FC; [|discriminate].
  injection SZ as ->. pose proof (finite_nonneg _ _ _ _ _ FC) as N.
  assert (BT : forall start k, build_terms b (sstep q) start k = map (fun i => ruby_term b i (sstep q)) (indices start k)).
  { intros start k. apply map_ext. exact T. }
  assert (FN : forall k, 0 <= k -> firstn (Z.to_nat k) (map (fun i => ruby_term b i (sstep q)) (indices 0 n)) =
    map (fun i => ruby_term b i (sstep q)) (indices 0 (Z.min k n))).
  { intros k K. rewrite firstn_map. f_equal. destruct (Z.le_gt_cases k n).
    - rewrite Z.min_l by lia. rewrite (indices_split 0 n k) by lia.
      rewrite firstn_app, indices_len, Nat.sub_diag, firstn_O, app_nil_r.
      rewrite <- (indices_len 0 k) at 1. apply firstn_all.
    - rewrite Z.min_r by lia. apply firstn_all2. rewrite indices_len. lia. }
  split; [|split; [|split; [|split]]].
  - unfold first_n. destruct (Z.ltb_spec m 0); [lia|]. destruct (Z.eqb_spec m 0) as [->|]; [reflexivity|].
    rewrite Z0, EB, EE, FC, BT, FN by lia. reflexivity.
  - unfold last_n, last_count. rewrite Z0, EB, EE, FC. destruct (Z.ltb_spec m 0); [lia|].
    rewrite skipn_map. destruct (Z.eqb_spec n 0) as [->|]; cbn [orb].
    { rewrite skipn_all2 by (rewrite indices_len; lia). reflexivity. }
    destruct (Z.eqb_spec m 0) as [->|].
    { rewrite skipn_all2 by (rewrite indices_len; lia). reflexivity. }
    rewrite BT. f_equal. f_equal. destruct (Z.le_gt_cases m n).
    + rewrite Z.min_l by lia. rewrite (indices_split 0 n (n - m)) by lia.
      rewrite skipn_app, indices_len, Nat.sub_diag. cbn [skipn].
      rewrite skipn_all2 by (rewrite indices_len; lia). cbn [app]. f_equal; lia.
    + rewrite Z.min_r by lia. replace (Z.to_nat (n - m)) with 0%nat by lia. cbn [skipn].
      f_equal; lia.
  - now rewrite map_length, indices_len.
  - unfold last_term, last_count. rewrite Z0, EB, EE, FC. destruct (Z.eqb_spec n 0) as [->|].
    { reflexivity. }
    rewrite T. rewrite (indices_split 0 n (n - 1)) by lia. rewrite map_app, nth_error_app2;
      rewrite map_length, indices_len; [|lia]. rewrite Nat.sub_diag.
    replace (n - (n - 1)) with 1 by lia. unfold indices. change (Z.to_nat 1) with 1%nat.
    cbn [seq map nth_error]. do 3 f_equal. lia.
  - intros fuel. unfold each, size. rewrite Z0, EB, EE, FC. f_equal.
    rewrite <- (Nat2Z.id fuel) at 2. rewrite FN by lia. f_equal. f_equal. lia.
Qed.

Lemma fixnum_terms b i s : term_at (AI (NFix b)) i (AI (NFix s)) = ruby_term (AI (NFix b)) i (AI (NFix s)).
Proof.
  unfold ruby_term. cbn [term_at r_add r_mul ival]. do 2 f_equal.
  now rewrite (proj1 (vb (i * s))).
Qed.

(** ** Floats with a block *)

Lemma lt_antisym f : f_lt f_zero f = true -> f_lt f f_zero = false.
Proof. destruct f as [[]|[]| |[] m e]; cbn; easy. Qed.

Lemma float_loop_ok b e u excl fuel : forall i0 n k d, 0 <= i0 ->
  nth_error (float_loop fuel i0 n b e u excl) k = Some d ->
  let t := f_add b (f_mul (f_of_Z (i0 + Z.of_nat k)) u) in
  i0 + Z.of_nat k <= n /\
  ((d = t /\ beyond u e d = false /\ (excl = true -> SFeqb d e = false)) \/
   (d = e /\ excl = false /\ beyond u e t = true /\ length (float_loop fuel i0 n b e u excl) = S k)).
Proof.
  induction fuel as [|fuel IH]; intros i0 n k d I; cbn [float_loop]; [destruct k; discriminate|].
  destruct (Z.ltb_spec n i0); [destruct k; discriminate|].
  set (t0 := f_add b (f_mul (f_of_Z i0) u)) in *.
  assert (B : (f_lt f_zero u && f_lt e t0 || f_lt u f_zero && f_lt t0 e)%bool = beyond u e t0).
  { unfold beyond. destruct (f_lt f_zero u) eqn:P; [rewrite (lt_antisym _ P)|]; cbn; [apply orb_false_r|reflexivity]. }
  rewrite B. destruct (beyond u e t0) eqn:B0.
  - destruct excl; [destruct k; discriminate|]. destruct k as [|k]; [|destruct k; discriminate].
    cbn [nth_error]. intros D; injection D as <-. replace (i0 + Z.of_nat 0) with i0 by lia. split; [lia|].
    right. auto.
  - destruct (excl && SFeqb t0 e)%bool eqn:X; [destruct k; discriminate|]. destruct k as [|k]; cbn [nth_error].
    + intros D; injection D as <-. replace (i0 + Z.of_nat 0) with i0 by lia. split; [lia|]. left.
      split; [reflexivity|]. split; [exact B0|]. intros ->. exact X.
    + intros D. destruct (IH (i0 + 1) n k d ltac:(lia) D) as [A R].
      replace (i0 + 1 + Z.of_nat k) with (i0 + Z.of_nat (S k)) in * by lia. split; [lia|].
      cbn [length]. destruct R as [R|R]; [left; exact R|]. right. intuition.
Qed.

Lemma float_block_ok fuel b e u excl : f_inf u = false ->
  f_inf (f_div (f_sub e b) u) = false ->
  yields b e u excl (float_step fuel b (Some e) u excl) /\
  Z.of_nat (length (float_step fuel b (Some e) u excl)) <= Z.max 0 (step_index b e u + 1).
Proof.
  intros U N. unfold float_step. rewrite U. cbn zeta. rewrite N.
  destruct (f_nan _ || f_lt _ f_zero)%bool; [split; [intros [|k] d; discriminate|cbn; lia]|].
  split.
  - intros k d D. destruct (float_loop_ok _ _ _ _ _ _ _ _ _ (Z.le_refl 0) D) as [_ R]. exact R.
  - remember (float_loop fuel 0 (step_index b e u) b e u excl) as l eqn:E.
    destruct (length l) as [|k] eqn:L; [lia|].
    destruct (nth_error l k) as [d|] eqn:D; [|apply nth_error_None in D; lia].
    rewrite E in D. destruct (float_loop_ok _ _ _ _ _ _ _ _ _ (Z.le_refl 0) D) as [A _]. lia.
Qed.

(** ** What is refused *)
Lemma endless_refused q b n : sbeg q = Some b -> send q = None -> is_zero (sstep q) = false ->
  size q = AOk None /\ to_a q = AErr ARange /\ last_term q = AErr ARange /\ last_n q n = AErr ARange.
Proof. intros B E Z. unfold to_a, last_term, last_n, last_count, size. rewrite B, E, Z. auto. Qed.
Lemma zero_refused q n fuel : is_zero (sstep q) = true ->
  size q = AErr AArg /\ to_a q = AErr AArg /\ last_term q = AErr AType /\ last_n q n = AErr AType /\
  (0 < n -> first_n q n = AErr AType) /\ each fuel q = AErr AType /\ step_block fuel q = AErr AArg.
Proof.
  intros Z. unfold to_a, last_term, last_n, last_count, each, step_block, first_n, size. rewrite Z.
  repeat split. intros N. destruct (Z.ltb_spec n 0); [lia|]. destruct (Z.eqb_spec n 0); [lia|]. reflexivity.
Qed.
