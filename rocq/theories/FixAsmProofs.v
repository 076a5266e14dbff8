(** Lemmas: the fixnum machine code is exact whenever it does not deopt. *)
From Coq Require Import ZArith Bool Lia ZifyBool.
From Verif Require Import IntSpec IntModel IntProofs FixAsmModel.
Open Scope Z_scope.
Ltac Zify.zify_post_hook ::= Z.div_mod_to_equations.

Definition fixr (n : Z) : Prop := - 2 ^ 62 <= n < 2 ^ 62.

(** [o] is either a deopt or the tagged word of [z], which is then in range. *)
Definition exact_or_deopt (o : aout) (z : Z) : Prop :=
  match o with Reg w => fixr z /\ w = tag z | Deopt => True end.
(** [o] is the tagged word of [z] when [z] fits, and a deopt otherwise. *)
Definition exact_iff_fits (o : aout) (z : Z) : Prop :=
  match o with Reg w => fixr z /\ w = tag z | Deopt => ~ fixr z end.

Lemma exact_weaken o z : exact_iff_fits o z -> exact_or_deopt o z.
Proof. destruct o; cbn; tauto. Qed.

Lemma lor1 x : Z.lor (2 * x) 1 = 2 * x + 1.
Proof.
  rewrite <- Z.lxor_lor; [rewrite <- Z.add_nocarry_lxor; [reflexivity|]|];
  apply Z.bits_inj'; intros i Hi; rewrite Z.land_spec, Z.bits_0;
  destruct (Z.eq_dec i 0) as [->|];
  try (rewrite Z.testbit_even_0; reflexivity);
  rewrite andb_comm; change 1 with (2 ^ 0);
  rewrite Z.pow2_bits_false by lia; reflexivity.
Qed.

Lemma lor1_gen x : Z.lor x 1 = 2 * (x / 2) + 1.
Proof.
  rewrite <- lor1. apply Z.bits_inj'. intros i Hi. rewrite !Z.lor_spec.
  destruct (Z.eq_dec i 0) as [->|].
  - rewrite !orb_true_r. reflexivity.
  - f_equal. replace i with (Z.succ (i - 1)) by lia.
    rewrite Z.double_bits_succ. rewrite <- Z.div2_div. rewrite Z.div2_spec.
    rewrite Z.shiftr_spec by lia. f_equal.
Qed.

Lemma untag n : Z.shiftr (tag n) 1 = n.
Proof. unfold tag. rewrite Z.shiftr_div_pow2 by lia. change (2 ^ 1) with 2. lia. Qed.

Ltac fx := unfold exact_iff_fits, exact_or_deopt, fixr, oflow, in_i64, I64_MIN, I64_MAX, tag in *.

Lemma asm_add_ok a b : fixr a -> fixr b -> exact_iff_fits (asm_add (tag a) (tag b)) (a + b).
Proof.
  intros Ha Hb. unfold asm_add. fx.
  rewrite (wrap64_id (2 * a + 1 - 1)) by (pows; lia).
  destruct (negb _) eqn:E; [pows; lia|]. rewrite wrap64_id; pows; lia.
Qed.

Lemma asm_sub_ok a b : fixr a -> fixr b -> exact_iff_fits (asm_sub (tag a) (tag b)) (a - b).
Proof.
  intros Ha Hb. unfold asm_sub. fx.
  destruct (negb _) eqn:E; [pows; lia|].
  rewrite (wrap64_id (_ - _)) by (pows; lia). rewrite wrap64_id; pows; lia.
Qed.

Lemma asm_mul_ok a b : fixr a -> fixr b -> exact_iff_fits (asm_mul (tag a) (tag b)) (a * b).
Proof.
  intros Ha Hb. unfold asm_mul. rewrite untag. fx.
  rewrite (wrap64_id (2 * a + 1 - 1)) by (pows; lia).
  replace ((2 * a + 1 - 1) * b) with (2 * (a * b)) by lia.
  set (p := a * b) in *. clearbody p.
  destruct (negb _) eqn:E; [pows; lia|].
  rewrite wrap64_id by (pows; lia). rewrite lor1. pows; lia.
Qed.

Lemma floor_adjust a b : b <> 0 ->
  (if b <? 0 then (if Z.rem a b <=? 0 then Z.quot a b else Z.quot a b - 1)
   else (if Z.rem a b <? 0 then Z.quot a b - 1 else Z.quot a b)) = a / b.
Proof.
  intros Hb. pose proof (Z.quot_rem' a b) as Hq. pose proof (Z.rem_bound_abs a b Hb) as Hr.
  revert Hq Hr. generalize (Z.quot a b), (Z.rem a b). intros q m Hq Hr.
  destruct (b <? 0) eqn:Eb.
  - destruct (m <=? 0) eqn:Em.
    + apply (Z.div_unique_neg a b q m); lia.
    + apply (Z.div_unique_neg a b (q - 1) (m + b)); lia.
  - destruct (m <? 0) eqn:Em.
    + apply (Z.div_unique_pos a b (q - 1) (m + b)); lia.
    + apply (Z.div_unique_pos a b q m); lia.
Qed.

Lemma floor_adjust_mod a b : b <> 0 ->
  (if b <? 0 then (if Z.rem a b <=? 0 then Z.rem a b else Z.rem a b + b)
   else (if Z.rem a b <? 0 then Z.rem a b + b else Z.rem a b)) = a mod b.
Proof.
  intros Hb. pose proof (Z.quot_rem' a b) as Hq. pose proof (Z.rem_bound_abs a b Hb) as Hr.
  revert Hq Hr. generalize (Z.quot a b), (Z.rem a b). intros q m Hq Hr.
  destruct (b <? 0) eqn:Eb.
  - destruct (m <=? 0) eqn:Em.
    + apply (Z.mod_unique_neg a b q m); lia.
    + apply (Z.mod_unique_neg a b (q - 1) (m + b)); lia.
  - destruct (m <? 0) eqn:Em.
    + apply (Z.mod_unique_pos a b (q - 1) (m + b)); lia.
    + apply (Z.mod_unique_pos a b q m); lia.
Qed.

Lemma wrap_if (c1 c2 c3 : bool) x y :
  - 2 ^ 63 <= y < 2 ^ 63 ->
  (if c1 then (if c2 then x else wrap64 y) else (if c3 then wrap64 y else x)) =
  (if c1 then (if c2 then x else y) else (if c3 then y else x)).
Proof. intros H. rewrite !wrap64_id by exact H. reflexivity. Qed.

Lemma asm_div_gen a b : fixr a -> fixr b -> b <> 0 ->
  asm_div (tag a) (tag b) = Reg (2 * (wrap64 (2 * (a / b)) / 2) + 1).
Proof.
  intros Ha Hb Hnz. unfold asm_div. rewrite !untag.
  replace (b =? 0) with false by (symmetry; lia).
  pose proof (quot_abs_bound a b Hnz) as Hq. unfold fixr in *.
  cbv zeta. rewrite wrap_if by (pows; revert Hq; generalize (Z.quot a b); intros; lia).
  rewrite (floor_adjust a b Hnz). rewrite lor1_gen.
  rewrite Z.shiftl_mul_pow2 by lia. rewrite (Z.mul_comm (a / b)). reflexivity.
Qed.

Lemma div_range a b : fixr a -> fixr b -> b <> 0 -> ~ (a = - 2 ^ 62 /\ b = -1) -> fixr (a / b).
Proof.
  unfold fixr. intros Ha Hb Hnz Hn.
  pose proof (Z.div_mod a b Hnz) as E.
  destruct (Z_lt_le_dec b 0) as [Hneg|Hpos].
  - pose proof (Z.mod_neg_bound a b Hneg) as Hm.
    revert E Hm. generalize (a / b), (a mod b). intros q m E Hm. pows. 
    destruct (Z.eq_dec b (-1)) as [->|]; [lia|]. nia.
  - pose proof (Z.mod_pos_bound a b ltac:(lia)) as Hm.
    revert E Hm. generalize (a / b), (a mod b). intros q m E Hm. pows. nia.
Qed.

Lemma asm_div_ok a b : fixr a -> fixr b -> ~ (a = - 2 ^ 62 /\ b = -1) ->
  (b = 0 -> asm_div (tag a) (tag b) = Deopt) /\
  (b <> 0 -> asm_div (tag a) (tag b) = Reg (tag (a / b)) /\ fixr (a / b)).
Proof.
  intros Ha Hb Hn. split.
  - intros ->. unfold asm_div. rewrite untag. reflexivity.
  - intros Hnz. pose proof (div_range a b Ha Hb Hnz Hn) as Hr. split; [|exact Hr].
    rewrite asm_div_gen by assumption. unfold fixr in Hr.
    revert Hr. generalize (a / b). intros q Hr.
    rewrite wrap64_id by (pows; lia). unfold tag. do 2 f_equal. lia.
Qed.

Lemma asm_div_wrong :
  asm_div (tag (- 2 ^ 62)) (tag (-1)) = Reg (tag (- 2 ^ 62)).
Proof. reflexivity. Qed.

Lemma asm_rem_ok a b : fixr a -> fixr b ->
  (b = 0 -> asm_rem (tag a) (tag b) = Deopt) /\
  (b <> 0 -> asm_rem (tag a) (tag b) = Reg (tag (a mod b)) /\ fixr (a mod b)).
Proof.
  intros Ha Hb. split.
  - intros ->. unfold asm_rem. rewrite untag. reflexivity.
  - intros Hnz. unfold asm_rem. rewrite !untag.
    replace (b =? 0) with false by (symmetry; lia).
    pose proof (Z.rem_bound_abs a b Hnz) as Hr. unfold fixr in *. cbv zeta.
    rewrite wrap_if by (pows; revert Hr; generalize (Z.rem a b); intros; lia).
    rewrite floor_adjust_mod by exact Hnz.
    assert (Hm : fixr (a mod b)).
    { unfold fixr. destruct (Z_lt_le_dec b 0) as [Hneg|Hpos].
      - pose proof (Z.mod_neg_bound a b Hneg). lia.
      - pose proof (Z.mod_pos_bound a b ltac:(lia)). lia. }
    split; [|exact Hm]. unfold fixr in Hm. revert Hm. generalize (a mod b). intros m Hm.
    rewrite Z.shiftl_mul_pow2 by lia. rewrite (Z.mul_comm m). change (2 ^ 1) with 2.
    rewrite wrap64_id by (pows; lia). rewrite lor1. reflexivity.
Qed.

Lemma tag_bit n i : 0 <= i -> Z.testbit (tag n) i = if i =? 0 then true else Z.testbit n (i - 1).
Proof.
  intros Hi. unfold tag. destruct (Z.eqb_spec i 0) as [->|].
  - apply Z.testbit_odd_0.
  - replace i with (Z.succ (i - 1)) by lia. rewrite Z.testbit_odd_succ by lia. f_equal. lia.
Qed.

Lemma tag_lor a b : Z.lor (tag a) (tag b) = tag (Z.lor a b).
Proof.
  apply Z.bits_inj'. intros i Hi. rewrite Z.lor_spec, !tag_bit by exact Hi.
  destruct (i =? 0) eqn:E; [reflexivity|]. rewrite Z.lor_spec. reflexivity.
Qed.
Lemma tag_land a b : Z.land (tag a) (tag b) = tag (Z.land a b).
Proof.
  apply Z.bits_inj'. intros i Hi. rewrite Z.land_spec, !tag_bit by exact Hi.
  destruct (i =? 0) eqn:E; [reflexivity|]. rewrite Z.land_spec. reflexivity.
Qed.
Lemma tag_lxor a b : Z.lxor (tag a) (tag b) = 2 * Z.lxor a b.
Proof.
  apply Z.bits_inj'. intros i Hi. rewrite Z.lxor_spec, !tag_bit by exact Hi.
  destruct (Z.eqb_spec i 0) as [->|]; [rewrite Z.testbit_even_0; reflexivity|].
  rewrite <- Z.lxor_spec. replace i with (Z.succ (i - 1)) at 2 by lia.
  rewrite Z.double_bits_succ. reflexivity.
Qed.

(** Two's complement range as a bit condition. *)
Lemma fixr_bits n : fixr n <-> forall i, 62 <= i -> Z.testbit n i = (n <? 0).
Proof.
  unfold fixr. split.
  - intros H i Hi. destruct (n <? 0) eqn:E.
    + replace n with (- (- n)) by lia. 
      replace (- - n) with (Z.lnot (- n - 1)) by (unfold Z.lnot; lia).
      rewrite Z.lnot_spec by lia. apply negb_true_iff.
      destruct (Z.eq_dec (- n - 1) 0) as [->|]; [apply Z.bits_0|].
      apply Z.bits_above_log2; [lia|].
      enough (Z.log2 (- n - 1) < 62) by lia. apply Z.log2_lt_pow2; lia.
    + destruct (Z.eq_dec n 0) as [->|]; [apply Z.bits_0|].
      apply Z.bits_above_log2; [lia|].
      enough (Z.log2 n < 62) by lia. apply Z.log2_lt_pow2; lia.
  - intros H. destruct (n <? 0) eqn:E.
    + destruct (Z_le_gt_dec (- 2 ^ 62) n) as [|Hgt]; [lia|]. exfalso.
      set (m := - n - 1). assert (Hm : 2 ^ 62 <= m) by (unfold m; lia).
      assert (Hl : 62 <= Z.log2 m) by (apply Z.log2_le_pow2; lia).
      specialize (H (Z.log2 m) Hl). replace n with (Z.lnot m) in H by (unfold m, Z.lnot; lia).
      rewrite Z.lnot_spec in H by lia. rewrite Z.bit_log2 in H by (pows; lia). discriminate.
    + destruct (Z_lt_le_dec n (2 ^ 62)) as [|Hge]; [lia|]. exfalso.
      assert (Hl : 62 <= Z.log2 n) by (apply Z.log2_le_pow2; pows; lia).
      specialize (H (Z.log2 n) Hl). rewrite Z.bit_log2 in H by (pows; lia). discriminate.
Qed.

Lemma fixr_bits' n : (exists b, forall i, 62 <= i -> Z.testbit n i = b) -> fixr n.
Proof.
  intros [b H]. apply fixr_bits. intros i Hi. rewrite (H i Hi).
  set (j := 62 + Z.log2 (Z.abs n) + Z.log2 (Z.abs (- n - 1)) + 1).
  pose proof (Z.log2_nonneg (Z.abs n)). pose proof (Z.log2_nonneg (Z.abs (- n - 1))).
  rewrite <- (H j) by (unfold j; lia).
  destruct (n <? 0) eqn:E.
  - replace n with (Z.lnot (- n - 1)) by (unfold Z.lnot; lia).
    rewrite Z.lnot_spec by (unfold j; lia). apply negb_true_iff.
    apply Z.bits_above_log2; [lia|]. unfold j. rewrite (Z.abs_eq (- n - 1)) by lia.
    unfold Z.lnot. replace (- Z.pred (- (- n - 1)) - 1) with (- n - 1 + 0) by lia. lia.
  - apply Z.bits_above_log2; [lia|]. unfold j. rewrite (Z.abs_eq n) by lia. lia.
Qed.

Lemma fixr_bitop (f : Z -> Z -> Z) (g : bool -> bool -> bool) a b :
  (forall x y i, Z.testbit (f x y) i = g (Z.testbit x i) (Z.testbit y i)) ->
  fixr a -> fixr b -> fixr (f a b).
Proof.
  intros Hf Ha Hb. apply fixr_bits'. exists (g (a <? 0) (b <? 0)).
  intros i Hi. rewrite Hf. pose proof (proj1 (fixr_bits a) Ha i Hi) as E1.
  pose proof (proj1 (fixr_bits b) Hb i Hi) as E2. rewrite E1, E2. reflexivity.
Qed.

Lemma asm_bit_ok a b : fixr a -> fixr b ->
  (asm_or (tag a) (tag b) = Reg (tag (Z.lor a b)) /\ fixr (Z.lor a b)) /\
  (asm_and (tag a) (tag b) = Reg (tag (Z.land a b)) /\ fixr (Z.land a b)) /\
  (asm_xor (tag a) (tag b) = Reg (tag (Z.lxor a b)) /\ fixr (Z.lxor a b)).
Proof.
  intros Ha Hb.
  assert (F1 : fixr (Z.lor a b)) by (apply (fixr_bitop Z.lor orb); auto; apply Z.lor_spec).
  assert (F2 : fixr (Z.land a b)) by (apply (fixr_bitop Z.land andb); auto; apply Z.land_spec).
  assert (F3 : fixr (Z.lxor a b)) by (apply (fixr_bitop Z.lxor xorb); auto; apply Z.lxor_spec).
  unfold asm_or, asm_and, asm_xor. rewrite tag_lor, tag_land, tag_lxor.
  repeat split; try assumption; try apply F1; try apply F2; try apply F3.
  unfold fixr in F3. rewrite wrap64_id by (pows; lia). reflexivity.
Qed.

Lemma asm_imm_ok a k : fixr a ->
  exact_iff_fits (asm_add_imm (tag a) k) (a + k) /\ exact_iff_fits (asm_sub_imm (tag a) k) (a - k).
Proof.
  intros Ha. unfold asm_add_imm, asm_sub_imm. fx. split.
  - destruct (negb _) eqn:E; [pows; lia|]. rewrite wrap64_id; pows; lia.
  - destruct (negb _) eqn:E; [pows; lia|]. rewrite wrap64_id; pows; lia.
Qed.

Lemma asm_unary_ok a : fixr a ->
  exact_iff_fits (asm_double (tag a)) (a + a) /\
  exact_iff_fits (asm_neg (tag a)) (- a) /\
  exact_iff_fits (asm_succ (tag a)) (a + 1) /\
  asm_bitnot (tag a) = Reg (tag (- a - 1)) /\ fixr (- a - 1).
Proof.
  intros Ha. repeat split.
  - unfold asm_double. fx. destruct (negb _) eqn:E; [pows; lia|].
    rewrite (wrap64_id (_ + _)) by (pows; lia). rewrite wrap64_id; pows; lia.
  - unfold asm_neg. rewrite untag. fx. rewrite (wrap64_id (- a)) by (pows; lia).
    destruct (negb _) eqn:E; [pows; lia|].
    destruct (negb ((- 2 ^ 63 <=? - a + - a) && (- a + - a <=? 2 ^ 63 - 1))) eqn:E2; [pows; lia|].
    rewrite wrap64_id by (pows; lia). replace (- a + - a) with (2 * - a) by lia.
    rewrite lor1. pows; lia.
  - unfold asm_succ. fx. destruct (negb _) eqn:E; [pows; lia|]. rewrite wrap64_id; pows; lia.
  - unfold asm_bitnot. rewrite untag. rewrite Z.shiftl_mul_pow2 by lia. fx.
    replace (Z.lnot a * 2 ^ 1) with (2 * (- a - 1)) by (unfold Z.lnot; change (2^1) with 2; lia).
    rewrite wrap64_id by (pows; lia). rewrite lor1. reflexivity.
  - unfold fixr in *. lia.
  - unfold fixr in *. lia.
Qed.

(** ** Shifts *)

Lemma sar_tag n k : 0 <= k -> Z.lor (Z.shiftr (tag n) k) 1 = tag (Z.shiftr n k).
Proof.
  intros Hk. apply Z.bits_inj'. intros i Hi. rewrite Z.lor_spec, tag_bit by exact Hi.
  rewrite Z.shiftr_spec by exact Hi.
  destruct (Z.eqb_spec i 0) as [->|Hne]; [apply orb_true_r|].
  change 1 with (2 ^ 0) at 1. rewrite Z.pow2_bits_false by lia. rewrite orb_false_r.
  rewrite tag_bit by lia. replace (i + k =? 0) with false by (symmetry; lia).
  rewrite Z.shiftr_spec by lia. f_equal. lia.
Qed.

Lemma shiftr_fixr n k : fixr n -> 0 <= k -> fixr (Z.shiftr n k).
Proof.
  intros Hn Hk. apply fixr_bits'. exists (n <? 0). intros i Hi.
  rewrite Z.shiftr_spec by lia. apply (proj1 (fixr_bits n) Hn). lia.
Qed.

Lemma under_ok n k : fixr n -> 64 <= k -> asm_under (tag n) = tag (Z.shiftr n k).
Proof.
  intros Hn Hk. unfold asm_under. rewrite small_shiftr by (pose proof (fix_bits n Hn); lia).
  unfold tag. destruct (2 * n + 1 <? 0) eqn:E1, (n <? 0) eqn:E2; try lia; reflexivity.
Qed.

Lemma lzcnt_spec n k : fixr n -> 0 <= k -> k < lzcnt (tag n) -> 0 <= n /\ fixr (n * 2 ^ k).
Proof.
  intros Hn Hk H. unfold lzcnt in H. unfold fixr, tag in *.
  destruct (2 * n + 1 <? 0) eqn:E; [lia|].
  destruct (2 * n + 1 =? 0) eqn:E0; [lia|].
  split; [lia|].
  pose proof (Z.log2_nonneg (2 * n + 1)) as Hl.
  assert (H2 : 2 * n + 1 < 2 ^ (63 - k)).
  { apply Z.log2_lt_pow2; lia. }
  assert (H3 : 0 < 2 ^ k) by (apply Z.pow_pos_nonneg; lia).
  assert (H4 : 2 ^ (63 - k) * 2 ^ k = 2 ^ 63) by (rewrite <- Z.pow_add_r by lia; f_equal; lia).
  revert H2 H3 H4. generalize (2 ^ (63 - k)), (2 ^ k). intros p q H2 H3 H4. pows. nia.
Qed.

Lemma shl_seq n k : fixr (n * 2 ^ k) -> fixr n -> 0 <= k ->
  Z.lor (wrap64 (Z.shiftl (wrap64 (tag n - 1)) k)) 1 = tag (n * 2 ^ k).
Proof.
  intros Hf Hn Hk. unfold fixr, tag in *.
  rewrite (wrap64_id (2 * n + 1 - 1)) by (pows; lia).
  rewrite Z.shiftl_mul_pow2 by lia.
  replace ((2 * n + 1 - 1) * 2 ^ k) with (2 * (n * 2 ^ k)) by lia.
  set (p := n * 2 ^ k) in *. clearbody p. rewrite wrap64_id by (pows; lia). apply lor1.
Qed.

Lemma asm_shl_ok a n : fixr a -> fixr n ->
  exact_or_deopt (asm_shl (tag a) (tag n)) (if 0 <=? n then a * 2 ^ n else Z.shiftr a (- n)).
Proof.
  intros Ha Hn. unfold asm_shl. rewrite untag. cbv zeta. unfold fixr in Hn.
  destruct (n <? 0) eqn:E.
  - replace (0 <=? n) with false by (symmetry; lia).
    rewrite wrap64_id by (pows; lia).
    destruct (64 <=? - n) eqn:E2; cbn [exact_or_deopt].
    + split; [apply shiftr_fixr; [exact Ha|lia]|apply under_ok; [exact Ha|lia]].
    + split; [apply shiftr_fixr; [exact Ha|lia]|apply sar_tag; lia].
  - replace (0 <=? n) with true by (symmetry; lia).
    destruct (lzcnt (tag a) <=? n) eqn:E2; cbn [exact_or_deopt]; [exact I|].
    destruct (lzcnt_spec a n Ha ltac:(lia) ltac:(lia)) as [_ Hf].
    split; [exact Hf|]. apply shl_seq; [exact Hf|exact Ha|lia].
Qed.

Lemma asm_shl_rhs_imm_ok a k : fixr a -> 0 <= k -> exact_or_deopt (asm_shl_rhs_imm (tag a) k) (a * 2 ^ k).
Proof.
  intros Ha Hk. unfold asm_shl_rhs_imm.
  destruct (lzcnt (tag a) <=? k) eqn:E2; cbn [exact_or_deopt]; [exact I|].
  destruct (lzcnt_spec a k Ha ltac:(lia) ltac:(lia)) as [_ Hf].
  split; [exact Hf|]. apply shl_seq; [exact Hf|exact Ha|lia].
Qed.

Lemma asm_shr_imm_ok a k : fixr a -> 0 <= k -> 
  asm_shr_imm (tag a) k = Reg (tag (Z.shiftr a k)) /\ fixr (Z.shiftr a k).
Proof.
  intros Ha Hk. split; [|apply shiftr_fixr; assumption].
  unfold asm_shr_imm. destruct (64 <=? k) eqn:E.
  - f_equal. rewrite small_shiftr by (pose proof (fix_bits a Ha); lia).
    unfold tag. destruct (2 * a + 1 <? 0) eqn:E1, (a <? 0) eqn:E2; lia.
  - rewrite sar_tag by lia. reflexivity.
Qed.

Lemma asm_shr_nonneg a n : fixr a -> fixr n -> 0 <= n ->
  asm_shr (tag a) (tag n) = Reg (tag (Z.shiftr a n)) /\ fixr (Z.shiftr a n).
Proof.
  intros Ha Hn H0. split; [|apply shiftr_fixr; assumption].
  unfold asm_shr. rewrite untag. replace (n <? 0) with false by (symmetry; lia).
  destruct (64 <=? n) eqn:E; [rewrite (under_ok a n) by (assumption || lia)|rewrite sar_tag by lia];
  reflexivity.
Qed.

(** x86_64 only: [1 >> -62] leaves the word of -2^62 instead of 2^62. *)
Lemma asm_shr_wrong : asm_shr (tag 1) (tag (-62)) = Reg (tag (- 2 ^ 62)).
Proof. reflexivity. Qed.

(** The exact set of negative counts for which the x86_64 code is wrong. *)
Lemma asm_shr_neg a n : fixr a -> fixr n -> n < 0 -> - n <> lzcnt (tag a) ->
  exact_or_deopt (asm_shr (tag a) (tag n)) (a * 2 ^ (- n)).
Proof.
  intros Ha Hn H0 Hne. unfold asm_shr. rewrite untag. replace (n <? 0) with true by (symmetry; lia).
  cbv zeta. unfold fixr in Hn. rewrite wrap64_id by (pows; lia).
  destruct (lzcnt (tag a) <? - n) eqn:E; cbn [exact_or_deopt]; [exact I|].
  destruct (lzcnt_spec a (- n) Ha ltac:(lia) ltac:(lia)) as [_ Hf].
  split; [exact Hf|]. apply shl_seq; [exact Hf|exact Ha|lia].
Qed.

Lemma asm_shl_zero_ok a k : 64 <= k -> exact_or_deopt (asm_shl_overflow_zero (tag a)) (a * 2 ^ k).
Proof.
  intros Hk. unfold asm_shl_overflow_zero, tag. destruct (2 * a + 1 =? 2 * 0 + 1) eqn:E; cbn; [|exact I].
  assert (a = 0) by lia. subst a. rewrite Z.mul_0_l. unfold fixr, tag. pows. lia.
Qed.

Lemma land2 x : Z.land x 2 = 2 * ((x / 2) mod 2).
Proof.
  apply Z.bits_inj'. intros i Hi. rewrite Z.land_spec.
  destruct (Z.eq_dec i 0) as [->|].
  - rewrite Z.testbit_even_0. apply andb_false_r.
  - replace i with (Z.succ (i - 1)) at 3 by lia. rewrite Z.double_bits_succ.
    destruct (Z.eq_dec i 1) as [->|].
    + change (Z.testbit 2 1) with true. rewrite andb_true_r.
      change (1 - 1) with 0. rewrite <- Z.bit0_mod, Z.b2z_bit0.
      rewrite <- Z.div2_div, Z.div2_spec, Z.shiftr_spec by lia. reflexivity.
    + change 2 with (2 ^ 1) at 1. rewrite Z.pow2_bits_false by lia. rewrite andb_false_r.
      rewrite <- Z.bit0_mod. symmetry. destruct (Z.testbit (x / 2) 0); cbn [Z.b2z].
      * change 1 with (2 ^ 0) at 1. apply Z.pow2_bits_false. lia.
      * apply Z.bits_0.
Qed.

Lemma asm_bit_index_ok a n : fixr a -> 0 <= n ->
  asm_bit_index (tag a) n = Reg (tag (Z.b2z (Z.testbit a n))).
Proof.
  intros Ha Hn. unfold asm_bit_index. rewrite land2, lor1. unfold tag. do 2 f_equal.
  rewrite <- Z.bit0_mod. f_equal. rewrite <- Z.div2_div, Z.div2_spec.
  rewrite !Z.shiftr_spec by lia. fold (tag a). f_equal.
  replace (0 + 1 + Z.min n 63) with (Z.min n 63 + 1) by lia.
  rewrite tag_bit by lia. replace (Z.min n 63 + 1 =? 0) with false by (symmetry; lia).
  replace (Z.min n 63 + 1 - 1) with (Z.min n 63) by lia.
  destruct (Z.min_spec n 63) as [[H1 ->]|[H1 ->]]; [reflexivity|].
  pose proof (proj1 (fixr_bits a) Ha) as Hb. rewrite !Hb by lia. reflexivity.
Qed.

Lemma a64_shl_k_ok a k : fixr a -> 0 <= k -> exact_or_deopt (a64_shl_k (tag a) k) (a * 2 ^ k).
Proof.
  intros Ha Hk. unfold a64_shl_k. destruct (64 <=? k) eqn:E; [exact I|]. cbv zeta.
  unfold fixr, tag in *. rewrite (wrap64_id (2 * a + 1 - 1)) by (pows; lia).
  destruct (_ =? _) eqn:E2; [|exact I]. cbn [exact_or_deopt].
  apply Z.eqb_eq in E2. apply shl_back in E2; [|lia|pows; lia].
  rewrite E2. rewrite Z.shiftl_mul_pow2 in * by lia.
  replace ((2 * a + 1 - 1) * 2 ^ k) with (2 * (a * 2 ^ k)) in * by lia.
  set (p := a * 2 ^ k) in *. clearbody p.
  assert (Hw : - 2 ^ 63 <= wrap64 (2 * p) < 2 ^ 63).
  { unfold wrap64. pose proof (Z.mod_pos_bound (2 * p + 2 ^ 63) (2 ^ 64) ltac:(pows; lia)).
    pows. lia. }
  rewrite E2 in Hw. split; [unfold fixr; pows; lia|]. apply lor1.
Qed.

Lemma a64_shr_ok a n : fixr a -> fixr n ->
  exact_or_deopt (a64_shr (tag a) (tag n)) (if 0 <=? n then Z.shiftr a n else a * 2 ^ (- n)).
Proof.
  intros Ha Hn. unfold a64_shr. rewrite untag. cbv zeta.
  destruct (n <? 0) eqn:E.
  - replace (0 <=? n) with false by (symmetry; lia).
    rewrite wrap64_id by (unfold fixr in Hn; pows; lia). apply a64_shl_k_ok; [exact Ha|lia].
  - replace (0 <=? n) with true by (symmetry; lia).
    destruct (64 <=? n) eqn:E2; cbn [exact_or_deopt].
    + split; [apply shiftr_fixr; [exact Ha|lia]|apply under_ok; [exact Ha|lia]].
    + split; [apply shiftr_fixr; [exact Ha|lia]|apply sar_tag; lia].
Qed.

Lemma a64_shl_ok a n : fixr a -> fixr n ->
  exact_or_deopt (a64_shl (tag a) (tag n)) (if 0 <=? n then a * 2 ^ n else Z.shiftr a (- n)).
Proof.
  intros Ha Hn. unfold a64_shl. rewrite untag. cbv zeta.
  destruct (n <? 0) eqn:E.
  - replace (0 <=? n) with false by (symmetry; lia).
    rewrite wrap64_id by (unfold fixr in Hn; pows; lia).
    destruct (64 <=? - n) eqn:E2; cbn [exact_or_deopt].
    + split; [apply shiftr_fixr; [exact Ha|lia]|apply under_ok; [exact Ha|lia]].
    + split; [apply shiftr_fixr; [exact Ha|lia]|apply sar_tag; lia].
  - replace (0 <=? n) with true by (symmetry; lia). apply a64_shl_k_ok; [exact Ha|lia].
Qed.

(** ** Compile-time folding *)

Lemma fits_fixr z : fits_i63 z = true <-> fixr z.
Proof. unfold fits_i63, fixr. lia. Qed.

Lemma fold_arith_ok f a b r : fold_arith f a b = Some r -> r = f a b /\ fixr r.
Proof.
  unfold fold_arith, checked, check_fixnum. destruct (in_i64 (f a b)); [|discriminate].
  destruct (fits_i63 (f a b)) eqn:E; [|discriminate]. intros [= <-].
  split; [reflexivity|apply fits_fixr; exact E].
Qed.

Lemma fold_div_ok a b r : fixr a -> fixr b -> fold_div a b = Some r ->
  b <> 0 /\ r = a / b /\ fixr r.
Proof.
  intros Ha Hb. unfold fold_div. destruct (b =? 0) eqn:E; [discriminate|].
  rewrite ruby_div_i64_eq by (assumption || lia). rewrite ruby_div_big_floor by lia.
  unfold check_fixnum. destruct (fits_i63 (a / b)) eqn:F; [|discriminate].
  intros [= <-]. repeat split; try (apply fits_fixr; exact F). lia.
Qed.

Lemma fold_shl_pos_ok a k r : fixr a -> 0 <= k -> fold_shl_pos a k = Some r ->
  r = a * 2 ^ k /\ fixr r.
Proof.
  intros Ha Hk. unfold fold_shl_pos. destruct (a =? 0) eqn:E.
  - intros [= <-]. apply Z.eqb_eq in E. subst a. rewrite Z.mul_0_l. unfold fixr. pows. lia.
  - destruct (63 <=? k) eqn:E2; [discriminate|]. cbv zeta.
    destruct (Z.shiftr (wrap64 (Z.shiftl a k)) k =? a) eqn:E3; [|discriminate].
    destruct (fits_i63 _) eqn:E4; [|discriminate]. intros [= <-].
    apply Z.eqb_eq in E3. apply shl_back in E3; [|lia|unfold fixr in Ha; pows; lia].
    split; [rewrite E3; apply Z.shiftl_mul_pow2; lia|apply fits_fixr; exact E4].
Qed.

Lemma fold_shr_pos_ok a k : fixr a -> 0 <= k -> fold_shr_pos a k = Z.shiftr a k /\ fixr (Z.shiftr a k).
Proof.
  intros Ha Hk. split; [|apply shiftr_fixr; assumption]. unfold fold_shr_pos.
  destruct (64 <=? k) eqn:E; [|reflexivity].
  rewrite sign_flip, small_shiftr; [reflexivity|]. pose proof (fix_bits a Ha). lia.
Qed.

Lemma fold_shift_ok a n r : fixr a -> fixr n ->
  (fold_shl a n = Some r -> is_floor_shift a n r /\ fixr r) /\
  (fold_shr a n = Some r -> is_floor_shift a (- n) r /\ fixr r).
Proof.
  intros Ha Hn. unfold fold_shl, fold_shr. destruct (0 <=? n) eqn:E.
  - split.
    + intros H. apply fold_shl_pos_ok in H; [|exact Ha|lia]. destruct H as [-> Hf].
      split; [unfold is_floor_shift; rewrite E; reflexivity|exact Hf].
    + intros [= <-]. destruct (fold_shr_pos_ok a n Ha ltac:(lia)) as [-> Hf]. split; [|exact Hf].
      destruct (Z.eq_dec n 0) as [->|]; [rewrite Z.shiftr_0_r; apply floor_shift_zero|].
      apply floor_shift_right; lia.
  - split.
    + intros [= <-]. destruct (fold_shr_pos_ok a (- n) Ha ltac:(lia)) as [-> Hf]. split; [|exact Hf].
      replace n with (- - n) at 1 by lia. apply floor_shift_right; lia.
    + intros H. apply fold_shl_pos_ok in H; [|exact Ha|lia]. destruct H as [-> Hf].
      split; [|exact Hf]. unfold is_floor_shift. replace (0 <=? - n) with true by (symmetry; lia).
      reflexivity.
Qed.

(** ** Agreement with the interpreter's generic path *)

(** The machine code either leaves to the generic path or answers the tagged
    word of the small Integer that the generic path answers. *)
Definition agrees (o : aout) (r : outcome num) : Prop :=
  match o with Deopt => True | Reg w => exists z, r = Val (NFix z) /\ w = tag z end.

Lemma canonical_fix r z : canonical r -> ival r = z -> fixr z -> r = NFix z.
Proof. destruct r; cbn; intros H <- F; [reflexivity|contradiction]. Qed.

Lemma agrees_exact o r z : exact_or_deopt o z -> ival r = z -> canonical r -> agrees o (Val r).
Proof.
  destruct o as [w|]; cbn; [|trivial]. intros [F ->] E C. exists z. split; [|reflexivity].
  f_equal. apply canonical_fix; assumption.
Qed.

Lemma agrees_arith a b : fixr a -> fixr b ->
  agrees (asm_add (tag a) (tag b)) (Val (add_values (NFix a) (NFix b))) /\
  agrees (asm_sub (tag a) (tag b)) (Val (sub_values (NFix a) (NFix b))) /\
  agrees (asm_mul (tag a) (tag b)) (Val (mul_values (NFix a) (NFix b))) /\
  agrees (asm_add_imm (tag a) b) (Val (add_values (NFix a) (NFix b))) /\
  agrees (asm_sub_imm (tag a) b) (Val (sub_values (NFix a) (NFix b))) /\
  agrees (asm_or (tag a) (tag b)) (Val (bit_values Z.lor (NFix a) (NFix b))) /\
  agrees (asm_and (tag a) (tag b)) (Val (bit_values Z.land (NFix a) (NFix b))) /\
  agrees (asm_xor (tag a) (tag b)) (Val (bit_values Z.lxor (NFix a) (NFix b))) /\
  agrees (asm_double (tag a)) (Val (add_values (NFix a) (NFix a))) /\
  agrees (asm_succ (tag a)) (Val (add_values (NFix a) (NFix 1))) /\
  agrees (asm_neg (tag a)) (Val (neg_value (NFix a))) /\
  agrees (asm_bitnot (tag a)) (Val (bitnot_value (NFix a))).
Proof.
  intros Ha Hb.
  pose proof (asm_add_ok a b Ha Hb) as H1. pose proof (asm_sub_ok a b Ha Hb) as H2.
  pose proof (asm_mul_ok a b Ha Hb) as H3. destruct (asm_imm_ok a b Ha) as [H4 H5].
  destruct (asm_bit_ok a b Ha Hb) as ([H6 F6] & [H7 F7] & [H8 F8]).
  destruct (asm_unary_ok a Ha) as (U1 & U2 & U3 & U4 & F4).
  destruct (kind_op_ok Z.add (NFix a) (NFix b)) as [E1 C1].
  destruct (kind_op_ok Z.sub (NFix a) (NFix b)) as [E2 C2].
  destruct (kind_op_ok Z.mul (NFix a) (NFix b)) as [E3 C3].
  destruct (bit_values_ok Z.lor (NFix a) (NFix b)) as [E6 C6].
  destruct (bit_values_ok Z.land (NFix a) (NFix b)) as [E7 C7].
  destruct (bit_values_ok Z.lxor (NFix a) (NFix b)) as [E8 C8].
  destruct (kind_op_ok Z.add (NFix a) (NFix a)) as [E9 C9].
  destruct (kind_op_ok Z.add (NFix a) (NFix 1)) as [E10 C10].
  destruct (neg_value_ok (NFix a)) as [E11 C11]. destruct (bitnot_value_ok (NFix a)) as [E12 C12].
  repeat split; (eapply agrees_exact; [|eassumption|assumption]); cbn [ival];
    try (apply exact_weaken; assumption).
  - rewrite H6. split; [exact F6|reflexivity].
  - rewrite H7. split; [exact F7|reflexivity].
  - rewrite H8. split; [exact F8|reflexivity].
  - rewrite U4. split; [exact F4|reflexivity].
Qed.

Lemma agrees_div a b : fixr a -> fixr b -> ~ (a = - 2 ^ 62 /\ b = -1) ->
  agrees (asm_div (tag a) (tag b)) (div_values (NFix a) (NFix b)).
Proof.
  intros Ha Hb Hn. destruct (asm_div_ok a b Ha Hb Hn) as [H0 H1].
  destruct (Z.eq_dec b 0) as [E|Hnz]; [rewrite (H0 E); exact I|].
  destruct (H1 Hnz) as [-> F].
  destruct (div_values_ok (NFix a) (NFix b) Ha Hb Hnz) as (q & -> & Hq & Cq).
  eapply agrees_exact; [|exact Hq|exact Cq]. split; [exact F|reflexivity].
Qed.

Lemma agrees_rem a b : fixr a -> fixr b ->
  agrees (asm_rem (tag a) (tag b)) (rem_values (NFix a) (NFix b)).
Proof.
  intros Ha Hb. destruct (asm_rem_ok a b Ha Hb) as [H0 H1].
  destruct (Z.eq_dec b 0) as [E|Hnz]; [rewrite (H0 E); exact I|].
  destruct (H1 Hnz) as [-> F].
  destruct (rem_values_ok (NFix a) (NFix b) Ha Hb Hnz) as (q & -> & Hq & Cq).
  eapply agrees_exact; [|exact Hq|exact Cq]. split; [exact F|reflexivity].
Qed.

Lemma floor_shift_unique a n x y : is_floor_shift a n x -> is_floor_shift a n y -> x = y.
Proof.
  unfold is_floor_shift. destruct (0 <=? n) eqn:E; [congruence|].
  assert (Hp : 0 < 2 ^ (- n)) by (apply Z.pow_pos_nonneg; lia).
  revert Hp. generalize (2 ^ (- n)). intros p Hp [A1 A2] [B1 B2].
  assert (x < y + 1) by (apply (Z.mul_lt_mono_pos_r p); lia).
  assert (y < x + 1) by (apply (Z.mul_lt_mono_pos_r p); lia). lia.
Qed.

Lemma agrees_shift o r a n z : exact_or_deopt o z -> is_floor_shift a n z -> shift_ok a n r ->
  agrees o r.
Proof.
  destruct o as [w|]; [|intros; exact I]. intros [F ->] Hz Hr.
  destruct r as [r|e|]; cbn in Hr; [|destruct e; try contradiction|contradiction].
  - destruct Hr as [Hr C]. pose proof (floor_shift_unique _ _ _ _ Hr Hz) as E.
    exists z. split; [|reflexivity]. f_equal. apply canonical_fix; assumption.
  - exfalso. unfold is_floor_shift in Hz. destruct Hr as [Hnz Hbig].
    replace (0 <=? n) with true in Hz by (symmetry; pows; lia).
    assert (2 ^ 63 <= 2 ^ n) by (apply Z.pow_le_mono_r; pows; lia).
    unfold fixr in F. subst z. revert H F. generalize (2 ^ n). intros p H F.
    destruct (Z_lt_le_dec a 0); [assert (a * p <= -1 * p) by (apply Z.mul_le_mono_nonneg_r; pows; lia)
      |assert (1 * p <= a * p) by (apply Z.mul_le_mono_nonneg_r; pows; lia)]; pows; lia.
Qed.

Lemma shiftr_is_floor a n : 0 <= n -> is_floor_shift a (- n) (Z.shiftr a n).
Proof.
  intros H. destruct (Z.eq_dec n 0) as [->|]; [rewrite Z.shiftr_0_r; apply floor_shift_zero|].
  apply floor_shift_right. lia.
Qed.

Lemma mul_is_floor a n : 0 <= n -> is_floor_shift a n (a * 2 ^ n).
Proof. intros H. unfold is_floor_shift. replace (0 <=? n) with true by (symmetry; lia). reflexivity. Qed.

Lemma left_is_floor a n : is_floor_shift a n (if 0 <=? n then a * 2 ^ n else Z.shiftr a (- n)).
Proof.
  destruct (0 <=? n) eqn:E; [apply mul_is_floor; lia|].
  replace n with (- - n) at 1 by lia. apply shiftr_is_floor. lia.
Qed.

Lemma right_is_floor a n : is_floor_shift a (- n) (if 0 <=? n then Z.shiftr a n else a * 2 ^ (- n)).
Proof.
  destruct (0 <=? n) eqn:E; [apply shiftr_is_floor; lia|apply mul_is_floor; lia].
Qed.

Lemma agrees_shifts a n : fixr a -> fixr n ->
  agrees (asm_shl (tag a) (tag n)) (shl_values (NFix a) (NFix n)) /\
  agrees (a64_shl (tag a) (tag n)) (shl_values (NFix a) (NFix n)) /\
  agrees (a64_shr (tag a) (tag n)) (shr_values (NFix a) (NFix n)) /\
  ((n < 0 -> - n <> lzcnt (tag a)) ->
     agrees (asm_shr (tag a) (tag n)) (shr_values (NFix a) (NFix n))).
Proof.
  intros Ha Hn.
  assert (Hb : bits a <= 2 ^ 32) by (pose proof (fix_bits a Ha); pows; lia).
  pose proof (shl_values_ok (NFix a) (NFix n) Ha Hn Hb) as Hl. 
  pose proof (shr_values_ok (NFix a) (NFix n) Ha Hn Hb) as Hr. cbn [ival] in *.
  split; [|split; [|split]].
  - eapply agrees_shift; [apply asm_shl_ok; assumption|apply left_is_floor|exact Hl].
  - eapply agrees_shift; [apply a64_shl_ok; assumption|apply left_is_floor|exact Hl].
  - eapply agrees_shift; [apply a64_shr_ok; assumption|apply right_is_floor|exact Hr].
  - intros Hne. eapply agrees_shift; [|apply right_is_floor|exact Hr].
    destruct (0 <=? n) eqn:E.
    + destruct (asm_shr_nonneg a n Ha Hn ltac:(lia)) as [-> F]. split; [exact F|reflexivity].
    + apply asm_shr_neg; try assumption; try lia.
Qed.

Lemma agrees_const_shift a k : fixr a -> 0 <= k < 64 ->
  agrees (asm_shl_rhs_imm (tag a) k) (shl_values (NFix a) (NFix k)) /\
  agrees (asm_shr_imm (tag a) k) (shr_values (NFix a) (NFix k)).
Proof.
  intros Ha Hk. assert (Hn : fixr k) by (unfold fixr; pows; lia).
  assert (Hb : bits a <= 2 ^ 32) by (pose proof (fix_bits a Ha); pows; lia).
  pose proof (shl_values_ok (NFix a) (NFix k) Ha Hn Hb) as Hl. 
  pose proof (shr_values_ok (NFix a) (NFix k) Ha Hn Hb) as Hr. cbn [ival] in *.
  split.
  - eapply agrees_shift; [apply asm_shl_rhs_imm_ok; [eassumption|lia]|apply mul_is_floor; lia|exact Hl].
  - destruct (asm_shr_imm_ok a k Ha ltac:(lia)) as [-> F].
    apply (agrees_shift _ _ a (- k) (Z.shiftr a k)); [|apply shiftr_is_floor; lia|exact Hr].
    split; [exact F|reflexivity].
Qed.

Lemma agrees_const_shift_big a k : fixr a -> fixr k -> 64 <= k ->
  agrees (asm_shl_overflow_zero (tag a)) (shl_values (NFix a) (NFix k)) /\
  agrees (asm_shr_imm (tag a) k) (shr_values (NFix a) (NFix k)).
Proof.
  intros Ha Hn Hk.
  assert (Hb : bits a <= 2 ^ 32) by (pose proof (fix_bits a Ha); pows; lia).
  pose proof (shl_values_ok (NFix a) (NFix k) Ha Hn Hb) as Hl. 
  pose proof (shr_values_ok (NFix a) (NFix k) Ha Hn Hb) as Hr. cbn [ival] in *.
  split.
  - eapply agrees_shift; [apply (asm_shl_zero_ok a k Hk)|apply mul_is_floor; lia|exact Hl].
  - destruct (asm_shr_imm_ok a k Ha ltac:(lia)) as [-> F].
    apply (agrees_shift _ _ a (- k) (Z.shiftr a k)); [|apply shiftr_is_floor; lia|exact Hr].
    split; [exact F|reflexivity].
Qed.

(** Folding agrees as well: a folded constant is the generic answer. *)
Definition fold_agrees (o : option Z) (r : outcome num) : Prop :=
  match o with None => True | Some z => r = Val (NFix z) end.

Lemma fold_agrees_arith a b : fixr a -> fixr b ->
  fold_agrees (fold_arith Z.add a b) (Val (add_values (NFix a) (NFix b))) /\
  fold_agrees (fold_arith Z.sub a b) (Val (sub_values (NFix a) (NFix b))) /\
  fold_agrees (fold_arith Z.mul a b) (Val (mul_values (NFix a) (NFix b))) /\
  fold_agrees (fold_div a b) (div_values (NFix a) (NFix b)) /\
  fold_agrees (fold_shl a b) (shl_values (NFix a) (NFix b)) /\
  fold_agrees (fold_shr a b) (shr_values (NFix a) (NFix b)).
Proof.
  intros Ha Hb.
  assert (K : forall f, fold_agrees (fold_arith f a b)
     (Val (num_of (kind_op f (kind_of (NFix a)) (kind_of (NFix b)))))).
  { intros f. destruct (fold_arith f a b) as [r|] eqn:E; [|exact I].
    apply fold_arith_ok in E. destruct E as [-> F].
    destruct (kind_op_ok f (NFix a) (NFix b)) as [E C]. cbn [ival] in E. unfold fold_agrees.
    f_equal. apply canonical_fix; assumption. }
  split; [apply K|]. split; [apply K|]. split; [apply K|].
  assert (Hbits : bits a <= 2 ^ 32) by (pose proof (fix_bits a Ha); pows; lia).
  pose proof (shl_values_ok (NFix a) (NFix b) Ha Hb Hbits) as Hl. 
  pose proof (shr_values_ok (NFix a) (NFix b) Ha Hb Hbits) as Hr. cbn [ival] in *.
  split; [|split].
  - destruct (fold_div a b) as [r|] eqn:E; [|exact I].
    apply fold_div_ok in E; [|assumption|assumption]. destruct E as (Hnz & -> & F).
    destruct (div_values_ok (NFix a) (NFix b) Ha Hb Hnz) as (q & -> & Hq & Cq).
    cbn. f_equal. apply canonical_fix; assumption.
  - destruct (fold_shl a b) as [r|] eqn:E; [|exact I].
    destruct (proj1 (fold_shift_ok a b r Ha Hb) E) as [S F].
    destruct (agrees_shift (Reg (tag r)) _ a b r (conj F eq_refl) S Hl) as (z & -> & Hz).
    unfold tag in Hz. cbn. do 2 f_equal. lia.
  - destruct (fold_shr a b) as [r|] eqn:E; [|exact I].
    destruct (proj2 (fold_shift_ok a b r Ha Hb) E) as [S F].
    destruct (agrees_shift (Reg (tag r)) _ a (- b) r (conj F eq_refl) S Hr) as (z & -> & Hz).
    unfold tag in Hz. cbn. do 2 f_equal. lia.
Qed.

Lemma compiled_refuted :
  (exists a b w z, fixr a /\ fixr b /\ asm_div (tag a) (tag b) = Reg w /\
     div_values (NFix a) (NFix b) = Val z /\ z <> NFix (Z.shiftr w 1)) /\
  (exists a b w z, fixr a /\ fixr b /\ asm_shr (tag a) (tag b) = Reg w /\
     shr_values (NFix a) (NFix b) = Val z /\ z <> NFix (Z.shiftr w 1)).
Proof.
  split.
  - exists (- 2 ^ 62), (-1). do 2 eexists. split; [unfold fixr; pows; lia|].
    split; [unfold fixr; pows; lia|]. split; [apply asm_div_wrong|].
    split; [reflexivity|]. discriminate.
  - exists 1, (-62). do 2 eexists. split; [unfold fixr; pows; lia|].
    split; [unfold fixr; pows; lia|]. split; [apply asm_shr_wrong|].
    split; [reflexivity|]. discriminate.
Qed.
