(** Lemmas about the Integer model. *)
From Coq Require Import ZArith Bool Lia ZifyBool.
From Verif Require Import IntSpec IntModel.
Open Scope Z_scope.
Ltac Zify.zify_post_hook ::= Z.div_mod_to_equations.

Ltac pows :=
  change (2 ^ 62) with 4611686018427387904 in *;
  change (2 ^ 63) with 9223372036854775808 in *;
  change (2 ^ 64) with 18446744073709551616 in *;
  change (2 ^ 31) with 2147483648 in *;
  change (2 ^ 32) with 4294967296 in *;
  change (2 ^ 34) with 17179869184 in *.

Ltac gen_qr :=
  repeat match goal with
  | H : context [Z.quot ?x ?y] |- _ => revert H; generalize (Z.quot x y)
  | H : context [Z.rem ?x ?y] |- _ => revert H; generalize (Z.rem x y)
  end; intros.

Lemma value_integer_ok z : ival (value_integer z) = z /\ canonical (value_integer z).
Proof.
  unfold value_integer, fits_i63. destruct (_ && _) eqn:E; cbn; split; try reflexivity; pows; lia.
Qed.

Lemma value_bigint_eq z : value_bigint z = value_integer z.
Proof.
  unfold value_bigint, value_integer, in_i64, fits_i63, I64_MIN, I64_MAX.
  destruct ((- 2 ^ 63 <=? z) && (z <=? 2 ^ 63 - 1)) eqn:E; [reflexivity|].
  destruct ((- 2 ^ 62 <=? z) && (z <? 2 ^ 62)) eqn:E2; [|reflexivity].
  pows. lia.
Qed.

Lemma value_bigint_ok z : ival (value_bigint z) = z /\ canonical (value_bigint z).
Proof. rewrite value_bigint_eq. apply value_integer_ok. Qed.

Lemma num_of_ok k : let z := match k with KInt z => z | KBig z => z end in
  ival (num_of k) = z /\ canonical (num_of k).
Proof. destruct k; cbn; [apply value_integer_ok | apply value_bigint_ok]. Qed.

Lemma kind_op_ok f a b : 
  ival (num_of (kind_op f (kind_of a) (kind_of b))) = f (ival a) (ival b)
  /\ canonical (num_of (kind_op f (kind_of a) (kind_of b))).
Proof.
  pose proof (num_of_ok (kind_op f (kind_of a) (kind_of b))) as H.
  destruct a as [a|a], b as [b|b]; cbn [kind_of kind_op ival] in *; try exact H.
  unfold checked in *. destruct (in_i64 (f a b)); exact H.
Qed.

Lemma neg_value_ok a : ival (neg_value a) = - ival a /\ canonical (neg_value a).
Proof.
  destruct a as [z|z]; cbn [neg_value ival]; [|apply value_bigint_ok].
  unfold checked. destruct (in_i64 (- z)); [apply value_integer_ok|apply value_bigint_ok].
Qed.

Lemma bitnot_value_ok a : ival (bitnot_value a) = - ival a - 1 /\ canonical (bitnot_value a).
Proof.
  destruct a as [z|z]; cbn [bitnot_value ival];
  replace (- z - 1) with (Z.lnot z) by (unfold Z.lnot; lia);
  [apply value_integer_ok|apply value_bigint_ok].
Qed.

Lemma bit_values_ok f a b :
  ival (bit_values f a b) = f (ival a) (ival b) /\ canonical (bit_values f a b).
Proof.
  destruct a, b; cbn [bit_values ival]; try apply value_bigint_ok. apply value_integer_ok.
Qed.

(** Ruby's sign-adjusted truncating division is floor division. *)
Lemma ruby_div_big_floor a b : b <> 0 -> ruby_div_big a b = a / b.
Proof.
  intros Hb. unfold ruby_div_big.
  destruct ((0 <? a) && (b <? 0)) eqn:E1; [|destruct ((a <? 0) && (0 <? b)) eqn:E2].
  - assert (Ha : 0 < a) by lia. assert (Hb' : b < 0) by lia.
    pose proof (Z.quot_rem' (a - 1) b) as Hq.
    pose proof (Z.rem_bound_neg_pos (a - 1) b ltac:(lia) ltac:(lia)) as Hr.
    apply (Z.div_unique_neg a b _ (Z.rem (a - 1) b + 1 + b)); gen_qr; lia.
  - assert (Ha : a < 0) by lia. assert (Hb' : 0 < b) by lia.
    pose proof (Z.quot_rem' (a + 1) b) as Hq.
    pose proof (Z.rem_bound_pos_neg (a + 1) b ltac:(lia) ltac:(lia)) as Hr.
    apply (Z.div_unique_pos a b _ (Z.rem (a + 1) b - 1 + b)); gen_qr; lia.
  - pose proof (Z.quot_rem' a b) as Hq.
    destruct (Z_lt_le_dec b 0) as [Hn|Hp].
    + pose proof (Z.rem_bound_neg_neg a b ltac:(lia) ltac:(lia)) as Hr.
      apply (Z.div_unique_neg a b _ (Z.rem a b)); gen_qr; lia.
    + pose proof (Z.rem_bound_pos_pos a b ltac:(lia) ltac:(lia)) as Hr.
      apply (Z.div_unique_pos a b _ (Z.rem a b)); gen_qr; lia.
Qed.

Lemma ruby_mod_big_floor a b : b <> 0 -> ruby_mod_big a b = a mod b.
Proof.
  intros Hb. unfold ruby_mod_big.
  destruct ((0 <? a) && (b <? 0)) eqn:E1; [|destruct ((a <? 0) && (0 <? b)) eqn:E2].
  - pose proof (Z.quot_rem' (a - 1) b) as Hq.
    pose proof (Z.rem_bound_neg_pos (a - 1) b ltac:(lia) ltac:(lia)) as Hr.
    apply (Z.mod_unique_neg a b (Z.quot (a - 1) b - 1)); gen_qr; lia.
  - pose proof (Z.quot_rem' (a + 1) b) as Hq.
    pose proof (Z.rem_bound_pos_neg (a + 1) b ltac:(lia) ltac:(lia)) as Hr.
    apply (Z.mod_unique_pos a b (Z.quot (a + 1) b - 1)); gen_qr; lia.
  - pose proof (Z.quot_rem' a b) as Hq.
    destruct (Z_lt_le_dec b 0) as [Hn|Hp].
    + pose proof (Z.rem_bound_neg_neg a b ltac:(lia) ltac:(lia)) as Hr.
      apply (Z.mod_unique_neg a b (Z.quot a b)); gen_qr; lia.
    + pose proof (Z.rem_bound_pos_pos a b ltac:(lia) ltac:(lia)) as Hr.
      apply (Z.mod_unique_pos a b (Z.quot a b)); gen_qr; lia.
Qed.

Lemma wrap64_id z : - 2 ^ 63 <= z < 2 ^ 63 -> wrap64 z = z.
Proof. intros H. unfold wrap64. rewrite Z.mod_small; pows; lia. Qed.

Lemma quot_abs_bound a b : b <> 0 -> - Z.abs a <= Z.quot a b <= Z.abs a.
Proof.
  intros Hb. pose proof (Z.quot_abs a b Hb) as H.
  assert (Z.abs (Z.quot a b) <= Z.abs a); [|lia].
  rewrite <- H. destruct (Z.eq_dec (Z.abs a) 0) as [E|E].
  - rewrite E. rewrite Z.quot_0_l by lia. lia.
  - rewrite Z.quot_div_nonneg by lia.
    apply Z.div_le_upper_bound; [lia|]. nia.
Qed.

Lemma ruby_div_i64_eq a b : - 2 ^ 62 <= a < 2 ^ 62 -> - 2 ^ 62 <= b < 2 ^ 62 -> b <> 0 ->
  ruby_div_i64 a b = Some (ruby_div_big a b).
Proof.
  intros Ha Hb Hnz. unfold ruby_div_i64, ruby_div_big, i64_div, I64_MIN.
  pose proof (quot_abs_bound (a - 1) b Hnz).
  pose proof (quot_abs_bound (a + 1) b Hnz).
  rewrite !(wrap64_id (a - 1)), !(wrap64_id (a + 1)) by (pows; lia).
  replace (b =? 0) with false by (symmetry; lia).
  replace (a =? - 2 ^ 63) with false by (symmetry; pows; lia).
  replace (a - 1 =? - 2 ^ 63) with false by (symmetry; pows; lia).
  replace (a + 1 =? - 2 ^ 63) with false by (symmetry; pows; lia).
  cbn [orb andb option_map].
  destruct ((0 <? a) && (b <? 0)); [|destruct ((a <? 0) && (0 <? b))]; try reflexivity;
    rewrite wrap64_id by (pows; lia); reflexivity.
Qed.

Lemma rem_abs_bound a b : b <> 0 -> - Z.abs b <= Z.rem a b <= Z.abs b.
Proof.
  intros Hb. pose proof (Z.rem_bound_abs a b Hb). lia.
Qed.

Lemma ruby_mod_i64_eq a b : - 2 ^ 62 <= a < 2 ^ 62 -> - 2 ^ 62 <= b < 2 ^ 62 -> b <> 0 ->
  ruby_mod_i64 a b = Some (ruby_mod_big a b).
Proof.
  intros Ha Hb Hnz. unfold ruby_mod_i64, ruby_mod_big, i64_rem, I64_MIN.
  rewrite !(wrap64_id (a - 1)), !(wrap64_id (a + 1)) by (pows; lia).
  replace (b =? 0) with false by (symmetry; lia).
  replace (a =? - 2 ^ 63) with false by (symmetry; pows; lia).
  replace (a - 1 =? - 2 ^ 63) with false by (symmetry; pows; lia).
  replace (a + 1 =? - 2 ^ 63) with false by (symmetry; pows; lia).
  cbn [orb andb option_map].
  destruct ((0 <? a) && (b <? 0)) eqn:E1; [|destruct ((a <? 0) && (0 <? b)) eqn:E2]; try reflexivity.
  - pose proof (Z.rem_bound_neg_pos (a - 1) b ltac:(lia) ltac:(lia)) as Hr.
    rewrite (wrap64_id (Z.rem (a - 1) b + b)), wrap64_id by (gen_qr; pows; lia). reflexivity.
  - pose proof (Z.rem_bound_pos_neg (a + 1) b ltac:(lia) ltac:(lia)) as Hr.
    rewrite (wrap64_id (Z.rem (a + 1) b + b)), wrap64_id by (gen_qr; pows; lia). reflexivity.
Qed.

Lemma div_mod_floor a b : b <> 0 -> is_floor_div a b (a / b) (a mod b).
Proof.
  intros Hb. split; [rewrite (Z.mul_comm (a / b)); apply Z.div_mod; exact Hb|].
  destruct (Z_lt_le_dec b 0) as [Hn|Hp].
  - right. apply Z.mod_neg_bound. exact Hn.
  - left. apply Z.mod_pos_bound. lia.
Qed.

Lemma div_values_ok a b : canonical a -> canonical b -> ival b <> 0 ->
  exists q, div_values a b = Val q /\ ival q = ival a / ival b /\ canonical q.
Proof.
  intros Ca Cb Hnz. unfold div_values.
  destruct a as [x|x], b as [y|y]; cbn [kind_of check_zero_div ival canonical] in *;
    replace (y =? 0) with false by (symmetry; lia).
  - rewrite ruby_div_i64_eq, ruby_div_big_floor by assumption. cbn [of_opt].
    eexists. split; [reflexivity|]. apply (num_of_ok (KInt _)).
  - rewrite ruby_div_big_floor by assumption.
    eexists. split; [reflexivity|]. apply (num_of_ok (KBig _)).
  - rewrite ruby_div_big_floor by assumption.
    eexists. split; [reflexivity|]. apply (num_of_ok (KBig _)).
  - rewrite ruby_div_big_floor by assumption.
    eexists. split; [reflexivity|]. apply (num_of_ok (KBig _)).
Qed.

Lemma rem_values_ok a b : canonical a -> canonical b -> ival b <> 0 ->
  exists q, rem_values a b = Val q /\ ival q = ival a mod ival b /\ canonical q.
Proof.
  intros Ca Cb Hnz. unfold rem_values.
  destruct a as [x|x], b as [y|y]; cbn [kind_of check_zero_div ival canonical] in *;
    replace (y =? 0) with false by (symmetry; lia).
  - rewrite ruby_mod_i64_eq, ruby_mod_big_floor by assumption. cbn [of_opt].
    eexists. split; [reflexivity|]. apply (num_of_ok (KInt _)).
  - rewrite ruby_mod_big_floor by assumption.
    eexists. split; [reflexivity|]. apply (num_of_ok (KBig _)).
  - rewrite ruby_mod_big_floor by assumption.
    eexists. split; [reflexivity|]. apply (num_of_ok (KBig _)).
  - rewrite ruby_mod_big_floor by assumption.
    eexists. split; [reflexivity|]. apply (num_of_ok (KBig _)).
Qed.

Lemma divmod_ok a b : canonical a -> canonical b ->
  match div_values a b, rem_values a b with
  | Val q, Val r => ival b <> 0 /\ canonical q /\ canonical r
      /\ is_floor_div (ival a) (ival b) (ival q) (ival r)
  | Raise ZeroDivision, Raise ZeroDivision => ival b = 0
  | _, _ => False
  end.
Proof.
  intros Ca Cb. destruct (Z.eq_dec (ival b) 0) as [Hz|Hnz].
  - unfold div_values, rem_values.
    assert (E : check_zero_div (kind_of b) = true)
      by (destruct b; cbn [kind_of check_zero_div ival] in *; lia).
    rewrite E. exact Hz.
  - destruct (div_values_ok a b Ca Cb Hnz) as (q & -> & Hq & Cq).
    destruct (rem_values_ok a b Ca Cb Hnz) as (r & -> & Hr & Cr).
    rewrite Hq, Hr. repeat split; try assumption; apply div_mod_floor; assumption.
Qed.

(** ** Shifts *)

Lemma shiftr_floor a n : 0 <= n ->
  Z.shiftr a n * 2 ^ n <= a < (Z.shiftr a n + 1) * 2 ^ n.
Proof.
  intros Hn. rewrite Z.shiftr_div_pow2 by exact Hn.
  pose proof (Z.pow_pos_nonneg 2 n ltac:(lia) Hn).
  pose proof (Z.div_mod a (2 ^ n) ltac:(lia)) as E.
  pose proof (Z.mod_pos_bound a (2 ^ n) ltac:(lia)) as B.
  set (q := a / 2 ^ n) in *. set (r := a mod 2 ^ n) in *. set (p := 2 ^ n) in *. nia.
Qed.

Lemma bits_bound a : Z.abs a < 2 ^ bits a.
Proof.
  unfold bits. destruct (a =? 0) eqn:E; [apply Z.eqb_eq in E; subst; reflexivity|].
  apply Z.eqb_neq in E. pose proof (Z.log2_spec (Z.abs a) ltac:(lia)). 
  replace (Z.log2 (Z.abs a) + 1) with (Z.succ (Z.log2 (Z.abs a))) by lia. lia.
Qed.

Lemma bits_nonneg a : 0 <= bits a.
Proof. unfold bits. destruct (a =? 0); [lia|]. pose proof (Z.log2_nonneg (Z.abs a)). lia. Qed.

Lemma small_shiftr a n : bits a <= n -> Z.shiftr a n = if a <? 0 then -1 else 0.
Proof.
  intros H. pose proof (bits_bound a) as B. pose proof (bits_nonneg a).
  assert (B2 : 2 ^ bits a <= 2 ^ n) by (apply Z.pow_le_mono_r; lia).
  rewrite Z.shiftr_div_pow2 by lia. destruct (a <? 0) eqn:E.
  - symmetry. apply (Z.div_unique_pos a (2 ^ n) (-1) (a + 2 ^ n)); lia.
  - apply Z.div_small. lia.
Qed.

Lemma fix_bits z : - 2 ^ 62 <= z < 2 ^ 62 -> bits z <= 63.
Proof.
  intros H. unfold bits. destruct (z =? 0) eqn:E; [lia|]. apply Z.eqb_neq in E.
  assert (Z.log2 (Z.abs z) < 63); [|lia].
  apply Z.log2_lt_pow2; [lia|]. pows. lia.
Qed.

Lemma floor_shift_right a n : 0 < n -> is_floor_shift a (- n) (Z.shiftr a n).
Proof.
  intros H. unfold is_floor_shift. replace (0 <=? - n) with false by (symmetry; lia).
  rewrite Z.opp_involutive. apply shiftr_floor. lia.
Qed.

Lemma floor_shift_zero a : is_floor_shift a 0 a.
Proof. unfold is_floor_shift. cbn. lia. Qed.

Lemma safe_int_shr_ok x n : - 2 ^ 62 <= x < 2 ^ 62 -> 0 <= n ->
  ival (safe_int_shr x n) = Z.shiftr x n /\ canonical (safe_int_shr x n).
Proof.
  intros Hx Hn. unfold safe_int_shr. destruct (64 <=? n) eqn:E; [|apply value_integer_ok].
  rewrite small_shiftr by (pose proof (fix_bits x Hx); lia).
  replace (if 0 <=? x then 0 else -1) with (if x <? 0 then -1 else 0)
    by (destruct (0 <=? x) eqn:?, (x <? 0) eqn:?; lia).
  apply value_integer_ok.
Qed.

Lemma safe_bigint_shr_ok x n : bits x <= 2 ^ 32 -> 0 <= n ->
  ival (safe_bigint_shr x n) = Z.shiftr x n /\ canonical (safe_bigint_shr x n).
Proof.
  intros Hx Hn. unfold safe_bigint_shr, U32_MAX.
  destruct (2 ^ 32 - 1 <? n) eqn:E; [|apply value_bigint_ok].
  rewrite small_shiftr by lia. apply value_integer_ok.
Qed.

(** Shifting back recovers the operand exactly when nothing was lost. *)
Lemma shl_back x n : 0 <= n < 64 -> - 2 ^ 63 <= x < 2 ^ 63 ->
  Z.shiftr (wrap64 (Z.shiftl x n)) n = x -> wrap64 (Z.shiftl x n) = Z.shiftl x n.
Proof.
  intros Hn Hx E.
  rewrite Z.shiftr_div_pow2 in E by lia. rewrite Z.shiftl_mul_pow2 in * by lia.
  set (p := 2 ^ n) in *.
  assert (Hp : 0 < p) by (apply Z.pow_pos_nonneg; lia).
  assert (D : 2 ^ 64 = 2 ^ (64 - n) * p).
  { unfold p. rewrite <- Z.pow_add_r by lia. f_equal. lia. }
  unfold wrap64 in *.
  set (k := (x * p + 2 ^ 63) / 2 ^ 64).
  pose proof (Z.div_mod (x * p + 2 ^ 63) (2 ^ 64) ltac:(pows; lia)) as Hdm.
  pose proof (Z.mod_pos_bound (x * p + 2 ^ 63) (2 ^ 64) ltac:(pows; lia)) as Hb.
  fold k in Hdm.
  assert (Hw : (x * p + 2 ^ 63) mod 2 ^ 64 - 2 ^ 63 = (x - k * 2 ^ (64 - n)) * p).
  { rewrite D in Hdm at 1. lia. }
  rewrite Hw in *. rewrite Z.div_mul in E by lia.
  assert (k * 2 ^ (64 - n) = 0) by lia.
  assert (0 < 2 ^ (64 - n)) by (apply Z.pow_pos_nonneg; lia).
  assert (k = 0) by nia. subst k. rewrite H1. lia.
Qed.

Lemma safe_int_shl_ok x n : - 2 ^ 62 <= x < 2 ^ 62 -> 0 <= n ->
  match safe_int_shl x n with
  | Val r => ival r = x * 2 ^ n /\ canonical r
  | Raise ShiftTooBig => x <> 0 /\ 2 ^ 32 <= n
  | _ => False
  end.
Proof.
  intros Hx Hn. unfold safe_int_shl, U32_MAX.
  destruct (2 ^ 32 - 1 <? n) eqn:E.
  - destruct (x =? 0) eqn:Ez.
    + apply Z.eqb_eq in Ez. subst x. apply value_integer_ok.
    + lia.
  - rewrite <- Z.shiftl_mul_pow2 by lia.
    destruct ((n <? 64) && (Z.shiftr (wrap64 (Z.shiftl x n)) n =? x)) eqn:Eb.
    + apply andb_true_iff in Eb. destruct Eb as [E64 Eq].
      apply Z.eqb_eq in Eq. rewrite shl_back; [|lia|pows; lia|exact Eq]. apply value_integer_ok.
    + apply value_bigint_ok.
Qed.

Lemma safe_bigint_shl_ok x n : 0 <= n ->
  match safe_bigint_shl x n with
  | Val r => ival r = x * 2 ^ n /\ canonical r
  | Raise ShiftTooBig => x <> 0 /\ 2 ^ 32 <= n
  | _ => False
  end.
Proof.
  intros Hn. unfold safe_bigint_shl, U32_MAX.
  destruct (2 ^ 32 - 1 <? n) eqn:E.
  - destruct (x =? 0) eqn:Ez.
    + apply Z.eqb_eq in Ez. subst x. apply value_integer_ok.
    + lia.
  - rewrite <- Z.shiftl_mul_pow2 by lia. apply value_bigint_ok.
Qed.

(** Outcome of a shift by the signed amount [n] against the specification. *)
Definition shift_ok (a n : Z) (o : outcome num) : Prop :=
  match o with
  | Val r => is_floor_shift a n (ival r) /\ canonical r
  | Raise ShiftTooBig => a <> 0 /\ 2 ^ 32 <= n
  | _ => False
  end.

Lemma shift_ok_left a n o : 0 <= n ->
  match o with
  | Val r => ival r = a * 2 ^ n /\ canonical r
  | Raise ShiftTooBig => a <> 0 /\ 2 ^ 32 <= n
  | _ => False
  end -> shift_ok a n o.
Proof.
  intros Hn H. destruct o as [r|e|]; cbn [shift_ok]; try exact H.
  unfold is_floor_shift. replace (0 <=? n) with true by (symmetry; lia). exact H.
Qed.

Lemma shift_ok_right a n r : 0 <= n -> ival r = Z.shiftr a n -> canonical r ->
  shift_ok a (- n) (Val r).
Proof.
  intros Hn Hr Cr. cbn. split; [|exact Cr]. rewrite Hr.
  destruct (Z.eq_dec n 0) as [->|]; [rewrite Z.shiftr_0_r; apply floor_shift_zero|].
  apply floor_shift_right. lia.
Qed.

Lemma sign_small_ok a n : bits a <= n -> 
  ival (value_integer (if a <? 0 then -1 else 0)) = Z.shiftr a n.
Proof. intros H. rewrite small_shiftr by exact H. apply value_integer_ok. Qed.

Lemma sign_flip a : (if 0 <=? a then 0 else -1) = (if a <? 0 then -1 else 0).
Proof. destruct (0 <=? a) eqn:?, (a <? 0) eqn:?; lia. Qed.

Lemma fix_bits_big z n : - 2 ^ 62 <= z < 2 ^ 62 -> 2 ^ 62 <= n -> bits z <= n.
Proof. intros H Hn. pose proof (fix_bits z H). pows. lia. Qed.

Lemma shl_values_ok a b : canonical a -> canonical b -> bits (ival a) <= 2 ^ 32 ->
  shift_ok (ival a) (ival b) (shl_values a b).
Proof.
  intros Ca Cb Hb.
  destruct a as [x|x], b as [n|n]; cbn [shl_values ival canonical] in *.
  - destruct (0 <=? n) eqn:E.
    + apply shift_ok_left; [lia|]. apply safe_int_shl_ok; [exact Ca|lia].
    + destruct (safe_int_shr_ok x (- n) Ca ltac:(lia)) as [H1 H2].
      replace n with (- - n) at 1 by lia. apply shift_ok_right; [lia|exact H1|exact H2].
  - rewrite sign_flip. destruct (0 <? n) eqn:E.
    + apply shift_ok_left; [lia|]. destruct (x =? 0) eqn:Ez.
      * apply Z.eqb_eq in Ez. subst. apply value_integer_ok.
      * pows. lia.
    + replace n with (- - n) by lia. apply shift_ok_right; [lia| |apply value_integer_ok].
      apply sign_small_ok. apply fix_bits_big; [exact Ca|pows; lia].
  - destruct (0 <=? n) eqn:E.
    + apply shift_ok_left; [lia|]. apply safe_bigint_shl_ok; lia.
    + destruct (safe_bigint_shr_ok x (- n) Hb ltac:(lia)) as [H1 H2].
      replace n with (- - n) at 1 by lia. apply shift_ok_right; [lia|exact H1|exact H2].
  - destruct (0 <? n) eqn:E.
    + apply shift_ok_left; [lia|]. destruct (x =? 0) eqn:Ez.
      * apply Z.eqb_eq in Ez. subst. apply value_integer_ok.
      * pows. lia.
    + replace n with (- - n) by lia. apply shift_ok_right; [lia| |apply value_integer_ok].
      apply sign_small_ok. pows. lia.
Qed.

Lemma shr_values_ok a b : canonical a -> canonical b -> bits (ival a) <= 2 ^ 32 ->
  shift_ok (ival a) (- ival b) (shr_values a b).
Proof.
  intros Ca Cb Hb.
  destruct a as [x|x], b as [n|n]; cbn [shr_values ival canonical] in *.
  - destruct (0 <=? n) eqn:E.
    + destruct (safe_int_shr_ok x n Ca ltac:(lia)) as [H1 H2].
      apply shift_ok_right; [lia|exact H1|exact H2].
    + apply shift_ok_left; [lia|]. apply safe_int_shl_ok; [exact Ca|lia].
  - rewrite sign_flip. destruct (0 <? n) eqn:E.
    + apply shift_ok_right; [lia| |apply value_integer_ok].
      apply sign_small_ok. apply fix_bits_big; [exact Ca|pows; lia].
    + apply shift_ok_left; [lia|]. destruct (x =? 0) eqn:Ez.
      * apply Z.eqb_eq in Ez. subst. apply value_integer_ok.
      * pows. lia.
  - destruct (0 <=? n) eqn:E.
    + destruct (safe_bigint_shr_ok x n Hb ltac:(lia)) as [H1 H2].
      apply shift_ok_right; [lia|exact H1|exact H2].
    + apply shift_ok_left; [lia|]. apply safe_bigint_shl_ok; lia.
  - destruct (0 <? n) eqn:E.
    + apply shift_ok_right; [lia| |apply value_integer_ok].
      apply sign_small_ok. pows. lia.
    + apply shift_ok_left; [lia|]. destruct (x =? 0) eqn:Ez.
      * apply Z.eqb_eq in Ez. subst. apply value_integer_ok.
      * pows. lia.
Qed.

(** A bignum with more than 2^32 bits is wiped out by [>> 2**32]. *)
Lemma shl_one k : 64 <= k <= U32_MAX -> shl_values (NFix 1) (NFix k) = Val (NBig (2 ^ k)).
Proof.
  intros Hk. unfold U32_MAX in Hk. cbn [shl_values]. replace (0 <=? k) with true by (symmetry; lia).
  unfold safe_int_shl, U32_MAX. replace (2 ^ 32 - 1 <? k) with false by (symmetry; lia).
  replace (k <? 64) with false by (symmetry; lia). cbn [andb].
  rewrite Z.shiftl_mul_pow2, Z.mul_1_l by lia.
  assert (H : 2 ^ 64 <= 2 ^ k) by (apply Z.pow_le_mono_r; lia).
  unfold value_bigint, in_i64, I64_MIN, I64_MAX.
  replace (2 ^ k <=? 2 ^ 63 - 1) with false; [rewrite andb_false_r; reflexivity|].
  symmetry. apply Z.leb_gt. pows. lia.
Qed.

Lemma shl_big k m : 64 <= k -> 0 <= m <= U32_MAX ->
  shl_values (NBig (2 ^ k)) (NFix m) = Val (NBig (2 ^ (k + m))).
Proof.
  intros Hk Hm. unfold U32_MAX in Hm. cbn [shl_values]. replace (0 <=? m) with true by (symmetry; lia).
  unfold safe_bigint_shl, U32_MAX. replace (2 ^ 32 - 1 <? m) with false by (symmetry; lia).
  rewrite Z.shiftl_mul_pow2, <- Z.pow_add_r by lia.
  assert (H : 2 ^ 64 <= 2 ^ (k + m)) by (apply Z.pow_le_mono_r; lia).
  unfold value_bigint, in_i64, I64_MIN, I64_MAX.
  replace (2 ^ (k + m) <=? 2 ^ 63 - 1) with false; [rewrite andb_false_r; reflexivity|].
  symmetry. apply Z.leb_gt. pows. lia.
Qed.

Lemma shr_big_wiped k n : 64 <= k -> U32_MAX < n ->
  shr_values (NBig (2 ^ k)) (NFix n) = Val (NFix 0).
Proof.
  intros Hk Hn. unfold U32_MAX in Hn. cbn [shr_values].
  replace (0 <=? n) with true by (symmetry; lia).
  unfold safe_bigint_shr, U32_MAX. replace (2 ^ 32 - 1 <? n) with true by (symmetry; lia).
  assert (0 < 2 ^ k) by (apply Z.pow_pos_nonneg; lia).
  replace (2 ^ k <? 0) with false by (symmetry; lia). reflexivity.
Qed.

Lemma shift_refuted_gen k n : 64 <= k <= U32_MAX -> U32_MAX < n -> n <= k + k ->
  exists b a, shl_values (NFix 1) (NFix k) = Val b /\ shl_values b (NFix k) = Val a
    /\ canonical a /\ shr_values a (NFix n) = Val (NFix 0)
    /\ ~ is_floor_shift (ival a) (- n) 0.
Proof.
  intros Hk Hn Hkn. exists (NBig (2 ^ k)), (NBig (2 ^ (k + k))).
  split; [apply shl_one; exact Hk|]. split; [apply shl_big; lia|].
  assert (Hp : 2 ^ 64 <= 2 ^ (k + k)) by (apply Z.pow_le_mono_r; lia).
  split; [cbn; pows; lia|].
  split; [apply shr_big_wiped; lia|].
  cbn [ival]. unfold is_floor_shift. unfold U32_MAX in *.
  replace (0 <=? - n) with false by (symmetry; lia). rewrite Z.opp_involutive.
  assert (2 ^ n <= 2 ^ (k + k)) by (apply Z.pow_le_mono_r; lia). lia.
Qed.

(** ** Power *)

(** The rational value a result denotes, as numerator and denominator. *)
Definition pres_num (p : pres) : Z := match p with PInt n => ival n | PRat n _ => n end.
Definition pres_den (p : pres) : Z := match p with PInt _ => 1 | PRat _ d => d end.

(** Integer results are canonical, Rational ones are in lowest terms. *)
Definition pres_normal (p : pres) : Prop :=
  match p with PInt n => canonical n | PRat n d => Z.gcd n d = 1 /\ 0 < d end.

(** Exact, or refused because |a|^|n| >= 2^(2^31) (a quarter of a gigabyte). *)
Definition pow_ok (a n : Z) (o : outcome pres) : Prop :=
  match o with
  | Val p => is_power a n (pres_num p) (pres_den p) /\ pres_normal p
  | Raise ZeroDivision => a = 0 /\ n < 0
  | Raise ExponentTooLarge => exists m k, 2 ^ 31 <= k * m /\ 2 ^ k <= Z.abs a /\ 0 <= k /\ m = Z.abs n
  | _ => False
  end.

Lemma pow_int_ok a n r : 0 <= n -> ival r = a ^ n /\ canonical r -> pow_ok a n (Val (PInt r)).
Proof.
  intros Hn [Hr Hc]. cbn. split; [|exact Hc]. unfold is_power. replace (0 <=? n) with true by (symmetry; lia). lia.
Qed.

Lemma rational_one_ok a n : n < 0 -> a <> 0 -> pow_ok a n (Val (rational_one (a ^ (- n)))).
Proof.
  intros Hn Ha. unfold rational_one, pow_ok, is_power.
  replace (0 <=? n) with false by (symmetry; lia).
  assert (a ^ (- n) <> 0) by (apply Z.pow_nonzero; lia).
  destruct (a ^ (- n) <? 0) eqn:E; cbn [pres_num pres_den pres_normal].
  - split; [lia|]. split; [|lia]. change (-1) with (- (1)). rewrite Z.gcd_opp_l. apply Z.gcd_1_l.
  - split; [lia|]. split; [apply Z.gcd_1_l|lia].
Qed.

Lemma pow_1 n a : a = 1 -> pow_ok a n (Val (PInt (value_integer 1))).
Proof.
  intros ->. cbn. split; [|lia]. unfold is_power. split; [lia|].
  destruct (0 <=? n) eqn:E; rewrite Z.pow_1_l; lia.
Qed.

Lemma odd_pow_m1 n : 0 <= n -> (-1) ^ n = if Z.odd n then -1 else 1.
Proof.
  intros Hn. change ((-1) ^ n) with ((Z.opp 1) ^ n). destruct (Z.odd n) eqn:E.
  - apply Z.odd_spec in E. rewrite Z.pow_opp_odd by exact E. rewrite Z.pow_1_l by lia. reflexivity.
  - assert (Ev : Z.even n = true) by (rewrite <- Z.negb_odd, E; reflexivity).
    apply Z.even_spec in Ev. rewrite Z.pow_opp_even by exact Ev. rewrite Z.pow_1_l by lia. reflexivity.
Qed.

Lemma pow_m1 n a : a = -1 -> pow_ok a n (Val (PInt (value_integer (if Z.odd n then -1 else 1)))).
Proof.
  intros ->. cbn [pow_ok pres_num pres_den].
  destruct (value_integer_ok (if Z.odd n then -1 else 1)) as [-> Hc].
  split; [|exact Hc]. unfold is_power. split; [lia|]. destruct (0 <=? n) eqn:E.
  - rewrite odd_pow_m1 by lia. destruct (Z.odd n); lia.
  - rewrite odd_pow_m1 by lia. rewrite Z.odd_opp. destruct (Z.odd n); lia.
Qed.

Lemma log2_le_abs a : a <> 0 -> 2 ^ Z.log2 (Z.abs a) <= Z.abs a.
Proof. intros H. apply Z.log2_spec. lia. Qed.

Lemma log2_pos a : 2 <= Z.abs a -> 1 <= Z.log2 (Z.abs a).
Proof.
  intros H. change 1 with (Z.log2 2) at 1. apply Z.log2_le_mono. exact H.
Qed.

(** Everything except 0, 1, -1 with exponents outside 32 bits, and bignums
    raised to powers below -(2^32 - 1). *)
Lemma pow_values_ok a b : canonical a -> canonical b ->
  (2 <= Z.abs (ival a) \/ in_i32 (ival b) = true \/ ~ fits_i63 (ival b) = true) ->
  (fits_i63 (ival a) = true \/ - 2 ^ 32 < ival b) ->
  bits (ival a) <= 2 ^ 34 ->
  pow_ok (ival a) (ival b) (pow_values a b).
Proof.
  intros Ca Cb H1 H2 H3.
  assert (TooBig : forall x n, 2 <= Z.abs x -> 2 ^ 31 <= Z.abs n ->
            pow_ok x n (Raise ExponentTooLarge)).
  { intros x n Hx Hn. cbn. exists (Z.abs n), 1. repeat split; try lia. }
  destruct a as [x|x], b as [n|n]; cbn [pow_values ival canonical] in *.
  - unfold pow_ii. destruct (in_i32 n) eqn:Ei.
    + destruct (n <? 0) eqn:En.
      * destruct (x =? 0) eqn:E0; [cbn; lia|].
        destruct (x =? 1) eqn:E1; [apply pow_1; lia|].
        destruct (x =? -1) eqn:Em1.
        { rewrite Z.odd_opp. apply pow_m1. lia. }
        apply rational_one_ok; lia.
      * unfold checked. destruct (in_i64 (x ^ n)) eqn:Ec.
        { apply pow_int_ok; [lia|apply value_integer_ok]. }
        destruct (check_pow_limit (bits x) n) eqn:El.
        { apply pow_int_ok; [lia|apply value_bigint_ok]. }
        (* too large *)
        assert (Hx2 : 2 <= Z.abs x).
        { destruct (Z_lt_le_dec (Z.abs x) 2) as [Hs|Hs]; [|exact Hs]. exfalso.
          assert (Hc : x = 0 \/ x = 1 \/ x = -1) by lia.
          unfold in_i64, I64_MIN, I64_MAX in Ec.
          destruct Hc as [->|[->| ->]].
          - destruct (Z.eq_dec n 0) as [->|]; [discriminate|].
            rewrite Z.pow_0_l in Ec by lia. discriminate.
          - rewrite Z.pow_1_l in Ec by lia. discriminate.
          - rewrite odd_pow_m1 in Ec by lia. destruct (Z.odd n); discriminate. }
        cbn. exists n, (Z.log2 (Z.abs x)).
        pose proof (log2_pos x Hx2) as Hl.
        repeat split; [|apply log2_le_abs; lia|lia|lia].
        unfold check_pow_limit, bits, BIGLEN_LIMIT in El.
        unfold in_i32 in Ei. pose proof (fix_bits x Ca) as Hfb. unfold bits in Hfb.
        replace (x =? 0) with false in * by (symmetry; lia).
        set (l := Z.log2 (Z.abs x)) in *. pows.
        assert (17179869184 < (l + 1) * n); [|nia].
        assert (0 <= (l + 1) * n < 18446744073709551616) by nia. lia.
    + apply TooBig.
      * destruct H1 as [H1|[H1|H1]]; [exact H1|congruence|].
        unfold fits_i63 in H1. exfalso. lia.
      * unfold in_i32 in Ei. lia.
  - destruct (x =? 1) eqn:E1; [apply pow_1; lia|].
    destruct (x =? -1) eqn:Em1; [apply pow_m1; lia|].
    destruct (x =? 0) eqn:E0.
    + apply Z.eqb_eq in E0. subst x. destruct (0 <? n) eqn:En.
      * apply pow_int_ok; [lia|]. rewrite Z.pow_0_l by lia. apply value_integer_ok.
      * cbn. pows. lia.
    + apply TooBig; pows; lia.
  - assert (Hx2 : 2 <= Z.abs x) by (pows; lia).
    destruct (n <? 0) eqn:En.
    + replace (x =? 0) with false by (symmetry; lia).
      replace (x =? 1) with false by (symmetry; lia).
      replace (x =? -1) with false by (symmetry; lia).
      assert (Hn : - 2 ^ 32 < n).
      { destruct H2 as [H2|H2]; [|exact H2]. unfold fits_i63 in H2. lia. }
      rewrite Z.mod_small by lia. apply rational_one_ok; lia.
    + destruct (check_pow_limit (bits x) n) eqn:El.
      * destruct (n <=? U32_MAX) eqn:Eu.
        { apply pow_int_ok; [lia|apply value_bigint_ok]. }
        apply TooBig; [exact Hx2|]. unfold U32_MAX in Eu. pows. lia.
      * cbn. exists n, (Z.log2 (Z.abs x)).
        pose proof (log2_pos x Hx2) as Hl.
        repeat split; [|apply log2_le_abs; lia|lia|lia].
        unfold check_pow_limit, BIGLEN_LIMIT in El. unfold bits in El, H3.
        replace (x =? 0) with false in * by (symmetry; lia).
        set (l := Z.log2 (Z.abs x)) in *. clearbody l. pows.
        destruct (Z_le_gt_dec n 17179869184) as [Hle|Hgt]; [|nia].
        assert (17179869184 < (l + 1) * n); [|nia].
        assert (0 <= (l + 1) * n) by nia. lia.
  - assert (Hx2 : 2 <= Z.abs x) by (pows; lia).
    replace (x =? 0) with false by (symmetry; lia).
    replace (x =? 1) with false by (symmetry; lia).
    replace (x =? -1) with false by (symmetry; lia).
    apply TooBig; pows; lia.
Qed.

(** ** Forms used by the property file *)

Lemma bitwise_ok a b :
  (forall i, 0 <= i ->
     Z.testbit (ival (bit_values Z.land a b)) i = Z.testbit (ival a) i && Z.testbit (ival b) i /\
     Z.testbit (ival (bit_values Z.lor a b)) i = Z.testbit (ival a) i || Z.testbit (ival b) i /\
     Z.testbit (ival (bit_values Z.lxor a b)) i = xorb (Z.testbit (ival a) i) (Z.testbit (ival b) i))
  /\ canonical (bit_values Z.land a b) /\ canonical (bit_values Z.lor a b)
  /\ canonical (bit_values Z.lxor a b)
  /\ ival (bitnot_value a) = - ival a - 1 /\ canonical (bitnot_value a).
Proof.
  destruct (bit_values_ok Z.land a b) as [E1 C1], (bit_values_ok Z.lor a b) as [E2 C2],
    (bit_values_ok Z.lxor a b) as [E3 C3], (bitnot_value_ok a) as [E4 C4].
  split; [|tauto]. intros i Hi. rewrite E1, E2, E3.
  rewrite Z.land_spec, Z.lor_spec, Z.lxor_spec. auto.
Qed.

Lemma shift_refuted : exists k n b a,
  canonical (NFix k) /\ canonical (NFix n) /\
  shl_values (NFix 1) (NFix k) = Val b /\ shl_values b (NFix k) = Val a /\ canonical a /\
  shr_values a (NFix n) = Val (NFix 0) /\ ~ is_floor_shift (ival a) (- n) 0.
Proof.
  exists 4294967295, 4294967296.
  destruct (shift_refuted_gen 4294967295 4294967296) as (b & a & H);
    try (unfold U32_MAX; lia).
  exists b, a. split; [cbn [canonical]; pows; lia|]. split; [cbn [canonical]; pows; lia|]. exact H.
Qed.

Lemma not_power a n p : 2 <= a -> n < 0 -> p = PRat 1 1 -> 
  ~ is_power a n (pres_num p) (pres_den p).
Proof.
  intros Ha Hn -> [_ H]. cbn [pres_num pres_den] in H.
  replace (0 <=? n) with false in H by (symmetry; lia).
  assert (1 < a ^ (- n)) by (apply Z.pow_gt_1; lia). lia.
Qed.

Lemma power_refuted :
  (exists a b, canonical a /\ canonical b /\ ival a = 1 /\
     pow_values a b = Raise ExponentTooLarge) /\
  (exists a b p, canonical a /\ canonical b /\ pow_values a b = Val p /\
     ~ is_power (ival a) (ival b) (pres_num p) (pres_den p)).
Proof.
  split.
  - exists (NFix 1), (NFix (2 ^ 31)). cbn [canonical ival]. repeat split; try (pows; lia).
  - exists (NBig (2 ^ 64)), (NFix (- 2 ^ 32)). eexists.
    split; [cbn [canonical]; pows; lia|]. split; [cbn [canonical]; pows; lia|].
    split; [vm_compute; reflexivity|].
    apply not_power; [cbn [ival]; pows; lia|cbn [ival]; pows; lia|reflexivity].
Qed.
