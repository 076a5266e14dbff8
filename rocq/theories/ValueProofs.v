(** Lemmas about the value-word model. *)
From Coq Require Import ZArith Bool List Lia ZifyBool.
From Verif Require Import ValueSpec ValueModel.
Open Scope Z_scope.
Ltac Zify.zify_post_hook ::= Z.div_mod_to_equations.

Lemma word64_val : word64 = 18446744073709551616. Proof. reflexivity. Qed.

Lemma land1 w : Z.land w 1 = w mod 2.
Proof. change 1 with (Z.ones 1). rewrite Z.land_ones by lia. reflexivity. Qed.
Lemma land3 w : Z.land w 3 = w mod 4.
Proof. change 3 with (Z.ones 2). rewrite Z.land_ones by lia. reflexivity. Qed.
Lemma land7 w : Z.land w 7 = w mod 8.
Proof. change 7 with (Z.ones 3). rewrite Z.land_ones by lia. reflexivity. Qed.
Lemma land255 w : Z.land w 255 = w mod 256.
Proof. change 255 with (Z.ones 8). rewrite Z.land_ones by lia. reflexivity. Qed.

Lemma lor_add_disjoint a b : Z.land a b = 0 -> Z.lor a b = a + b.
Proof. intros H. rewrite <- Z.lxor_lor by exact H. symmetry. apply Z.add_nocarry_lxor. exact H. Qed.

(** [lor] with bits below the low end is addition. *)
Lemma lor_add_low a b n : 0 <= n -> 0 <= b < 2 ^ n -> a mod 2 ^ n = 0 ->
  Z.lor a b = a + b.
Proof.
  intros Hn Hb Ha.
  apply lor_add_disjoint.
  apply Z.bits_inj'. intros i Hi.
  rewrite Z.land_spec, Z.bits_0.
  destruct (Z.ltb_spec i n).
  - apply andb_false_iff. left.
    rewrite <- (Z.mod_pow2_bits_low a n i) by lia. rewrite Ha. apply Z.bits_0.
  - apply andb_false_iff. right.
    destruct (Z.eq_dec b 0) as [->|Hz]; [apply Z.bits_0|].
    apply Z.bits_above_log2; [lia|].
    enough (Z.log2 b < n) by lia. apply Z.log2_lt_pow2; lia.
Qed.

Lemma is_i63_iff z : - 2 ^ 63 <= z < 2 ^ 63 ->
  is_i63 z = true <-> - 2 ^ 62 <= z < 2 ^ 62.
Proof.
  intros Hz. unfold is_i63, u64_of_i64. rewrite word64_val.
  rewrite land1.
  assert (E : Z.lxor (Z.shiftr (z mod 18446744073709551616) 62)
                     (Z.shiftr (z mod 18446744073709551616) 63) mod 2
              = ((z mod 18446744073709551616) / 2^62 + (z mod 18446744073709551616) / 2^63) mod 2).
  { rewrite !Z.shiftr_div_pow2 by lia.
    set (a := _ / 2 ^ 62). set (b := _ / 2 ^ 63).
    rewrite <- !Z.bit0_mod, Z.lxor_spec.
    rewrite <- (Z.add_bit0 a b). reflexivity. }
  rewrite E. clear E.
  rewrite Z.eqb_eq. change (2^62) with 4611686018427387904 in *.
  change (2^63) with 9223372036854775808 in *. lia.
Qed.

Lemma enc_fixnum_arith z : - 2 ^ 63 <= z < 2 ^ 63 ->
  enc_fixnum z = (2 * z) mod word64 + 1.
Proof.
  intros Hz. unfold enc_fixnum, shl64, u64_of_i64.
  rewrite Z.shiftl_mul_pow2 by lia.
  rewrite Z.mul_mod_idemp_l by (rewrite word64_val; lia).
  rewrite (Z.mul_comm z (2^1)). change (2^1) with 2.
  apply (lor_add_low _ 1 1); [lia|simpl; lia|].
  rewrite word64_val. change (2^1) with 2. lia.
Qed.

Lemma i64_of_u64_enc z : - 2 ^ 62 <= z < 2 ^ 62 ->
  i64_of_u64 (enc_fixnum z) = 2 * z + 1.
Proof.
  intros Hz. rewrite enc_fixnum_arith by lia.
  unfold i64_of_u64. rewrite word64_val.
  change (2^63) with 9223372036854775808.
  change (2^62) with 4611686018427387904 in *.
  destruct (Z.ltb_spec ((2 * z) mod 18446744073709551616 + 1) 9223372036854775808); lia.
Qed.

Lemma fixnum_roundtrip z : - 2 ^ 62 <= z < 2 ^ 62 ->
  try_fixnum (enc_fixnum z) = Some z.
Proof.
  intros Hz. unfold try_fixnum, is_fixnum. rewrite land1.
  rewrite enc_fixnum_arith at 1 by lia. rewrite word64_val.
  replace (((2 * z) mod 18446744073709551616 + 1) mod 2 =? 1) with true by (symmetry; lia).
  rewrite i64_of_u64_enc by lia. f_equal.
  rewrite Z.shiftr_div_pow2 by lia. change (2^1) with 2. lia.
Qed.

Lemma enc_symbol_arith id : 0 <= id < 2 ^ 32 -> enc_symbol id = id * 2 ^ 32 + 12.
Proof.
  intros H. unfold enc_symbol, shl64, TAG_SYMBOL. rewrite word64_val.
  rewrite Z.shiftl_mul_pow2 by lia.
  rewrite Z.mod_small by (change (2^32) with 4294967296 in *; lia).
  apply (lor_add_low _ 12 32); [lia|lia|]. apply Z.mod_mul. lia.
Qed.

(** [(x & !1) | 2] only touches the two low bits. *)
Lemma set_low2 x : is_word x -> Z.lor (Z.land x (not64 1)) 2 = 4 * (x / 4) + 2.
Proof.
  intros Hx.
  rewrite <- (lor_add_low (4 * (x / 4)) 2 2); [|lia|lia|change (2^2) with 4; lia].
  apply Z.bits_inj'. intros i Hi.
  rewrite !Z.lor_spec, Z.land_spec.
  replace (4 * (x / 4)) with (Z.shiftl (Z.shiftr x 2) 2)
    by (rewrite Z.shiftl_mul_pow2, Z.shiftr_div_pow2 by lia; change (2^2) with 4; lia).
  destruct (Z.eq_dec i 0) as [->|]; [|destruct (Z.eq_dec i 1) as [->|]].
  - rewrite Z.shiftl_spec_low by lia. simpl.
    replace (Z.testbit (not64 1) 0) with false by reflexivity.
    rewrite andb_false_r. reflexivity.
  - change (Z.testbit 2 1) with true. rewrite !orb_true_r. reflexivity.
  - rewrite Z.shiftl_spec by lia. rewrite Z.shiftr_spec by lia.
    replace (i - 2 + 2) with i by lia.
    f_equal.
    destruct (Z.ltb_spec i 64).
    + assert (T : Z.testbit (not64 1) i = true).
      { change (not64 1) with (Z.shiftl (Z.ones 63) 1).
        rewrite Z.shiftl_spec by lia. apply Z.ones_spec_low. lia. }
      rewrite T, andb_true_r. reflexivity.
    + assert (T : Z.testbit x i = false).
      { unfold is_word in Hx. rewrite word64_val in Hx.
        destruct (Z.eq_dec x 0) as [->|]; [apply Z.bits_0|].
        apply Z.bits_above_log2; [lia|].
        enough (Z.log2 x < 64) by lia.
        apply Z.log2_lt_pow2; [lia|]. change (2^64) with 18446744073709551616. lia. }
      rewrite T. reflexivity.
Qed.

Lemma clear_low2 u : is_word u -> Z.land u (not64 3) = 4 * (u / 4).
Proof.
  intros Hx.
  replace (4 * (u / 4)) with (Z.shiftl (Z.shiftr u 2) 2)
    by (rewrite Z.shiftl_mul_pow2, Z.shiftr_div_pow2 by lia; change (2^2) with 4; lia).
  apply Z.bits_inj'. intros i Hi. rewrite Z.land_spec.
  destruct (Z.ltb_spec i 2).
  - rewrite Z.shiftl_spec_low by lia.
    replace (Z.testbit (not64 3) i) with false; [apply andb_false_r|].
    change (not64 3) with (Z.shiftl (Z.ones 62) 2). symmetry.
    apply Z.shiftl_spec_low. lia.
  - rewrite Z.shiftl_spec, Z.shiftr_spec by lia. replace (i - 2 + 2) with i by lia.
    destruct (Z.ltb_spec i 64).
    + replace (Z.testbit (not64 3) i) with true; [apply andb_true_r|].
      change (not64 3) with (Z.shiftl (Z.ones 62) 2). symmetry.
      rewrite Z.shiftl_spec by lia. apply Z.ones_spec_low. lia.
    + assert (T : Z.testbit u i = false).
      { unfold is_word in Hx. rewrite word64_val in Hx.
        destruct (Z.eq_dec u 0) as [->|]; [apply Z.bits_0|].
        apply Z.bits_above_log2; [lia|].
        enough (Z.log2 u < 64) by lia.
        apply Z.log2_lt_pow2; [lia|]. change (2^64) with 18446744073709551616. lia. }
      rewrite T. reflexivity.
Qed.

Lemma rotl3_arith x : is_word x -> rotl3 x = 8 * (x mod 2 ^ 61) + x / 2 ^ 61.
Proof.
  intros Hx. unfold rotl3, shl64.
  rewrite Z.shiftl_mul_pow2, Z.shiftr_div_pow2 by lia.
  unfold is_word in Hx. rewrite word64_val in *.
  replace ((x * 2 ^ 3) mod 18446744073709551616) with (8 * (x mod 2 ^ 61))
    by (change (2^61) with 2305843009213693952; change (2^3) with 8; lia).
  apply (lor_add_low _ _ 3); [lia| |].
  - change (2^61) with 2305843009213693952; change (2^3) with 8; lia.
  - change (2^3) with 8. rewrite Z.mul_comm. apply Z.mod_mul. lia.
Qed.

Lemma rotr3_arith x : is_word x -> rotr3 x = x / 8 + (x mod 8) * 2 ^ 61.
Proof.
  intros Hx. unfold rotr3, shl64.
  rewrite Z.shiftl_mul_pow2, Z.shiftr_div_pow2 by lia.
  unfold is_word in Hx. rewrite word64_val in *.
  replace ((x * 2 ^ 61) mod 18446744073709551616) with ((x mod 8) * 2 ^ 61).
  2:{ change 18446744073709551616 with (8 * 2 ^ 61).
      rewrite (Z.mul_comm 8). rewrite (Z.mul_comm x), (Z.mul_comm (x mod 8)).
      rewrite Z.mul_mod_distr_l by lia. reflexivity. }
  rewrite Z.lor_comm. rewrite (lor_add_low _ _ 61); [lia|lia| |].
  - change (2^61) with 2305843009213693952; change (2^3) with 8; lia.
  - apply Z.mod_mul. lia.
Qed.

(** The exponent condition of [Immediate::flonum]. *)
Lemma flonum_cond bits : is_word bits ->
  (Z.land (Z.land (Z.shiftr bits 60) 7 + 1) 6 =? 4) = true ->
  bits / 2 ^ 60 mod 8 = 3 \/ bits / 2 ^ 60 mod 8 = 4.
Proof.
  intros Hb H. rewrite land7 in H. rewrite Z.shiftr_div_pow2 in H by lia.
  assert (He : 0 <= bits / 2 ^ 60 mod 8 < 8) by (apply Z.mod_pos_bound; lia).
  revert H He. generalize (bits / 2 ^ 60 mod 8). intros e H He.
  assert (Hc : e = 0 \/ e = 1 \/ e = 2 \/ e = 3 \/ e = 4 \/ e = 5 \/ e = 6 \/ e = 7) by lia.
  destruct Hc as [->|[->|[->|[->|[->|[->|[->| ->]]]]]]]; try discriminate; auto.
Qed.

Definition BAD_FLOAT : Z := 3458764513820540928. (* 0x3000000000000000 = 2^-255 *)

Lemma flonum_word_arith bits : is_word bits ->
  bits / 2 ^ 60 mod 8 = 3 \/ bits / 2 ^ 60 mod 8 = 4 ->
  Z.lor (Z.land (rotl3 bits) (not64 1)) 2 =
  8 * (bits mod 2 ^ 61) + 4 * (bits / 2 ^ 63) + 2.
Proof.
  intros Hb He.
  assert (Hw : is_word (rotl3 bits)).
  { rewrite rotl3_arith by assumption. unfold is_word in *. rewrite word64_val in *.
    change (2^61) with 2305843009213693952. lia. }
  rewrite set_low2 by assumption. rewrite rotl3_arith by assumption.
  unfold is_word in *. rewrite word64_val in *.
  change (2^60) with 1152921504606846976 in *.
  change (2^61) with 2305843009213693952 in *.
  change (2^63) with 9223372036854775808 in *.
  lia.
Qed.

Lemma flonum_roundtrip bits w : is_word bits -> enc_flonum bits = Some w ->
  bits <> BAD_FLOAT -> try_flonum w = Some bits.
Proof.
  intros Hb Henc Hne. unfold enc_flonum in Henc.
  destruct (f64_eq_zero bits) eqn:Ez.
  - unfold f64_eq_zero in Ez. destruct (f64_sign_negative bits) eqn:Es; [discriminate|].
    injection Henc as <-.
    assert (bits = 0).
    { apply orb_true_iff in Ez. destruct Ez as [E|E]; apply Z.eqb_eq in E; [assumption|].
      subst bits. discriminate. }
    subst bits. reflexivity.
  - destruct (Z.land (Z.land (Z.shiftr bits 60) 7 + 1) 6 =? 4) eqn:Ec; [|discriminate].
    injection Henc as <-. pose proof (flonum_cond _ Hb Ec) as He. clear Ec.
    rewrite (flonum_word_arith _ Hb He).
    unfold try_flonum, is_flonum. rewrite land3.
    assert (Hbnd := Hb). unfold is_word in Hbnd. rewrite word64_val in Hbnd.
    set (w := 8 * (bits mod 2 ^ 61) + 4 * (bits / 2 ^ 63) + 2).
    assert (Hww : is_word w).
    { unfold is_word, w. rewrite word64_val.
      change (2^61) with 2305843009213693952 in *.
      change (2^63) with 9223372036854775808 in *. lia. }
    replace (w mod 4 =? 2) with true by (symmetry; unfold w; lia).
    f_equal. unfold as_flonum.
    assert (Hz : (w =? FLOAT_ZERO) = false).
    { apply Z.eqb_neq. intro E. apply Hne.
      change FLOAT_ZERO with 9223372036854775810 in E. unfold w in E.
      unfold BAD_FLOAT. unfold f64_eq_zero in Ez.
      change (2^60) with 1152921504606846976 in *.
      change (2^61) with 2305843009213693952 in *.
      change (2^63) with 9223372036854775808 in *. lia. }
    rewrite Hz.
    rewrite Z.shiftr_div_pow2 by lia. rewrite land1.
    rewrite clear_low2 by assumption.
    assert (Hbit : 0 <= 2 - (w / 2 ^ 63) mod 2 < 2 ^ 2) by (change (2^2) with 4; lia).
    rewrite (lor_add_low (4 * (w / 4)) _ 2); [|lia|exact Hbit|change (2^2) with 4; lia].
    rewrite rotr3_arith.
    + unfold w.
      change (2^60) with 1152921504606846976 in *.
      change (2^61) with 2305843009213693952 in *.
      change (2^63) with 9223372036854775808 in *. lia.
    + unfold is_word, w. rewrite word64_val.
      change (2^60) with 1152921504606846976 in *.
      change (2^61) with 2305843009213693952 in *.
      change (2^63) with 9223372036854775808 in *. lia.
Qed.

Lemma enc_flonum_tag bits w : is_word bits -> enc_flonum bits = Some w ->
  is_word w /\ w mod 4 = 2.
Proof.
  intros Hb Henc. unfold enc_flonum in Henc.
  destruct (f64_eq_zero bits).
  - destruct (f64_sign_negative bits); [discriminate|]. injection Henc as <-.
    split; [split; [discriminate|reflexivity]|reflexivity].
  - destruct (Z.land (Z.land (Z.shiftr bits 60) 7 + 1) 6 =? 4) eqn:Ec; [|discriminate].
    injection Henc as <-. pose proof (flonum_cond _ Hb Ec) as He.
    rewrite (flonum_word_arith _ Hb He).
    unfold is_word in *. rewrite word64_val in *.
    change (2^61) with 2305843009213693952 in *.
    change (2^63) with 9223372036854775808 in *. lia.
Qed.

Lemma float_store_read h addr bits :
  is_word bits -> addr mod 8 = 0 -> 0 < addr < word64 -> bits <> BAD_FLOAT ->
  let (w, h') := store_float h addr bits in read_float h' w = Some bits.
Proof.
  intros Hb Ha Hpos Hne. unfold store_float.
  destruct (enc_flonum bits) eqn:E.
  - unfold read_float. rewrite (flonum_roundtrip _ _ Hb E Hne). reflexivity.
  - unfold read_float, try_flonum, is_flonum, is_packed_value.
    rewrite land3, land7.
    replace (addr mod 4 =? 2) with false by (symmetry; lia).
    replace (negb (addr mod 8 =? 0)) with false by (symmetry; lia).
    rewrite Z.eqb_refl. reflexivity.
Qed.

Lemma as_bool_spec w : is_word w -> (as_bool w = false <-> w = 4 \/ w = 20).
Proof.
  intros Hw. unfold as_bool. rewrite negb_false_iff, Z.eqb_eq.
  assert (E : Z.land w (not64 16) = w - 16 * ((w / 16) mod 2)).
  { assert (Hd : Z.land w 16 = 16 * ((w / 16) mod 2)).
    { apply Z.bits_inj'. intros i Hi. rewrite Z.land_spec.
      replace (16 * ((w / 16) mod 2)) with (Z.shiftl ((w / 16) mod 2) 4)
        by (rewrite Z.shiftl_mul_pow2 by lia; change (2^4) with 16; lia).
      destruct (Z.ltb_spec i 4).
      - rewrite Z.shiftl_spec_low by lia.
        assert (i = 0 \/ i = 1 \/ i = 2 \/ i = 3) as Hc by lia.
        destruct Hc as [->|[->|[->| ->]]]; apply andb_false_r.
      - rewrite Z.shiftl_spec by lia.
        destruct (Z.eq_dec i 4) as [->|].
        + change (Z.testbit 16 4) with true. rewrite andb_true_r.
          replace (4 - 4) with 0 by lia.
          rewrite <- Z.bit0_mod. rewrite Z.b2z_bit0.
          replace (w / 16) with (Z.shiftr w 4) by (rewrite Z.shiftr_div_pow2 by lia; reflexivity).
          rewrite Z.shiftr_spec by lia. reflexivity.
        + replace (Z.testbit 16 i) with false.
          2:{ symmetry. apply Z.bits_above_log2; [lia|]. change (Z.log2 16) with 4. lia. }
          rewrite andb_false_r. symmetry.
          rewrite <- Z.bit0_mod. destruct (Z.testbit (w / 16) 0); simpl.
          * apply Z.bits_above_log2; [lia|]. simpl. lia.
          * apply Z.bits_0. }
    rewrite <- Hd.
    assert (Hs : Z.land w (not64 16) + Z.land w 16 = w).
    { rewrite <- lor_add_disjoint.
      2:{ rewrite Z.land_assoc. rewrite <- (Z.land_assoc w (not64 16) w).
          rewrite (Z.land_comm (not64 16) w). rewrite Z.land_assoc, Z.land_diag.
          rewrite <- Z.land_assoc. change (Z.land (not64 16) 16) with 0. apply Z.land_0_r. }
      rewrite <- Z.land_lor_distr_r.
      change (Z.lor (not64 16) 16) with (Z.ones 64). rewrite Z.land_ones by lia.
      apply Z.mod_small. unfold is_word in Hw. exact Hw. }
    lia. }
  rewrite E. unfold is_word in Hw. rewrite word64_val in Hw. unfold NIL_VALUE. lia.
Qed.

(** The two patterns the inline float encoding cannot tell apart. *)
Definition float_faithful (v : rvalue) : Prop :=
  match v with VFloat b => b <> BAD_FLOAT | _ => True end.

Lemma unpack_word_of v w : rvalue_ok v -> float_faithful v ->
  word_of v = Some w -> is_word w /\ value_of w = Some v.
Proof.
  intros Hok Hf Hw. unfold value_of.
  destruct v as [| | |z|n|b|a]; cbn [word_of rvalue_ok] in *.
  - injection Hw as <-. split; [split; [discriminate|reflexivity]|reflexivity].
  - injection Hw as <-. split; [split; [discriminate|reflexivity]|reflexivity].
  - injection Hw as <-. split; [split; [discriminate|reflexivity]|reflexivity].
  - injection Hw as <-. split.
    + rewrite enc_fixnum_arith by lia. unfold is_word. rewrite word64_val. lia.
    + unfold unpack. rewrite fixnum_roundtrip by exact Hok. reflexivity.
  - injection Hw as <-. rewrite enc_symbol_arith by exact Hok.
    change (2^32) with 4294967296 in *.
    split; [unfold is_word; rewrite word64_val; lia|].
    unfold unpack, try_fixnum, is_fixnum, try_flonum, is_flonum, is_packed_value, try_symbol,
      is_symbol.
    rewrite land1, land3, land7, land255.
    replace ((n * 4294967296 + 12) mod 2 =? 1) with false by (symmetry; lia).
    replace ((n * 4294967296 + 12) mod 4 =? 2) with false by (symmetry; lia).
    replace (n * 4294967296 + 12 =? 0) with false by (symmetry; lia).
    replace ((n * 4294967296 + 12) mod 8 =? 0) with false by (symmetry; lia).
    replace ((n * 4294967296 + 12) mod 256 =? TAG_SYMBOL) with true
      by (symmetry; unfold TAG_SYMBOL; lia).
    cbn [negb]. rewrite Z.shiftr_div_pow2 by lia. change (2^32) with 4294967296.
    do 2 f_equal. lia.
  - pose proof (enc_flonum_tag _ _ Hok Hw) as [Hww Hm].
    split; [exact Hww|].
    unfold unpack, try_fixnum, is_fixnum. rewrite land1.
    replace (w mod 2 =? 1) with false by (symmetry; lia).
    rewrite (flonum_roundtrip _ _ Hok Hw Hf). reflexivity.
  - injection Hw as <-. destruct Hok as [Ha Hm].
    split; [unfold is_word; rewrite word64_val; change (2^64) with 18446744073709551616 in Ha; lia|].
    unfold unpack, try_fixnum, is_fixnum, try_flonum, is_flonum, is_packed_value.
    rewrite land1, land3, land7.
    replace (a mod 2 =? 1) with false by (symmetry; lia).
    replace (a mod 4 =? 2) with false by (symmetry; lia).
    replace (a =? 0) with false by (symmetry; lia).
    replace (a mod 8 =? 0) with true by (symmetry; lia).
    reflexivity.
Qed.

Lemma word_of_inj v1 v2 w : rvalue_ok v1 -> rvalue_ok v2 ->
  float_faithful v1 -> float_faithful v2 ->
  word_of v1 = Some w -> word_of v2 = Some w -> v1 = v2.
Proof.
  intros H1 H2 F1 F2 E1 E2.
  destruct (unpack_word_of _ _ H1 F1 E1) as [_ U1].
  destruct (unpack_word_of _ _ H2 F2 E2) as [_ U2]. congruence.
Qed.

(** Without the float restriction: values of different kinds never share a word. *)
Definition is_float (v : rvalue) : bool := match v with VFloat _ => true | _ => false end.

Lemma word_of_float_kind v1 v2 w : rvalue_ok v1 -> rvalue_ok v2 ->
  word_of v1 = Some w -> word_of v2 = Some w -> is_float v1 = is_float v2.
Proof.
  intros H1 H2 E1 E2.
  assert (K : forall v, rvalue_ok v -> word_of v = Some w -> is_float v = is_flonum w).
  { intros v Hv Ev. unfold is_flonum. rewrite land3.
    destruct v as [| | |z|n|b|a]; cbn [word_of rvalue_ok is_float] in *;
      try (injection Ev as <-); try reflexivity.
    - rewrite enc_fixnum_arith by lia. rewrite word64_val. symmetry. lia.
    - rewrite enc_symbol_arith by exact Hv. change (2^32) with 4294967296. symmetry. lia.
    - destruct (enc_flonum_tag _ _ Hv Ev) as [_ Hm]. rewrite Hm. reflexivity.
    - symmetry. lia. }
  rewrite (K v1), (K v2) by assumption. reflexivity.
Qed.

Lemma immediate_identity v : rvalue_ok v -> is_float v = false ->
  exists w, word_of v = Some w /\ is_word w /\ value_of w = Some v
    /\ forall v', rvalue_ok v' -> word_of v' = Some w -> v' = v.
Proof.
  intros Hok Hnf.
  destruct (word_of v) as [w|] eqn:Ew; [|destruct v; discriminate].
  assert (Hf : float_faithful v) by (destruct v; try exact I; discriminate).
  destruct (unpack_word_of _ _ Hok Hf Ew) as [Hw Hv].
  exists w. split; [reflexivity|]. split; [exact Hw|]. split; [exact Hv|].
  intros v' Hok' Ew'.
  apply (word_of_inj v' v w); try assumption.
  pose proof (word_of_float_kind v' v w Hok' Hok Ew' Ew) as Hk.
  destruct v'; try exact I. simpl in Hk. congruence.
Qed.

Lemma integer_store_read h addr z : - 2 ^ 63 <= z < 2 ^ 63 ->
  0 < addr < word64 -> addr mod 8 = 0 ->
  (let (w, h') := store_integer h addr z in read_integer h' w = Some z) /\
  (snd (store_integer h addr z) = h /\ fst (store_integer h addr z) <> addr
     <-> - 2 ^ 62 <= z < 2 ^ 62).
Proof.
  intros Hz Ha Hm. unfold store_integer.
  pose proof (is_i63_iff z Hz) as Hi.
  destruct (is_i63 z) eqn:E.
  - assert (Hr : - 2 ^ 62 <= z < 2 ^ 62) by (apply Hi; reflexivity).
    split; [unfold read_integer; rewrite fixnum_roundtrip by exact Hr; reflexivity|].
    cbn [fst snd]. split; [intros _; exact Hr|]. intros _. split; [reflexivity|].
    rewrite enc_fixnum_arith by exact Hz. rewrite word64_val. lia.
  - split.
    + unfold read_integer, try_fixnum, is_fixnum, is_packed_value. rewrite land1, land7.
      replace (addr mod 2 =? 1) with false by (symmetry; lia).
      replace (negb (addr mod 8 =? 0)) with false by (symmetry; lia).
      rewrite Z.eqb_refl. reflexivity.
    + cbn [fst snd]. split; [intros [_ Hc]; congruence|].
      intros Hc. apply Hi in Hc. discriminate.
Qed.

Lemma as_bool_truthy v w : rvalue_ok v -> word_of v = Some w -> as_bool w = truthy v.
Proof.
  intros Hok Ew.
  destruct (is_float v) eqn:Hf.
  - destruct v; try discriminate. simpl in Ew, Hok.
    destruct (enc_flonum_tag _ _ Hok Ew) as [Hw Hm].
    pose proof (as_bool_spec w Hw) as Hs. destruct (as_bool w); [reflexivity|].
    destruct Hs as [Hs _]. specialize (Hs eq_refl). lia.
  - destruct (immediate_identity v Hok Hf) as (w' & Ew' & Hw & Hv & _).
    assert (w' = w) by congruence. subst w'. pose proof (as_bool_spec w Hw) as Hs.
    destruct (Z.eq_dec w 4) as [->|N4].
    { vm_compute in Hv. injection Hv as <-. reflexivity. }
    destruct (Z.eq_dec w 20) as [->|N20].
    { vm_compute in Hv. injection Hv as <-. reflexivity. }
    destruct (as_bool w).
    + destruct v; try reflexivity; simpl in Ew; injection Ew as <-;
        exfalso; [apply N4|apply N20]; reflexivity.
    + destruct Hs as [Hs _]. specialize (Hs eq_refl). lia.
Qed.

Lemma as_bool_null : as_bool 0 = true. Proof. reflexivity. Qed.

Lemma float_bad_collapses h addr :
  store_float h addr BAD_FLOAT = store_float h addr 0.
Proof. reflexivity. Qed.

Lemma float_refuted : exists h addr bits, is_word bits /\ 0 < addr < word64 /\ addr mod 8 = 0 /\
  let (w, h') := store_float h addr bits in read_float h' w <> Some bits.
Proof.
  exists (fun _ => None), 64, BAD_FLOAT.
  repeat split; try reflexivity; try discriminate.
Qed.

(** Exactly one pattern is damaged. *)
Lemma float_exact h addr bits :
  is_word bits -> addr mod 8 = 0 -> 0 < addr < word64 ->
  (let (w, h') := store_float h addr bits in read_float h' w = Some bits)
  <-> bits <> 3458764513820540928.
Proof.
  intros Hb Hm Ha. split.
  - intros H ->. cbv in H. discriminate.
  - intros Hne. apply float_store_read; assumption.
Qed.
