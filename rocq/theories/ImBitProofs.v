(** Lemmas about Integer#[]. *)
From Coq Require Import ZArith Bool Lia ZifyBool List.
From Verif Require Import IntModel IntProofs ImModel ImSpec.
Open Scope Z_scope.

Lemma vi z : is_int (value_integer z) z. Proof. apply value_integer_ok. Qed.
Lemma vb z : is_int (value_bigint z) z. Proof. apply value_bigint_ok. Qed.

Lemma mask_small w : 0 <= w < 64 -> wrap64 (i64_shl 1 w - 1) = Z.ones w.
Proof.
  intros H. unfold i64_shl. rewrite (Z.mod_small w 64) by lia.
  rewrite Z.shiftl_1_l, Z.ones_equiv.
  destruct (Z.eq_dec w 63) as [->|N]; [reflexivity|].
  assert (0 < 2 ^ w) by (apply Z.pow_pos_nonneg; lia).
  assert (2 ^ w <= 2 ^ 62) by (apply Z.pow_le_mono_r; lia).
  rewrite (wrap64_id (2 ^ w)) by (pows; lia). apply wrap64_id. pows; lia.
Qed.

Lemma mask_big w : 0 <= w -> Z.shiftl 1 w - 1 = Z.ones w.
Proof. intros. rewrite Z.shiftl_1_l, Z.ones_equiv. lia. Qed.

Lemma shiftr_tail n s : is_tail n s (Z.shiftr n s).
Proof. intros i Hi. rewrite Z.shiftr_spec by lia. f_equal. lia. Qed.

Lemma shiftl_tail n s : is_tail n s (Z.shiftl n (- s)).
Proof. intros i Hi. rewrite Z.shiftl_spec by lia. f_equal. lia. Qed.

Lemma tail_shiftr n s x : is_tail n s x -> x = Z.shiftr n s.
Proof. intros H. apply Z.bits_inj'. intros i Hi. rewrite H, Z.shiftr_spec by lia. f_equal. lia. Qed.

Lemma tail_land n s w x : 0 <= w -> is_tail n s x -> is_bits n s w (Z.land x (Z.ones w)).
Proof.
  intros Hw H i Hi. rewrite Z.land_spec, H by lia.
  destruct (Z.ltb_spec i w).
  - rewrite Z.ones_spec_low by lia. apply andb_true_r.
  - rewrite Z.ones_spec_high by lia. apply andb_false_r.
Qed.

(** The value described by [is_bits] is unique. *)
Lemma bits_unique n s w x y : is_bits n s w x -> is_bits n s w y -> x = y.
Proof. intros H K. apply Z.bits_inj'. intros i Hi. now rewrite H, K by lia. Qed.

Lemma sar_sign b s : - 2 ^ 62 <= b < 2 ^ 62 -> 62 <= s -> Z.shiftr b s = if b <? 0 then -1 else 0.
Proof.
  intros Hb Hs. rewrite Z.shiftr_div_pow2 by lia.
  assert (2 ^ 62 <= 2 ^ s) by (apply Z.pow_le_mono_r; lia).
  destruct (Z.ltb_spec b 0).
  - symmetry. apply (Z.div_unique b (2 ^ s) (-1) (b + 2 ^ s)); lia.
  - apply Z.div_small; lia.
Qed.

Lemma neg_usize_ok s : - 2 ^ 63 <= s < 0 -> neg_usize s = - s.
Proof.
  intros H. unfold neg_usize. destruct (Z.eq_dec s (- 2 ^ 63)) as [->|N]; [reflexivity|].
  rewrite wrap64_id by (pows; lia). apply Z.mod_small. pows; lia.
Qed.

(** The shifted receiver, in each representation. *)
Lemma sh_fix b s : - 2 ^ 62 <= b < 2 ^ 62 -> 0 <= s ->
  (if 64 <=? s then (if b <? 0 then -1 else 0) else i64_shr b s) = Z.shiftr b s.
Proof.
  intros Hb Hs. destruct (Z.leb_spec 64 s).
  - rewrite sar_sign by lia. reflexivity.
  - unfold i64_shr. rewrite Z.mod_small by lia. reflexivity.
Qed.

Lemma canon_fix b : canonical (NFix b) -> - 2 ^ 62 <= b < 2 ^ 62.
Proof. cbn. tauto. Qed.

Lemma index_from_ok self s : canonical self -> - 2 ^ 63 <= s < 2 ^ 63 ->
  is_int (index_from self s) (Z.shiftr (ival self) s).
Proof.
  intros C H. destruct self as [b|b]; cbn [index_from ival].
  - apply canon_fix in C. destruct (Z.leb_spec 0 s).
    + pose proof (sh_fix b s C H0) as E.
      destruct (64 <=? s) eqn:L; rewrite <- E; apply vi.
    + rewrite neg_usize_ok by lia. rewrite <- (Z.opp_involutive s) at 2.
      rewrite Z.shiftr_opp_r. apply vb.
  - destruct (Z.leb_spec 0 s); [apply vb|].
    rewrite neg_usize_ok by lia. rewrite <- (Z.opp_involutive s) at 2.
    rewrite Z.shiftr_opp_r. apply vb.
Qed.

Lemma index_bit_ok self i : canonical self -> canonical i ->
  (ival i < 2 ^ 62 \/ 0 <= ival self) -> bits (ival self) < 2 ^ 62 ->
  is_int (index_bit self i) (Z.b2z (Z.testbit (ival self) (ival i))).
Proof.
  intros C CI H B. destruct self as [b|b], i as [i|i]; cbn [index_bit ival] in *.
  - apply canon_fix in C. destruct (Z.ltb_spec i 0).
    + rewrite Z.testbit_neg_r by lia. apply vi.
    + rewrite Z.testbit_spec'.
      destruct (Z.ltb_spec 63 i).
      * rewrite <- Z.shiftr_div_pow2, sar_sign by lia. destruct (b <? 0); apply vi.
      * unfold i64_shr. rewrite Z.mod_small by lia.
        change 1 with (Z.ones 1). rewrite Z.land_ones by lia. rewrite Z.shiftr_div_pow2 by lia.
        apply vi.
      * lia.
  - cbn in CI. apply canon_fix in C.
    destruct (Z.lt_ge_cases i 0) as [N|N]; [rewrite Z.testbit_neg_r by lia; apply vi|].
    destruct H as [H|H]; [pows; lia|].
    rewrite Z.testbit_spec' by lia. rewrite <- Z.shiftr_div_pow2 by lia.
    rewrite sar_sign by (pows; lia). destruct (Z.ltb_spec b 0); [lia|]. apply vi.
  - destruct (Z.ltb_spec i 0).
    + rewrite Z.testbit_neg_r by lia. apply vi.
    + rewrite Z.testbit_spec' by lia. change 1 with (Z.ones 1). rewrite Z.land_ones by lia.
      rewrite Z.shiftr_div_pow2 by lia. apply vb.
  - cbn in CI.
    destruct (Z.lt_ge_cases i 0) as [N|N]; [rewrite Z.testbit_neg_r by lia; apply vi|].
    destruct H as [H|H]; [pows; lia|].
    rewrite Z.testbit_spec' by lia. rewrite <- Z.shiftr_div_pow2 by lia.
    rewrite small_shiftr by (pows; lia). destruct (Z.ltb_spec b 0); [lia|]. apply vi.
Qed.

Lemma bits_full n s w x : 0 <= x -> 0 <= w -> is_tail n s x -> x < 2 ^ w -> is_bits n s w x.
Proof.
  intros Hx Hw H L. rewrite <- (Z.mod_small x (2 ^ w)) by lia.
  rewrite <- Z.land_ones by lia. now apply tail_land.
Qed.

Lemma big_bits_bound x : 0 <= x -> x < 2 ^ big_bits x.
Proof.
  intros H. unfold big_bits. destruct (Z.eqb_spec x 0) as [->|]; [reflexivity|].
  rewrite Z.abs_eq by lia. replace (Z.log2 x + 1) with (Z.succ (Z.log2 x)) by lia.
  apply Z.log2_spec. lia.
Qed.
Lemma big_bits_nonneg x : 0 <= big_bits x.
Proof. unfold big_bits. destruct (x =? 0); [lia|]. pose proof (Z.log2_nonneg (Z.abs x)). lia. Qed.

Lemma wide n s w x : is_tail n s x -> 0 <= x -> big_bits x + 1 < w -> is_bits n s w x.
Proof.
  intros T H L. pose proof (big_bits_bound x H). pose proof (big_bits_nonneg x).
  apply bits_full; try assumption; try lia.
  eapply Z.lt_le_trans; [eassumption|]. apply Z.pow_le_mono_r; lia.
Qed.

(** Shifting either way gives the tail. *)
Lemma sh_tail b s : - 2 ^ 63 <= s < 2 ^ 63 ->
  is_tail b s (if 0 <=? s then Z.shiftr b s else Z.shiftl b (neg_usize s)).
Proof.
  intros H. destruct (Z.leb_spec 0 s); [apply shiftr_tail|].
  rewrite neg_usize_ok by lia. apply shiftl_tail.
Qed.

Lemma int_bits n s w x v : is_int v x -> is_bits n s w x -> exists y, is_int v y /\ is_bits n s w y.
Proof. eauto. Qed.

Lemma index_len_ok self s w : canonical self -> - 2 ^ 63 <= s < 2 ^ 63 -> 0 <= w ->
  (match self with NFix b => w < 64 \/ 0 <= b \/ s < 0 | NBig _ => True end) ->
  exists x, is_int (index_len_i64 self s w) x /\ is_bits (ival self) s w x.
Proof.
  intros C Hs Hw H. unfold index_len_i64.
  destruct (Z.ltb_spec w 0); [lia|]. destruct self as [b|b]; cbn [ival].
  - apply canon_fix in C. destruct (Z.ltb_spec s 0).
    + replace (if 64 <=? w then _ else _) with (Z.ones w).
      * eapply int_bits; [apply vb|]. apply tail_land; [lia|].
        rewrite neg_usize_ok by lia. apply shiftl_tail.
      * destruct (Z.leb_spec 64 w); symmetry; [apply mask_big|apply mask_small]; lia.
    + cbv zeta. rewrite sh_fix by lia. destruct (Z.leb_spec 64 w).
      * rewrite Z.land_m1_r. destruct H as [H|[H|H]]; try lia.
        eapply int_bits; [apply vi|]. apply bits_full; [|lia|apply shiftr_tail|].
        -- apply Z.shiftr_nonneg. lia.
        -- rewrite Z.shiftr_div_pow2 by lia.
           assert (0 < 2 ^ s) by (apply Z.pow_pos_nonneg; lia).
           apply Z.le_lt_trans with b.
           { apply Z.div_le_upper_bound; [lia|]. nia. }
           apply Z.lt_le_trans with (2 ^ 62); [lia|]. apply Z.pow_le_mono_r; lia.
      * rewrite mask_small by lia. eapply int_bits; [apply vi|].
        apply tail_land; [lia|apply shiftr_tail].
  - cbv zeta. pose proof (sh_tail b s Hs) as T. set (x := if 0 <=? s then _ else _) in *.
    clearbody x. rewrite mask_big by lia.
    destruct (Z.ltb_spec (big_bits x + 1) w); [destruct (Z.leb_spec 0 x)|];
      eapply int_bits; try apply vb; try (apply tail_land; assumption).
    now apply wide.
Qed.

Lemma index_span_rev self s e excl : canonical self -> - 2 ^ 63 <= s < 2 ^ 63 -> e < s ->
  is_int (index_span self s e excl) (Z.shiftr (ival self) s).
Proof.
  intros C Hs H. unfold index_span. destruct (Z.ltb_spec e s); [|lia]. now apply index_from_ok.
Qed.

Definition width_of (s e : Z) (excl : bool) : Z := if excl then e - s else e + 1 - s.

Lemma i64_shl_low b k w : 0 <= k < 64 -> 0 <= w < 64 ->
  Z.land (i64_shl b k) (Z.ones w) = Z.land (Z.shiftl b k) (Z.ones w).
Proof.
  intros Hk Hw. unfold i64_shl. rewrite (Z.mod_small k 64) by lia.
  rewrite !Z.land_ones by lia. unfold wrap64.
  assert (D : (2 ^ w | 2 ^ 63)).
  { exists (2 ^ (63 - w)). rewrite <- Z.pow_add_r by lia. f_equal. lia. }
  assert (D4 : (2 ^ w | 2 ^ 64)).
  { exists (2 ^ (64 - w)). rewrite <- Z.pow_add_r by lia. f_equal. lia. }
  set (x := Z.shiftl b k). assert (P : 0 < 2 ^ w) by (apply Z.pow_pos_nonneg; lia).
  rewrite Zminus_mod. rewrite <- (Znumtheory.Zmod_div_mod (2 ^ w) (2 ^ 64)) by (try assumption; reflexivity).
  rewrite <- Zminus_mod. f_equal. lia.
Qed.

Lemma index_span_ok self s e excl : canonical self -> - 2 ^ 63 <= s -> s <= e < 2 ^ 63 - 1 ->
  e + 1 - s < 2 ^ 63 ->
  (match self with NFix _ => 64 <= width_of s e excl \/ -64 < s < 64 | NBig _ => True end) ->
  exists x, is_int (index_span self s e excl) x /\ is_bits (ival self) s (width_of s e excl) x.
Proof.
  intros C Hs He Hw H. unfold index_span. destruct (Z.ltb_spec e s); [lia|].
  assert (W : wrap64 ((if excl then e else wrap64 (e + 1)) - s) = width_of s e excl).
  { unfold width_of. destruct excl; [apply wrap64_id; lia|].
    rewrite (wrap64_id (e + 1)) by lia. apply wrap64_id; lia. }
  rewrite W. cbv zeta. set (w := width_of s e excl) in *.
  assert (Bw : 0 <= w < 2 ^ 63) by (unfold w, width_of; destruct excl; lia).
  clearbody w. clear W.
  assert (Big : forall b, exists x,
    is_int (let shifted := if 0 <=? s then Z.shiftr b s else Z.shiftl b (neg_usize s) in
      if (big_bits shifted + 1 <? w) && (0 <=? shifted) then value_bigint shifted
      else value_bigint (Z.land shifted (Z.shiftl 1 (w mod 2 ^ 64) - 1))) x
    /\ is_bits b s w x).
  { intros b. cbv zeta. pose proof (sh_tail b s ltac:(lia)) as T.
    set (x := if 0 <=? s then _ else _) in *. clearbody x.
    rewrite (Z.mod_small w (2 ^ 64)) by (pows; lia). rewrite mask_big by lia.
    destruct (Z.ltb_spec (big_bits x + 1) w); destruct (Z.leb_spec 0 x); cbn [andb];
      eapply int_bits; try apply vb; try (apply tail_land; [lia|assumption]). now apply wide. }
  destruct self as [b|b]; cbn [ival]; [|apply Big].
  apply canon_fix in C. destruct (Z.ltb_spec w 64); [|apply Big].
  destruct H as [H|H]; [lia|]. rewrite mask_small by lia.
  eapply int_bits; [apply vi|]. destruct (Z.leb_spec 0 s).
  - unfold i64_shr. rewrite Z.mod_small by lia. apply tail_land; [lia|apply shiftr_tail].
  - rewrite i64_shl_low by lia. apply tail_land; [lia|apply shiftl_tail].
Qed.

Lemma index_beginless_ok self e excl : canonical self -> - 2 ^ 63 <= e < 2 ^ 63 - 1 ->
  index_beginless self e excl =
  if Z.land (ival self) (Z.ones (Z.max 0 (width_of 0 e excl))) =? 0
  then Ok (value_integer 0) else Err ArgErr.
Proof.
  intros C He. unfold index_beginless.
  assert (W : (if excl then e else wrap64 (e + 1)) = width_of 0 e excl).
  { unfold width_of. destruct excl; [lia|]. rewrite wrap64_id; lia. }
  rewrite W. set (w := width_of 0 e excl) in *. clearbody w. clear W He.
  cbv zeta. destruct self as [b|b]; cbn [ival].
  - apply canon_fix in C. destruct (Z.leb_spec w 0).
    + rewrite Z.max_l by lia. rewrite Z.land_0_r. reflexivity.
    + rewrite Z.max_r by lia. destruct (Z.leb_spec 64 w).
      * rewrite Z.land_ones by lia.
        replace (b mod 2 ^ w =? 0) with (b =? 0); [reflexivity|].
        assert (2 ^ 62 < 2 ^ w) by (apply Z.pow_lt_mono_r; lia).
        destruct (Z.eqb_spec b 0) as [->|N]; [rewrite Z.mod_0_l by lia; reflexivity|].
        symmetry. apply Z.eqb_neq. intros D.
        destruct (Z.lt_ge_cases b 0).
        -- rewrite <- (Z_mod_plus_full b 1), Z.mod_small in D by lia. lia.
        -- rewrite Z.mod_small in D by lia. lia.
      * rewrite mask_small by lia. reflexivity.
  - destruct (Z.leb_spec w 0).
    + rewrite Z.max_l by lia. rewrite Z.land_0_r. reflexivity.
    + rewrite Z.max_r by lia. rewrite mask_big by lia.
      set (r := Z.land b (Z.ones w)). destruct (in_i64 r) eqn:E; [reflexivity|].
      destruct (Z.eqb_spec r 0) as [R|R]; [rewrite R in E; discriminate|reflexivity].
Qed.

(** Compiled code. *)
Lemma jit_index_ok b nth : - 2 ^ 62 <= b < 2 ^ 62 -> 0 <= nth ->
  jit_bit_index (2 * b + 1) nth = 2 * Z.b2z (Z.testbit b nth) + 1.
Proof.
  intros Hb Hn. unfold jit_bit_index.
  assert (T : Z.testbit (Z.shiftr (2 * b + 1) (Z.min nth 63)) 1 = Z.testbit b nth).
  { rewrite Z.shiftr_spec by lia.
    replace (1 + Z.min nth 63) with (Z.succ (Z.min nth 63)) by lia.
    rewrite Z.testbit_odd_succ by lia.
    destruct (Z.le_gt_cases nth 63); [rewrite Z.min_l by lia; reflexivity|].
    rewrite Z.min_r by lia.
    assert (S : forall k, 62 <= k -> Z.testbit b k = (b <? 0)).
    { intros k Hk. replace k with (0 + k) by lia. rewrite <- Z.shiftr_spec by lia.
      rewrite sar_sign by lia. destruct (b <? 0); reflexivity. }
    rewrite !S by lia. reflexivity. }
  set (x := Z.shiftr _ _) in *. clearbody x. rewrite <- T. clear T.
  apply Z.bits_inj'. intros i Hi. rewrite Z.lor_spec, Z.land_spec.
  destruct (Z.eq_dec i 0) as [->|]; [|destruct (Z.eq_dec i 1) as [->|]].
  - rewrite Z.testbit_odd_0. rewrite andb_false_r. reflexivity.
  - destruct (Z.testbit x 1); reflexivity.
  - assert (N : forall y, 0 <= y < 2 ^ 2 -> Z.testbit y i = false).
    { intros y Hy. destruct (Z.eq_dec y 0) as [->|]; [apply Z.bits_0|].
      apply Z.bits_above_log2; [lia|]. assert (Z.log2 y < 2) by (apply Z.log2_lt_pow2; lia). lia. }
    rewrite !(N 2), !(N 1) by (cbn; lia). rewrite andb_false_r. symmetry. apply N.
    destruct (Z.testbit x 1); cbn; lia.
Qed.

Lemma jit_fold_ok b nth : - 2 ^ 62 <= b < 2 ^ 62 ->
  jit_bit_fold b nth = Z.b2z (Z.testbit b nth).
Proof.
  intros Hb. unfold jit_bit_fold. destruct (Z.ltb_spec nth 0).
  - rewrite Z.testbit_neg_r by lia. reflexivity.
  - unfold i64_shr. rewrite Z.mod_small by lia. change 1 with (Z.ones 1).
    rewrite Z.land_ones by lia. rewrite Z.testbit_spec' by lia.
    rewrite <- Z.shiftr_div_pow2 by lia.
    destruct (Z.le_gt_cases nth 63); [rewrite Z.min_l by lia; reflexivity|].
    rewrite Z.min_r by lia. rewrite !sar_sign by lia. reflexivity.
Qed.
