(** Conversions of Floats are exact. *)
From Coq Require Import ZArith Bool Lia Floats.SpecFloat.
From Verif Require Import IntModel IntProofs ImSpec ImBitProofs AseqModel FlProofs FintModel FintSpec.
Ltac Zify.zify_post_hook ::= idtac.
Open Scope Z_scope.

Lemma U_pos : 0 < U. Proof. unfold U. apply Z.pow_pos_nonneg; lia. Qed.
Lemma U_half : U = 2 * 2 ^ 1073.
Proof. unfold U. change 1074 with (Z.succ 1073). apply Z.pow_succ_r. lia. Qed.
Global Opaque U.

Lemma fx_int f : 0 <= expo f -> fx f = mant f * 2 ^ expo f * U.
Proof.
  destruct f as [s|s| |s m e]; try reflexivity. cbn [expo mant fx]. intros E.
  rewrite Z.pow_add_r by lia. Transparent U. unfold U. ring.
Qed.
Opaque U.
Lemma fx_frac f : dbl f -> expo f < 0 -> exists d t, 0 < d /\ 2 ^ (- expo f) = d /\ fx f = mant f * t /\ U = d * t /\ 0 < t.
Proof.
  destruct f as [s|s| |s m e]; cbn [expo]; try lia. intros D E.
  exists (2 ^ (- e)), (2 ^ (e + 1074)).
  assert (-1074 <= e).
  { unfold dbl, valid_binary, bounded, canonical_mantissa, fexp in D. apply andb_prop in D. destruct D as [D _].
    apply Zeq_bool_eq in D. unfold emin in D. lia. }
  repeat split; try reflexivity; try (apply Z.pow_pos_nonneg; lia).
  Transparent U. unfold U. Opaque U. rewrite <- Z.pow_add_r by lia. f_equal. lia.
Qed.
Lemma expo_case f : 0 <= expo f \/ expo f < 0. Proof. lia. Qed.

Lemma floor_mant f : f_floor f = if 0 <=? expo f then mant f * 2 ^ expo f else mant f / 2 ^ (- expo f).
Proof. destruct f as [s|s| |s m e]; reflexivity. Qed.

Lemma floor_spec f : dbl f -> f_floor f * U <= fx f < (f_floor f + 1) * U.
Proof.
  intros D. rewrite floor_mant. pose proof U_pos. destruct (expo_case f) as [E|E].
  - rewrite (proj2 (Z.leb_le _ _) E), (fx_int f E). nia.
  - rewrite (proj2 (Z.leb_gt _ _) E). destruct (fx_frac f D E) as (d & t & Hd & -> & -> & -> & Ht).
    pose proof (Z.div_mod (mant f) d ltac:(lia)). pose proof (Z.mod_pos_bound (mant f) d Hd). nia.
Qed.
Lemma ceil_spec f : dbl f -> (f_ceil f - 1) * U < fx f <= f_ceil f * U.
Proof.
  intros D. unfold f_ceil. pose proof U_pos. destruct (expo_case f) as [E|E].
  - rewrite (proj2 (Z.leb_le _ _) E), (fx_int f E). nia.
  - rewrite (proj2 (Z.leb_gt _ _) E). destruct (fx_frac f D E) as (d & t & Hd & -> & -> & -> & Ht).
    pose proof (Z.div_mod (- mant f) d ltac:(lia)). pose proof (Z.mod_pos_bound (- mant f) d Hd). nia.
Qed.
(** The truncation and the sign of what is cut off. *)
Lemma trunc_spec f : dbl f -> exists r, fx f = f_trunc f * U + r /\ Z.abs r < U /\
  (0 <= fx f -> 0 <= r) /\ (fx f <= 0 -> r <= 0) /\ f_frac_sign f = Z.sgn r.
Proof.
  intros D. unfold f_trunc, f_frac_sign. pose proof U_pos. destruct (expo_case f) as [E|E].
  - rewrite (proj2 (Z.leb_le _ _) E), (fx_int f E). exists 0. repeat split; try reflexivity; lia.
  - rewrite (proj2 (Z.leb_gt _ _) E). destruct (fx_frac f D E) as (d & t & Hd & -> & -> & -> & Ht).
    exists (Z.rem (mant f) d * t). pose proof (Z.quot_rem (mant f) d ltac:(lia)).
    pose proof (Z.rem_bound_abs (mant f) d ltac:(lia)).
    split; [nia|]. split; [rewrite Z.abs_mul; nia|].
    destruct (Z_le_gt_dec 0 (mant f)).
    + pose proof (Z.rem_nonneg (mant f) d ltac:(lia) ltac:(lia)).
      assert (Sg : Z.sgn (Z.rem (mant f) d) = Z.sgn (Z.rem (mant f) d * t)) by (rewrite Z.sgn_mul, (Z.sgn_pos t) by lia; lia).
      split; [nia|]. split; [|exact Sg]. intros. assert (mant f = 0) as -> by nia. rewrite Z.rem_0_l by lia. lia.
    + pose proof (Z.rem_nonpos (mant f) d ltac:(lia) ltac:(lia)).
      assert (Sg : Z.sgn (Z.rem (mant f) d) = Z.sgn (Z.rem (mant f) d * t)) by (rewrite Z.sgn_mul, (Z.sgn_pos t) by lia; lia).
      split; [intros; nia|]. split; [nia|exact Sg].
Qed.

Lemma trunc_is f : dbl f -> is_trunc f (f_trunc f).
Proof.
  intros D. destruct (trunc_spec f D) as (r & E & A & P & N & _). split; intros H; [specialize (P H)|specialize (N H)]; nia.
Qed.

Lemma vi_i n : ival (value_integer n) = n /\ canonical (value_integer n).
Proof. exact (vi n). Qed.
Lemma vb_i n : ival (value_bigint n) = n /\ canonical (value_bigint n).
Proof. exact (vb n). Qed.

Lemma int_of_ok z : ival (int_of z) = z /\ canonical (int_of z).
Proof. unfold int_of. destruct (_ && _)%bool; [apply vi_i|apply vb_i]. Qed.

Lemma to_i_ok f : dbl f -> fin f = true -> gives_num (to_i f) (is_trunc f).
Proof.
  intros D F. unfold to_i. rewrite F. exists (int_of (f_trunc f)). destruct (int_of_ok (f_trunc f)) as [I C].
  rewrite I. split; [reflexivity|]. split; [exact C|]. apply trunc_is, D.
Qed.
Lemma kernel_int_ok f : dbl f -> fin f = true -> ~ is_trunc f (2 ^ 63) -> gives_num (kernel_int f) (is_trunc f).
Proof.
  intros D F N. unfold kernel_int. rewrite F. pose proof (trunc_is f D) as T.
  destruct ((- 2 ^ 63 <=? f_trunc f) && (f_trunc f <=? 2 ^ 63))%bool eqn:B.
  - apply andb_prop in B. destruct B as [B1 B2]. apply Z.leb_le in B1, B2.
    assert (f_trunc f <> 2 ^ 63) by (intros E; rewrite E in T; contradiction).
    assert (M : Z.min (f_trunc f) I64_MAX = f_trunc f) by (unfold I64_MAX; lia). rewrite M.
    eexists. split; [reflexivity|]. destruct (vi_i (f_trunc f)) as [I C]. rewrite I. auto.
  - eexists. split; [reflexivity|]. destruct (vb_i (f_trunc f)) as [I C]. rewrite I. auto.
Qed.
Lemma undefined_ok f : fin f = false -> to_i f = FDomain /\ kernel_int f = FDomain /\
  (forall nd, nd <= 0 -> float_floor f nd = FDomain /\ float_ceil f nd = FDomain /\ float_truncate f nd = FDomain /\
    forall h, float_round f nd h = FDomain) /\
  (forall nd, 0 < nd -> float_floor f nd = FOk (VFlt f) /\ float_ceil f nd = FOk (VFlt f) /\
    float_truncate f nd = FOk (VFlt f)).
Proof.
  intros F. unfold to_i, kernel_int, float_floor, float_ceil, float_truncate, float_round, rounding. rewrite F. cbn.
  split; [reflexivity|]. split; [reflexivity|]. split; intros nd H.
  - rewrite (proj2 (Z.ltb_ge _ _) H). auto.
  - rewrite (proj2 (Z.ltb_lt _ _) H). auto.
Qed.

(** ** No digits *)

Lemma floor0_ok f : dbl f -> fin f = true -> gives (float_floor f 0) (floors f 1).
Proof.
  intros D F. unfold float_floor, rounding. rewrite F. cbn [negb Z.eqb].
  destruct (int_of_ok (f_floor f)) as [I C]. do 2 eexists. split; [reflexivity|]. split; [exact I|]. split; [exact C|].
  split; [apply Z.divide_1_l|]. apply floor_spec, D.
Qed.
Lemma ceil0_ok f : dbl f -> fin f = true -> gives (float_ceil f 0) (ceils f 1).
Proof.
  intros D F. unfold float_ceil, rounding. rewrite F. cbn [negb Z.eqb].
  destruct (int_of_ok (f_ceil f)) as [I C]. do 2 eexists. split; [reflexivity|]. split; [exact I|]. split; [exact C|].
  split; [apply Z.divide_1_l|]. apply ceil_spec, D.
Qed.
Lemma trunc0_ok f : dbl f -> fin f = true -> gives (float_truncate f 0) (is_trunc f).
Proof.
  intros D F. unfold float_truncate, rounding. rewrite F. cbn [negb Z.eqb].
  destruct (int_of_ok (f_trunc f)) as [I C]. do 2 eexists. split; [reflexivity|]. split; [exact I|]. split; [exact C|].
  apply trunc_is, D.
Qed.

(** ** Digits below 0 *)

Lemma p10 d : 0 <= d -> 0 < 10 ^ d. Proof. intros. apply Z.pow_pos_nonneg; lia. Qed.

(** Doubles are below 10^309. *)
Lemma pow2_10 : 2 * 2 ^ 1024 < 10 ^ 309. Proof. vm_compute. reflexivity. Qed.
Lemma dbl_small f : dbl f -> Z.abs (fx f) < 2 ^ 1024 * U.
Proof.
  intros D. destruct f as [s|s| |s m e]; cbn [fx].
  1-3: pose proof U_pos; cbn [Z.abs]; apply Z.mul_pos_pos; [reflexivity|lia].
  unfold dbl, valid_binary, bounded, canonical_mantissa in D. apply andb_prop in D. destruct D as [D B].
  apply Zeq_bool_eq in D. apply Z.leb_le in B. unfold fexp, emin in D.
  assert (Dm : Zpos m < 2 ^ Zpos (digits2_pos m)).
  { clear. induction m as [m IH|m IH|]; cbn [digits2_pos]; [| |reflexivity];
      rewrite Pos2Z.inj_succ, Z.pow_succ_r by lia; lia. }
  assert (Zpos m < 2 ^ 53).
  { apply Z.lt_le_trans with (1 := Dm). apply Z.pow_le_mono_r; lia. }
  rewrite Z.abs_mul. assert (A : Z.abs (if s then Zneg m else Zpos m) = Zpos m) by (destruct s; reflexivity). rewrite A.
  rewrite (Z.abs_eq (2 ^ _)) by (apply Z.pow_nonneg; lia).
  assert (Hu : 2 ^ (e + 1074) <= 2 ^ 971 * U).
  { Transparent U. unfold U. Opaque U. rewrite <- Z.pow_add_r by lia. apply Z.pow_le_mono_r; lia. }
  replace 1024 with (53 + 971) by lia. rewrite (Z.pow_add_r 2 53 971) by lia.
  assert (0 < 2 ^ (e + 1074)) by (apply Z.pow_pos_nonneg; lia).
  generalize dependent (2 ^ (e + 1074)). intros w Hw Pw.
  assert (P9 : 0 < 2 ^ 971) by (apply Z.pow_pos_nonneg; lia). pose proof U_pos.
  generalize dependent (2 ^ 971). intros y Hy Py. generalize dependent (2 ^ 53). intros x Hx.
  nia.
Qed.

Lemma neg_ok nd : in_digits nd -> as_u32 (wrap64 (- nd)) = - nd.
Proof.
  intros H. unfold in_digits in H. rewrite wrap64_id by lia. unfold as_u32. apply Z.mod_small. lia.
Qed.

Lemma gives_big f nd adj (P : Z -> Prop) : in_digits nd -> - 309 < nd ->
  (P (adj (Z.quot (f_trunc f) (10 ^ (- nd))) (Z.rem (f_trunc f) (10 ^ (- nd))) (10 ^ (- nd)) * 10 ^ (- nd))) ->
  gives (big_digits f nd adj) P.
Proof.
  intros H B Q. unfold big_digits. rewrite (neg_ok nd H). rewrite (proj2 (Z.ltb_ge _ _)) by lia.
  set (mul := 10 ^ (- nd)) in *. clearbody mul.
  destruct (vb_i (adj (Z.quot (f_trunc f) mul) (Z.rem (f_trunc f) mul) mul * mul)) as [I C].
  do 2 eexists. split; [reflexivity|]. split; [exact I|]. split; [exact C|exact Q].
Qed.
Lemma gives_zero f nd adj (P : Z -> Prop) : in_digits nd -> nd <= - 309 -> P 0 ->
  gives (big_digits f nd adj) P.
Proof.
  intros H B Q. unfold big_digits. rewrite (neg_ok nd H). rewrite (proj2 (Z.ltb_lt _ _)) by lia.
  destruct (vi_i 0) as [I C]. do 2 eexists. split; [reflexivity|]. split; [exact I|]. split; [exact C|exact Q].
Qed.
Lemma far nd f : dbl f -> nd <= -309 -> 2 * Z.abs (fx f) < 10 ^ (- nd) * U.
Proof.
  intros D B. pose proof (dbl_small f D) as S. pose proof pow2_10 as T. pose proof U_pos.
  assert (10 ^ 309 <= 10 ^ (- nd)) by (apply Z.pow_le_mono_r; lia).
  generalize dependent (10 ^ (- nd)). generalize dependent (10 ^ 309). generalize dependent (2 ^ 1024). intros; nia.
Qed.

Lemma neg_case nd f g (neg : spec_float -> Z -> fres fval) : fin f = true -> nd < 0 -> rounding g neg f nd = neg f nd.
Proof.
  intros F H. unfold rounding. rewrite F. cbn [negb].
  destruct (Z.eqb_spec nd 0); [lia|]. destruct (Z.ltb_spec 0 nd); [lia|]. reflexivity.
Qed.

(** The quotient and what is left of the Float. *)
Lemma split_ok f mul : dbl f -> 0 < mul -> exists q r t, f_trunc f = mul * q + r /\ q = Z.quot (f_trunc f) mul /\
  r = Z.rem (f_trunc f) mul /\ fx f = mul * U * q + (r * U + t) /\ Z.abs r < mul /\ Z.abs t < U /\
  f_frac_sign f = Z.sgn t /\ (0 <= fx f -> 0 <= r /\ 0 <= t) /\ (fx f <= 0 -> r <= 0 /\ t <= 0).
Proof.
  intros D M. destruct (trunc_spec f D) as (t & E & A & P & N & S). pose proof U_pos.
  exists (Z.quot (f_trunc f) mul), (Z.rem (f_trunc f) mul), t.
  pose proof (Z.quot_rem (f_trunc f) mul ltac:(lia)) as Q. pose proof (Z.rem_bound_abs (f_trunc f) mul ltac:(lia)) as B.
  split; [exact Q|]. split; [reflexivity|]. split; [reflexivity|].
  split; [rewrite E; rewrite Q at 1; ring|]. split; [lia|]. split; [exact A|]. split; [exact S|].
  assert (T : (0 <= fx f -> 0 <= f_trunc f) /\ (fx f <= 0 -> f_trunc f <= 0)) by (split; intros H'; nia).
  split; intros H'; (split; [|auto]).
  - apply Z.rem_nonneg; [lia|apply (proj1 T H')].
  - apply Z.rem_nonpos; [lia|apply (proj2 T H')].
Qed.

Lemma floor_neg_ok f nd : dbl f -> fin f = true -> in_digits nd -> (- 309 < nd \/ 0 <= fx f) ->
  gives (float_floor f nd) (floors f (10 ^ (- nd))).
Proof.
  intros D F H B. unfold float_floor. rewrite (neg_case _ _ _ _ F) by apply H.
  destruct (Z_lt_ge_dec (-309) nd) as [L|L].
  - apply gives_big; [exact H|exact L|]. pose proof (p10 (- nd) ltac:(unfold in_digits in H; lia)) as M.
    set (mul := 10 ^ (- nd)) in *. clearbody mul. clear B H L.
    destruct (split_ok f mul D M) as (q & r & t & E & <- & <- & V & R & T & S & P & N).
    split; [exists (floor_adjust f q r mul); reflexivity|]. unfold floor_adjust. rewrite S. pose proof U_pos.
    destruct (Z.ltb_spec r 0) as [R0|R0]; cbn [orb].
    { rewrite V. destruct (Z_le_gt_dec 0 (fx f)) as [X|X]; [specialize (P X); lia|]. specialize (N ltac:(lia)). nia. }
    destruct (Z.eqb_spec r 0) as [->|R1]; cbn [andb].
    { destruct (Z.ltb_spec (Z.sgn t) 0); rewrite V; nia. }
    rewrite V. destruct (Z_le_gt_dec 0 (fx f)) as [X|X]; [specialize (P X)|specialize (N ltac:(lia))]; nia.
  - apply gives_zero; [exact H|lia|]. split; [apply Z.divide_0_r|]. pose proof (far nd f D ltac:(lia)) as Fa.
    pose proof U_pos. destruct B as [B|B]; [lia|]. generalize dependent (10 ^ (- nd)). intros; nia.
Qed.
Lemma ceil_neg_ok f nd : dbl f -> fin f = true -> in_digits nd -> (- 309 < nd \/ fx f <= 0) ->
  gives (float_ceil f nd) (ceils f (10 ^ (- nd))).
Proof.
  intros D F H B. unfold float_ceil. rewrite (neg_case _ _ _ _ F) by apply H.
  destruct (Z_lt_ge_dec (-309) nd) as [L|L].
  - apply gives_big; [exact H|exact L|]. pose proof (p10 (- nd) ltac:(unfold in_digits in H; lia)) as M.
    set (mul := 10 ^ (- nd)) in *. clearbody mul. clear B H L.
    destruct (split_ok f mul D M) as (q & r & t & E & <- & <- & V & R & T & S & P & N).
    split; [exists (ceil_adjust f q r mul); reflexivity|]. unfold ceil_adjust. rewrite S. pose proof U_pos.
    destruct (Z.ltb_spec 0 r) as [R0|R0]; cbn [orb].
    { rewrite V. destruct (Z_le_gt_dec 0 (fx f)) as [X|X]; [specialize (P X)|specialize (N ltac:(lia)); lia]. nia. }
    destruct (Z.eqb_spec r 0) as [->|R1]; cbn [andb].
    { destruct (Z.ltb_spec 0 (Z.sgn t)); rewrite V; nia. }
    rewrite V. destruct (Z_le_gt_dec 0 (fx f)) as [X|X]; [specialize (P X)|specialize (N ltac:(lia))]; nia.
  - apply gives_zero; [exact H|lia|]. split; [apply Z.divide_0_r|]. pose proof (far nd f D ltac:(lia)) as Fa.
    pose proof U_pos. destruct B as [B|B]; [lia|]. generalize dependent (10 ^ (- nd)). intros; nia.
Qed.

Lemma dbl_fin s m e : dbl (S754_finite s m e) -> e = Z.max (Zpos (digits2_pos m) + e - 53) (-1074) /\ e <= 971.
Proof.
  intros D. unfold dbl, valid_binary, bounded, canonical_mantissa in D. apply andb_prop in D. destruct D as [D B].
  apply Zeq_bool_eq in D. apply Z.leb_le in B. unfold fexp, emin in D. split; [symmetry; exact D|lia].
Qed.

Lemma fx_sign f : dbl f -> fin f = true -> f_le f_zero f = (0 <=? fx f) /\ f_lt f_zero f = (0 <? fx f).
Proof.
  destruct f as [s|s| |s m e]; try discriminate; intros D _; [split; reflexivity|].
  unfold f_le, f_lt, f_zero, SFleb, SFltb, SFcompare, fx. apply dbl_fin in D.
  assert (0 < 2 ^ (e + 1074)) by (apply Z.pow_pos_nonneg; lia). destruct s; split; symmetry.
  - apply Z.leb_gt; nia.
  - apply Z.ltb_ge; nia.
  - apply Z.leb_le; nia.
  - apply Z.ltb_lt; nia.
Qed.

Lemma round_neg_ok f nd h : dbl f -> fin f = true -> in_digits nd -> gives (float_round f nd h) (rounds f (10 ^ (- nd)) h).
Proof.
  intros D F H. unfold float_round. rewrite F. cbn [negb]. destruct (Z.eqb_spec nd 0); [unfold in_digits in H; lia|].
  destruct (Z_lt_ge_dec (-309) nd) as [L|L].
  - apply gives_big; [exact H|exact L|]. unfold in_digits in H.
    assert (M : exists w, 0 < w /\ 10 ^ (- nd) = 2 * w).
    { exists (5 * 10 ^ (- nd - 1)). pose proof (p10 (- nd - 1) ltac:(lia)).
      replace (- nd) with (1 + (- nd - 1)) at 2 by lia. rewrite Z.pow_add_r by lia. change (10 ^ 1) with 10.
      split; [lia|ring]. }
    destruct M as (w & Hw & ->). clear n H L.
    destruct (split_ok f (2 * w) D ltac:(lia)) as (q & r & t & E & <- & <- & V & R & T & S & P & N).
    split; [exists (round_adjust f h q r (2 * w)); reflexivity|]. unfold round_adjust.
    assert (Hh : Z.quot (2 * w) 2 = w) by (rewrite Z.mul_comm; apply Z.quot_mul; lia). rewrite Hh.
    destruct (fx_sign f D F) as [-> _]. rewrite S. clear S E Hh.
    assert (Ev : Z.rem q 2 = 0 -> (2 * (2 * w) | q * (2 * w))).
    { intros E. pose proof (Z.quot_rem q 2 ltac:(lia)). exists (Z.quot q 2). nia. }
    assert (Od : Z.rem q 2 <> 0 -> (2 * (2 * w) | (q + 1) * (2 * w)) /\ (2 * (2 * w) | (q - 1) * (2 * w))).
    { intros E. pose proof (Z.quot_rem q 2 ltac:(lia)). pose proof (Z.rem_bound_abs q 2 ltac:(lia)).
      assert (Z.rem q 2 = 1 \/ Z.rem q 2 = -1) as [X|X] by lia; rewrite X in *.
      - split; [exists (Z.quot q 2 + 1)|exists (Z.quot q 2)]; nia.
      - split; [exists (Z.quot q 2)|exists (Z.quot q 2 - 1)]; nia. }
    pose proof U_pos as Up. generalize dependent U. intros u V T Up. rewrite V in *. clear V D F.
    assert (Y : (w < Z.abs r -> w * u < Z.abs (r * u + t)) /\ (Z.abs r = w -> t <> 0 -> w * u < Z.abs (r * u + t)) /\
                (Z.abs r = w -> t = 0 -> w * u = Z.abs (r * u + t)) /\ (Z.abs r < w -> Z.abs (r * u + t) < w * u) /\
                Z.abs (r * u + t) < 2 * w * u).
    { destruct (Z.leb_spec 0 (2 * w * u * q + (r * u + t))) as [X|X]; [specialize (P X)|specialize (N ltac:(lia))];
      repeat split; intros; nia. }
    destruct Y as (Y1 & Y2 & Y3 & Y4 & Y5).
    assert (Sy : 0 <= 2 * w * u * q + (r * u + t) /\ 0 <= r * u + t /\ 0 <= q \/
                 2 * w * u * q + (r * u + t) < 0 /\ r * u + t <= 0 /\ q <= 0).
    { destruct (Z_le_gt_dec 0 (2 * w * u * q + (r * u + t))) as [X|X]; [left|right; specialize (N ltac:(lia))];
      [specialize (P X)|]; (split; [lia|split; [nia|]]); assert (0 < 2 * w * u) by nia; nia. }
    assert (Fr : (Z.sgn t =? 0) = (t =? 0)) by (destruct t; reflexivity). rewrite Fr. clear Fr P N.
    set (y := r * u + t) in *. clearbody y. assert (Pw : 0 < w * u) by nia.
    assert (K1 : forall n, 2 * w * u * q + y - n * (2 * w) * u = 2 * (w * u) * (q - n) + y) by (intros; ring).
    assert (K2 : forall n, n * (2 * w) * u = 2 * (w * u) * n) by (intros; ring).
    assert (K3 : 2 * w * u * q = 2 * (w * u) * q) by ring. assert (K4 : 2 * w * u = 2 * (w * u)) by ring.
    rewrite K1, K2, K3, K4 in *. clear K1 K2 K3 K4.
    set (z := w * u) in *. clearbody z.
    destruct (Z.ltb_spec w (Z.abs r)) as [C|C].
    { specialize (Y1 C). clear Y2 Y3 Y4. destruct Sy as [Sy|Sy].
      - rewrite (proj2 (Z.leb_le _ _)) by lia. split; nia.
      - rewrite (proj2 (Z.leb_gt _ _)) by lia. split; nia. }
    destruct (Z.eqb_spec (Z.abs r) w) as [C'|C'].
    { destruct (Z.eqb_spec t 0) as [C2|C2]; cbn [negb].
      - specialize (Y3 C' C2). clear Y1 Y2 Y4. destruct Sy as [Sy|Sy].
        + rewrite (proj2 (Z.leb_le _ _)) by lia. destruct h; [split; nia|split; nia|].
          destruct (Z.eqb_spec (Z.rem q 2) 0) as [C3|C3]; (split; [nia|]); intros _; [apply Ev, C3|apply Od, C3].
        + rewrite (proj2 (Z.leb_gt _ _)) by lia. destruct h; [split; nia|split; nia|].
          destruct (Z.eqb_spec (Z.rem q 2) 0) as [C3|C3]; (split; [nia|]); intros _; [apply Ev, C3|apply Od, C3].
      - specialize (Y2 C' C2). clear Y1 Y3 Y4. destruct Sy as [Sy|Sy].
        + rewrite (proj2 (Z.leb_le _ _)) by lia. split; nia.
        + rewrite (proj2 (Z.leb_gt _ _)) by lia. split; nia. }
    specialize (Y4 ltac:(lia)). clear Y1 Y2 Y3. split; nia.
  - apply gives_zero; [exact H|lia|]. split; [apply Z.divide_0_r|]. pose proof (far nd f D ltac:(lia)) as Fa.
    pose proof U_pos. rewrite Z.mul_0_l, Z.sub_0_r. generalize dependent (10 ^ (- nd)). intros. split; lia.
Qed.

(** ** round without digits *)

Lemma fz_fx f : fz f = fx f. Proof. reflexivity. Qed.
Lemma of_Z_exact z : Z.abs z < 2 ^ 53 -> dbl (f_of_Z z) /\ fx (f_of_Z z) = z * U /\
  (z = 0 -> f_of_Z z = S754_zero false) /\ (z <> 0 -> exists s m e, f_of_Z z = S754_finite s m e).
Proof.
  intros B. unfold f_of_Z. destruct (normalize_exact z 0 false) as (f & -> & V & Z0 & N & X).
  - exists (Z.abs z), 0. rewrite Z.pow_0_r, Z.mul_1_r. lia.
  - intros N. destruct z as [|p|p]; [easy| |]; cbn [Zdigits2]; pose proof (digits_le p 53 B); lia.
  - split; [exact V|]. split; [|split; [exact Z0|intros H; destruct (N H) as (s & m & e & -> & _); eauto]].
    specialize (X 1074 ltac:(lia) ltac:(lia)). rewrite Z.sub_diag, Z.pow_0_r, Z.mul_1_r, fz_fx in X.
    rewrite <- X. Transparent U. reflexivity. Opaque U.
Qed.

Lemma half_sum q : - 2 ^ 52 <= q < 2 ^ 52 -> let g := f_add (f_of_Z q) half in
  dbl g /\ 2 * fx g = (2 * q + 1) * U /\ exists s m e, g = S754_finite s m e.
Proof.
  intros B g. destruct (of_Z_exact q ltac:(lia)) as (V & X & Z0 & N).
  destruct (Z.eq_dec q 0) as [->|Q].
  { unfold g. rewrite (Z0 eq_refl). split; [reflexivity|]. split; [|do 3 eexists; reflexivity].
    Transparent U. vm_compute. reflexivity. Opaque U. }
  destruct (N Q) as (s & m & e & E). rewrite E in *. clear N Z0.
  pose proof (dbl_fin _ _ _ V) as [_ Eb]. pose proof (proj2 (valid_exp _ _ _ V)) as Ea. clear V.
  unfold g. rewrite E. unfold half, f_add, SFadd. cbn zeta. set (ez := Z.min e (-53)).
  rewrite !align_ok. replace (Z.min e ez) with ez by lia. replace (Z.min (-53) ez) with ez by lia.
  set (S := cond_Zopp s (Zpos m * 2 ^ (e - ez)) + cond_Zopp false (Zpos (2 ^ 52) * 2 ^ (-53 - ez))).
  assert (HS : S = (2 * q + 1) * 2 ^ (-1 - ez)).
  { apply Z.mul_cancel_r with (2 ^ (ez + 1074)); [apply Z.pow_nonzero; lia|].
    assert (P1 : 2 ^ (e - ez) * 2 ^ (ez + 1074) = 2 ^ (e + 1074)) by (rewrite <- Z.pow_add_r by lia; f_equal; lia).
    assert (P2 : 2 ^ (-53 - ez) * 2 ^ (ez + 1074) = 2 ^ 1021) by (rewrite <- Z.pow_add_r by lia; f_equal; lia).
    assert (P3 : 2 ^ (-1 - ez) * 2 ^ (ez + 1074) = 2 ^ 1073) by (rewrite <- Z.pow_add_r by lia; f_equal; lia).
    rewrite <- (Z.mul_assoc (2 * q + 1)), P3. unfold S. rewrite Z.mul_add_distr_r.
    assert (C : forall x y, cond_Zopp s x * y = cond_Zopp s (x * y)) by (intros; destruct s; cbn; ring).
    rewrite C. cbn [cond_Zopp]. rewrite <- (Z.mul_assoc (Zpos m)), P1, <- (Z.mul_assoc (Zpos (2 ^ 52))), P2.
    assert (M : cond_Zopp s (Zpos m * 2 ^ (e + 1074)) = q * U).
    { rewrite <- X. cbn [fx]. destruct s; cbn [cond_Zopp]; [rewrite <- Pos2Z.opp_pos; ring|reflexivity]. }
    rewrite M. change (Zpos (2 ^ 52)) with (2 ^ 52). rewrite <- Z.pow_add_r by lia. change (52 + 1021) with 1073.
    rewrite U_half. ring. }
  clearbody S. subst S.
  assert (P : 0 < 2 ^ (-1 - ez)) by (apply Z.pow_pos_nonneg; lia).
  destruct (normalize_exact ((2 * q + 1) * 2 ^ (-1 - ez)) ez false) as (f & -> & V & _ & N & Y).
  - exists (Z.abs (2 * q + 1)), (-1 - ez). split; [lia|]. split; [rewrite Z.abs_mul, (Z.abs_eq (2 ^ _)) by lia; reflexivity|]. lia.
  - intros _. assert (D : forall k, Z.abs k < 2 ^ 53 -> k <> 0 -> Zdigits2 (k * 2 ^ (-1 - ez)) <= 53 + (-1 - ez)).
    { intros k K K0. destruct (k * 2 ^ (-1 - ez)) as [|p|p] eqn:Ek; [lia| |]; cbn [Zdigits2];
        (destruct k as [|k|k]; try lia); cbn [Z.abs] in K; pose proof (digits_le k 53 K).
      - rewrite (digits_shift k p (-1 - ez)) by lia. lia.
      - rewrite (digits_shift k p (-1 - ez)) by lia. lia. }
    specialize (D (2 * q + 1) ltac:(lia) ltac:(lia)). lia.
  - split; [exact V|]. split; [|destruct (N ltac:(nia)) as (s' & m' & e' & -> & _); eauto].
    specialize (Y 1074 ltac:(lia) ltac:(lia)). rewrite Z.sub_diag, Z.pow_0_r, Z.mul_1_r, fz_fx in Y. rewrite <- Y.
    assert (P3 : 2 * (2 ^ (-1 - ez) * 2 ^ (ez + 1074)) = U).
    { rewrite <- Z.pow_add_r by lia. rewrite <- Z.pow_succ_r by lia. Transparent U. unfold U. Opaque U. f_equal. lia. }
    rewrite <- P3. ring.
Qed.

Lemma eqb_finite s m e g : dbl (S754_finite s m e) -> dbl g ->
  SFeqb (S754_finite s m e) g = (fx (S754_finite s m e) =? fx g).
Proof.
  intros D G. assert (N : fx (S754_finite s m e) <> 0).
  { cbn [fx]. apply dbl_fin in D. assert (0 < 2 ^ (e + 1074)) by (apply Z.pow_pos_nonneg; lia). destruct s; nia. }
  destruct (Z.eqb_spec (fx (S754_finite s m e)) (fx g)) as [E|E].
  - rewrite <- (valid_unique _ _ D G E N). unfold SFeqb, SFcompare.
    rewrite Z.compare_refl, Pos.compare_cont_refl. destruct s; reflexivity.
  - unfold SFeqb. destruct (SFcompare (S754_finite s m e) g) as [[]|] eqn:C; try reflexivity. elim E.
    destruct g as [|[]| |s' m' e']; cbn in C; try discriminate; [destruct s; discriminate|].
    destruct s, s'; try discriminate; destruct (Z.compare_spec e e') as [->| |]; try discriminate;
      injection C as C; cbn [CompOpp] in C.
    + destruct (Pos.compare_cont Eq m m') eqn:Cm; try discriminate. apply Pos.compare_eq in Cm. subst. reflexivity.
    + apply Pos.compare_eq in C. subst. reflexivity.
Qed.

Lemma mant_small f : dbl f -> Z.abs (mant f) < 2 ^ 53.
Proof.
  destruct f as [s|s| |s m e]; cbn [mant]; try (intros; lia). intros D. apply dbl_fin in D. pose proof (digits_ok m) as K.
  assert (Zpos m < 2 ^ 53) by (apply Z.lt_le_trans with (1 := proj2 K); apply Z.pow_le_mono_r; lia). destruct s; lia.
Qed.

Lemma round_half_ok f h : dbl f -> fin f = true -> rounds f 1 h (round_half f h).
Proof.
  intros D F. split; [apply Z.divide_1_l|]. pose proof U_pos as Up. destruct (expo_case f) as [E|E].
  - assert (R : round_half f h = mant f * 2 ^ expo f).
    { unfold round_half. rewrite floor_mant. unfold f_ceil, f_round. rewrite (proj2 (Z.leb_le _ _) E).
      destruct (negb _); [reflexivity|]. destruct h; [destruct (f_lt f_zero f)..|cbv zeta; match goal with |- context [Z.rem ?a 2 =? 0] => destruct (Z.rem a 2 =? 0) end]; reflexivity. }
    rewrite R, (fx_int f E), Z.sub_diag, Z.mul_1_l. change (2 * Z.abs 0) with 0. split; lia.
  - pose proof (mant_small f D) as M. destruct (fx_frac f D E) as (d & t & Hd & Ed & Ex & Eu & Ht).
    assert (D2 : exists d', d = 2 * d' /\ 0 < d').
    { exists (2 ^ (- expo f - 1)). split; [|apply Z.pow_pos_nonneg; lia]. rewrite <- Z.pow_succ_r, <- Ed by lia. f_equal. lia. }
    destruct D2 as (d' & Ed' & Hd').
    pose proof (Z.div_mod (mant f) d ltac:(lia)) as DM. pose proof (Z.mod_pos_bound (mant f) d Hd) as MB.
    set (q := mant f / d) in *. set (r := mant f mod d) in *.
    assert (Qb : - 2 ^ 52 <= q < 2 ^ 52).
    { clearbody q r. assert (2 * 2 ^ 52 = 2 ^ 53) by reflexivity. nia. }
    destruct (half_sum q Qb) as (G & Gx & _).
    assert (Eq : SFeqb f (f_add (f_of_Z q) half) = (r =? d')).
    { destruct f as [s|s| |s m e]; cbn [expo] in E; try lia. rewrite (eqb_finite _ _ _ _ D G).
      rewrite Ex. set (fg := fx (f_add (f_of_Z q) half)) in *. clearbody fg q r.
      destruct (Z.eqb_spec (mant (S754_finite s m e) * t) fg), (Z.eqb_spec r d'); try reflexivity; exfalso; nia. }
    unfold round_half. rewrite floor_mant. unfold f_ceil, f_round. rewrite (proj2 (Z.leb_gt _ _) E), Ed. fold q. rewrite Eq.
    destruct (fx_sign f D F) as [_ ->].
    assert (Cl : - (- mant f / d) = if r =? 0 then q else q + 1).
    { clearbody q r. destruct (Z.eqb_spec r 0).
      - assert (- mant f / d = - q) by (symmetry; apply Z.div_unique with 0; nia). lia.
      - assert (- mant f / d = - q - 1) by (symmetry; apply Z.div_unique with (d - r); nia). lia. }
    rewrite Cl. clear Cl Eq G Gx D F.
    destruct (Z.eqb_spec r d') as [Er|Er]; cbn [negb].
    + assert (Nz : (r =? 0) = false) by (apply Z.eqb_neq; lia). rewrite Nz.
      assert (X2 : fx f = q * U + d' * t) by (clearbody q r; nia).
      assert (Cm : Z.max I64_MIN (Z.min I64_MAX q) = q) by (unfold I64_MIN, I64_MAX; lia). rewrite Cm. clear Cm.
      assert (U2 : U = 2 * (d' * t)) by nia. set (w := d' * t) in *. assert (0 < w) by (unfold w; nia). clearbody w q.
      rewrite X2, U2. clear - H. rewrite Z.mul_1_l.
      assert (Q1 : q * (2 * w) = 2 * (q * w)) by ring. assert (Q2 : (q + 1) * (2 * w) = 2 * (q * w) + 2 * w) by ring.
      assert (Q3 : 0 <= q * w \/ q * w <= - w) by (destruct (Z_le_gt_dec 0 q); nia).
      destruct h.
      * destruct (Z.ltb_spec 0 (q * (2 * w) + w)); rewrite ?Q1, ?Q2 in *; split; intros; lia.
      * destruct (Z.ltb_spec 0 (q * (2 * w) + w)); rewrite ?Q1, ?Q2 in *; split; intros; lia.
      * pose proof (Z.quot_rem q 2 ltac:(lia)). pose proof (Z.rem_bound_abs q 2 ltac:(lia)).
        destruct (Z.eqb_spec (Z.rem q 2) 0) as [Z0|Z0].
        -- split; [nia|]. intros _. exists (Z.quot q 2). lia.
        -- split; [nia|]. intros _. assert (Z.rem q 2 = 1 \/ Z.rem q 2 = -1) as [X|X] by lia;
             [exists (Z.quot q 2 + 1)|exists (Z.quot q 2)]; lia.
    + set (a := Z.abs (mant f)). set (n := (2 * a + d) / (2 * d)).
      pose proof (Z.div_mod (2 * a + d) (2 * d) ltac:(lia)) as DN. pose proof (Z.mod_pos_bound (2 * a + d) (2 * d) ltac:(lia)) as NB.
      fold n in DN. set (k := (2 * a + d) mod (2 * d)) in *.
      assert (Ka : k <> 0).
      { intros K0. rewrite K0 in DN. clear NB. clearbody n q r. unfold a in DN.
        assert (mant f = d * n - d' \/ mant f = - (d * n - d')) as [X|X] by nia.
        - assert (d * (n - 1 - q) = r - d') by nia. assert (n - 1 - q = 0) by nia. nia.
        - assert (d * (- n - q) = r - d') by nia. assert (- n - q = 0) by nia. nia. }
      assert (Ab : fx f - Z.sgn (mant f) * n * U = Z.sgn (mant f) * (a - n * d) * t).
      { rewrite Ex, Eu. assert (Hm : mant f = Z.sgn (mant f) * a) by (unfold a; lia). rewrite Hm at 1. clearbody n a. ring. }
      rewrite Ab, !Z.abs_mul, Z.mul_1_l, (Z.abs_eq t), Eu by lia.
      assert (Sg : Z.abs (Z.sgn (mant f)) <= 1) by lia.
      assert (A2 : 2 * Z.abs (a - n * d) < d) by (clearbody a n k; lia).
      assert (A3 : Z.abs (Z.sgn (mant f)) * Z.abs (a - n * d) <= Z.abs (a - n * d)) by (clearbody a n; nia).
      set (b := Z.abs (Z.sgn (mant f)) * Z.abs (a - n * d)) in *. assert (2 * b < d) by lia. clearbody b.
      assert (2 * (b * t) < d * t) by (clear - H Ht; nia). split; lia.
Qed.

Lemma round0_ok f h : dbl f -> fin f = true -> gives (float_round f 0 h) (rounds f 1 h).
Proof.
  intros D F. unfold float_round. rewrite F. cbn [negb Z.eqb].
  destruct (int_of_ok (round_half f h)) as [I C]. do 2 eexists. split; [reflexivity|]. split; [exact I|]. split; [exact C|].
  apply round_half_ok; assumption.
Qed.

(** ** Modulo *)

Lemma mant_expo f : fx f = mant f * 2 ^ (expo f + 1074).
Proof. destruct f; reflexivity. Qed.
Lemma expo_dbl f : dbl f -> -1074 <= expo f <= 971.
Proof. destruct f as [s|s| |s m e]; cbn [expo]; try lia. intros D. apply (valid_exp _ _ _ D). Qed.
Lemma fx_zero f : dbl f -> fin f = true -> (fx f = 0 <-> exists s, f = S754_zero s).
Proof.
  destruct f as [s|s| |s m e]; intros D F; try discriminate; split; intros H; try (now eauto).
  - exfalso. apply dbl_fin in D. assert (0 < 2 ^ (e + 1074)) by (apply Z.pow_pos_nonneg; lia). cbn [fx] in H. destruct s; nia.
  - destruct H. discriminate.
Qed.

Lemma fmod_ok a b : dbl a -> dbl b -> fin a = true -> fin b = true -> fx b <> 0 ->
  dbl (fmod a b) /\ fin (fmod a b) = true /\ fx (fmod a b) = Z.rem (fx a) (fx b).
Proof.
  intros Da Db Fa Fb Nb. destruct b as [sb|sb| |sb mb eb]; try discriminate; [now elim Nb|].
  destruct a as [sa|sa| |sa ma ea]; try discriminate.
  { cbn [fmod fx]. rewrite Z.rem_0_l by exact Nb. auto. }
  cbn [fmod]. set (A := S754_finite sa ma ea) in *. set (B := S754_finite sb mb eb) in *.
  pose proof (expo_dbl A Da) as Ea. pose proof (expo_dbl B Db) as Eb. set (e := Z.min (expo A) (expo B)) in *.
  pose proof (mant_small A Da) as Ma. pose proof (mant_small B Db) as Mb. rewrite (mant_expo A), (mant_expo B) in *.
  assert (Pb : mant B <> 0) by (intros E; rewrite E in Nb; lia).
  set (x := mant A * 2 ^ (expo A - e)). set (y := mant B * 2 ^ (expo B - e)).
  assert (Y0 : y <> 0) by (unfold y; apply Z.neq_mul_0; split; [exact Pb|apply Z.pow_nonzero; lia]).
  assert (Sm : Z.abs (Z.rem x y) < 2 ^ 53).
  { destruct (Z.le_ge_cases (expo A) (expo B)) as [L|L].
    - assert (Hx : x = mant A) by (unfold x; replace (expo A - e) with 0 by lia; cbn; lia). rewrite Hx.
      assert (Z.abs (Z.rem (mant A) y) <= Z.abs (mant A)); [|lia].
      rewrite <- Z.rem_abs by lia. apply Z.rem_le; lia.
    - assert (Hy : y = mant B) by (unfold y; replace (expo B - e) with 0 by lia; cbn; lia). rewrite Hy.
      pose proof (Z.rem_bound_abs x (mant B) Pb). lia. }
  destruct (normalize_exact (Z.rem x y) e sa) as (f & -> & V & Z0 & N & X).
  - exists (Z.abs (Z.rem x y)), 0. rewrite Z.pow_0_r, Z.mul_1_r. lia.
  - intros _. destruct (Z.rem x y) as [|p|p]; cbn [Zdigits2]; [lia| |]; pose proof (digits_le p 53 Sm); lia.
  - split; [exact V|]. split.
    + destruct (Z.eq_dec (Z.rem x y) 0) as [R|R]; [rewrite (Z0 R); reflexivity|]. destruct (N R) as (s & m & e' & -> & _). reflexivity.
    + specialize (X 1074 ltac:(lia) ltac:(lia)). rewrite Z.sub_diag, Z.pow_0_r, Z.mul_1_r, fz_fx in X. rewrite <- X.
      rewrite <- Z.mul_rem_distr_r; [|exact Y0|apply Z.pow_nonzero; lia]. unfold x, y.
      rewrite <- !Z.mul_assoc, <- !Z.pow_add_r by lia. f_equal; f_equal; f_equal; lia.
Qed.

Lemma fx_lt0 f : dbl f -> fin f = true -> f_lt f f_zero = (fx f <? 0).
Proof.
  destruct f as [s|s| |s m e]; try discriminate; intros D _; [reflexivity|].
  unfold f_lt, f_zero, SFltb, SFcompare, fx. apply dbl_fin in D.
  assert (0 < 2 ^ (e + 1074)) by (apply Z.pow_pos_nonneg; lia). destruct s; symmetry.
  - apply Z.ltb_lt; nia.
  - apply Z.ltb_ge; nia.
Qed.

(** Without a correction the modulo is exact; with one it is the sum of the
    exact remainder and the divisor, rounded once. *)
Lemma modulo_ok a b : dbl a -> dbl b -> fin a = true -> fin b = true -> fx b <> 0 ->
  let r := fmod a b in
  fx r = Z.rem (fx a) (fx b) /\
  (fx a mod fx b = fx r -> fx (ruby_fmod a b) = fx a mod fx b) /\
  (fx a mod fx b <> fx r -> ruby_fmod a b = f_add r b /\ fx a mod fx b = fx r + fx b).
Proof.
  intros Da Db Fa Fb Nb r. destruct (fmod_ok a b Da Db Fa Fb Nb) as (Dr & Fr & Xr). fold r in Dr, Fr, Xr.
  split; [exact Xr|]. unfold ruby_fmod. fold r.
  assert (E0 : SFeqb r f_zero = (fx r =? 0)).
  { destruct (Z.eqb_spec (fx r) 0) as [E|E].
    - apply (fx_zero r Dr Fr) in E. destruct E as [s ->]. reflexivity.
    - destruct r as [s|s| |s m e]; try discriminate; [now elim E|]. unfold SFeqb, f_zero, SFcompare. destruct s; reflexivity. }
  rewrite E0. destruct (fx_sign a Da Fa) as [_ ->]. destruct (fx_sign b Db Fb) as [_ ->].
  rewrite (fx_lt0 a Da Fa), (fx_lt0 b Db Fb).
  pose proof (Z.quot_rem (fx a) (fx b) Nb) as Q. pose proof (Z.rem_bound_abs (fx a) (fx b) Nb) as B.
  pose proof (Z.div_mod (fx a) (fx b) Nb) as M. rewrite <- Xr in *.
  assert (Sg : (0 <= fx a -> 0 <= fx r) /\ (fx a <= 0 -> fx r <= 0)).
  { rewrite Xr. split; intros; [apply Z.rem_nonneg|apply Z.rem_nonpos]; assumption. }
  set (x := fx a) in *. set (y := fx b) in *. set (rr := fx r) in *. set (m := x mod y) in *.
  assert (Hm : (0 < y -> 0 <= m < y) /\ (y < 0 -> y < m <= 0)) by (split; intros; [apply Z.mod_pos_bound|apply Z.mod_neg_bound]; assumption).
  assert (Key : m = if (rr =? 0) then 0 else if ((0 <? x) && (y <? 0)) || ((x <? 0) && (0 <? y)) then rr + y else rr).
  { destruct (Z.eqb_spec rr 0) as [R0|R0].
    - unfold m. symmetry. apply Z.mod_unique with (Z.quot x y); [|lia]. destruct (Z_lt_ge_dec 0 y); [left|right]; lia.
    - destruct (Z.ltb_spec 0 x), (Z.ltb_spec y 0), (Z.ltb_spec x 0), (Z.ltb_spec 0 y); cbn [andb orb]; try lia;
        unfold m; symmetry;
        solve [apply Z.mod_unique with (Z.quot x y - 1); [lia|lia] | apply Z.mod_unique with (Z.quot x y); [lia|lia]]. }
  clearbody m. destruct (rr =? 0) eqn:R0.
  - apply Z.eqb_eq in R0. split; intros; [cbn [fx]; lia|congruence].
  - destruct ((0 <? x) && (y <? 0) || (x <? 0) && (0 <? y))%bool.
    + split; intros H; [|split; [reflexivity|exact Key]]. exfalso. lia.
    + split; intros H; [lia|contradiction].
Qed.
