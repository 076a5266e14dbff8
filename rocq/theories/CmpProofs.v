From Coq Require Import ZArith Bool QArith Lia ZifyBool.
From Verif Require Import CmpSpec IntModel IntProofs CmpModel.
Open Scope Z_scope.
Ltac Zify.zify_post_hook ::= Z.div_mod_to_equations.

Lemma pow_pos' n : 0 <= n -> 0 < 2 ^ n.
Proof. intros. apply Z.pow_pos_nonneg; lia. Qed.

Lemma exact_cmp_eq z m e :
  exact_cmp z m e = if 0 <=? e then z ?= m * 2 ^ e else z * 2 ^ (- e) ?= m.
Proof.
  unfold exact_cmp, dyadic, Qcompare, inject_Z. destruct (0 <=? e) eqn:E; cbn [Qnum Qden].
  - rewrite !Z.mul_1_r. reflexivity.
  - rewrite Z2Pos.id by (apply pow_pos'; lia). rewrite Z.mul_1_r. reflexivity.
Qed.

Lemma f64_cmp_exact x m e : f64_cmp x (FFin m e) = Some (exact_cmp x m e).
Proof. rewrite exact_cmp_eq. reflexivity. Qed.

Lemma quot_sides m p : 0 < p ->
  let q := Z.quot m p in let r := m - q * p in
  - p < r < p /\ (0 <= m -> 0 <= r) /\ (m <= 0 -> r <= 0).
Proof.
  intros Hp q r. pose proof (Z.quot_rem' m p) as H.
  pose proof (Z.rem_bound_abs m p ltac:(lia)) as Hb.
  assert (Hr : r = Z.rem m p) by (unfold r, q; lia). rewrite Hr.
  split; [lia|split; intros H0].
  - apply Z.rem_nonneg; lia.
  - apply Z.rem_nonpos; lia.
Qed.

Lemma bigint_cmp_exact b m e : bigint_cmp_float b (FFin m e) = Some (exact_cmp b m e).
Proof.
  rewrite exact_cmp_eq. cbn [bigint_cmp_float]. unfold f64_trunc, f64_frac.
  destruct (0 <=? e) eqn:E.
  - destruct (b ?= m * 2 ^ e); reflexivity.
  - pose proof (pow_pos' (- e) ltac:(lia)) as Hp. revert Hp. generalize (2 ^ (- e)). intros p Hp.
    destruct (quot_sides m p Hp) as [H1 [H2 H3]]. revert H1 H2 H3.
    generalize (Z.quot m p). intros q H1 H2 H3. cbv zeta in *.
    destruct (Z.compare_spec b q) as [->|Hlt|Hgt].
    + destruct (0 <? m - q * p) eqn:Ea; [|destruct (m - q * p <? 0) eqn:Eb];
      f_equal; symmetry; [apply Z.compare_lt_iff|apply Z.compare_gt_iff|apply Z.compare_eq_iff]; lia.
    + f_equal. symmetry. apply Z.compare_lt_iff. nia.
    + f_equal. symmetry. apply Z.compare_gt_iff. nia.
Qed.

(** What [as_f64] does for large positive arguments. *)
Lemma as_f64_grid a : 2 ^ 53 <= a -> exists k q,
  1 <= k /\ 2 ^ (52 + k) <= a < 2 ^ (53 + k) /\
  (as_f64 a = q * 2 ^ k /\ q * 2 ^ k <= a < (q + 1) * 2 ^ k \/
   as_f64 a = (q + 1) * 2 ^ k /\ q * 2 ^ k < a < (q + 1) * 2 ^ k) /\
  2 ^ 52 <= q.
Proof.
  intros Ha. assert (Hl : 53 <= Z.log2 a) by (apply Z.log2_le_pow2; pows; lia).
  pose proof (Z.log2_spec a ltac:(pows; lia)) as Hs.
  set (k := Z.log2 a - 52) in *. exists k, (a / 2 ^ k).
  replace (Z.log2 a) with (52 + k) in Hs by (unfold k; lia).
  replace (Z.succ (52 + k)) with (53 + k) in Hs by lia.
  assert (Hk : 1 <= k) by (unfold k; lia).
  unfold as_f64. rewrite (Z.abs_eq a) by (pows; lia). fold k.
  replace (a <? 2 ^ 53) with false by (symmetry; lia). cbv zeta.
  rewrite (Z.sgn_pos a) by (pows; lia). rewrite !Z.mul_1_l.
  assert (Hh : 2 ^ k = 2 * 2 ^ (k - 1)) by (rewrite <- Z.pow_succ_r by lia; f_equal; lia).
  pose proof (pow_pos' (k - 1) ltac:(lia)) as Hp.
  pose proof (pow_pos' k ltac:(lia)) as Hp2.
  pose proof (Z.div_mod a (2 ^ k) ltac:(lia)) as Hd.
  pose proof (Z.mod_pos_bound a (2 ^ k) Hp2) as Hm.
  split; [exact Hk|split; [exact Hs|]].
  assert (Hq : 2 ^ 52 <= a / 2 ^ k).
  { apply Z.div_le_lower_bound; [lia|]. rewrite <- Z.pow_add_r by lia.
    rewrite Z.add_comm. lia. }
  split; [|exact Hq].
  revert Hd Hm. generalize (a / 2 ^ k), (a mod 2 ^ k). intros q r Hd Hm.
  destruct (r <? 2 ^ (k - 1)) eqn:E1; [left; nia|].
  destruct (2 ^ (k - 1) <? r) eqn:E2; [right; nia|].
  destruct (Z.odd q); [right|left]; nia.
Qed.

Lemma as_f64_opp z : as_f64 (- z) = - as_f64 z.
Proof.
  unfold as_f64. rewrite Z.abs_opp, Z.sgn_opp. destruct (_ <? _); [reflexivity|].
  cbv zeta. lia.
Qed.

Lemma as_f64_small z : Z.abs z <= 2 ^ 53 -> as_f64 z = z.
Proof.
  intros H. destruct (Z.eq_dec (Z.abs z) (2 ^ 53)) as [E|].
  - destruct (Z.abs_spec z) as [[_ Hz]|[_ Hz]]; rewrite Hz in E.
    + rewrite E. reflexivity.
    + replace z with (- 2 ^ 53) by lia. reflexivity.
  - unfold as_f64. replace (Z.abs z <? 2 ^ 53) with true by (symmetry; lia). reflexivity.
Qed.

(** A double at least 2^(52+k) is a multiple of 2^k. *)
Lemma double_grid m e k : Z.abs m < 2 ^ 53 -> 0 <= e -> 1 <= k -> 2 ^ (52 + k) <= m * 2 ^ e ->
  exists j, m * 2 ^ e = j * 2 ^ k.
Proof.
  intros Hm He Hk Hge.
  destruct (Z_lt_le_dec e k) as [Hlt|Hle].
  - exfalso. pose proof (pow_pos' e He) as Hp.
    assert (H1 : 2 ^ e * 2 ^ (k - e) = 2 ^ k) by (rewrite <- Z.pow_add_r by lia; f_equal; lia).
    assert (H2 : 2 <= 2 ^ (k - e)) by (change 2 with (2 ^ 1) at 1; apply Z.pow_le_mono_r; lia).
    rewrite Z.pow_add_r in Hge by lia. pows. nia.
  - exists (m * 2 ^ (e - k)). rewrite <- Z.mul_assoc, <- Z.pow_add_r by lia. do 2 f_equal. lia.
Qed.

Lemma cmp_sound_pos_int z f : 0 <= z -> (exists m e, Z.abs m < 2 ^ 53 /\ 0 <= e /\ f = m * 2 ^ e) ->
  (as_f64 z < f -> z < f) /\ (as_f64 z > f -> z > f).
Proof.
  intros Hz [m [e [Hm [He ->]]]].
  destruct (Z_lt_le_dec z (2 ^ 53)) as [Hs|Hb].
  - rewrite as_f64_small by lia. lia.
  - destruct (as_f64_grid z Hb) as [k [q [Hk [Hr [Hg Hq]]]]].
    pose proof (pow_pos' k ltac:(lia)) as Hp.
    destruct (Z_lt_le_dec (m * 2 ^ e) (2 ^ (52 + k))) as [Hlt|Hge].
    + assert (2 ^ (52 + k) <= as_f64 z).
      { rewrite Z.pow_add_r by lia. nia. }
      lia.
    + destruct (double_grid m e k Hm He Hk Hge) as [j Hj]. rewrite Hj.
      clear Hj Hge Hr. revert Hp Hg. generalize (as_f64 z), (2 ^ k). intros x p Hp Hg.
      assert (L : forall u v, u * p < v * p -> (u + 1) * p <= v * p).
      { intros u v H. apply Z.mul_lt_mono_pos_r in H; [|exact Hp].
        apply Z.mul_le_mono_nonneg_r; lia. }
      destruct Hg as [[-> Hg]|[-> Hg]]; split; intros H.
      * apply L in H. lia.
      * lia.
      * lia.
      * assert (H' : j * p < (q + 1) * p) by lia.
        apply Z.mul_lt_mono_pos_r in H'; [|exact Hp].
        assert (j * p <= q * p) by (apply Z.mul_le_mono_nonneg_r; lia). lia.
Qed.

Lemma as_f64_big z : 2 ^ 53 <= z -> 2 ^ 53 <= as_f64 z.
Proof.
  intros Hb. destruct (as_f64_grid z Hb) as [k [q [Hk [Hr [Hg Hq]]]]].
  assert (2 <= 2 ^ k) by (change 2 with (2 ^ 1) at 1; apply Z.pow_le_mono_r; lia).
  pows. nia.
Qed.

Lemma cmp_sound_nonneg z m e : 0 <= z -> is_double m e ->
  (exact_cmp (as_f64 z) m e = Lt -> exact_cmp z m e = Lt) /\
  (exact_cmp (as_f64 z) m e = Gt -> exact_cmp z m e = Gt).
Proof.
  intros Hz [Hm He]. rewrite !exact_cmp_eq. destruct (0 <=? e) eqn:E.
  - rewrite !Z.compare_lt_iff, !Z.compare_gt_iff.
    pose proof (cmp_sound_pos_int z (m * 2 ^ e) Hz) as H.
    assert (exists m0 e0, Z.abs m0 < 2 ^ 53 /\ 0 <= e0 /\ m * 2 ^ e = m0 * 2 ^ e0)
      by (exists m, e; repeat split; lia).
    specialize (H H0). lia.
  - destruct (Z_lt_le_dec z (2 ^ 53)) as [Hs|Hb].
    + rewrite as_f64_small by lia. auto.
    + pose proof (as_f64_big z Hb) as Hf. rewrite !Z.compare_lt_iff, !Z.compare_gt_iff.
      pose proof (pow_pos' (- e) ltac:(lia)). split; nia.
Qed.

Lemma exact_cmp_opp z m e : exact_cmp (- z) (- m) e = CompOpp (exact_cmp z m e).
Proof.
  rewrite !exact_cmp_eq. destruct (0 <=? e).
  - rewrite Z.mul_opp_l. rewrite Z.compare_opp. apply Z.compare_antisym.
  - rewrite Z.mul_opp_l. rewrite Z.compare_opp. apply Z.compare_antisym.
Qed.

Lemma compopp_lt c : CompOpp c = Lt <-> c = Gt.
Proof. destruct c; cbn; split; congruence. Qed.
Lemma compopp_gt c : CompOpp c = Gt <-> c = Lt.
Proof. destruct c; cbn; split; congruence. Qed.

Lemma cmp_sound z m e : is_double m e ->
  (exact_cmp (as_f64 z) m e = Lt -> exact_cmp z m e = Lt) /\
  (exact_cmp (as_f64 z) m e = Gt -> exact_cmp z m e = Gt).
Proof.
  intros Hd. destruct (Z_le_gt_dec 0 z) as [Hz|Hz]; [apply cmp_sound_nonneg; assumption|].
  destruct (cmp_sound_nonneg (- z) (- m) e) as [H1 H2]; [lia|destruct Hd; split; lia|].
  rewrite as_f64_opp, !exact_cmp_opp, !compopp_lt, !compopp_gt in *. auto.
Qed.

Lemma int_cmp_exact n m e : 
  (match n with NFix z => Z.abs z <= 2 ^ 53 | NBig _ => True end) ->
  int_cmp_float n (FFin m e) = Some (exact_cmp (ival n) m e).
Proof.
  destruct n as [z|z]; cbn [int_cmp_float ival].
  - intros H. rewrite as_f64_small by exact H. apply f64_cmp_exact.
  - intros _. apply bigint_cmp_exact.
Qed.

Lemma int_cmp_strict_sound n m e c : is_double m e -> c <> Eq ->
  int_cmp_float n (FFin m e) = Some c -> exact_cmp (ival n) m e = c.
Proof.
  intros Hd Hc. destruct n as [z|z]; cbn [int_cmp_float ival].
  - rewrite f64_cmp_exact. intros [= H]. destruct (cmp_sound z m e Hd) as [H1 H2].
    destruct c; [congruence|auto|auto].
  - rewrite bigint_cmp_exact. congruence.
Qed.

(** What each operator means in terms of the exact ordering. *)
Definition cop_holds (o : cop) (c : comparison) : Prop :=
  match o with
  | Clt => c = Lt | Cgt => c = Gt | Ceq => c = Eq | Cle => c <> Gt | Cge => c <> Lt
  end.

Lemma apply_cop_iff o c : apply_cop o (Some c) = true <-> cop_holds o c.
Proof. destruct o, c; cbn; split; congruence. Qed.

Lemma ops_exact o n m e :
  (match n with NFix z => Z.abs z <= 2 ^ 53 | NBig _ => True end) ->
  (int_op_float o n (FFin m e) = true <-> cop_holds o (exact_cmp (ival n) m e)) /\
  (float_op_int o (FFin m e) n = true <-> cop_holds o (CompOpp (exact_cmp (ival n) m e))).
Proof.
  intros H. unfold int_op_float, float_op_int, float_cmp_int.
  rewrite (int_cmp_exact n m e H). cbn [option_map]. split; apply apply_cop_iff.
Qed.

Lemma strict_sound n m e : is_double m e ->
  (int_op_float Clt n (FFin m e) = true -> exact_cmp (ival n) m e = Lt) /\
  (int_op_float Cgt n (FFin m e) = true -> exact_cmp (ival n) m e = Gt).
Proof.
  intros Hd. unfold int_op_float. split; intros H;
  destruct (int_cmp_float n (FFin m e)) as [[]|] eqn:E; try discriminate H;
  (eapply int_cmp_strict_sound; [exact Hd| |exact E]); congruence.
Qed.

(** The counterexample: 2^53 + 1 and the double 2^53. *)
Lemma cmp_counterexample :
  let n := NFix (2 ^ 53 + 1) in
  canonical n /\ is_double 1 53 /\
  int_op_float Ceq n (FFin 1 53) = true /\ exact_cmp (ival n) 1 53 = Gt /\
  float_op_int Ceq (FFin 1 53) (NFix (2 ^ 53)) = true.
Proof. unfold is_double. cbn. repeat split; try reflexivity; try lia. Qed.

Lemma cmp_refuted : exists n n' m e,
  canonical n /\ canonical n' /\ is_double m e /\
  int_op_float Ceq n (FFin m e) = true /\ exact_cmp (ival n) m e = Gt /\
  float_op_int Ceq (FFin m e) n' = true /\ ival n <> ival n'.
Proof.
  exists (NFix (2 ^ 53 + 1)), (NFix (2 ^ 53)), 1, 53. unfold is_double. cbn.
  repeat split; try reflexivity; try lia.
Qed.

Lemma cmp_nonfinite o n :
  (int_op_float o n FNaN = false /\ float_op_int o FNaN n = false) /\
  (int_op_float o n (FInf false) = true <-> cop_holds o Lt) /\
  (float_op_int o (FInf false) n = true <-> cop_holds o Gt) /\
  (int_op_float o n (FInf true) = true <-> cop_holds o Gt) /\
  (float_op_int o (FInf true) n = true <-> cop_holds o Lt).
Proof. destruct o, n; cbn; repeat split; intros; try reflexivity; try discriminate; intuition discriminate. Qed.
