(** Exactness of SpecFloat's rounding: a number with at most 53 significant
    bits, in range, is its own rounding. *)
From Coq Require Import ZArith Bool Lia Floats.SpecFloat.
Open Scope Z_scope.

Lemma digits_ok m : 2 ^ (Zpos (digits2_pos m) - 1) <= Zpos m < 2 ^ Zpos (digits2_pos m).
Proof.
  induction m as [m IH|m IH|]; cbn [digits2_pos].
  1,2: rewrite Pos2Z.inj_succ; replace (Z.succ (Zpos (digits2_pos m)) - 1) with (Z.succ (Zpos (digits2_pos m) - 1)) by lia;
       rewrite !Z.pow_succ_r by lia; lia.
  cbn. lia.
Qed.
Lemma digits_unique m d : 2 ^ (d - 1) <= Zpos m < 2 ^ d -> 0 <= d -> Zpos (digits2_pos m) = d.
Proof.
  intros H D. pose proof (digits_ok m) as K. set (c := Zpos (digits2_pos m)) in *.
  assert (0 < c) by (unfold c; lia). clearbody c.
  destruct (Z.lt_trichotomy c d) as [L|[L|L]]; [|exact L|].
  - pose proof (Z.pow_le_mono_r 2 c (d - 1)). lia.
  - pose proof (Z.pow_le_mono_r 2 d (c - 1)). lia.
Qed.
Lemma digits_le m d : Zpos m < 2 ^ d -> 0 <= d -> Zpos (digits2_pos m) <= d.
Proof.
  intros H D. pose proof (digits_ok m) as K. set (c := Zpos (digits2_pos m)) in *. clearbody c.
  destruct (Z_le_gt_dec c d); [assumption|]. pose proof (Z.pow_le_mono_r 2 d (c - 1)). lia.
Qed.
Lemma digits_shift k m j : 0 <= j -> Zpos m = Zpos k * 2 ^ j -> Zpos (digits2_pos m) = Zpos (digits2_pos k) + j.
Proof.
  intros J E. pose proof (digits_ok k) as K. apply digits_unique; [|lia].
  assert (0 < 2 ^ j) by (apply Z.pow_pos_nonneg; lia).
  replace (Zpos (digits2_pos k) + j - 1) with (Zpos (digits2_pos k) - 1 + j) by lia.
  rewrite !Z.pow_add_r by lia. rewrite E. nia.
Qed.

Lemma shr_1_even k : shr_1 {| shr_m := 2 * k; shr_r := false; shr_s := false |} = {| shr_m := k; shr_r := false; shr_s := false |}.
Proof. destruct k; reflexivity. Qed.
Lemma shr_exact p : forall k, iter_pos shr_1 p {| shr_m := k * 2 ^ Zpos p; shr_r := false; shr_s := false |}
  = {| shr_m := k; shr_r := false; shr_s := false |}.
Proof.
  induction p as [p IH|p IH|]; intros k; cbn [iter_pos].
  - replace (k * 2 ^ Zpos p~1) with (2 * (k * 2 ^ Zpos p * 2 ^ Zpos p)).
    + rewrite shr_1_even, IH, IH. reflexivity.
    + replace (Zpos p~1) with (1 + (Zpos p + Zpos p)) by lia. rewrite !Z.pow_add_r by lia. change (2 ^ 1) with 2. ring.
  - replace (k * 2 ^ Zpos p~0) with (k * 2 ^ Zpos p * 2 ^ Zpos p).
    + rewrite IH, IH. reflexivity.
    + replace (Zpos p~0) with (Zpos p + Zpos p) by lia. rewrite !Z.pow_add_r by lia. ring.
  - rewrite Z.mul_comm. change (2 ^ 1) with 2. apply shr_1_even.
Qed.

Local Notation fexp := (fexp 53 1024).
Lemma fexp_eq x : fexp x = Z.max (x - 53) (-1074). Proof. reflexivity. Qed.

(** [m] has at most 53 significant bits, all from 2^-1074 up. *)
Definition short (m e : Z) : Prop := exists k j, 0 <= j /\ Z.abs m = k * 2 ^ j /\ k < 2 ^ 53 /\ -1074 <= e + j.

Lemma aux_exact s m e : short (Zpos m) e -> e <= fexp (Zpos (digits2_pos m) + e) -> Zpos (digits2_pos m) + e <= 1024 ->
  exists m', binary_round_aux 53 1024 s (Zpos m) e loc_Exact = S754_finite s m' (fexp (Zpos (digits2_pos m) + e)) /\
    Zpos m = Zpos m' * 2 ^ (fexp (Zpos (digits2_pos m) + e) - e) /\
    valid_binary 53 1024 (S754_finite s m' (fexp (Zpos (digits2_pos m) + e))) = true.
Proof.
  intros (k & j & J & E & K & B) L R. set (d := fexp (Zpos (digits2_pos m) + e) - e).
  assert (Hd : 0 <= d <= j /\ d = Z.max (Zpos (digits2_pos m) - 53) (-1074 - e)).
  { destruct k as [|k|k]; [discriminate E| |assert (0 < 2 ^ j) by (apply Z.pow_pos_nonneg; lia); nia].
    pose proof (digits_shift k m j J E). pose proof (digits_le k 53 K ltac:(lia)).
    unfold d. rewrite fexp_eq in *. lia. }
  destruct Hd as [Hd Ed]. assert (P2 : 0 < 2 ^ d) by (apply Z.pow_pos_nonneg; lia).
  assert (X : exists m', Zpos m = Zpos m' * 2 ^ d).
  { exists (Z.to_pos (k * 2 ^ (j - d))). assert (P : 0 < k * 2 ^ (j - d)).
    { assert (0 < 2 ^ (j - d)) by (apply Z.pow_pos_nonneg; lia). assert (0 < k); [|nia].
      assert (0 < 2 ^ j) by (apply Z.pow_pos_nonneg; lia). nia. }
    rewrite Z2Pos.id by exact P. rewrite <- Z.mul_assoc, <- Z.pow_add_r by lia.
    replace (j - d + d) with j by lia. exact E. }
  destruct X as [m' X]. exists m'.
  pose proof (digits_shift m' m d ltac:(lia) X) as Dg.
  assert (Fx : fexp (Zpos (digits2_pos m') + (e + d)) = e + d).
  { rewrite Dg in Ed. rewrite fexp_eq. lia. }
  assert (F0 : fexp (Zpos (digits2_pos m) + e) = e + d) by (unfold d; lia).
  assert (S1 : shr_fexp 53 1024 (Zpos m) e loc_Exact = ({| shr_m := Zpos m'; shr_r := false; shr_s := false |}, e + d)).
  { unfold shr_fexp, shr_record_of_loc. cbn [Zdigits2]. fold d. unfold shr. destruct d as [|p|p]; [| |lia].
    - rewrite Z.pow_0_r, Z.mul_1_r in X. rewrite X, Z.add_0_r. reflexivity.
    - rewrite X, shr_exact. reflexivity. }
  assert (S2 : shr_fexp 53 1024 (Zpos m') (e + d) loc_Exact = ({| shr_m := Zpos m'; shr_r := false; shr_s := false |}, e + d)).
  { unfold shr_fexp, shr_record_of_loc. cbn [Zdigits2]. rewrite Fx, Z.sub_diag. reflexivity. }
  assert (Em : e + d <= 971) by (pose proof F0 as F0'; rewrite fexp_eq in F0'; lia).
  split; [|split].
  - unfold binary_round_aux. rewrite S1. cbn [shr_m loc_of_shr_record round_nearest_even]. rewrite S2. cbn [shr_m].
    rewrite F0. change (1024 - 53) with 971. rewrite (proj2 (Z.leb_le _ _) Em). reflexivity.
  - exact X.
  - rewrite F0. unfold valid_binary, bounded, canonical_mantissa. rewrite Fx. unfold Zeq_bool. rewrite Z.compare_refl.
    apply Z.leb_le. exact Em.
Qed.

Lemma shift_pos_ok d m : Zpos (shift_pos d m) = Zpos m * 2 ^ Zpos d.
Proof. rewrite shift_pos_correct. change (Z.pow_pos 2 d) with (2 ^ Zpos d). ring. Qed.

Lemma align_ok m e e' : Zpos (fst (shl_align m e e')) = Zpos m * 2 ^ (e - Z.min e e').
Proof.
  unfold shl_align. destruct (e' - e) as [|p|p] eqn:D; cbn [fst].
  1,2: replace (e - Z.min e e') with 0 by lia; cbn; lia.
  rewrite shift_pos_ok. do 2 f_equal. lia.
Qed.
Lemma align_exp m e e' : snd (shl_align m e e') = Z.min e e' .
Proof. unfold shl_align. destruct (e' - e) as [|p|p] eqn:D; cbn [snd]; lia. Qed.

(** The value, in units of 2^-1074. *)
Lemma round_exact s m e : short (Zpos m) e -> Zpos (digits2_pos m) + e <= 1024 ->
  exists m' e', binary_round 53 1024 s m e = S754_finite s m' e' /\
    Zpos m * 2 ^ (e - Z.min e e') = Zpos m' * 2 ^ (e' - Z.min e e') /\
    valid_binary 53 1024 (S754_finite s m' e') = true.
Proof.
  intros Sh R. unfold binary_round. set (x := fexp (Zpos (digits2_pos m) + e)).
  pose proof (align_ok m e x) as A. pose proof (align_exp m e x) as B.
  destruct (shl_align m e x) as [mz ez]. cbn [fst snd] in A, B. subst ez.
  pose proof (digits_shift m mz (e - Z.min e x) ltac:(lia) A) as Dg.
  assert (Fx : fexp (Zpos (digits2_pos mz) + Z.min e x) = x) by (rewrite Dg; unfold x; f_equal; lia).
  destruct (aux_exact s mz (Z.min e x)) as (m' & E & V & C).
  - destruct Sh as (k & j & J & Ek & K & Bk). exists k, (j + (e - Z.min e x)). split; [lia|]. split; [|split; [exact K|lia]].
    cbn [Z.abs] in *. rewrite A, Ek, Z.pow_add_r by lia. ring.
  - rewrite Fx. lia.
  - rewrite Dg. lia.
  - exists m', x. rewrite Fx in *. split; [exact E|]. split; [|exact C]. rewrite <- A. exact V.
Qed.

(** The same for any sign. *)
Definition fz (f : spec_float) : Z :=
  match f with
  | S754_finite s m e => (if s then Zneg m else Zpos m) * 2 ^ (e + 1074)
  | _ => 0
  end.
Lemma valid_exp s m e : valid_binary 53 1024 (S754_finite s m e) = true ->
  e = fexp (Zpos (digits2_pos m) + e) /\ -1074 <= e <= 971.
Proof.
  unfold valid_binary, bounded, canonical_mantissa. intros H. apply andb_prop in H. destruct H as [H B].
  apply Zeq_bool_eq in H. apply Z.leb_le in B. split; [symmetry; exact H|]. rewrite fexp_eq in H. lia.
Qed.

Lemma normalize_exact z e sz : short z e -> (z <> 0 -> Zdigits2 z + e <= 1024) ->
  exists f, binary_normalize 53 1024 z e sz = f /\ valid_binary 53 1024 f = true /\
    (z = 0 -> f = S754_zero sz) /\ (z <> 0 -> exists s m e', f = S754_finite s m e' /\ s = (z <? 0)) /\
    forall K, 0 <= e + K -> 1074 <= K -> z * 2 ^ (e + K) = fz f * 2 ^ (K - 1074).
Proof.
  intros Sh R. destruct z as [|m|m]; cbn [binary_normalize].
  - eexists. split; [reflexivity|]. split; [reflexivity|]. split; [reflexivity|]. split; [easy|]. reflexivity.
  - destruct (round_exact false m e Sh (R ltac:(easy))) as (m' & e' & -> & V & C). eexists.
    split; [reflexivity|]. split; [exact C|]. split; [easy|]. split; [intros _; do 3 eexists; split; reflexivity|].
    intros K HK HK'. apply valid_exp in C. cbn [fz].
    rewrite <- Z.mul_assoc, <- Z.pow_add_r by lia.
    replace (e + K) with ((e - Z.min e e') + (Z.min e e' + K)) by lia.
    replace (e' + 1074 + (K - 1074)) with ((e' - Z.min e e') + (Z.min e e' + K)) by lia.
    rewrite !(Z.pow_add_r 2 _ (Z.min e e' + K)) by lia. rewrite !Z.mul_assoc, V. reflexivity.
  - destruct (round_exact true m e Sh (R ltac:(easy))) as (m' & e' & -> & V & C). eexists.
    split; [reflexivity|]. split; [exact C|]. split; [easy|]. split; [intros _; do 3 eexists; split; reflexivity|].
    intros K HK HK'. apply valid_exp in C. cbn [fz].
    rewrite <- Z.mul_assoc, <- Z.pow_add_r by lia.
    replace (e + K) with ((e - Z.min e e') + (Z.min e e' + K)) by lia.
    replace (e' + 1074 + (K - 1074)) with ((e' - Z.min e e') + (Z.min e e' + K)) by lia.
    rewrite !(Z.pow_add_r 2 _ (Z.min e e' + K)) by lia. rewrite !Z.mul_assoc.
    rewrite <- !Pos2Z.opp_pos, !Z.mul_opp_l, V. reflexivity.
Qed.

(** Two doubles with the same nonzero value are the same. *)
Lemma valid_unique f g : valid_binary 53 1024 f = true -> valid_binary 53 1024 g = true -> fz f = fz g -> fz f <> 0 -> f = g.
Proof.
  intros F G E N. destruct f as [|?| |s m e]; try (now elim N). destruct g as [|?| |s' m' e']; try (rewrite E in N; now elim N).
  destruct (valid_exp _ _ _ F) as [Fe Fb]. destruct (valid_exp _ _ _ G) as [Ge Gb]. cbn [fz] in E.
  assert (P : 0 < 2 ^ (e + 1074)) by (apply Z.pow_pos_nonneg; lia).
  assert (P' : 0 < 2 ^ (e' + 1074)) by (apply Z.pow_pos_nonneg; lia).
  assert (s = s') as -> by (destruct s, s'; try reflexivity; nia).
  assert (E' : Zpos m * 2 ^ (e + 1074) = Zpos m' * 2 ^ (e' + 1074)).
  { destruct s'; [|exact E]. rewrite <- !Pos2Z.opp_pos, !Z.mul_opp_l in E. lia. }
  assert (D : Zpos (digits2_pos m) + (e + 1074) = Zpos (digits2_pos m') + (e' + 1074)).
  { pose proof (digits_ok m) as A. pose proof (digits_ok m') as A'.
    set (x := Zpos m * 2 ^ (e + 1074)) in *.
    assert (Hx : 0 < x) by (unfold x; nia). destruct x as [|p|p] eqn:X; try lia. subst x.
    rewrite <- (digits_shift m p (e + 1074)), <- (digits_shift m' p (e' + 1074)); lia. }
  assert (e = e') as -> by (rewrite Fe, Ge; f_equal; lia).
  f_equal. apply Z.mul_cancel_r in E'; [congruence|lia].
Qed.
