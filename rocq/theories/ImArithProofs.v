(** Lemmas about Integer#pow(e, m), the rounding methods, bit_length, gcd,
    lcm, digits and sqrt. *)
From Coq Require Import ZArith Bool Lia ZifyBool List Znumtheory Zquot.
From Verif Require Import IntModel IntProofs ImModel ImSpec ImBitProofs.
Import ListNotations.
Open Scope Z_scope.

Ltac Zify.zify_post_hook ::= idtac.

(** ** pow *)

Lemma rem_mod_eq a m : m <> 0 -> (Z.rem a m) mod m = a mod m.
Proof.
  intros H. pose proof (Z.quot_rem' a m) as E. rewrite E at 2.
  rewrite Z.add_comm, (Z.mul_comm m), Z_mod_plus_full. reflexivity.
Qed.

Lemma rem_mul_l a b m : m <> 0 -> (Z.rem a m * b) mod m = (a * b) mod m.
Proof.
  intros H. rewrite <- (Z.mul_mod_idemp_l (Z.rem a m)) by assumption.
  rewrite rem_mod_eq by assumption. apply Z.mul_mod_idemp_l. assumption.
Qed.

Lemma pow_mod_congr x y k m : m <> 0 -> 0 <= k -> x mod m = y mod m -> x ^ k mod m = y ^ k mod m.
Proof.
  intros H Hk E. revert k Hk. apply natlike_ind; [reflexivity|].
  intros k Hk IH. rewrite !Z.pow_succ_r by assumption.
  rewrite Z.mul_mod by assumption. rewrite E, IH. symmetry. apply Z.mul_mod. assumption.
Qed.

Lemma pow_loop_ok m e : m <> 0 -> forall base result,
  pow_loop base result m e mod m = (result * base ^ Zpos e) mod m /\
  Z.abs (pow_loop base result m e) < Z.abs m.
Proof.
  intros Hm. induction e as [e IH|e IH|]; intros base result; cbn [pow_loop].
  - destruct (IH (Z.rem (base * base) m) (Z.rem (result * base) m)) as [E B]. split; [|exact B].
    rewrite E. rewrite rem_mul_l by assumption.
    rewrite <- Z.mul_mod_idemp_r by assumption.
    rewrite (pow_mod_congr _ (base * base)) by (try assumption; try lia; now apply rem_mod_eq).
    rewrite Z.mul_mod_idemp_r by assumption. f_equal.
    rewrite Pos2Z.inj_xI, Z.pow_add_r, Z.pow_1_r, Z.pow_mul_r by lia.
    rewrite Z.pow_2_r. ring.
  - destruct (IH (Z.rem (base * base) m) result) as [E B]. split; [|exact B].
    rewrite E.
    rewrite <- Z.mul_mod_idemp_r by assumption.
    rewrite (pow_mod_congr _ (base * base)) by (try assumption; try lia; now apply rem_mod_eq).
    rewrite Z.mul_mod_idemp_r by assumption. f_equal.
    rewrite Pos2Z.inj_xO, Z.pow_mul_r by lia. rewrite Z.pow_2_r. reflexivity.
  - split; [|apply Z.rem_bound_abs; assumption].
    rewrite rem_mod_eq by assumption. now rewrite Z.pow_1_r.
Qed.

Lemma sign_fix m a r : m <> 0 -> r mod Z.abs m = a mod Z.abs m ->
  (Z.abs r < Z.abs m) ->
  let r := if r <? 0 then r + Z.abs m else r in
  (if (m <? 0) && (0 <? r) then r - Z.abs m else r) = a mod m.
Proof.
  intros Hm E B. cbv zeta.
  assert (P : 0 < Z.abs m) by lia.
  assert (R : (if r <? 0 then r + Z.abs m else r) = a mod Z.abs m).
  { rewrite <- E. destruct (Z.ltb_spec r 0).
    - apply (Z.mod_unique r (Z.abs m) (-1)); lia.
    - symmetry. apply Z.mod_small. lia. }
  rewrite R. destruct (Z.ltb_spec m 0); cbn [andb].
  - replace (Z.abs m) with (- m) by lia.
    pose proof (Z.mod_pos_bound a (- m) ltac:(lia)). pose proof (Z.div_mod a (- m) ltac:(lia)) as D.
    destruct (Z.ltb_spec 0 (a mod - m)) as [L|L].
    + apply (Z.mod_unique a m (- (a / - m) - 1)); lia.
    + apply (Z.mod_unique a m (- (a / - m))); lia.
  - now rewrite Z.abs_eq by lia.
Qed.

Lemma pow_mod_ok self e m : 0 <= e < 2 ^ 63 -> - 2 ^ 63 < m < 2 ^ 63 -> m <> 0 ->
  (e <> 0 \/ m <> 1) ->
  returns (pow_mod self (value_integer e) (value_integer m)) (ival self ^ e mod m).
Proof.
  intros He Hm M N. unfold pow_mod.
  assert (T : forall z, - 2 ^ 63 <= z < 2 ^ 63 -> to_i64 (value_integer z) = Ok z).
  { intros z Hz. unfold value_integer. destruct (fits_i63 z); cbn; [reflexivity|].
    unfold in_i64, I64_MIN, I64_MAX. replace (_ && _) with true; [reflexivity|]. lia. }
  rewrite !T by lia. cbn [bind]. destruct (Z.ltb_spec e 0); [lia|].
  destruct (Z.eqb_spec m 0); [lia|]. cbv zeta. rewrite (wrap64_id (Z.abs m)) by lia.
  eexists. split; [reflexivity|].
  set (r0 := match e with Zpos p => _ | _ => 1 end).
  assert (Hr : (r0 = 1 /\ e = 0 /\ Z.abs m = 1 /\ m = -1) \/
     (r0 mod Z.abs m = ival self ^ e mod Z.abs m /\ Z.abs r0 < Z.abs m)).
  { destruct e as [|p|p]; [| |lia].
    - destruct (Z.eq_dec (Z.abs m) 1); [left; unfold r0; repeat split; lia|].
      right. unfold r0. rewrite Z.pow_0_r. split; [reflexivity|lia].
    - right. destruct (pow_loop_ok (Z.abs m) p ltac:(lia) (Z.rem (ival self) (Z.abs m)) 1) as [E B].
      rewrite Z.abs_involutive in B. split; [|exact B]. unfold r0. rewrite E. rewrite Z.mul_1_l.
      apply pow_mod_congr; [lia|lia|]. apply rem_mod_eq. lia. }
  destruct Hr as [[R [E [A ->]]]|[E B]].
  - rewrite R, E. exact (vb 0).
  - rewrite <- (sign_fix m (ival self ^ e) r0) by assumption. apply vb.
Qed.

(** ** floor, ceil, truncate, round *)

Lemma to_i64_fix d : to_i64 (NFix d) = Ok d. Proof. reflexivity. Qed.

Lemma neg_u32_ok d : - 2 ^ 32 < d < 0 -> neg_u32 d = - d.
Proof. intros H. unfold neg_u32. rewrite wrap64_id by (pows; lia). apply Z.mod_small. lia. Qed.

Lemma keep f self d : 0 <= d -> round_with f self (NFix d) = Ok self.
Proof. intros. unfold round_with. cbn. destruct (Z.leb_spec 0 d); [reflexivity|lia]. Qed.

Lemma round_with_ok f self d : - 2 ^ 32 < d < 0 ->
  returns (round_with f self (NFix d)) (f (ival self) (10 ^ (- d)) * 10 ^ (- d)).
Proof.
  intros H. unfold round_with. cbn [to_i64 bind]. destruct (Z.leb_spec 0 d); [lia|].
  rewrite neg_u32_ok by lia. unfold pow10. eexists. split; [reflexivity|apply vb].
Qed.

Lemma floor_spec n d : 0 < d -> is_floor_to d n (n / d * d).
Proof.
  intros H. split; [exists (n / d); reflexivity|].
  pose proof (Z.div_mod n d ltac:(lia)). pose proof (Z.mod_pos_bound n d H). nia.
Qed.

Lemma ceil_spec n d : 0 < d -> is_ceil_to d n (div_ceil n d * d).
Proof.
  intros H. unfold div_ceil. split; [eexists; reflexivity|].
  pose proof (Z.div_mod (- n) d ltac:(lia)). pose proof (Z.mod_pos_bound (- n) d H). nia.
Qed.

Lemma trunc_spec n d : 0 < d -> is_trunc_to d n (Z.quot n d * d).
Proof.
  intros H. split; [eexists; reflexivity|].
  pose proof (Z.quot_rem' n d) as E. pose proof (Z.rem_bound_abs n d ltac:(lia)).
  pose proof (Z.rem_sign_mul n d ltac:(lia)).
  set (q := Z.quot n d) in *. set (r := Z.rem n d) in *. clearbody q r.
  destruct (Z.lt_trichotomy n 0) as [L|[L|L]].
  - assert (r <= 0) by nia. assert (q <= 0) by nia. assert (q * d <= 0) by nia. split; nia.
  - assert (q = 0) by nia. subst q. split; nia.
  - assert (0 <= r) by nia. assert (0 <= q) by nia. assert (0 <= q * d) by nia. split; nia.
Qed.

Lemma pow10_even k : 0 < k -> exists h, 10 ^ k = 2 * h /\ 0 < h.
Proof.
  intros H. exists (5 * 10 ^ (k - 1)). split.
  - replace k with (Z.succ (k - 1)) at 1 by lia. rewrite Z.pow_succ_r by lia. lia.
  - pose proof (Z.pow_pos_nonneg 10 (k - 1)). lia.
Qed.

Lemma round_core h n q r d hd : d = 2 * hd -> 0 < hd -> Z.abs n = q * d + r -> 0 <= r < d -> 0 <= q ->
  let rq := if hd <? r then q + 1
            else if r <? hd then q
            else match h with
                 | HDown => q
                 | HEven => if Z.rem q 2 =? 0 then q else q + 1
                 | HUp => q + 1
                 end in
  is_round_to h d n (if n <? 0 then - (rq * d) else rq * d).
Proof.
  intros D P E B Q. cbv zeta.
  set (rq := if hd <? r then q + 1 else _).
  assert (K : exists t, rq = q + t /\
     ((t = 0 /\ r <= hd /\ (r = hd -> h = HDown \/ (h = HEven /\ Z.even q = true))) \/
      (t = 1 /\ hd <= r /\ (r = hd -> h = HUp \/ (h = HEven /\ Z.even (q + 1) = true))))).
  { unfold rq. destruct (Z.ltb_spec hd r); [exists 1; split; [lia|right; repeat split; lia]|].
    destruct (Z.ltb_spec r hd); [exists 0; split; [lia|left; repeat split; lia]|].
    destruct h.
    - exists 1. split; [lia|]. right. repeat split; try lia; auto.
    - exists 0. split; [lia|]. left. repeat split; try lia; auto.
    - destruct (Z.eqb_spec (Z.rem q 2) 0) as [Z0|Z0].
      + exists 0. split; [lia|]. left. split; [lia|]. split; [lia|]. intros _. right. split; [reflexivity|].
        rewrite Z.even_spec. exists (Z.quot q 2). pose proof (Z.quot_rem' q 2). lia.
      + exists 1. split; [lia|]. right. split; [lia|]. split; [lia|]. intros _. right. split; [reflexivity|].
        rewrite Z.even_add. replace (Z.even 1) with false by reflexivity.
        destruct (Z.even q) eqn:Ev; [|reflexivity]. exfalso. apply Z0.
        apply Z.even_spec in Ev. destruct Ev as [k ->]. rewrite Z.mul_comm.
        apply Z.rem_mul. lia. }
  clearbody rq. destruct K as [t [-> K]].
  assert (AB : Z.abs (n - (if n <? 0 then - ((q + t) * d) else (q + t) * d)) = Z.abs (r - t * d)).
  { destruct (Z.ltb_spec n 0); nia. }
  exists (if n <? 0 then - (q + t) else q + t). split; [destruct (n <? 0); ring|].
  rewrite AB. split.
  { destruct K as [[-> K]|[-> K]]; lia. }
  intros T.
  assert (RH : r = hd) by (destruct K as [[-> K]|[-> K]]; lia).
  assert (RA : Z.abs (if n <? 0 then - ((q + t) * d) else (q + t) * d) = (q + t) * d).
  { assert (0 <= (q + t) * d) by (destruct K as [[-> K]|[-> K]]; nia).
    destruct (n <? 0); lia. }
  assert (EV : Z.even (if n <? 0 then - (q + t) else q + t) = Z.even (q + t)).
  { destruct (n <? 0); [apply Z.even_opp|reflexivity]. }
  rewrite RA, EV.
  destruct K as [[-> [_ K]]|[-> [_ K]]]; destruct (K RH) as [->|[-> K']]; rewrite ?Z.add_0_r; try assumption; nia.
Qed.

Lemma int_round_ok self d h : - 0x40000000 <= d < 0 ->
  exists r, returns (int_round self (NFix d) h) r /\ is_round_to h (10 ^ (- d)) (ival self) r.
Proof.
  intros H. unfold int_round. cbn [to_i64 bind].
  destruct (Z.ltb_spec 0x3FFFFFFF d); [lia|]. destruct (Z.ltb_spec d (-0x40000000)); [lia|].
  cbn [orb]. destruct (Z.leb_spec 0 d); [lia|]. cbv zeta.
  rewrite neg_u32_ok by lia. unfold pow10.
  destruct (pow10_even (- d) ltac:(lia)) as [hd [E P]].
  assert (HQ : Z.quot (10 ^ (- d)) 2 = hd).
  { rewrite E, Z.mul_comm. apply Z.quot_mul. lia. }
  rewrite HQ. set (D := 10 ^ (- d)) in *. clearbody D.
  eexists. split; [eexists; split; [reflexivity|apply vb]|].
  set (n := ival self). clearbody n.
  replace (if n <? 0 then - n else n) with (Z.abs n) by (destruct (Z.ltb_spec n 0); lia).
  pose proof (Z.quot_rem' (Z.abs n) D) as QR.
  pose proof (Z.rem_bound_pos (Z.abs n) D ltac:(lia) ltac:(lia)).
  pose proof (Z.quot_pos (Z.abs n) D ltac:(lia) ltac:(lia)).
  apply (round_core h n (Z.quot (Z.abs n) D) (Z.rem (Z.abs n) D) D hd); try lia.
Qed.

(** ** bit_length *)

Lemma log2_bound x : 0 < x -> 2 ^ Z.log2 x <= x < 2 ^ (Z.log2 x + 1).
Proof. intros H. replace (Z.log2 x + 1) with (Z.succ (Z.log2 x)) by lia. now apply Z.log2_spec. Qed.

Lemma bit_length_core n m : m = (if n <? 0 then - n - 1 else n) ->
  is_bit_length n (if m =? 0 then 0 else Z.log2 m + 1).
Proof.
  intros E. assert (M : 0 <= m) by (destruct (Z.ltb_spec n 0); lia).
  destruct (Z.eqb_spec m 0) as [Z0|Z0].
  - split; [lia|]. split; [|lia]. change (2 ^ 0) with 1. destruct (Z.ltb_spec n 0); lia.
  - pose proof (Z.log2_nonneg m). pose proof (log2_bound m ltac:(lia)) as B.
    split; [lia|]. split.
    + destruct (Z.ltb_spec n 0); lia.
    + intros _ C. replace (Z.log2 m + 1 - 1) with (Z.log2 m) in C by lia.
      destruct (Z.ltb_spec n 0); lia.
Qed.

Lemma bit_length_ok self : canonical self -> is_bit_length (ival self) (bit_length self).
Proof.
  intros C. destruct self as [i|b]; cbn [bit_length ival].
  - apply canon_fix in C.
    set (m := if i <? 0 then _ else _).
    assert (E : m = if i <? 0 then - i - 1 else i).
    { unfold m. destruct (Z.ltb_spec i 0); [|reflexivity].
      rewrite <- (Z_mod_plus_full i 1), Z.mod_small by (pows; lia). lia. }
    pose proof (bit_length_core i m E) as H. unfold leading_zeros64.
    destruct (m =? 0); [exact H|]. replace (64 - (63 - Z.log2 m)) with (Z.log2 m + 1) by lia. exact H.
  - pose proof (bit_length_core b _ eq_refl) as H. unfold big_bits.
    set (m := if b <? 0 then _ else _) in *.
    replace (Z.abs m) with m; [exact H|]. unfold m. destruct (Z.ltb_spec b 0); lia.
Qed.

(** ** gcd, lcm *)

Lemma gcd_loop_sound fuel : forall a b g, 0 <= a -> 0 <= b -> gcd_loop fuel a b = Some g -> g = Z.gcd a b.
Proof.
  induction fuel as [|fuel IH]; intros a b g Ha Hb; cbn [gcd_loop]; [discriminate|].
  destruct (Z.eqb_spec b 0) as [->|N]; intros E.
  - injection E as <-. rewrite Z.gcd_0_r. lia.
  - rewrite (IH b (a mod b) g); [|lia|apply Z.mod_pos_bound; lia|exact E].
    rewrite (Z.gcd_comm b), Z.gcd_mod by lia. apply Z.gcd_comm.
Qed.

Lemma gcd_loop_total k : forall a b, 0 <= b < 2 ^ Z.of_nat k -> 0 <= a ->
  exists g, gcd_loop (2 * k + 1) a b = Some g.
Proof.
  induction k as [|k IH]; intros a b Hb Ha.
  - cbn in Hb. exists a. cbn. destruct (Z.eqb_spec b 0); [reflexivity|lia].
  - replace (2 * S k + 1)%nat with (S (S (2 * k + 1))) by lia.
    cbn [gcd_loop]. destruct (Z.eqb_spec b 0) as [->|N]; [eauto|].
    pose proof (Z.mod_pos_bound a b ltac:(lia)).
    destruct (Z.eqb_spec (a mod b) 0) as [E|N']; [eauto|].
    apply IH; [|lia].
    set (r := a mod b) in *. clearbody r.
    pose proof (Z.mod_pos_bound b r ltac:(lia)).
    rewrite Nat2Z.inj_succ, Z.pow_succ_r in Hb by lia.
    split; [lia|].
    pose proof (Z.div_mod b r ltac:(lia)) as D.
    assert (1 <= b / r) by (apply Z.div_le_lower_bound; lia). nia.
Qed.

Definition gcd_fuel (b : Z) : nat := (2 * Z.to_nat (Z.log2 (Z.abs b) + 1) + 1)%nat.

Lemma ruby_gcd_ok a b : ruby_gcd (gcd_fuel b) a b = Some (Z.gcd a b).
Proof.
  unfold ruby_gcd, gcd_fuel. pose proof (Z.log2_nonneg (Z.abs b)).
  destruct (gcd_loop_total (Z.to_nat (Z.log2 (Z.abs b) + 1)) (Z.abs a) (Z.abs b)) as [g G]; [|lia|].
  - rewrite Z2Nat.id by lia. split; [lia|].
    destruct (Z.eq_dec (Z.abs b) 0) as [->|]; [reflexivity|]. apply log2_bound. lia.
  - rewrite G. f_equal. rewrite (gcd_loop_sound _ _ _ _ (Z.abs_nonneg a) (Z.abs_nonneg b) G).
    rewrite Z.gcd_abs_l, Z.gcd_abs_r. reflexivity.
Qed.

Lemma ruby_lcm_ok a b : ruby_lcm (gcd_fuel b) a b = Some (Z.lcm a b).
Proof.
  unfold ruby_lcm. destruct (Z.eqb_spec a 0) as [->|]; [reflexivity|].
  destruct (Z.eqb_spec b 0) as [->|]; [cbn; now rewrite Z.lcm_0_r|]. cbn [orb].
  rewrite ruby_gcd_ok. f_equal. unfold Z.lcm. f_equal.
  rewrite (Z.mul_comm (a / _)), (Z.mul_comm a).
  assert (Z.gcd a b <> 0) by (intros G; apply Z.gcd_eq_0_l in G; contradiction).
  destruct (Z.gcd_divide_l a b) as [x X]. destruct (Z.gcd_divide_r a b) as [y Y].
  set (g := Z.gcd a b) in *. clearbody g. subst a b.
  rewrite !Z.div_mul by assumption. ring.
Qed.

(** ** digits *)

Lemma digits_loop_ok fuel : forall n base, 2 <= base -> 0 <= n < 2 ^ Z.of_nat fuel ->
  exists ds, digits_loop fuel n base = Some ds /\ Forall (fun d => 0 <= d < base) ds /\
             value_of base ds = n /\ (0 < n -> last ds 0 <> 0).
Proof.
  induction fuel as [|fuel IH]; intros n base Hb Hn; cbn [digits_loop].
  - cbn in Hn. destruct (Z.leb_spec n 0); [|lia]. exists []. repeat split; try constructor; cbn; lia.
  - destruct (Z.leb_spec n 0); [exists []; repeat split; try constructor; cbn; lia|].
    rewrite Nat2Z.inj_succ, Z.pow_succ_r in Hn by lia.
    pose proof (Z.div_mod n base ltac:(lia)) as D. pose proof (Z.mod_pos_bound n base ltac:(lia)).
    destruct (IH (n / base) base Hb) as [ds [E [F [V L]]]].
    { split; [apply Z.div_pos; lia|]. apply Z.div_lt_upper_bound; nia. }
    exists (n mod base :: ds). rewrite E. split; [reflexivity|].
    split; [constructor; assumption|]. split; [cbn; lia|]. intros _.
    destruct ds as [|d ds].
    + cbn in V |- *. lia.
    + change (last (n mod base :: d :: ds) 0) with (last (d :: ds) 0). apply L.
      cbn in V. destruct (Z.lt_ge_cases 0 (n / base)); [assumption|]. exfalso.
      assert (n / base = 0) by (pose proof (Z.div_pos n base); lia).
      rewrite H2 in E. destruct fuel; cbn in E; discriminate.
Qed.

Definition digits_fuel (n : Z) : nat := Z.to_nat (Z.log2 n + 1).

Lemma ruby_digits_ok n base : 0 <= n -> 2 <= base ->
  exists ds, ruby_digits (digits_fuel n) n base = Ok (Some ds) /\ is_digits base n ds.
Proof.
  intros Hn Hb. unfold ruby_digits. destruct (Z.ltb_spec n 0); [lia|].
  destruct (Z.ltb_spec base 2); [lia|]. destruct (Z.eqb_spec n 0) as [->|N].
  - exists [0]. split; [reflexivity|]. repeat split; [repeat constructor; lia|cbn; lia|now left].
  - destruct (digits_loop_ok (digits_fuel n) n base Hb) as [ds [E [F [V L]]]].
    { split; [lia|]. unfold digits_fuel. pose proof (Z.log2_nonneg n).
      rewrite Z2Nat.id by lia. apply log2_bound. lia. }
    exists ds. rewrite E. split; [reflexivity|]. split; [exact F|]. split; [exact V|].
    right. apply L. lia.
Qed.

(** ** sqrt *)

Lemma sqrt_loop_ok n s k : 0 < n -> is_isqrt n s -> forall x, s <= x -> 0 < x -> x - s < 2 ^ Z.of_nat k ->
  sqrt_loop (S k) n x = Some s.
Proof.
  intros Hn [S0 [S1 S2]]. induction k as [|k IH]; intros x Hx Px Hk.
  - cbn in Hk. assert (x = s) by lia. subst x. cbn [sqrt_loop].
    assert (s <= n / s) by (apply Z.div_le_lower_bound; nia).
    destruct (Z.leb_spec s ((s + n / s) / 2)) as [L|L]; [reflexivity|].
    exfalso. assert (s <= (s + n / s) / 2) by (apply Z.div_le_lower_bound; lia). lia.
  - remember (S k) as k1. cbn [sqrt_loop]. subst k1.
    destruct (Z.eq_dec x s) as [->|N].
    + assert (s <= n / s) by (apply Z.div_le_lower_bound; nia).
      assert (s <= (s + n / s) / 2) by (apply Z.div_le_lower_bound; lia).
      destruct (Z.leb_spec s ((s + n / s) / 2)); [reflexivity|lia].
    + assert (U : n / x <= s).
      { assert (n / x < s + 1); [|lia]. apply Z.div_lt_upper_bound; nia. }
      set (y := (x + n / x) / 2).
      assert (Y : y <= (x + s) / 2) by (apply Z.div_le_mono; lia).
      assert (Y2 : (x + s) / 2 < x) by (apply Z.div_lt_upper_bound; lia).
      destruct (Z.leb_spec x y); [lia|].
      assert (L : s <= y).
      { unfold y. apply Z.div_le_lower_bound; [lia|].
        assert (2 * s - x <= n / x); [|lia]. apply Z.div_le_lower_bound; [lia|]. nia. }
      apply IH; [exact L| |].
      * assert (1 <= s) by nia. lia.
      * rewrite Nat2Z.inj_succ, Z.pow_succ_r in Hk by lia.
        pose proof (Z.mul_div_le (x + s) 2 ltac:(lia)). lia.
Qed.

Definition sqrt_fuel (n : Z) : nat := S (Z.to_nat (Z.log2 n + 3)).

Lemma ruby_sqrt_ok n : 0 <= n -> exists r, ruby_sqrt (sqrt_fuel n) n = Ok (Some r) /\ is_isqrt n r.
Proof.
  intros Hn. unfold ruby_sqrt. destruct (Z.ltb_spec n 0); [lia|].
  destruct (Z.eqb_spec n 0) as [->|N]; [exists 0; split; [reflexivity|]; split; lia|].
  exists (Z.sqrt n). pose proof (Z.sqrt_spec n Hn) as S.
  assert (IS : is_isqrt n (Z.sqrt n)).
  { split; [apply Z.sqrt_nonneg|]. unfold Z.succ in S. lia. }
  split; [|exact IS]. do 2 f_equal. unfold sqrt_fuel.
  destruct (value_bigint_ok n) as [IV CN].
  pose proof (bit_length_ok _ CN) as BL. rewrite IV in BL.
  set (k := bit_length (value_bigint n)) in *. clearbody k.
  destruct BL as [K0 [K1 K2]].
  assert (KP : 0 < k). { destruct (Z.eq_dec k 0) as [->|]; [cbn in K1; lia|lia]. }
  specialize (K2 KP).
  pose proof (log2_bound n ltac:(lia)) as LB.
  assert (KL : k = Z.log2 n + 1).
  { assert (Z.log2 n < k). { apply (Z.pow_lt_mono_r_iff 2); lia. }
    assert (~ Z.log2 n + 1 < k); [|lia]. intros C. apply K2. split.
    - pose proof (Z.pow_pos_nonneg 2 (k - 1)). lia.
    - apply Z.lt_le_trans with (2 ^ (Z.log2 n + 1)); [lia|]. apply Z.pow_le_mono_r; lia. }
  rewrite Z.shiftl_1_l. set (h := (k + 1) / 2).
  assert (H2 : k <= 2 * h) by (unfold h; pose proof (Z.mod_pos_bound (k+1) 2 ltac:(lia)); pose proof (Z.div_mod (k + 1) 2 ltac:(lia)); lia).
  assert (H3 : h <= k) by (unfold h; apply Z.div_le_upper_bound; lia).
  assert (P : 0 < 2 ^ h) by (apply Z.pow_pos_nonneg; lia).
  apply sqrt_loop_ok; [lia|exact IS| |exact P|].
  - assert (n < 2 ^ h * 2 ^ h).
    { rewrite <- Z.pow_add_r by lia. apply Z.lt_le_trans with (2 ^ k); [lia|].
      apply Z.pow_le_mono_r; lia. }
    destruct IS as [I0 [I1 _]]. nia.
  - pose proof (Z.log2_nonneg n). rewrite Z2Nat.id by lia.
    pose proof (Z.sqrt_nonneg n).
    apply Z.le_lt_trans with (2 ^ h); [lia|]. apply Z.pow_lt_mono_r; lia.
Qed.

(** ** ceildiv, remainder *)

Lemma ruby_ceildiv_ok a b : b <> 0 ->
  exists q, ruby_ceildiv a b = Ok q /\ (0 < b -> (q - 1) * b < a <= q * b) /\
            (b < 0 -> q * b <= a < (q - 1) * b).
Proof.
  intros H. unfold ruby_ceildiv. destruct (Z.eqb_spec b 0); [lia|].
  eexists. split; [reflexivity|]. pose proof (Z.div_mod (- a) b H).
  split; intros; [pose proof (Z.mod_pos_bound (- a) b ltac:(lia))|
                  pose proof (Z.mod_neg_bound (- a) b ltac:(lia))]; nia.
Qed.

Lemma ruby_remainder_ok a b : b <> 0 -> ruby_remainder a b = Ok (Z.rem a b).
Proof.
  intros H. unfold ruby_remainder. destruct (Z.eqb_spec b 0); [lia|]. f_equal.
  pose proof (Z.div_mod a b H) as D.
  set (q := a / b) in *. set (r := a mod b) in *.
  assert (B : 0 <= r < b \/ b < r <= 0).
  { unfold r. destruct (Z.lt_ge_cases b 0); [right; apply Z.mod_neg_bound; lia|left; apply Z.mod_pos_bound; lia]. }
  clearbody q r.
  destruct (Z.eqb_spec r 0) as [->|N]; cbn [negb andb].
  - rewrite D, Z.add_0_r, Z.mul_comm. symmetry. apply Z.rem_mul. assumption.
  - destruct (Z.ltb_spec a 0), (Z.ltb_spec b 0); cbn [Bool.eqb negb].
    + apply (Zrem_unique_full a b q); [right; lia|lia].
    + apply (Zrem_unique_full a b (q + 1)); [right; lia|lia].
    + apply (Zrem_unique_full a b (q + 1)); [left; lia|lia].
    + apply (Zrem_unique_full a b q); [left; lia|lia].
Qed.
