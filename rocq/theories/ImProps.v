(** C62-C65: Integer methods. *)
From Coq Require Import ZArith Bool Lia List.
From Verif Require Import IntModel IntProofs ImModel ImSpec ImBitProofs ImArithProofs ImBadProofs.
Import ListNotations.
Open Scope Z_scope.

(** ** C62: Integer#[] *)

(** [n[i]] is bit [i] of the two's complement expansion of [n].  Missing:
    bignum positions of negative receivers, see C62_bit_refuted. *)
Theorem C62_bit_partial : forall self i, canonical self -> canonical i ->
  (ival i < 2 ^ 62 \/ 0 <= ival self) -> bits (ival self) < 2 ^ 62 ->
  is_int (index_bit self i) (Z.b2z (Z.testbit (ival self) (ival i))).
Proof. exact index_bit_ok. Qed.
Print Assumptions C62_bit_partial.

Theorem C62_bit_refuted : exists self i, canonical self /\ canonical i /\ 0 <= ival i /\
  Z.testbit (ival self) (ival i) = true /\ index_bit self i = NFix 0.
Proof. exact bit_bad. Qed.
Print Assumptions C62_bit_refuted.

(** [n[i..]] (also a reversed range or a negative length) is all the bits
    from [i] on, for every receiver and every 64-bit position. *)
Theorem C62_tail : forall self s, canonical self -> - 2 ^ 63 <= s < 2 ^ 63 ->
  exists x, is_int (index_from self s) x /\ is_tail (ival self) s x.
Proof. intros self s C H. eexists. split; [apply index_from_ok; assumption|apply shiftr_tail]. Qed.
Print Assumptions C62_tail.

Theorem C62_reversed : forall self s e excl, canonical self -> - 2 ^ 63 <= s < 2 ^ 63 -> e < s ->
  exists x, is_int (index_span self s e excl) x /\ is_tail (ival self) s x.
Proof. intros. eexists. split; [apply index_span_rev; assumption|apply shiftr_tail]. Qed.
Print Assumptions C62_reversed.

(** [n[i, len]] is the [len] bits from [i] on.  Missing: small negative
    receivers with 64 bits or more, see C62_len_refuted. *)
Theorem C62_len_partial : forall self s w, canonical self -> - 2 ^ 63 <= s < 2 ^ 63 -> 0 <= w ->
  (match self with NFix b => w < 64 \/ 0 <= b \/ s < 0 | NBig _ => True end) ->
  exists x, is_int (index_len_i64 self s w) x /\ is_bits (ival self) s w x.
Proof. exact index_len_ok. Qed.
Print Assumptions C62_len_partial.

Theorem C62_len_refuted : exists self s w, canonical self /\ 0 <= w /\
  exists x, is_bits (ival self) s w x /\ 0 < x /\
  index_len self (NFix s) (NFix w) = Ok (NFix (-1)).
Proof. exact len_bad. Qed.
Print Assumptions C62_len_refuted.

(** [n[s..e]] and [n[s...e]].  Missing: a small receiver with a start at or
    beyond 64 either way, see C62_span_refuted. *)
Theorem C62_span_partial : forall self s e excl, canonical self -> - 2 ^ 63 <= s ->
  s <= e < 2 ^ 63 - 1 -> e + 1 - s < 2 ^ 63 ->
  (match self with NFix _ => 64 <= width_of s e excl \/ -64 < s < 64 | NBig _ => True end) ->
  exists x, is_int (index_span self s e excl) x /\ is_bits (ival self) s (width_of s e excl) x.
Proof. exact index_span_ok. Qed.
Print Assumptions C62_span_partial.

Theorem C62_span_refuted : exists self s e, canonical self /\ 0 <= s <= e /\
  is_bits (ival self) s (width_of s e false) 0 /\
  index_range self (Some (NFix s)) (Some (NFix e)) false = Ok (NFix 1).
Proof. exact span_bad. Qed.
Print Assumptions C62_span_refuted.

Theorem C62_span_negative_refuted : exists self s e, canonical self /\ s <= e < 0 /\
  is_bits (ival self) s (width_of s e false) 0 /\
  index_range self (Some (NFix s)) (Some (NFix e)) false = Ok (NFix 320).
Proof. exact span_neg_bad. Qed.
Print Assumptions C62_span_negative_refuted.

(** [n[..e]] is 0 when those bits are all clear and raises otherwise. *)
Theorem C62_beginless : forall self e excl, canonical self -> - 2 ^ 63 <= e < 2 ^ 63 - 1 ->
  index_beginless self e excl =
  if Z.land (ival self) (Z.ones (Z.max 0 (width_of 0 e excl))) =? 0
  then Ok (value_integer 0) else Err ArgErr.
Proof. exact index_beginless_ok. Qed.
Print Assumptions C62_beginless.

(** Code compiled for a literal position computes the tagged bit. *)
Theorem C62_compiled : forall b nth, - 2 ^ 62 <= b < 2 ^ 62 -> 0 <= nth ->
  jit_bit_index (2 * b + 1) nth = 2 * Z.b2z (Z.testbit b nth) + 1.
Proof. exact jit_index_ok. Qed.
Print Assumptions C62_compiled.

Theorem C62_folded : forall b nth, - 2 ^ 62 <= b < 2 ^ 62 ->
  jit_bit_fold b nth = Z.b2z (Z.testbit b nth).
Proof. exact jit_fold_ok. Qed.
Print Assumptions C62_folded.

(** The description by bits determines the result. *)
Theorem C62_unique : forall n s w x y, is_bits n s w x -> is_bits n s w y -> x = y.
Proof. exact bits_unique. Qed.
Print Assumptions C62_unique.

Example C62_ex : index_len (NFix 0xabc) (NFix 4) (NFix 4) = Ok (NFix 0xb) /\
  index_range (NFix (-2)) (Some (NFix 1)) (Some (NFix 5)) false = Ok (NFix 31) /\
  index_range (NBig (2 ^ 70)) (Some (NFix 68)) (Some (NFix 71)) false = Ok (NFix 4) /\
  index_range (NFix 8) None (Some (NFix 2)) false = Ok (NFix 0) /\
  index_range (NFix 8) None (Some (NFix 3)) false = Err ArgErr /\
  jit_bit_index (2 * -5 + 1) 100 = 3.
Proof. vm_compute. repeat split; reflexivity. Qed.

(** ** C63: Integer#pow(exp, mod) *)

(** The residue has the sign of the modulus.  Missing: [e = 0] with
    [m = 1], [m = -2^63] and operands outside i64, see the refutations. *)
Theorem C63_pow_partial : forall self e m, 0 <= e < 2 ^ 63 -> - 2 ^ 63 < m < 2 ^ 63 -> m <> 0 ->
  (e <> 0 \/ m <> 1) ->
  returns (pow_mod self (value_integer e) (value_integer m)) (ival self ^ e mod m).
Proof. exact pow_mod_ok. Qed.
Print Assumptions C63_pow_partial.

Theorem C63_unit_refuted : (ival (NFix 2) ^ 0) mod 1 = 0 /\
  pow_mod (NFix 2) (NFix 0) (NFix 1) = Ok (NFix 1).
Proof. exact pow_unit_bad. Qed.
Print Assumptions C63_unit_refuted.

Theorem C63_min_refuted : ival (NFix 3) ^ 1 mod (- 2 ^ 63) = 3 - 2 ^ 63 /\
  pow_mod (NFix 3) (NFix 1) (NBig (- 2 ^ 63)) = Ok (NBig (3 + 2 ^ 63)).
Proof. exact pow_min_bad. Qed.
Print Assumptions C63_min_refuted.

Theorem C63_big_exponent_refuted : forall self e m, in_i64 e = false ->
  pow_mod self (NBig e) m = Err RangeErr.
Proof. exact pow_big_bad. Qed.
Print Assumptions C63_big_exponent_refuted.

Theorem C63_big_modulus_refuted : forall self e m, 0 <= e -> in_i64 m = false ->
  pow_mod self (NFix e) (NBig m) = Err RangeErr.
Proof. exact pow_big_mod_bad. Qed.
Print Assumptions C63_big_modulus_refuted.

Example C63_ex : pow_mod (NFix 7) (NFix 1000003) (NFix 998244353) = Ok (NFix 152081375) /\
  pow_mod (NFix (-7)) (NFix 3) (NFix 10) = Ok (NFix 7) /\
  pow_mod (NFix 7) (NFix 3) (NFix (-10)) = Ok (NFix (-7)).
Proof. vm_compute. repeat split; reflexivity. Qed.

(** ** C64: Integer#floor, #ceil, #truncate, #round with digits *)

(** Missing: digit counts of -2^32 and below, see C64_wrap_refuted. *)
Theorem C64_floor_partial : forall self d, - 2 ^ 32 < d < 0 ->
  exists r, returns (int_floor self (NFix d)) r /\ is_floor_to (10 ^ (- d)) (ival self) r.
Proof.
  intros self d H. eexists. split; [exact (round_with_ok _ self d H)|].
  apply floor_spec, Z.pow_pos_nonneg; lia.
Qed.
Print Assumptions C64_floor_partial.

Theorem C64_ceil_partial : forall self d, - 2 ^ 32 < d < 0 ->
  exists r, returns (int_ceil self (NFix d)) r /\ is_ceil_to (10 ^ (- d)) (ival self) r.
Proof.
  intros self d H. eexists. split; [exact (round_with_ok _ self d H)|].
  apply ceil_spec, Z.pow_pos_nonneg; lia.
Qed.
Print Assumptions C64_ceil_partial.

Theorem C64_truncate_partial : forall self d, - 2 ^ 32 < d < 0 ->
  exists r, returns (int_truncate self (NFix d)) r /\ is_trunc_to (10 ^ (- d)) (ival self) r.
Proof.
  intros self d H. eexists. split; [exact (round_with_ok _ self d H)|].
  apply trunc_spec, Z.pow_pos_nonneg; lia.
Qed.
Print Assumptions C64_truncate_partial.

Theorem C64_keep : forall f self d, 0 <= d -> round_with f self (NFix d) = Ok self.
Proof. exact keep. Qed.
Print Assumptions C64_keep.

Theorem C64_wrap_refuted : exists self d r, canonical self /\ d < 0 /\
  int_floor self (NFix d) = Ok self /\ is_floor_to (10 ^ (- d)) (ival self) r /\ r <> ival self.
Proof. exact floor_wrap_bad. Qed.
Print Assumptions C64_wrap_refuted.

Theorem C64_round_partial : forall self d h, - 0x40000000 <= d < 0 ->
  exists r, returns (int_round self (NFix d) h) r /\ is_round_to h (10 ^ (- d)) (ival self) r.
Proof. exact int_round_ok. Qed.
Print Assumptions C64_round_partial.

Example C64_ex : int_floor (NFix (-123)) (NFix (-2)) = Ok (NFix (-200)) /\
  int_ceil (NFix (-123)) (NFix (-2)) = Ok (NFix (-100)) /\
  int_round (NFix 25) (NFix (-1)) HEven = Ok (NFix 20) /\
  int_round (NFix (-25)) (NFix (-1)) HUp = Ok (NFix (-30)) /\
  int_round (NFix 25) (NFix (-1)) HDown = Ok (NFix 20).
Proof. vm_compute. repeat split; reflexivity. Qed.

(** ** C65: gcd, lcm, digits, sqrt, bit_length, ceildiv, remainder *)

Theorem C65_bit_length : forall self, canonical self -> is_bit_length (ival self) (bit_length self).
Proof. exact bit_length_ok. Qed.
Print Assumptions C65_bit_length.

(** Enough turns of the loop are [2 * log2 |b| + 3]. *)
Theorem C65_gcd : forall a b, ruby_gcd (gcd_fuel b) a b = Some (Z.gcd a b).
Proof. exact ruby_gcd_ok. Qed.
Print Assumptions C65_gcd.

Theorem C65_lcm : forall a b, ruby_lcm (gcd_fuel b) a b = Some (Z.lcm a b).
Proof. exact ruby_lcm_ok. Qed.
Print Assumptions C65_lcm.

Theorem C65_digits : forall n base, 0 <= n -> 2 <= base ->
  exists ds, ruby_digits (digits_fuel n) n base = Ok (Some ds) /\ is_digits base n ds.
Proof. exact ruby_digits_ok. Qed.
Print Assumptions C65_digits.

Theorem C65_sqrt : forall n, 0 <= n ->
  exists r, ruby_sqrt (sqrt_fuel n) n = Ok (Some r) /\ is_isqrt n r.
Proof. exact ruby_sqrt_ok. Qed.
Print Assumptions C65_sqrt.

Theorem C65_ceildiv : forall a b, b <> 0 ->
  exists q, ruby_ceildiv a b = Ok q /\ (0 < b -> (q - 1) * b < a <= q * b) /\
            (b < 0 -> q * b <= a < (q - 1) * b).
Proof. exact ruby_ceildiv_ok. Qed.
Print Assumptions C65_ceildiv.

Theorem C65_remainder : forall a b, b <> 0 -> ruby_remainder a b = Ok (Z.rem a b).
Proof. exact ruby_remainder_ok. Qed.
Print Assumptions C65_remainder.

Example C65_ex : ruby_gcd (gcd_fuel 462) (-1071) 462 = Some 21 /\
  ruby_lcm (gcd_fuel 6) (-4) 6 = Some 12 /\
  ruby_digits (digits_fuel 1234) 1234 100 = Ok (Some [34; 12]) /\
  ruby_sqrt (sqrt_fuel (10 ^ 40 - 1)) (10 ^ 40 - 1) = Ok (Some (10 ^ 20 - 1)) /\
  bit_length (NFix (-256)) = 8 /\ bit_length (NBig (2 ^ 64)) = 65 /\
  ruby_ceildiv 7 (-2) = Ok (-3) /\ ruby_remainder (-7) 3 = Ok (-1).
Proof. vm_compute. repeat split; reflexivity. Qed.
