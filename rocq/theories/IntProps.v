(** Property theorems C04-C08 (Integer operators). *)
From Coq Require Import ZArith Bool QArith Lia.
From Verif Require Import IntSpec CmpSpec IntModel IntProofs CmpModel CmpProofs.
Open Scope Z_scope.

(** C04: + - * and unary minus compute the exact integer, and the result is
    inline exactly when it fits (whatever the operands' representations). *)
Theorem C04_add_sub_mul_neg_exact : forall a b,
  (ival (add_values a b) = ival a + ival b /\ canonical (add_values a b)) /\
  (ival (sub_values a b) = ival a - ival b /\ canonical (sub_values a b)) /\
  (ival (mul_values a b) = ival a * ival b /\ canonical (mul_values a b)) /\
  (ival (neg_value a) = - ival a /\ canonical (neg_value a)).
Proof.
  exact (fun a b => conj (kind_op_ok Z.add a b) (conj (kind_op_ok Z.sub a b)
    (conj (kind_op_ok Z.mul a b) (neg_value_ok a)))).
Qed.
Print Assumptions C04_add_sub_mul_neg_exact.

Example C04_example :
  add_values (NFix (2 ^ 62 - 1)) (NFix 1) = NBig (2 ^ 62)
  /\ sub_values (NBig (2 ^ 62)) (NFix 1) = NFix (2 ^ 62 - 1)
  /\ mul_values (NFix (2 ^ 40)) (NFix (- 2 ^ 40)) = NBig (- 2 ^ 80)
  /\ neg_value (NFix (- 2 ^ 62)) = NBig (2 ^ 62)
  /\ neg_value (NBig (2 ^ 62)) = NFix (- 2 ^ 62).
Proof. repeat split; reflexivity. Qed.

(** C04 extended to & | ^ and ~ (two's complement on unbounded integers). *)
Theorem C04_bitwise_exact : forall a b,
  (forall i, 0 <= i ->
     Z.testbit (ival (bit_values Z.land a b)) i = Z.testbit (ival a) i && Z.testbit (ival b) i /\
     Z.testbit (ival (bit_values Z.lor a b)) i = Z.testbit (ival a) i || Z.testbit (ival b) i /\
     Z.testbit (ival (bit_values Z.lxor a b)) i = xorb (Z.testbit (ival a) i) (Z.testbit (ival b) i))
  /\ canonical (bit_values Z.land a b) /\ canonical (bit_values Z.lor a b)
  /\ canonical (bit_values Z.lxor a b)
  /\ ival (bitnot_value a) = - ival a - 1 /\ canonical (bitnot_value a).
Proof. exact bitwise_ok. Qed.
Print Assumptions C04_bitwise_exact.

Example C04_bitwise_example :
  bit_values Z.land (NBig (- 2 ^ 70)) (NFix (-1)) = NBig (- 2 ^ 70)
  /\ bit_values Z.lxor (NBig (2 ^ 70 + 5)) (NBig (2 ^ 70)) = NFix 5
  /\ bitnot_value (NBig (2 ^ 62)) = NBig (- 2 ^ 62 - 1).
Proof. repeat split; reflexivity. Qed.

(** C05: / and % either both raise ZeroDivisionError (b = 0) or both return
    the floor quotient and the remainder with the sign of b. *)
Theorem C05_floor_division : forall a b, canonical a -> canonical b ->
  match div_values a b, rem_values a b with
  | Val q, Val r => ival b <> 0 /\ canonical q /\ canonical r
      /\ is_floor_div (ival a) (ival b) (ival q) (ival r)
  | Raise ZeroDivision, Raise ZeroDivision => ival b = 0
  | _, _ => False
  end.
Proof. exact divmod_ok. Qed.
Print Assumptions C05_floor_division.

Example C05_example :
  div_values (NFix (- 2 ^ 62)) (NFix (-1)) = Val (NBig (2 ^ 62))
  /\ rem_values (NFix 7) (NFix (-3)) = Val (NFix (-2))
  /\ div_values (NBig (- 2 ^ 64 - 1)) (NBig (2 ^ 63)) = Val (NFix (-3))
  /\ div_values (NFix 1) (NFix 0) = Raise ZeroDivision.
Proof. repeat split; reflexivity. Qed.

(** C06 is false: an Integer of more than 2^32 bits, shifted right by 2^32
    places, becomes 0.  The witness is built by two left shifts. *)
Theorem C06_shift_refuted : exists k n b a,
  canonical (NFix k) /\ canonical (NFix n) /\
  shl_values (NFix 1) (NFix k) = Val b /\ shl_values b (NFix k) = Val a /\ canonical a /\
  shr_values a (NFix n) = Val (NFix 0) /\ ~ is_floor_shift (ival a) (- n) 0.
Proof. exact shift_refuted. Qed.
Print Assumptions C06_shift_refuted.

(** C06 for all integers of at most 2^32 bits (half a gigabyte) and all
    counts.  Missing for the full statement: larger integers, for which it is
    false.  A left shift is refused only for counts of 2^32 or more. *)
Theorem C06_shift_partial : forall a b,
  canonical a -> canonical b -> bits (ival a) <= 2 ^ 32 ->
  match shl_values a b with
  | Val r => is_floor_shift (ival a) (ival b) (ival r) /\ canonical r
  | Raise ShiftTooBig => ival a <> 0 /\ 2 ^ 32 <= ival b
  | _ => False
  end /\
  match shr_values a b with
  | Val r => is_floor_shift (ival a) (- ival b) (ival r) /\ canonical r
  | Raise ShiftTooBig => ival a <> 0 /\ 2 ^ 32 <= - ival b
  | _ => False
  end.
Proof. exact (fun a b ca cb h => conj (shl_values_ok a b ca cb h) (shr_values_ok a b ca cb h)). Qed.
Print Assumptions C06_shift_partial.

Example C06_example :
  shl_values (NFix 1) (NFix 62) = Val (NBig (2 ^ 62))
  /\ shl_values (NFix (-1)) (NFix 62) = Val (NFix (- 2 ^ 62))
  /\ shr_values (NFix (-5)) (NFix 1) = Val (NFix (-3))
  /\ shr_values (NFix (-5)) (NFix 100) = Val (NFix (-1))
  /\ shr_values (NFix 3) (NFix (-64)) = Val (NBig (3 * 2 ^ 64))
  /\ bits (2 ^ 70) = 71.
Proof. repeat split; reflexivity. Qed.

(** C07 is false: 1 ** (2**31) is refused although it is 1, and
    (2**64) ** -(2**32) answers 1/1. *)
Theorem C07_power_refuted :
  (exists a b, canonical a /\ canonical b /\ ival a = 1 /\
     pow_values a b = Raise ExponentTooLarge) /\
  (exists a b p, canonical a /\ canonical b /\ pow_values a b = Val p /\
     ~ is_power (ival a) (ival b) (pres_num p) (pres_den p)).
Proof. exact power_refuted. Qed.
Print Assumptions C07_power_refuted.

(** C07 elsewhere.  Missing for the full statement: bases 0, 1, -1 with
    exponents outside 32 bits but inside 63 (refused), big bases with
    exponents of -2^32 or less (wrong), bases of more than 2^34 bits.
    A refusal implies |a|^|n| >= 2^(2^31). *)
Theorem C07_power_partial : forall a b, canonical a -> canonical b ->
  (2 <= Z.abs (ival a) \/ in_i32 (ival b) = true \/ ~ fits_i63 (ival b) = true) ->
  (fits_i63 (ival a) = true \/ - 2 ^ 32 < ival b) ->
  bits (ival a) <= 2 ^ 34 ->
  match pow_values a b with
  | Val p => is_power (ival a) (ival b) (pres_num p) (pres_den p) /\ pres_normal p
  | Raise ZeroDivision => ival a = 0 /\ ival b < 0
  | Raise ExponentTooLarge =>
      exists m k, 2 ^ 31 <= k * m /\ 2 ^ k <= Z.abs (ival a) /\ 0 <= k /\ m = Z.abs (ival b)
  | _ => False
  end.
Proof. exact pow_values_ok. Qed.
Print Assumptions C07_power_partial.

Example C07_example :
  pow_values (NFix 3) (NFix 50) = Val (PInt (NBig (3 ^ 50)))
  /\ pow_values (NFix (-2)) (NFix 61) = Val (PInt (NFix (- 2 ^ 61)))
  /\ pow_values (NFix (-2)) (NFix (-3)) = Val (PRat (-1) 8)
  /\ pow_values (NFix 0) (NFix (-1)) = Raise ZeroDivision
  /\ pow_values (NFix 2) (NFix (2 ^ 40)) = Raise ExponentTooLarge.
Proof. repeat split; reflexivity. Qed.

(** C08 is false: 2^53 + 1 == 2.0**53 and 2.0**53 == 2^53, so == between
    Integer and Float is neither exact nor transitive. *)
Theorem C08_comparison_refuted : exists n n' m e,
  canonical n /\ canonical n' /\ is_double m e /\
  int_op_float Ceq n (FFin m e) = true /\ exact_cmp (ival n) m e = Gt /\
  float_op_int Ceq (FFin m e) n' = true /\ ival n <> ival n'.
Proof. exact cmp_refuted. Qed.
Print Assumptions C08_comparison_refuted.

(** C08 for every big Integer and every small one up to 2^53 in magnitude,
    against every finite double, in both operand orders. *)
Theorem C08_comparison_partial : forall o n m e,
  match n with NFix z => Z.abs z <= 2 ^ 53 | NBig _ => True end ->
  (int_op_float o n (FFin m e) = true <-> cop_holds o (exact_cmp (ival n) m e)) /\
  (float_op_int o (FFin m e) n = true <-> cop_holds o (CompOpp (exact_cmp (ival n) m e))).
Proof. exact ops_exact. Qed.
Print Assumptions C08_comparison_partial.

(** C08 for all Integers: a strict < or > answered true is always right. *)
Theorem C08_strict_sound_partial : forall n m e, is_double m e ->
  (int_op_float Clt n (FFin m e) = true -> exact_cmp (ival n) m e = Lt) /\
  (int_op_float Cgt n (FFin m e) = true -> exact_cmp (ival n) m e = Gt).
Proof. exact strict_sound. Qed.
Print Assumptions C08_strict_sound_partial.

(** C08 for the infinities (above, or below, every Integer) and NaN (never
    equal, less or greater). *)
Theorem C08_nonfinite : forall o n,
  (int_op_float o n FNaN = false /\ float_op_int o FNaN n = false) /\
  (int_op_float o n (FInf false) = true <-> cop_holds o Lt) /\
  (float_op_int o (FInf false) n = true <-> cop_holds o Gt) /\
  (int_op_float o n (FInf true) = true <-> cop_holds o Gt) /\
  (float_op_int o (FInf true) n = true <-> cop_holds o Lt).
Proof. exact cmp_nonfinite. Qed.
Print Assumptions C08_nonfinite.

Example C08_example :
  int_op_float Clt (NBig (2 ^ 70)) (FFin (2 ^ 52 + 1) 18) = true
  /\ int_op_float Ceq (NFix 3) (FFin 7 (-1)) = false
  /\ float_op_int Cgt (FFin 7 (-1)) (NFix 3) = true
  /\ exact_cmp 3 7 (-1) = Lt.
Proof. repeat split; reflexivity. Qed.
