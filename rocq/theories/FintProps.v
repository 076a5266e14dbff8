(** C69: Floats to Integers; C70: Float modulo. *)
From Coq Require Import ZArith Bool Floats.SpecFloat.
From Verif Require Import IntModel AseqModel FintModel FintSpec FintProofs FintBadProofs.
Open Scope Z_scope.

(** ** C69 *)

Theorem C69_to_i : forall f, dbl f -> fin f = true -> gives_num (to_i f) (is_trunc f).
Proof. exact to_i_ok. Qed.
Print Assumptions C69_to_i.

Theorem C69_integer_partial : forall f, dbl f -> fin f = true -> ~ is_trunc f (2 ^ 63) -> gives_num (kernel_int f) (is_trunc f).
Proof. exact kernel_int_ok. Qed.
Print Assumptions C69_integer_partial.

Theorem C69_floor : forall f, dbl f -> fin f = true -> gives (float_floor f 0) (floors f 1).
Proof. exact floor0_ok. Qed.
Print Assumptions C69_floor.

Theorem C69_ceil : forall f, dbl f -> fin f = true -> gives (float_ceil f 0) (ceils f 1).
Proof. exact ceil0_ok. Qed.
Print Assumptions C69_ceil.

Theorem C69_truncate_partial : forall f, dbl f -> fin f = true -> gives (float_truncate f 0) (is_trunc f).
Proof. exact trunc0_ok. Qed.
Print Assumptions C69_truncate_partial.

Theorem C69_round : forall f h, dbl f -> fin f = true -> gives (float_round f 0 h) (rounds f 1 h).
Proof. exact round0_ok. Qed.
Print Assumptions C69_round.

Theorem C69_floor_digits_partial : forall f nd, dbl f -> fin f = true -> in_digits nd -> (- 309 < nd \/ 0 <= fx f) ->
  gives (float_floor f nd) (floors f (10 ^ (- nd))).
Proof. exact floor_neg_ok. Qed.
Print Assumptions C69_floor_digits_partial.

Theorem C69_ceil_digits_partial : forall f nd, dbl f -> fin f = true -> in_digits nd -> (- 309 < nd \/ fx f <= 0) ->
  gives (float_ceil f nd) (ceils f (10 ^ (- nd))).
Proof. exact ceil_neg_ok. Qed.
Print Assumptions C69_ceil_digits_partial.

Theorem C69_round_digits_partial : forall f nd h, dbl f -> fin f = true -> in_digits nd ->
  gives (float_round f nd h) (rounds f (10 ^ (- nd)) h).
Proof. exact round_neg_ok. Qed.
Print Assumptions C69_round_digits_partial.

Theorem C69_undefined : forall f, fin f = false -> to_i f = FDomain /\ kernel_int f = FDomain /\
  (forall nd, nd <= 0 -> float_floor f nd = FDomain /\ float_ceil f nd = FDomain /\ float_truncate f nd = FDomain /\
    forall h, float_round f nd h = FDomain) /\
  (forall nd, 0 < nd -> float_floor f nd = FOk (VFlt f) /\ float_ceil f nd = FOk (VFlt f) /\
    float_truncate f nd = FOk (VFlt f)).
Proof. exact undefined_ok. Qed.
Print Assumptions C69_undefined.

Theorem C69_integer_refuted : exists f, dbl f /\ is_trunc f (2 ^ 63) /\ kernel_int f = FOk (NBig (2 ^ 63 - 1)).
Proof. exact kernel_bad. Qed.
Print Assumptions C69_integer_refuted.

Theorem C69_far_refuted : float_floor (f_of_Z (-1)) (-309) = FOk (VInt (NFix 0)) /\ ~ floors (f_of_Z (-1)) (10 ^ 309) 0 /\
  float_ceil (f_of_Z 1) (-309) = FOk (VInt (NFix 0)) /\ ~ ceils (f_of_Z 1) (10 ^ 309) 0.
Proof. exact far_bad. Qed.
Print Assumptions C69_far_refuted.

Theorem C69_wrap_refuted : float_floor (f_of_Z 15) (- 2 ^ 32) = FOk (VInt (NFix 15)) /\
  float_round (f_of_Z 15) (- 2 ^ 32) HUp = FOk (VInt (NFix 16)).
Proof. exact digits_wrap_bad. Qed.
Print Assumptions C69_wrap_refuted.

Theorem C69_digits_refuted : float_floor (f_div (f_of_Z 3) (f_of_Z 2)) 400 = FOk (VFlt S754_nan) /\
  float_ceil (f_div (f_of_Z 3) (f_of_Z 2)) 400 = FOk (VFlt S754_nan) /\
  float_truncate (f_div (f_of_Z 3) (f_of_Z 2)) 400 = FOk (VFlt S754_nan) /\
  float_floor (S754_finite false 6724873095247260 (944)) 20 = FOk (VFlt (S754_infinity false)).
Proof. exact digits_bad. Qed.
Print Assumptions C69_digits_refuted.

Theorem C69_floor_above_refuted : exists f g, dbl f /\ float_floor f 1 = FOk (VFlt g) /\ f_lt f g = true.
Proof. exact floor_above_bad. Qed.
Print Assumptions C69_floor_above_refuted.

Theorem C69_truncate_refuted : exists f, dbl f /\ float_truncate f (-18) = FOk (VInt (NBig 2363000000000000262144)) /\
  is_trunc f 2363999999999999475712 /\ float_truncate (f_of_Z 1) (-400) = FRange.
Proof. exact truncate_bad. Qed.
Print Assumptions C69_truncate_refuted.

Example C69_ex :
  float_round (f_div (f_of_Z (-5)) (f_of_Z 2)) 0 HEven = FOk (VInt (NFix (-2))) /\
  float_floor (f_div (f_of_Z (-31)) (f_of_Z 2)) (-1) = FOk (VInt (NFix (-20))) /\
  to_i (f_of_Z (- 2 ^ 70)) = FOk (NBig (- 2 ^ 70)) /\ dbl (f_div (f_of_Z (-31)) (f_of_Z 2)).
Proof. repeat split; vm_compute; reflexivity. Qed.

(** ** C70 *)

Theorem C70_modulo : forall a b, dbl a -> dbl b -> fin a = true -> fin b = true -> fx b <> 0 ->
  let r := fmod a b in
  fx r = Z.rem (fx a) (fx b) /\
  (fx a mod fx b = fx r -> fx (ruby_fmod a b) = fx a mod fx b) /\
  (fx a mod fx b <> fx r -> ruby_fmod a b = f_add r b /\ fx a mod fx b = fx r + fx b).
Proof. exact modulo_ok. Qed.
Print Assumptions C70_modulo.

Theorem C70_divmod_refuted : (exists r, float_divmod (S754_finite false 6724873095247260 (944)) (f_of_Z 1) = FOk (NBig (2 ^ 63 - 1), r)) /\
  let b := f_div (f_of_Z 1) (f_of_Z 10) in
  exists r, float_divmod (f_of_Z 1) b = FOk (NFix 10, r) /\ 0 < fx r < fx b /\ fx (f_of_Z 1) < 10 * fx b.
Proof. exact divmod_bad. Qed.
Print Assumptions C70_divmod_refuted.

Example C70_ex : ruby_fmod (f_of_Z 7) (f_of_Z (-2)) = f_of_Z (-1) /\ ruby_fmod (f_of_Z 7) (f_of_Z 2) = f_of_Z 1.
Proof. split; vm_compute; reflexivity. Qed.
