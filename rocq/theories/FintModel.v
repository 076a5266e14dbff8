(** Model of the conversions of Floats to Integers and of Float rounding.
    Sources: /repo/monoruby/src/builtins/numeric/float.rs:402-425 ([to_i]),
    593-652 ([floor]), 660-715 ([ceil]), 723-772 ([truncate]), 781-888
    ([round] with digits up to 0), 911-944 ([round_half]);
    builtins/kernel.rs:2007-2024 ([Kernel#Integer] of a Float);
    value/coerce.rs:345-355 ([coerce_f64_to_int]); value.rs:1013-1026
    ([integer_from_f64]); value/numeric.rs:303-351, 664-678 and
    builtins/numeric.rs:79-129 ([divmod] of Floats).

    Floats are SpecFloat's binary64.  f64::floor, ceil, trunc and round are
    the mathematical functions (their results are doubles); they are given as
    Integers, so the sign of a zero result is not represented.
    BigInt::from_f64 and [f as i64] within range are exact.  [powi] is
    compiler-rt's __powidf2.  round with positive digits is not modelled. *)
From Coq Require Import ZArith Bool Floats.SpecFloat.
From Verif Require Import IntModel AseqModel.
Open Scope Z_scope.

Inductive fres (A : Type) := FOk (a : A) | FDomain | FRange | FZeroDiv.
Arguments FOk {A} _. Arguments FDomain {A}. Arguments FRange {A}. Arguments FZeroDiv {A}.

(** A result is an Integer or a Float. *)
Definition fin (f : spec_float) : bool :=
  match f with S754_nan | S754_infinity _ => false | _ => true end.

(** ** The mathematical functions of f64 *)
Definition mant (f : spec_float) : Z :=
  match f with S754_finite s m _ => if s then Zneg m else Zpos m | _ => 0 end.
Definition expo (f : spec_float) : Z := match f with S754_finite _ _ e => e | _ => 0 end.

Definition f_trunc (f : spec_float) : Z :=
  if 0 <=? expo f then mant f * 2 ^ expo f else Z.quot (mant f) (2 ^ (- expo f)).
Definition f_ceil (f : spec_float) : Z :=
  if 0 <=? expo f then mant f * 2 ^ expo f else - ((- mant f) / 2 ^ (- expo f)).
(** f64::round: halves away from zero. *)
Definition f_round (f : spec_float) : Z :=
  if 0 <=? expo f then mant f * 2 ^ expo f
  else let d := 2 ^ (- expo f) in
       Z.sgn (mant f) * ((2 * Z.abs (mant f) + d) / (2 * d)).
(** The sign of [f - f.trunc()], a subtraction that is exact. *)
Definition f_frac_sign (f : spec_float) : Z :=
  if 0 <=? expo f then 0 else Z.sgn (Z.rem (mant f) (2 ^ (- expo f))).

(** f64::powi(10.0, n) for an i32. *)
Fixpoint powi_loop (a r : spec_float) (n : positive) : spec_float :=
  match n with
  | xH => f_mul r a
  | xO n => powi_loop (f_mul a a) r n
  | xI n => powi_loop (f_mul a a) (f_mul r a) n
  end.
Definition powi (n : Z) : spec_float :=
  match n with
  | Z0 => f_of_Z 1
  | Zpos p => powi_loop (f_of_Z 10) (f_of_Z 1) p
  | Zneg p => f_div (f_of_Z 1) (powi_loop (f_of_Z 10) (f_of_Z 1) p)
  end.
Definition as_i32 (u : Z) : Z := (u + 2 ^ 31) mod 2 ^ 32 - 2 ^ 31.
Definition as_u32 (i : Z) : Z := i mod 2 ^ 32.

(** ** To Integer *)

(** coerce.rs:345-355, of an integral double [z]; -2^63 and 2^63 go through
    BigInt. *)
Definition int_of (z : Z) : num :=
  if (- 2 ^ 63 <? z) && (z <? 2 ^ 63) then value_integer z else value_bigint z.
Definition to_i (f : spec_float) : fres num :=
  if fin f then FOk (int_of (f_trunc f)) else FDomain.
(** kernel.rs:2016-2023: [i64::MAX as f64] is 2^63, and [as i64] saturates. *)
Definition kernel_int (f : spec_float) : fres num :=
  if fin f then
    let t := f_trunc f in
    FOk (if (- 2 ^ 63 <=? t) && (t <=? 2 ^ 63) then value_integer (Z.min t I64_MAX)
         else value_bigint t)
  else FDomain.

(** ** Rounding *)

Inductive fval := VInt (n : num) | VFlt (f : spec_float).
Inductive half_mode := HUp | HDown | HEven.

(** float.rs:911-944.  [floor + 0.5] is rounded to a double. *)
Definition round_half (f : spec_float) (h : half_mode) : Z :=
  let floor := f_floor f in
  let ceil := f_ceil f in
  let half_val := f_add (f_of_Z floor) half in
  if negb (SFeqb f half_val) then f_round f
  else match h with
       | HDown => if f_lt f_zero f then floor else ceil
       | HEven => let i := Z.max I64_MIN (Z.min I64_MAX floor) in
                  if Z.rem i 2 =? 0 then floor else ceil
       | HUp => if f_lt f_zero f then ceil else floor
       end.

(** Digits above 0: [(f * mul).floor() / mul]; an infinite or NaN product
    is its own floor. *)
Definition f_via (g : spec_float -> Z) (f : spec_float) : spec_float :=
  if fin f then f_of_Z (g f) else f.
Definition with_digits (g : spec_float -> Z) (f : spec_float) (nd : Z) : fres fval :=
  if nd <? 2 ^ 32 then
    let mul := powi (as_i32 nd) in
    FOk (VFlt (f_div (f_via g (f_mul f mul)) mul))
  else FRange.

(** Digits below 0: the quotient of the truncated Float, corrected. *)
Definition big_digits (f : spec_float) (nd : Z) (adjust : Z -> Z -> Z -> Z) : fres fval :=
  let neg := as_u32 (wrap64 (- nd)) in
  if 308 <? neg then FOk (VInt (value_integer 0))
  else
    let v := f_trunc f in
    let mul := 10 ^ neg in
    FOk (VInt (value_bigint (adjust (Z.quot v mul) (Z.rem v mul) mul * mul))).

Definition rounding (g : spec_float -> Z) (neg : spec_float -> Z -> fres fval) (f : spec_float) (nd : Z)
  : fres fval :=
  if negb (fin f) then (if 0 <? nd then FOk (VFlt f) else FDomain)
  else if nd =? 0 then FOk (VInt (int_of (g f)))
  else if 0 <? nd then with_digits g f nd
  else neg f nd.

Definition floor_adjust (f : spec_float) (q r _mul : Z) : Z :=
  if (r <? 0) || ((r =? 0) && (f_frac_sign f <? 0)) then q - 1 else q.
Definition ceil_adjust (f : spec_float) (q r _mul : Z) : Z :=
  if (0 <? r) || ((r =? 0) && (0 <? f_frac_sign f)) then q + 1 else q.
Definition round_adjust (f : spec_float) (h : half_mode) (q r mul : Z) : Z :=
  let away := if f_le f_zero f then q + 1 else q - 1 in
  let half_mul := Z.quot mul 2 in
  let a := Z.abs r in
  if half_mul <? a then away
  else if a =? half_mul then
    if negb (f_frac_sign f =? 0) then away
    else match h with
         | HDown => q
         | HEven => if Z.rem q 2 =? 0 then q else away
         | HUp => away
         end
  else q.

Definition float_floor := rounding f_floor (fun f nd => big_digits f nd (floor_adjust f)).
Definition float_ceil := rounding f_ceil (fun f nd => big_digits f nd (ceil_adjust f)).

(** float.rs:755-771; value.rs:1015-1026: [integer_from_f64] rounds its
    integral argument, and refuses what is not finite. *)
Definition trunc_neg (f : spec_float) (nd : Z) : fres fval :=
  let nd := wrap64 (- nd) in
  if (0 <=? nd) && (nd <? 2 ^ 32) then
    let mul := powi (as_i32 nd) in
    let g := f_mul (f_via f_trunc (f_div f mul)) mul in
    if fin g then FOk (VInt (value_bigint (f_round g))) else FRange
  else FRange.
Definition float_truncate := rounding f_trunc trunc_neg.

(** Digits up to 0. *)
Definition float_round (f : spec_float) (nd : Z) (h : half_mode) : fres fval :=
  if negb (fin f) then FDomain
  else if nd =? 0 then FOk (VInt (int_of (round_half f h)))
  else big_digits f nd (round_adjust f h).

(** ** divmod of two Floats *)

(** C's fmod, exact. *)
Definition fmod (a b : spec_float) : spec_float :=
  match a, b with
  | S754_nan, _ | _, S754_nan => S754_nan
  | S754_infinity _, _ => S754_nan
  | _, S754_zero _ => S754_nan
  | _, S754_infinity _ => a
  | S754_zero _, _ => a
  | S754_finite s _ _, S754_finite _ _ _ =>
      let e := Z.min (expo a) (expo b) in
      binary_normalize 53 1024
        (Z.rem (mant a * 2 ^ (expo a - e)) (mant b * 2 ^ (expo b - e))) e s
  end.
(** numeric.rs:664-678. *)
Definition sign_neg (f : spec_float) : bool :=
  match f with S754_zero s | S754_infinity s | S754_finite s _ _ => s | S754_nan => false end.
Definition ruby_fmod (a b : spec_float) : spec_float :=
  let r := fmod a b in
  if SFeqb r f_zero then S754_zero (sign_neg a)
  else if (f_lt f_zero a && f_lt b f_zero) || (f_lt a f_zero && f_lt f_zero b) then f_add r b
  else r.
(** [(a / b).floor() as i64] saturates. *)
Definition float_divmod (a b : spec_float) : fres (num * spec_float) :=
  if f_nan a || f_nan b || f_inf a then FDomain
  else if SFeqb b f_zero then FZeroDiv
  else FOk (value_integer (floor_i64 (f_div a b)), ruby_fmod a b).
