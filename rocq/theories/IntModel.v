(** Model of Integer arithmetic in the interpreter's generic path.
    Sources: /repo/monoruby/src/value.rs (constructors),
    /repo/monoruby/src/value/numeric.rs ([RealKind] operators),
    /repo/monoruby/src/executor/op/binary_ops.rs, executor/op.rs.

    num-bigint's [BigInt] is modelled as [Z] with exact operations; its [/]
    and [%] truncate ([Z.quot]/[Z.rem]), its [>>] floors.  Rust i64 operators
    are modelled as release-mode wrapping operations. *)
From Coq Require Import ZArith Bool.
Open Scope Z_scope.

Definition I64_MIN : Z := - 2 ^ 63.
Definition I64_MAX : Z := 2 ^ 63 - 1.
Definition in_i64 (z : Z) : bool := (I64_MIN <=? z) && (z <=? I64_MAX).
(** Release-mode wrapping of an i64 operation. *)
Definition wrap64 (z : Z) : Z := (z + 2 ^ 63) mod 2 ^ 64 - 2 ^ 63.

(** An Integer object: inline fixnum or heap bignum. *)
Inductive num := NFix (z : Z) | NBig (z : Z).

(** value.rs:962-965, characterised in ValueProofs.is_i63_iff. *)
Definition fits_i63 (z : Z) : bool := (- 2 ^ 62 <=? z) && (z <? 2 ^ 62).

(** value.rs:997-1003 [Value::integer] (argument is an i64). *)
Definition value_integer (z : Z) : num := if fits_i63 z then NFix z else NBig z.
(** value.rs:1058-1064 [Value::bigint]. *)
Definition value_bigint (z : Z) : num := if in_i64 z then value_integer z else NBig z.

(** numeric.rs:226-230 [RealKind], Float arm dropped (Integer operands). *)
Inductive kind := KInt (z : Z) | KBig (z : Z).
(** numeric.rs:360-368 [RealKind::try_from]. *)
Definition kind_of (n : num) : kind :=
  match n with NFix z => KInt z | NBig z => KBig z end.
(** numeric.rs:263-271 [From<RealKind> for Value]. *)
Definition num_of (k : kind) : num :=
  match k with KInt z => value_integer z | KBig z => value_bigint z end.

(** [i64::checked_add] and friends. *)
Definition checked (z : Z) : option Z := if in_i64 z then Some z else None.

(** numeric.rs:383-424 [binops!]. *)
Definition kind_op (f : Z -> Z -> Z) (a b : kind) : kind :=
  match a, b with
  | KInt a, KInt b =>
      match checked (f a b) with Some c => KInt c | None => KBig (f a b) end
  | KInt a, KBig b => KBig (f a b)
  | KBig a, KInt b => KBig (f a b)
  | KBig a, KBig b => KBig (f a b)
  end.

(** binary_ops.rs:179-290 [add_values_raw], [sub_values_raw], [mul_values_raw],
    Integer/Integer arm. *)
Definition add_values (a b : num) : num := num_of (kind_op Z.add (kind_of a) (kind_of b)).
Definition sub_values (a b : num) : num := num_of (kind_op Z.sub (kind_of a) (kind_of b)).
Definition mul_values (a b : num) : num := num_of (kind_op Z.mul (kind_of a) (kind_of b)).

(** op.rs:859-871 [neg_value_raw]. *)
Definition neg_value (a : num) : num :=
  match a with
  | NFix z => match checked (- z) with
              | Some z' => value_integer z'
              | None => value_bigint (- z)
              end
  | NBig z => value_bigint (- z)
  end.

(** op.rs:987-1000 [bitnot_value_raw]; i64 [!] is two's complement. *)
Definition bitnot_value (a : num) : num :=
  match a with NFix z => value_integer (Z.lnot z) | NBig z => value_bigint (Z.lnot z) end.

(** binary_ops.rs:592-645 [int_binop_values!]. *)
Definition bit_values (f : Z -> Z -> Z) (a b : num) : num :=
  match a, b with
  | NFix x, NFix y => value_integer (f x y)
  | NFix x, NBig y => value_bigint (f x y)
  | NBig x, NFix y => value_bigint (f x y)
  | NBig x, NBig y => value_bigint (f x y)
  end.

(** Rust's i64 [/] and [%]: panic on zero and on MIN / -1. *)
Definition i64_div (a b : Z) : option Z :=
  if (b =? 0) || ((a =? I64_MIN) && (b =? -1)) then None else Some (Z.quot a b).
Definition i64_rem (a b : Z) : option Z :=
  if (b =? 0) || ((a =? I64_MIN) && (b =? -1)) then None else Some (Z.rem a b).

Inductive err := ZeroDivision | ExponentTooLarge | ShiftTooBig.
(** Outcome of an operator: a value, a Ruby exception, or a Rust panic. *)
Inductive outcome (A : Type) := Val (a : A) | Raise (e : err) | Panic.
Arguments Val {A} _. Arguments Raise {A} _. Arguments Panic {A}.

Definition of_opt {A B} (o : option A) (k : A -> outcome B) : outcome B :=
  match o with Some a => k a | None => Panic end.

(** numeric.rs:603-616 [RubyDiv for i64]. *)
Definition ruby_div_i64 (a b : Z) : option Z :=
  if (0 <? a) && (b <? 0) then
    option_map (fun q => wrap64 (q - 1)) (i64_div (wrap64 (a - 1)) b)
  else if (a <? 0) && (0 <? b) then
    option_map (fun q => wrap64 (q - 1)) (i64_div (wrap64 (a + 1)) b)
  else i64_div a b.

(** numeric.rs:627-640 [RubyDiv for BigInt]. *)
Definition ruby_div_big (a b : Z) : Z :=
  if (0 <? a) && (b <? 0) then Z.quot (a - 1) b - 1
  else if (a <? 0) && (0 <? b) then Z.quot (a + 1) b - 1
  else Z.quot a b.

(** numeric.rs:647-660 [RubyMod for i64]. *)
Definition ruby_mod_i64 (a b : Z) : option Z :=
  if (0 <? a) && (b <? 0) then
    option_map (fun r => wrap64 (wrap64 (r + b) + 1)) (i64_rem (wrap64 (a - 1)) b)
  else if (a <? 0) && (0 <? b) then
    option_map (fun r => wrap64 (wrap64 (r + b) - 1)) (i64_rem (wrap64 (a + 1)) b)
  else i64_rem a b.

(** numeric.rs:678-691 [RubyMod for BigInt]. *)
Definition ruby_mod_big (a b : Z) : Z :=
  if (0 <? a) && (b <? 0) then Z.rem (a - 1) b + b + 1
  else if (a <? 0) && (0 <? b) then Z.rem (a + 1) b + b - 1
  else Z.rem a b.

(** numeric.rs:371-377 [check_zero_div]. *)
Definition check_zero_div (k : kind) : bool :=
  match k with KInt z => z =? 0 | KBig z => z =? 0 end.

(** binary_ops.rs:331-365 [div_values_raw] with numeric.rs:430-449. *)
Definition div_values (a b : num) : outcome num :=
  let ka := kind_of a in let kb := kind_of b in
  if check_zero_div kb then Raise ZeroDivision
  else match ka, kb with
       | KInt x, KInt y => of_opt (ruby_div_i64 x y) (fun q => Val (num_of (KInt q)))
       | KInt x, KBig y => Val (num_of (KBig (ruby_div_big x y)))
       | KBig x, KInt y => Val (num_of (KBig (ruby_div_big x y)))
       | KBig x, KBig y => Val (num_of (KBig (ruby_div_big x y)))
       end.

(** binary_ops.rs:369-420 [rem_values_raw] with numeric.rs:452-474. *)
Definition rem_values (a b : num) : outcome num :=
  let ka := kind_of a in let kb := kind_of b in
  if check_zero_div kb then Raise ZeroDivision
  else match ka, kb with
       | KInt x, KInt y => of_opt (ruby_mod_i64 x y) (fun q => Val (num_of (KInt q)))
       | KInt x, KBig y => Val (num_of (KBig (ruby_mod_big x y)))
       | KBig x, KInt y => Val (num_of (KBig (ruby_mod_big x y)))
       | KBig x, KBig y => Val (num_of (KBig (ruby_mod_big x y)))
       end.

Definition U32_MAX : Z := 2 ^ 32 - 1.

(** binary_ops.rs:812-821 [safe_int_shr]. *)
Definition safe_int_shr (a n : Z) : num :=
  if 64 <=? n then value_integer (if 0 <=? a then 0 else -1)
  else value_integer (Z.shiftr a n).

(** binary_ops.rs:823-846 [safe_int_shl]; [wrapping_shl]/[wrapping_shr] on i64
    for shift counts below 64. *)
Definition safe_int_shl (a n : Z) : outcome num :=
  if U32_MAX <? n then
    if a =? 0 then Val (value_integer 0) else Raise ShiftTooBig
  else
    let res := wrap64 (Z.shiftl a n) in
    if (n <? 64) && (Z.shiftr res n =? a) then Val (value_integer res)
    else Val (value_bigint (Z.shiftl a n)).

(** binary_ops.rs:848-854 [safe_bigint_shr]. *)
Definition safe_bigint_shr (a n : Z) : num :=
  if U32_MAX <? n then value_integer (if a <? 0 then -1 else 0)
  else value_bigint (Z.shiftr a n).

(** binary_ops.rs:856-867 [safe_bigint_shl]. *)
Definition safe_bigint_shl (a n : Z) : outcome num :=
  if U32_MAX <? n then
    if a =? 0 then Val (value_integer 0) else Raise ShiftTooBig
  else Val (value_bigint (Z.shiftl a n)).

(** binary_ops.rs:742-795 [shl_values_raw], Integer arms.  [(-rhs) as u64] of
    a fixnum never wraps. *)
Definition shl_values (a b : num) : outcome num :=
  match a, b with
  | NFix x, NFix n => if 0 <=? n then safe_int_shl x n else Val (safe_int_shr x (- n))
  | NBig x, NFix n => if 0 <=? n then safe_bigint_shl x n else Val (safe_bigint_shr x (- n))
  | NFix x, NBig n =>
      if 0 <? n then if x =? 0 then Val (value_integer 0) else Raise ShiftTooBig
      else Val (value_integer (if 0 <=? x then 0 else -1))
  | NBig x, NBig n =>
      if 0 <? n then if x =? 0 then Val (value_integer 0) else Raise ShiftTooBig
      else Val (value_integer (if x <? 0 then -1 else 0))
  end.

(** binary_ops.rs:655-707 [shr_values_raw], Integer arms. *)
Definition shr_values (a b : num) : outcome num :=
  match a, b with
  | NFix x, NFix n => if 0 <=? n then Val (safe_int_shr x n) else safe_int_shl x (- n)
  | NBig x, NFix n => if 0 <=? n then Val (safe_bigint_shr x n) else safe_bigint_shl x (- n)
  | NFix x, NBig n =>
      if 0 <? n then Val (value_integer (if 0 <=? x then 0 else -1))
      else if x =? 0 then Val (value_integer 0) else Raise ShiftTooBig
  | NBig x, NBig n =>
      if 0 <? n then Val (value_integer (if x <? 0 then -1 else 0))
      else if x =? 0 then Val (value_integer 0) else Raise ShiftTooBig
  end.

(** Result of [**]: an Integer, or a Rational 1/d. *)
Inductive pres := PInt (n : num) | PRat (num den : Z).

(** binary_ops.rs:422-432. *)
Definition BIGLEN_LIMIT : Z := 2 ^ 34.
Definition check_pow_limit (base_bits exp : Z) : bool :=
  (base_bits <=? BIGLEN_LIMIT) && (exp <=? BIGLEN_LIMIT)
  && (base_bits * exp <? 2 ^ 64) && (base_bits * exp <=? BIGLEN_LIMIT).

(** [64 - |z|.leading_zeros()] = [BigInt::bits]: bit length of the magnitude. *)
Definition bits (z : Z) : Z := if z =? 0 then 0 else Z.log2 (Z.abs z) + 1.

(** Rational(num, den) for [value.rs:1068] [Value::rational]: gcd 1, positive
    denominator.  Here the numerator is 1, so only the sign moves. *)
Definition rational_one (d : Z) : pres := if d <? 0 then PRat (-1) (- d) else PRat 1 d.

Definition in_i32 (z : Z) : bool := (- 2 ^ 31 <=? z) && (z <? 2 ^ 31).

(** binary_ops.rs:434-468 [pow_ii].  [checked_pow] of std returns the exact
    power when it fits i64.  [-rhs] of i32::MIN wraps to the same u32 value
    2^31 in release builds. *)
Definition pow_ii (a n : Z) : outcome pres :=
  if in_i32 n then
    if n <? 0 then
      if a =? 0 then Raise ZeroDivision
      else if a =? 1 then Val (PInt (value_integer 1))
      else if a =? -1 then Val (PInt (value_integer (if Z.odd (- n) then -1 else 1)))
      else Val (rational_one (a ^ (- n)))
    else
      match checked (a ^ n) with
      | Some r => Val (PInt (value_integer r))
      | None =>
          if check_pow_limit (bits a) n then Val (PInt (value_bigint (a ^ n)))
          else Raise ExponentTooLarge
      end
  else Raise ExponentTooLarge.

(** binary_ops.rs:495-566 [pow_values_raw], Integer arms. *)
Definition pow_values (a b : num) : outcome pres :=
  match a, b with
  | NFix x, NFix n => pow_ii x n
  | NFix x, NBig n =>
      if x =? 1 then Val (PInt (value_integer 1))
      else if x =? -1 then Val (PInt (value_integer (if Z.odd n then -1 else 1)))
      else if x =? 0 then
        if 0 <? n then Val (PInt (value_integer 0)) else Raise ZeroDivision
      else Raise ExponentTooLarge
  | NBig x, NFix n =>
      if n <? 0 then
        if x =? 0 then Raise ZeroDivision
        else if x =? 1 then Val (PInt (value_integer 1))
        else if x =? -1 then Val (PInt (value_integer (if Z.odd (- n) then -1 else 1)))
        else Val (rational_one (x ^ ((- n) mod 2 ^ 32)))
      else if check_pow_limit (bits x) n then
             if n <=? U32_MAX then Val (PInt (value_bigint (x ^ n)))
             else Raise ExponentTooLarge
           else Raise ExponentTooLarge
  | NBig x, NBig n =>
      if x =? 1 then Val (PInt (value_integer 1))
      else if x =? -1 then Val (PInt (value_integer (if Z.odd n then -1 else 1)))
      else if x =? 0 then
        if 0 <? n then Val (PInt (value_integer 0)) else Raise ZeroDivision
      else Raise ExponentTooLarge
  end.

(** The integer an object denotes. *)
Definition ival (n : num) : Z := match n with NFix z => z | NBig z => z end.
(** Representation invariant: small integers are always inline. *)
Definition canonical (n : num) : Prop :=
  match n with
  | NFix z => - 2 ^ 62 <= z < 2 ^ 62
  | NBig z => ~ (- 2 ^ 62 <= z < 2 ^ 62)
  end.
