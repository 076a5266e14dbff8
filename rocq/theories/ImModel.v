(** Model of Integer methods beyond the operators.
    Sources: /repo/monoruby/src/builtins/numeric/integer.rs ([index], [pow],
    [int_floor], [int_ceil], [int_truncate], [int_round], [size],
    [bit_length]), /repo/monoruby/src/executor/op.rs:1003-1200
    ([integer_index1]), /repo/monoruby/src/codegen/arch/x86_64/compile/
    binary_op.rs:776-782 ([gen_bit_index_imm]) and
    /repo/monoruby/builtins/integer.rb ([gcd], [lcm], [sqrt], [digits],
    [ceildiv], [remainder]).

    [BigInt] is [Z] with exact operations; running out of memory on huge
    shifts and powers is not modelled.  i64 operations wrap and i64 shift
    counts are taken modulo 64, as in release builds.  Arguments are already
    Integer objects: the [to_int] protocol is not modelled. *)
From Coq Require Import ZArith Bool List.
From Verif Require Import IntModel.
Import ListNotations.
Open Scope Z_scope.

Inductive ierr := RangeErr | ZeroDiv | ArgErr | DomainErr.
Inductive res (A : Type) := Ok (a : A) | Err (e : ierr).
Arguments Ok {A} _. Arguments Err {A} _.

Definition bind {A B} (r : res A) (k : A -> res B) : res B :=
  match r with Ok a => k a | Err e => Err e end.

(** coerce.rs:117-138 [coerce_to_int_i64] on an Integer. *)
Definition to_i64 (n : num) : res Z :=
  match n with
  | NFix i => Ok i
  | NBig b => if in_i64 b then Ok b else Err RangeErr
  end.

(** i64 [<<] and [>>]: release builds mask the count. *)
Definition i64_shl (a k : Z) : Z := wrap64 (Z.shiftl a (k mod 64)).
Definition i64_shr (a k : Z) : Z := Z.shiftr a (k mod 64).
(** [(-n) as usize] as the count of a [BigInt] shift. *)
Definition neg_usize (n : Z) : Z := wrap64 (- n) mod 2 ^ 64.

(** ** Integer#[] *)

(** op.rs:1166-1199 [integer_index1] with an Integer argument. *)
Definition index_bit (self idx : num) : num :=
  match self, idx with
  | NFix base, NFix i =>
      value_integer (if i <? 0 then 0
                     else if 63 <? i then (if base <? 0 then 1 else 0)
                     else Z.land (i64_shr base i) 1)
  | NFix _, NBig _ => value_integer 0
  | NBig base, NFix i =>
      if i <? 0 then value_integer 0 else value_bigint (Z.land (Z.shiftr base i) 1)
  | NBig _, NBig _ => value_integer 0
  end.

(** integer.rs:1344-1368 (and op.rs:1081-1106, 1120-1137): all the bits from
    [nth] on. *)
Definition index_from (self : num) (nth : Z) : num :=
  match self with
  | NFix base =>
      if 0 <=? nth then
        if 64 <=? nth then value_integer (if base <? 0 then -1 else 0)
        else value_integer (i64_shr base nth)
      else value_bigint (Z.shiftl base (neg_usize nth))
  | NBig base =>
      if 0 <=? nth then value_bigint (Z.shiftr base nth)
      else value_bigint (Z.shiftl base (neg_usize nth))
  end.

(** [BigInt::bits]. *)
Definition big_bits (z : Z) : Z := if z =? 0 then 0 else Z.log2 (Z.abs z) + 1.

(** integer.rs:1369-1413: [self[nth, len]]. *)
Definition index_len_i64 (self : num) (nth len : Z) : num :=
  if len <? 0 then index_from self nth
  else match self with
  | NFix base =>
      if nth <? 0 then
        let shifted := Z.shiftl base (neg_usize nth) in
        let mask := if 64 <=? len then Z.shiftl 1 len - 1
                    else wrap64 (i64_shl 1 len - 1) in
        value_bigint (Z.land shifted mask)
      else
        let shifted := if 64 <=? nth then (if base <? 0 then -1 else 0)
                       else i64_shr base nth in
        let mask := if 64 <=? len then -1 else wrap64 (i64_shl 1 len - 1) in
        value_integer (Z.land shifted mask)
  | NBig base =>
      let shifted := if 0 <=? nth then Z.shiftr base nth
                     else Z.shiftl base (neg_usize nth) in
      if big_bits shifted + 1 <? len then
        if 0 <=? shifted then value_bigint shifted
        else value_bigint (Z.land shifted (Z.shiftl 1 len - 1))
      else value_bigint (Z.land shifted (Z.shiftl 1 len - 1))
  end.

(** integer.rs:1337-1343: both arguments go through [coerce_to_int_i64]. *)
Definition index_len (self nth len : num) : res num :=
  bind (to_i64 nth) (fun i => bind (to_i64 len) (fun l => Ok (index_len_i64 self i l))).

(** op.rs:1041-1078: [self[..e]] and [self[...e]]. *)
Definition index_beginless (self : num) (e : Z) (excl : bool) : res num :=
  let e := if excl then e else wrap64 (e + 1) in
  let extracted :=
    match self with
    | NFix b => if e <=? 0 then 0
                else if 64 <=? e then b
                else Z.land b (wrap64 (i64_shl 1 e - 1))
    | NBig b => if e <=? 0 then 0
                else let r := Z.land b (Z.shiftl 1 e - 1) in
                     if in_i64 r then r else 1
    end in
  if extracted =? 0 then Ok (value_integer 0) else Err ArgErr.

(** op.rs:1108-1165: [self[s..e]] and [self[s...e]]. *)
Definition index_span (self : num) (s e_raw : Z) (excl : bool) : num :=
  let e := if excl then e_raw else wrap64 (e_raw + 1) in
  let width := wrap64 (e - s) in
  if e_raw <? s then index_from self s
  else
    let big (base : Z) :=
      let shifted := if 0 <=? s then Z.shiftr base s else Z.shiftl base (neg_usize s) in
      if (big_bits shifted + 1 <? width) && (0 <=? shifted) then value_bigint shifted
      else value_bigint (Z.land shifted (Z.shiftl 1 (width mod 2 ^ 64) - 1)) in
    match self with
    | NFix base =>
        if width <? 64 then
          value_integer (Z.land (if 0 <=? s then i64_shr base s else i64_shl base (- s))
                                (wrap64 (i64_shl 1 width - 1)))
        else big base
    | NBig base => big base
    end.

(** op.rs:1010-1165: a Range argument with optional Integer endpoints. *)
Definition index_range (self : num) (s e : option num) (excl : bool) : res num :=
  match s, e with
  | None, None => Err ArgErr   (* nil does not convert: TypeError, not modelled further *)
  | None, Some e => bind (to_i64 e) (fun e => index_beginless self e excl)
  | Some s, None => bind (to_i64 s) (fun s => Ok (index_from self s))
  | Some s, Some e =>
      bind (to_i64 s) (fun s => bind (to_i64 e) (fun e => Ok (index_span self s e excl)))
  end.

(** binary_op.rs:776-782 [gen_bit_index_imm], as called by
    integer.rs:1284-1323 for a literal [nth >= 0]: the register holds the
    tagged fixnum, [sar] by min(nth, 63), [and 2], [or 1]. *)
Definition jit_bit_index (tagged nth : Z) : Z :=
  Z.lor (Z.land (Z.shiftr tagged (Z.min nth 63)) 2) 1.
(** integer.rs:1308-1315: both literal, folded at compile time. *)
Definition jit_bit_fold (base nth : Z) : Z :=
  if nth <? 0 then 0 else Z.land (i64_shr base (Z.min nth 63)) 1.

(** ** Integer#pow(exp, mod) *)

(** integer.rs:1567-1573: the square-and-multiply loop; [e] shrinks by one
    binary digit per turn, so it is structural on the binary numeral. *)
Fixpoint pow_loop (base result m : Z) (e : positive) : Z :=
  match e with
  | xH => Z.rem (result * base) m
  | xO e => pow_loop (Z.rem (base * base) m) result m e
  | xI e => pow_loop (Z.rem (base * base) m) (Z.rem (result * base) m) m e
  end.

(** integer.rs:1546-1584. *)
Definition pow_mod (self e m : num) : res num :=
  bind (to_i64 e) (fun e =>
  if e <? 0 then Err RangeErr else
  bind (to_i64 m) (fun m =>
  if m =? 0 then Err ZeroDiv else
    let mb := wrap64 (Z.abs m) in
    let base := Z.rem (ival self) mb in
    let result := match e with Zpos p => pow_loop base 1 mb p | _ => 1 end in
    let result := if result <? 0 then result + mb else result in
    let result := if (m <? 0) && (0 <? result) then result - mb else result in
    Ok (value_bigint result))).

(** ** Integer#floor, #ceil, #truncate, #round *)

(** [(-ndigits) as u32]. *)
Definition neg_u32 (d : Z) : Z := wrap64 (- d) mod 2 ^ 32.
(** integer.rs:1600-1602. *)
Definition pow10 (n : Z) : Z := 10 ^ n.

(** integer.rs:1611-1627, 1635-1650, 1658-1679; num's [div_floor], [div_ceil]
    and [div_rem]. *)
Definition div_ceil (a b : Z) : Z := - ((- a) / b).
Definition round_with (f : Z -> Z -> Z) (self nd : num) : res num :=
  bind (to_i64 nd) (fun nd =>
  if 0 <=? nd then Ok self
  else let d := pow10 (neg_u32 nd) in Ok (value_bigint (f (ival self) d * d))).
Definition int_floor := round_with Z.div.
Definition int_ceil := round_with div_ceil.
Definition int_truncate := round_with Z.quot.

Inductive half := HUp | HDown | HEven.

(** integer.rs:1687-1745 [int_round]; [half] defaults to up. *)
Definition int_round (self nd : num) (h : half) : res num :=
  bind (to_i64 nd) (fun nd =>
  if (0x3FFFFFFF <? nd) || (nd <? - 0x40000000) then Err RangeErr
  else if 0 <=? nd then Ok self
  else
    let d := pow10 (neg_u32 nd) in
    let v := ival self in
    let is_neg := v <? 0 in
    let a := if is_neg then - v else v in
    let quot := Z.quot a d in
    let rem := Z.rem a d in
    let half_d := Z.quot d 2 in
    let rq := if half_d <? rem then quot + 1
              else if rem <? half_d then quot
              else match h with
                   | HDown => quot
                   | HEven => if Z.rem quot 2 =? 0 then quot else quot + 1
                   | HUp => quot + 1
                   end in
    let r := rq * d in
    Ok (value_bigint (if is_neg then - r else r))).

(** ** Integer#bit_length, #size *)

(** [u64::leading_zeros]. *)
Definition leading_zeros64 (n : Z) : Z := if n =? 0 then 64 else 63 - Z.log2 n.
(** integer.rs:1776-1801; [!(i as u64)]. *)
Definition bit_length (self : num) : Z :=
  match self with
  | NFix i => 64 - leading_zeros64 (if i <? 0 then 2 ^ 64 - 1 - i mod 2 ^ 64 else i)
  | NBig b => big_bits (if b <? 0 then - b - 1 else b)
  end.

(** ** integer.rb: gcd, lcm, digits, sqrt, ceildiv, remainder *)

(** The Ruby code runs on the Integer operators proved exact in C04-C06, so
    these are on [Z]; [/] and [%] floor. *)
Fixpoint gcd_loop (fuel : nat) (a b : Z) : option Z :=
  match fuel with
  | O => None
  | S fuel => if b =? 0 then Some a else gcd_loop fuel b (a mod b)
  end.
(** integer.rb:151-161: [while b != 0; a, b = b, a % b; end]. *)
Definition ruby_gcd (fuel : nat) (a b : Z) : option Z := gcd_loop fuel (Z.abs a) (Z.abs b).
(** integer.rb:163-169. *)
Definition ruby_lcm (fuel : nat) (a b : Z) : option Z :=
  if (a =? 0) || (b =? 0) then Some 0
  else match ruby_gcd fuel a b with
       | Some g => Some (Z.abs (a / g * b))
       | None => None
       end.

(** integer.rb:326-344. *)
Fixpoint digits_loop (fuel : nat) (n base : Z) : option (list Z) :=
  if n <=? 0 then Some []
  else match fuel with
       | O => None
       | S fuel => option_map (cons (n mod base)) (digits_loop fuel (n / base) base)
       end.
Definition ruby_digits (fuel : nat) (n base : Z) : res (option (list Z)) :=
  if n <? 0 then Err DomainErr
  else if base <? 2 then Err ArgErr
  else if n =? 0 then Ok (Some [0])
  else Ok (digits_loop fuel n base).

(** integer.rb:249-270: Newton's iteration. *)
Fixpoint sqrt_loop (fuel : nat) (n x : Z) : option Z :=
  match fuel with
  | O => None
  | S fuel => let y := (x + n / x) / 2 in
              if x <=? y then Some x else sqrt_loop fuel n y
  end.
Definition ruby_sqrt (fuel : nat) (n : Z) : res (option Z) :=
  if n <? 0 then Err DomainErr
  else if n =? 0 then Ok (Some 0)
  else Ok (sqrt_loop fuel n (Z.shiftl 1 ((bit_length (value_bigint n) + 1) / 2))).

(** integer.rb:91-93, 95-102. *)
Definition ruby_ceildiv (a b : Z) : res Z :=
  if b =? 0 then Err ZeroDiv else Ok (- ((- a) / b)).
Definition ruby_remainder (a b : Z) : res Z :=
  if b =? 0 then Err ZeroDiv
  else let r := a mod b in
       Ok (if negb (r =? 0) && negb (Bool.eqb (a <? 0) (b <? 0)) then r - b else r).
