(** %a: floats in base 16 (executor/format.rs:365-500). *)
From Coq Require Import List Bool ZArith.
From Verif Require Import FormatModel.
Import ListNotations.
Open Scope Z_scope.

(** {:013x}: the digits of [m] below [16^n]. *)
Fixpoint fixed (n : nat) (m : Z) : list Z := match n with O => [] | S k => m / 16 ^ Z.of_nat k mod 16 :: fixed k m end.
(** Exponent and mantissa of a float that is not zero, not infinite and a number, by the fields of its bits (383-401);
    leading_zeros of 64 bits. *)
Definition leading_zeros (m : Z) : Z := if m <=? 0 then 64 else 63 - Z.log2 m.
Definition normal (raw m : Z) : Z * Z :=
  if raw =? 0 then let shift := leading_zeros m - 12 in (-1022 - shift - 1, (m * 2 ^ (shift + 1)) mod 2 ^ 52)
  else (raw - 1023, m).
(** round_hex_mantissa (456-491): the carry out of the first digit is dropped. *)
Definition round_hex (ds : list Z) (p : nat) : list Z :=
  if 8 <=? nth p ds 0 then fst (plus_one 16 (firstn p ds)) else firstn p ds.
Fixpoint trim_end (l : list Z) : list Z := match l with [] => [] | d :: r => match trim_end r with [] => if d =? 0 then [] else [d] | r => d :: r end end.
(** The digit before the point and those behind (406-452). *)
Definition parts (m : Z) (prec : option Z) : option (Z * list Z) :=
  let ds := fixed 13 m in
  match prec with
  | Some p => if p =? 0 then Some (if 2 ^ 51 <=? m then 2 else 1, [])
              else if 13 <=? p then if 65535 <? p then None else Some (1, ds ++ pad 0 (p - 13))
              else Some (1, round_hex ds (Z.to_nat p))
  | None => Some (1, trim_end ds)
  end.
Definition hex_text (upper : bool) (lead : Z) (ds : list Z) (exp : Z) : text :=
  [48; if upper then 88 else 120] ++ [dchar upper lead] ++ (match ds with [] => [] | _ => 46 :: map (dchar upper) ds end)
  ++ [if upper then 80 else 112] ++ (if 0 <=? exp then [43] else [45]) ++ numeral 10 false (Z.abs exp).
Definition hex_float (raw m : Z) (prec : option Z) (upper : bool) : out :=
  let '(exp, m) := normal raw m in
  match parts m prec with Some (lead, ds) => Ok (hex_text upper lead ds exp) | None => Panic end.
