(** The text of a Float in Marshal data: monoruby/src/builtins/marshal.rs:1271-1375.
    Texts are lists of bytes.  [dtoa] is the dtoa crate's formatter (an oracle).
    [exp_str.parse().unwrap()] on a malformed exponent would panic; here the result
    is then the empty text. *)
From Coq Require Import ZArith List Bool.
Import ListNotations.
Open Scope Z_scope.
Local Notation len l := (Z.of_nat (length l)).

(** [s.find(c)]: what is before and after the first [c]. *)
Fixpoint find_split (c : Z) (l : list Z) : option (list Z * list Z) :=
  match l with
  | [] => None
  | x :: r => if x =? c then Some ([], r) else option_map (fun p => (x :: fst p, snd p)) (find_split c r)
  end.
(** [trim_start_matches('0')], [trim_end_matches('0')]. *)
Fixpoint ltrim (l : list Z) : list Z := match l with 48 :: r => ltrim r | _ => l end.
Definition rtrim (l : list Z) : list Z := rev (ltrim (rev l)).

(** Decimal digits: [num] reads them, [show] is [format!("{}", n)]. *)
Definition num (l : list Z) : Z := fold_left (fun a c => 10 * a + (c - 48)) l 0.
Fixpoint dig (k : nat) (n : Z) : list Z :=
  match k with O => [] | S k => (if n <? 10 then [] else dig k (n / 10)) ++ [48 + n mod 10] end.
Definition show (z : Z) : list Z := if z <? 0 then 45 :: dig 20 (- z) else dig 20 z.
Definition digit (c : Z) : bool := (48 <=? c) && (c <=? 57).
Definition parse_i32 (t : list Z) : option Z :=
  let '(sg, r) := match t with 45 :: r => (-1, r) | 43 :: r => (1, r) | _ => (1, t) end in
  if match r with [] => false | _ => forallb digit r end then
    let z := sg * num r in if (- 2 ^ 31 <=? z) && (z <? 2 ^ 31) then Some z else None
  else None.

(** 1343-1375 [parse_decimal]. *)
Definition list_eqb (a b : list Z) : bool := if list_eq_dec Z.eq_dec a b then true else false.
Definition parse_decimal (s : list Z) : list Z * Z :=
  match find_split 46 s with
  | Some (i, f) =>
      let t := rtrim (i ++ f) in
      if list_eqb t [] || list_eqb t [48] then ([48], 1)
      else (ltrim t, if list_eqb i [48] then - (len f - len (ltrim f)) else len i)
  | None =>
      let t := rtrim s in
      if list_eqb t [] then ([48], 1) else (t, len s)
  end.
(** 1329-1339 [parse_dtoa_output]. *)
Definition parse_dtoa (s : list Z) : option (list Z * Z) :=
  match find_split 101 s with
  | Some (m, x) => option_map (fun e => (fst (parse_decimal m), snd (parse_decimal m) + e)) (parse_i32 x)
  | None => Some (parse_decimal s)
  end.
(** 1271-1321. *)
Definition layout (digits : list Z) (exponent : Z) : list Z :=
  let nd := len digits in
  if (exponent <=? -4) || ((nd <? exponent) && (1 <? exponent)) || ((1 <=? exponent) && (nd <? exponent)) then
    (if nd =? 1 then digits else firstn 1 digits ++ [46] ++ skipn 1 digits) ++ [101] ++ show (exponent - 1)
  else if exponent <=? 0 then [48; 46] ++ repeat 48 (Z.to_nat (- exponent)) ++ digits
  else if nd <=? exponent then digits
  else firstn (Z.to_nat exponent) digits ++ [46] ++ skipn (Z.to_nat exponent) digits.

Section Text.
Variable dtoa : Z -> list Z.
Definition marshal_text (b : Z) : list Z :=
  match parse_dtoa (dtoa (Z.land b 0x7fffffffffffffff)) with
  | None => []
  | Some (d, e) => (if Z.testbit b 63 then [45] else []) ++ layout d e
  end.
End Text.
