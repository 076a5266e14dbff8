(** Model of printing and parsing Integers.
    Sources: /repo/monoruby/src/builtins/numeric/integer.rs:1809-1883
    ([to_s], [format_integer_base], [format_bigint_base]),
    /repo/monoruby/src/builtins/string.rs:5326-5396, 5475-5570 ([to_i],
    [strip_sign], [strip_int_prefix], [parse_int_value], [parse_i64],
    [parse_bigint]) and /repo/monoruby/src/builtins/kernel.rs:2068-2190
    ([parse_kernel_integer], [detect_base], [is_digit_for_base]), 2007-2024
    (Float arguments of [Integer()]).

    A string is the list of its Unicode scalar values; only valid UTF-8 is
    modelled ([expect_str] and [check_utf8] refuse the rest).  The digit and
    sign tests of [parse_kernel_integer] look at UTF-8 bytes; a non-ASCII
    character has no ASCII byte, so looking at characters is the same. *)
From Coq Require Import ZArith Bool List.
From Verif Require Import IntModel ImModel.
Import ListNotations.
Open Scope Z_scope.

Definition c_plus := 43. Definition c_minus := 45. Definition c_us := 95.

(** [char::is_whitespace] (Unicode White_Space), used by [trim]. *)
Definition is_ws (c : Z) : bool :=
  ((9 <=? c) && (c <=? 13)) || (c =? 32) || (c =? 133) || (c =? 160) || (c =? 5760)
  || ((8192 <=? c) && (c <=? 8202)) || (c =? 8232) || (c =? 8233) || (c =? 8239)
  || (c =? 8287) || (c =? 12288).
(** [char::is_ascii_whitespace]: no vertical tab. *)
Definition is_ascii_ws (c : Z) : bool :=
  (c =? 9) || (c =? 10) || (c =? 12) || (c =? 13) || (c =? 32).

Fixpoint skip_while (p : Z -> bool) (s : list Z) : list Z :=
  match s with
  | [] => []
  | c :: s' => if p c then skip_while p s' else s
  end.

(** [char::to_digit], radix 2..36. *)
Definition to_digit (radix c : Z) : option Z :=
  let d := if (48 <=? c) && (c <=? 57) then c - 48
           else if (97 <=? c) && (c <=? 122) then c - 87
           else if (65 <=? c) && (c <=? 90) then c - 55
           else 99 in
  if d <? radix then Some d else None.

(** ** to_s *)

(** integer.rs: [DIGITS]. *)
Definition digit_char (d : Z) : Z := if d <? 10 then 48 + d else 87 + d.
(** integer.rs:1854-1867, 1869-1883: the same loop on u128 and on BigInt;
    Rust's own decimal formatting (base 10) is taken to do the same.  The
    fuel never runs out (IstrProofs.fmt_loop_ok). *)
Fixpoint fmt_loop (fuel : nat) (n base : Z) : list Z :=
  match fuel with
  | O => []
  | S fuel => if n <=? 0 then [] else digit_char (Z.rem n base) :: fmt_loop fuel (Z.quot n base) base
  end.
Definition fmt_base (n base : Z) : list Z :=
  if n =? 0 then [48] else rev (fmt_loop (Z.to_nat (Z.log2 n + 1)) n base).
(** integer.rs:1809-1851. *)
Definition int_to_s (self base : num) : res (list Z) :=
  bind (to_i64 base) (fun b =>
  if negb ((2 <=? b) && (b <=? 36)) then Err ArgErr
  else let v := ival self in
       let s := fmt_base (Z.abs v) b in
       Ok (if v <? 0 then c_minus :: s else s)).

(** ** String#to_i *)

(** string.rs:5356-5364. *)
Definition strip_sign (s : list Z) : list Z * bool :=
  match s with
  | c :: s' => if c =? c_minus then (s', true) else if c =? c_plus then (s', false) else (s, false)
  | [] => (s, false)
  end.

(** [strip_prefix] of the two spellings of a two-letter prefix [0x]. *)
Definition strip_0 (lo up : Z) (s : list Z) : option (list Z) :=
  match s with
  | z :: c :: s' => if (z =? 48) && ((c =? lo) || (c =? up)) then Some s' else None
  | _ => None
  end.

(** string.rs:5372-5396. *)
Definition strip_int_prefix (s : list Z) (radix : Z) : list Z * Z :=
  let try lo up base := if (radix =? 0) || (radix =? base) then strip_0 lo up s else None in
  match try 120 88 16 with Some r => (r, 16) | None =>
  match try 98 66 2 with Some r => (r, 2) | None =>
  match try 100 68 10 with Some r => (r, 10) | None =>
  match try 111 79 8 with Some r => (r, 8) | None =>
  if radix =? 0 then
    match s with
    | z :: c :: _ => if (z =? 48) && ((48 <=? c) && (c <=? 57)) then (s, 8) else (s, 10)
    | _ => (s, 10)
    end
  else (s, radix)
  end end end end.

(** string.rs:5496-5532 [parse_i64] from the first non-blank character on;
    [None] is the overflow exit of [checked_mul]/[checked_add].  [sg] is the
    local [sign]. *)
Fixpoint parse_i64_loop (radix : Z) (s : list Z) (i : Z) (sg : option bool) (us : bool) : option (Z * option bool) :=
  match s with
  | [] => Some (i, sg)
  | c :: s' =>
      if us && (c =? c_us) then parse_i64_loop radix s' i sg false
      else
        let digit sg :=
          match to_digit radix c with
          | None => Some (i, sg)
          | Some d =>
              match checked (i * radix) with
              | None => None
              | Some m => match checked (m + d) with
                          | None => None
                          | Some i' => parse_i64_loop radix s' i' sg true
                          end
              end
          end in
        match sg with
        | None => if c =? c_minus then parse_i64_loop radix s' i (Some true) false
                  else if c =? c_plus then parse_i64_loop radix s' i (Some false) false
                  else digit (Some false)
        | Some _ => digit sg
        end
  end.
(** string.rs:5534-5570 [parse_bigint]. *)
Fixpoint parse_big_loop (radix : Z) (s : list Z) (i : Z) (sg : option bool) (us : bool) : Z * option bool :=
  match s with
  | [] => (i, sg)
  | c :: s' =>
      if us && (c =? c_us) then parse_big_loop radix s' i sg false
      else
        let digit sg :=
          match to_digit radix c with
          | None => (i, sg)
          | Some d => parse_big_loop radix s' (i * radix + d) sg true
          end in
        match sg with
        | None => if c =? c_minus then parse_big_loop radix s' i (Some true) false
                  else if c =? c_plus then parse_big_loop radix s' i (Some false) false
                  else digit (Some false)
        | Some _ => digit sg
        end
  end.
Definition parse_bigint (s : list Z) (radix : Z) : Z :=
  let '(i, sg) := parse_big_loop radix (skip_while is_ascii_ws s) 0 None false in
  match sg with Some true => - i | _ => i end.

(** string.rs:5475-5494: the sign found by [parse_i64] is dropped. *)
Definition parse_int_value (s : list Z) (radix : Z) (negative : bool) : num :=
  match parse_i64_loop radix (skip_while is_ascii_ws s) 0 None false with
  | Some (i, _) => if negative then
                     match checked (- i) with Some j => value_integer j | None => value_bigint (- i) end
                   else value_integer i
  | None => let v := parse_bigint s radix in value_bigint (if negative then - v else v)
  end.

Definition starts_sign (s : list Z) : bool :=
  match s with c :: _ => (c =? c_plus) || (c =? c_minus) | [] => false end.

(** string.rs:5326-5352. *)
Definition str_to_i (s : list Z) (radix : num) : res num :=
  bind (to_i64 radix) (fun n =>
  if negb (n =? 0) && negb ((2 <=? n) && (n <=? 36)) then Err ArgErr
  else
    let '(s, neg) := strip_sign (skip_while is_ws s) in
    if starts_sign s then Ok (value_integer 0)
    else let '(s, radix) := strip_int_prefix s n in
         if starts_sign s then Ok (value_integer 0)
         else Ok (parse_int_value s radix neg)).

(** ** Kernel#Integer *)

Definition trim (s : list Z) : list Z :=
  rev (skip_while is_ws (rev (skip_while is_ws s))).

(** kernel.rs:2145-2178. *)
Definition prefix_base (s : list Z) : option (Z * list Z) :=
  match s with
  | z :: c :: s' =>
      if z =? 48 then
        if (c =? 120) || (c =? 88) then Some (16, s')
        else if (c =? 98) || (c =? 66) then Some (2, s')
        else if (c =? 111) || (c =? 79) then Some (8, s')
        else if (c =? 100) || (c =? 68) then Some (10, s')
        else None
      else None
  | _ => None
  end.
Definition detect_base (s : list Z) (given : Z) : res (Z * list Z) :=
  match prefix_base s with
  | Some (b, s') => if (given =? 0) || (given =? b) then Ok (b, s') else Err ArgErr
  | None =>
      if given =? 0 then
        match s with
        | z :: ((c :: _) as s') => if (z =? 48) && ((48 <=? c) && (c <=? 57)) then Ok (8, s') else Ok (10, s)
        | _ => Ok (10, s)
        end
      else Ok (given, s)
  end.

(** kernel.rs:2113-2133: collects the digits ([acc_str]), an underscore only
    after a digit and not last. *)
Fixpoint collect (base : Z) (s : list Z) (prev : bool) : option (list Z) :=
  match s with
  | [] => Some []
  | c :: s' =>
      if c =? c_us then
        if negb prev || match s' with [] => true | _ => false end then None
        else collect base s' false
      else match to_digit base c with
           | None => None
           | Some d => option_map (cons d) (collect base s' true)
           end
  end.

(** [i64::from_str_radix] and [BigInt::parse_bytes] on digits. *)
Definition be_value (base : Z) (ds : list Z) : Z := fold_left (fun a d => a * base + d) ds 0.

(** kernel.rs:2074-2142 [parse_kernel_integer]. *)
Definition kernel_integer (s : list Z) (given : Z) : res num :=
  match trim s with
  | [] => Err ArgErr
  | c :: t =>
      let '(rest, neg) := if c =? c_plus then (t, false)
                          else if c =? c_minus then (t, true) else (c :: t, false) in
      match rest with
      | [] => Err ArgErr
      | _ =>
          bind (detect_base rest given) (fun '(base, digits) =>
          match digits with
          | [] => Err ArgErr
          | _ => match collect base digits false with
                 | None => Err ArgErr
                 | Some [] => Err ArgErr
                 | Some ds =>
                     let n := be_value base ds in
                     Ok (if in_i64 n then value_integer (if neg then wrap64 (- n) else n)
                         else value_bigint (if neg then - n else n))
                 end
          end)
      end
  end.
(** kernel.rs:1972-1984: the base argument. *)
Definition kernel_integer_base (s : list Z) (base : num) : res num :=
  bind (to_i64 base) (fun b =>
  if (b <? 0) || (36 <? b) || (b =? 1) then Err ArgErr else kernel_integer s b).
