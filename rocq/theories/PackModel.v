(** * Array#pack and String#unpack (/repo/monoruby/src/value/rvalue/string/pack.rs)

    Bytes and characters are integers.  The byte iterator (57-110) is the string and the
    position; decoders get the rest of the string and return what they leave.  [option]
    stands for Result, with [None] for any exception.

    Not here: conversions of arguments that are not of the directive's own class (to_int,
    to_str, to_f), packing of F32, p and P, the buffer: keyword, encodings of the result. *)

From Coq Require Import ZArith Bool List.
Import ListNotations.
Local Open Scope Z_scope.

(** ** Templates *)

(** 15-49; the integer directives 20-27 by signedness and size. *)
Inductive template :=
| Ascii | AsciiTrim | CString | BitString | Hex
| IntOf (signed : bool) (size : nat)
| F32 | F64 | Utf8 | Null | Back | AtPos
| Base64 | QuotedPrintable | UuEncoded | BerCompressedInt
| Pointer | PointerFixed | UlebUnsigned | SlebSigned | Offset.

(** 4-12 ([big]: Endianness::Big). *)
Record node := Node { tmpl : template; big : bool; repeat : option Z; explicit : bool }.

(** 1171-1222. *)
Definition directive (ch : Z) : option (template * bool) :=
  match ch with
  | 97 => Some (Ascii, false) | 65 => Some (AsciiTrim, false) | 90 => Some (CString, false)
  | 98 => Some (BitString, false) | 66 => Some (BitString, true)
  | 104 => Some (Hex, false) | 72 => Some (Hex, true)
  | 99 => Some (IntOf true 1, false) | 67 => Some (IntOf false 1, false)
  | 115 => Some (IntOf true 2, false) | 83 => Some (IntOf false 2, false)
  | 105 => Some (IntOf true 4, false) | 73 => Some (IntOf false 4, false)
  | 108 => Some (IntOf true 4, false) | 76 => Some (IntOf false 4, false)
  | 113 => Some (IntOf true 8, false) | 81 => Some (IntOf false 8, false)
  | 106 => Some (IntOf true 8, false) | 74 => Some (IntOf false 8, false)
  | 118 => Some (IntOf false 2, false) | 86 => Some (IntOf false 4, false)
  | 110 => Some (IntOf false 2, true) | 78 => Some (IntOf false 4, true)
  | 100 | 68 => Some (F64, false)
  | 102 | 70 => Some (F32, false)
  | 101 => Some (F32, false) | 69 => Some (F64, false)
  | 103 => Some (F32, true) | 71 => Some (F64, true)
  | 85 => Some (Utf8, false)
  | 120 => Some (Null, false) | 88 => Some (Back, false) | 64 => Some (AtPos, false)
  | 109 => Some (Base64, false) | 77 => Some (QuotedPrintable, false) | 117 => Some (UuEncoded, false)
  | 119 => Some (BerCompressedInt, false)
  | 112 => Some (Pointer, false) | 80 => Some (PointerFixed, false)
  | 82 => Some (UlebUnsigned, false) | 114 => Some (SlebSigned, false)
  | 94 => Some (Offset, false)
  | _ => None
  end.

Definition mem (c : Z) (l : list Z) : bool := existsb (Z.eqb c) l.
(** 1156: blanks; 1250: sSiIlLqQjJ; 1262: those and nNvVdDeEfFgG. *)
Definition blanks : list Z := [32; 9; 10; 11; 12; 13].
Definition native_ok : list Z := [115; 83; 105; 73; 108; 76; 113; 81; 106; 74].
Definition endian_ok : list Z :=
  native_ok ++ [110; 78; 118; 86; 100; 68; 101; 69; 102; 70; 103; 71].

(** 1160-1168. *)
Fixpoint skip_comment (l : list Z) : list Z :=
  match l with [] => [] | c :: r => if c =? 10 then r else skip_comment r end.

(** 1223-1247: the modifiers; what is left, the endianness, whether there was a native and
    an endian modifier. *)
Fixpoint modifiers (l : list Z) (bg native em : bool) : list Z * bool * bool * bool :=
  match l with
  | c :: r =>
      if (c =? 33) || (c =? 95) then modifiers r bg true em
      else if c =? 62 then modifiers r true native true
      else if c =? 60 then modifiers r false native true
      else (l, bg, native, em)
  | [] => (l, bg, native, em)
  end.

Definition is_digit (c : Z) : bool := (48 <=? c) && (c <=? 57).
Definition i64_max : Z := 2 ^ 63 - 1.
(** 1308-1314. *)
Fixpoint digits (l : list Z) (count : Z) : option (Z * list Z) :=
  match l with
  | c :: r =>
      if is_digit c then
        if count * 10 + (c - 48) <=? i64_max then digits r (count * 10 + (c - 48)) else None
      else Some (count, l)
  | [] => Some (count, [])
  end.

(** 1150-1330 parse_template; every turn takes at least one character. *)
Fixpoint parse (fuel : nat) (l : list Z) : option (list node) :=
  match fuel with
  | O => None
  | S f =>
      match l with
      | [] => Some []
      | ch :: r =>
          if mem ch blanks then parse f r
          else if ch =? 35 then parse f (skip_comment r)
          else
            match directive ch with
            | None => None
            | Some (t0, bg0) =>
                match modifiers r bg0 false false with
                | (r1, bg, native, em) =>
                    if native && negb (mem ch native_ok) then None
                    else if em && negb (mem ch endian_ok) then None
                    else
                      let t := if native && (ch =? 108) then IntOf true 8
                               else if native && (ch =? 76) then IntOf false 8 else t0 in
                      match r1 with
                      | c :: r2 =>
                          if c =? 42 then
                            option_map (cons (Node t bg None true)) (parse f r2)
                          else if is_digit c then
                            match digits r2 (c - 48) with
                            | Some (n, r3) => option_map (cons (Node t bg (Some n) true)) (parse f r3)
                            | None => None
                            end
                          else option_map (cons (Node t bg (Some 1) false)) (parse f r1)
                      | [] => option_map (cons (Node t bg (Some 1) false)) (parse f r1)
                      end
                end
            end
      end
  end.
Definition parse_template (l : list Z) : option (list node) := parse (S (length l)) l.

(** ** Values: Integer, Float (its bits), String, nil *)
Inductive val := VInt (z : Z) | VFlt (bits : Z) | VStr (b : list Z) | VNil.

(** ** Numbers as bytes *)

Definition u8 (x : Z) : Z := x mod 256.
Definition u64 (x : Z) : Z := x mod 2 ^ 64.
(** `x as iN`. *)
Definition wrap_s (bits x : Z) : Z :=
  let r := x mod 2 ^ bits in if r <? 2 ^ (bits - 1) then r else r - 2 ^ bits.
Definition i64 (x : Z) : Z := wrap_s 64 x.

(** to_le_bytes, to_be_bytes, from_ne_bytes, from_be_bytes. *)
Fixpoint le_bytes (size : nat) (x : Z) : list Z :=
  match size with O => [] | S k => u8 x :: le_bytes k (x / 256) end.
Fixpoint of_le (l : list Z) : Z := match l with [] => 0 | b :: r => b + 256 * of_le r end.
Definition to_bytes (bg : bool) (size : nat) (x : Z) : list Z :=
  if bg then rev (le_bytes size x) else le_bytes size x.
Definition of_bytes (bg : bool) (l : list Z) : Z := if bg then of_le (rev l) else of_le l.

(** coerce.rs:142 coerce_to_pack_u64 of an Integer: a Fixnum as u64, or the lowest digit of
    the magnitude, negated if the number is. *)
Definition is_fixnum (z : Z) : bool := (- 2 ^ 62 <=? z) && (z <? 2 ^ 62).
Definition pack_u64 (z : Z) : Z :=
  if is_fixnum z then u64 z
  else let low := Z.abs z mod 2 ^ 64 in if z <? 0 then u64 (- i64 low) else low.

(** `i as $type` and then to_be_bytes or to_le_bytes (614-629). *)
Definition int_bytes (bg : bool) (size : nat) (z : Z) : list Z :=
  to_bytes bg size (pack_u64 z mod 2 ^ (8 * Z.of_nat size)).
(** 128-160; 8 bytes unsigned: Value::integer_from_u64. *)
Definition int_value (signed bg : bool) (size : nat) (l : list Z) : Z :=
  let x := of_bytes bg l in if signed then wrap_s (8 * Z.of_nat size) x else x.

(** ** Base64 (1429-1520) *)

Definition base64_chars : list Z :=
  [65; 66; 67; 68; 69; 70; 71; 72; 73; 74; 75; 76; 77; 78; 79; 80; 81; 82; 83; 84; 85; 86; 87; 88; 89; 90;
   97; 98; 99; 100; 101; 102; 103; 104; 105; 106; 107; 108; 109; 110; 111; 112; 113; 114; 115; 116; 117; 118;
   119; 120; 121; 122; 48; 49; 50; 51; 52; 53; 54; 55; 56; 57; 43; 47].
Definition b64 (v : Z) : Z := nth (Z.to_nat v) base64_chars 0.

(** chunk[0] << 16 | chunk[1] << 8 | chunk[2], zero for what is missing. *)
Definition triple (b0 b1 b2 : Z) : Z :=
  Z.lor (Z.lor (Z.shiftl b0 16) (Z.shiftl b1 8)) b2.
Definition sextet (t k : Z) : Z := Z.land (Z.shiftr t k) 63.

(** data.chunks(n), for n >= 1. *)
Fixpoint chunks (fuel n : nat) (l : list Z) : list (list Z) :=
  match fuel, l with
  | S f, _ :: _ => firstn n l :: chunks f n (skipn n l)
  | _, _ => []
  end.

Definition b64_group (chunk : list Z) : list Z :=
  let t := triple (nth 0 chunk 0) (nth 1 chunk 0) (nth 2 chunk 0) in
  [b64 (sextet t 18); b64 (sextet t 12);
   if Nat.ltb 1 (length chunk) then b64 (sextet t 6) else 61;
   if Nat.ltb 2 (length chunk) then b64 (sextet t 0) else 61].
Definition chars_per_line (line_len : Z) : Z :=
  if line_len =? 0 then 0 else line_len / 3 * 4 + (if line_len mod 3 =? 0 then 0 else 4).
Fixpoint b64_lines (cpl col : Z) (cs : list (list Z)) : list Z :=
  match cs with
  | [] => if (0 <? cpl) && (0 <? col) then [10] else []
  | c :: r =>
      let col' := col + 4 in
      if (0 <? cpl) && (cpl <=? col') then b64_group c ++ 10 :: b64_lines cpl 0 r
      else b64_group c ++ b64_lines cpl col' r
  end.
Definition base64_encode (data : list Z) (line_len : Z) : list Z :=
  b64_lines (chars_per_line line_len) 0 (chunks (length data) 3 data).

Definition base64_decode_char (c : Z) : option Z :=
  if (65 <=? c) && (c <=? 90) then Some (c - 65)
  else if (97 <=? c) && (c <=? 122) then Some (c - 97 + 26)
  else if (48 <=? c) && (c <=? 57) then Some (c - 48 + 52)
  else if c =? 43 then Some 62
  else if c =? 47 then Some 63
  else None.

(** 1482-1520: [buf] is buf[..buf_len]. *)
Definition b64_flush (buf : list Z) (pad : Z) : list Z :=
  let t := Z.lor (Z.lor (Z.lor (Z.shiftl (nth 0 buf 0) 18) (Z.shiftl (nth 1 buf 0) 12))
                    (Z.shiftl (nth 2 buf 0) 6)) (nth 3 buf 0) in
  u8 (Z.shiftr t 16) :: (if pad <? 2 then [u8 (Z.shiftr t 8)] else []) ++ (if pad <? 1 then [u8 t] else []).
Fixpoint b64_decode (l buf : list Z) (pad : Z) : list Z :=
  match l with
  | [] => []
  | c :: r =>
      let go v pad' :=
        let buf' := buf ++ [v] in
        if Nat.eqb (length buf') 4 then b64_flush buf' pad' ++ b64_decode r [] 0
        else b64_decode r buf' pad' in
      if c =? 61 then go 0 (pad + 1)
      else match base64_decode_char c with
      | Some v => go v 0
      | None => b64_decode r buf pad
      end
  end.
Definition base64_decode (data : list Z) : list Z := b64_decode data [] 0.

(** ** Quoted-printable (1524-1626) *)

(** {:X} of a nibble. *)
Definition hex_digit (n : Z) : Z := if n <? 10 then 48 + n else 55 + n.
Definition qp_plain (b : Z) : bool :=
  (b =? 9) || (b =? 32) || ((33 <=? b) && (b <=? 126) && negb (b =? 61)).
(** [last]: the last byte of result (0 if there is none). *)
Fixpoint qp_loop (data : list Z) (limit col last : Z) : list Z :=
  match data with
  | [] => if last =? 10 then [] else [61; 10]
  | b :: r =>
      if b =? 10 then
        (if (0 <? col) && ((last =? 9) || (last =? 32)) then [61; 10] else [])
        ++ 10 :: qp_loop r limit 0 10
      else
        let soft := limit <? col in
        let col1 := if soft then 0 else col in
        (if soft then [61; 10] else []) ++
        (if qp_plain b then b :: qp_loop r limit (col1 + 1) b
         else 61 :: hex_digit (b / 16) :: hex_digit (b mod 16)
                 :: qp_loop r limit (col1 + 3) (hex_digit (b mod 16)))
  end.
Definition qp_encode (data : list Z) (line_len : Z) : list Z :=
  match data with
  | [] => []
  | _ => qp_loop data (if 1 <? line_len then line_len else 72) 0 0
  end.

Definition hex_val (c : Z) : option Z :=
  if (48 <=? c) && (c <=? 57) then Some (c - 48)
  else if (65 <=? c) && (c <=? 70) then Some (c - 65 + 10)
  else if (97 <=? c) && (c <=? 102) then Some (c - 97 + 10)
  else None.
Fixpoint qp_dec (fuel : nat) (l : list Z) : list Z :=
  match fuel with
  | O => []
  | S f =>
      match l with
      | [] => []
      | c :: r =>
          if c =? 61 then
            match r with
            | x :: y :: r2 =>
                if x =? 10 then qp_dec f (y :: r2)
                else if (x =? 13) && (y =? 10) then qp_dec f r2
                else match hex_val x, hex_val y with
                | Some h, Some d => Z.lor (u8 (Z.shiftl h 4)) d :: qp_dec f r2
                | _, _ => c :: qp_dec f r
                end
            | [x] => if x =? 10 then qp_dec f [] else c :: qp_dec f r
            | [] => c :: qp_dec f r
            end
          else c :: qp_dec f r
      end
  end.
Definition qp_decode (data : list Z) : list Z := qp_dec (S (length data)) data.

(** ** Uuencode (1630-1737) *)

Definition uu_char (v : Z) : Z := if v =? 0 then 96 else u8 v + 32.
Definition uu_group (chunk : list Z) : list Z :=
  let t := triple (nth 0 chunk 0) (nth 1 chunk 0) (nth 2 chunk 0) in
  [uu_char (sextet t 18); uu_char (sextet t 12); uu_char (sextet t 6); uu_char (sextet t 0)].
Definition uu_line (chunk : list Z) : list Z :=
  u8 (Z.of_nat (length chunk) + 32) :: flat_map uu_group (chunks (length chunk) 3 chunk) ++ [10].
Definition bytes_per_line (line_len : Z) : Z :=
  if line_len =? 0 then 45 else Z.min line_len 45 / 3 * 3.
Definition uu_encode (data : list Z) (line_len : Z) : list Z :=
  flat_map uu_line (chunks (length data) (Z.to_nat (bytes_per_line line_len)) data).

(** data.split(|&b| b == b'\n'). *)
Fixpoint split_lines (l cur : list Z) : list (list Z) :=
  match l with
  | [] => [cur]
  | c :: r => if c =? 10 then cur :: split_lines r [] else split_lines r (cur ++ [c])
  end.
Definition uu_decode_char (c : Z) : Z :=
  if c =? 96 then 0 else if 32 <=? c then Z.land (c - 32) 63 else 0.
Fixpoint uu_groups (l : list Z) : list Z :=
  match l with
  | a :: b :: c :: d :: r =>
      let v := Z.lor (Z.lor (Z.lor (Z.shiftl (uu_decode_char a) 18) (Z.shiftl (uu_decode_char b) 12))
                 (Z.shiftl (uu_decode_char c) 6)) (uu_decode_char d) in
      u8 (Z.shiftr v 16) :: u8 (Z.shiftr v 8) :: u8 v :: uu_groups r
  | _ => []
  end.
Definition uu_decode_line (line : list Z) : list Z :=
  match line with
  | [] => []
  | len :: r =>
      if 32 <=? len then
        if len - 32 =? 0 then [] else firstn (Z.to_nat (len - 32)) (uu_groups r)
      else []
  end.
Definition uu_decode (data : list Z) : list Z := flat_map uu_decode_line (split_lines data []).

(** ** ULEB128, SLEB128 (1745-1862) *)

(** Ten turns are enough for 64 bits. *)
Fixpoint uleb (fuel : nat) (v : Z) : list Z :=
  match fuel with
  | O => []
  | S f =>
      let byte := Z.land v 127 in
      let v' := Z.shiftr v 7 in
      if v' =? 0 then [byte] else Z.lor byte 128 :: uleb f v'
  end.
Definition encode_uleb128 (v : Z) : list Z := uleb 10 v.
Fixpoint sleb (fuel : nat) (v : Z) : list Z :=
  match fuel with
  | O => []
  | S f =>
      let byte := Z.land v 127 in
      let v' := Z.shiftr v 7 in
      let sign := negb (Z.land byte 64 =? 0) in
      if ((v' =? 0) && negb sign) || ((v' =? -1) && sign) then [byte]
      else Z.lor byte 128 :: sleb f v'
  end.
Definition encode_sleb128 (v : Z) : list Z := sleb 10 v.

Inductive outcome := Value (v : Z) (rest : list Z) | Incomplete | End.

(** [shift] is a u32; every byte adds 7. *)
Fixpoint uleb_loop (l : list Z) (result shift : Z) : outcome :=
  match l with
  | [] => Incomplete
  | byte :: r =>
      let payload := Z.land byte 127 in
      let result' := if shift <? 64 then Z.lor result (u64 (Z.shiftl payload shift)) else result in
      if Z.land byte 128 =? 0 then Value result' r
      else uleb_loop r result' ((shift + 7) mod 2 ^ 32)
  end.
Definition unpack_uleb128 (l : list Z) : outcome :=
  match l with [] => End | _ => uleb_loop l 0 0 end.

Fixpoint sleb_loop (l : list Z) (result shift : Z) : outcome :=
  match l with
  | [] => Incomplete
  | byte :: r =>
      let payload := Z.land byte 127 in
      let result' := if shift <? 64 then Z.lor result (i64 (Z.shiftl payload shift)) else result in
      let shift' := (shift + 7) mod 2 ^ 32 in
      if Z.land byte 128 =? 0 then
        Value (if (shift' <? 64) && negb (Z.land byte 64 =? 0) then Z.lor result' (i64 (Z.shiftl (-1) shift'))
               else result') r
      else sleb_loop r result' shift'
  end.
Definition unpack_sleb128 (l : list Z) : outcome :=
  match l with [] => End | _ => sleb_loop l 0 0 end.

(** ** BER (1866-1925, 1962-1975) *)

(** The groups above the lowest, lowest first. *)
Fixpoint ber_high (fuel : nat) (v : Z) : list Z :=
  match fuel with
  | O => []
  | S f => if v =? 0 then [] else Z.lor (Z.land v 127) 128 :: ber_high f (Z.shiftr v 7)
  end.
Definition ber_bytes (v : Z) : list Z :=
  rev (Z.land v 127 :: ber_high (S (Z.to_nat (Z.log2 v))) (Z.shiftr v 7)).
(** A big Integer, or a small one (1907: zero apart); negative numbers raise. *)
Definition ber_encode_value (z : Z) : option (list Z) :=
  if z <? 0 then None
  else if is_fixnum z then if z =? 0 then Some [0] else Some (ber_bytes z)
  else Some (ber_bytes z).

Fixpoint ber_decode (l : list Z) (v : Z) : option (Z * list Z) :=
  match l with
  | [] => None
  | byte :: r =>
      let v' := Z.lor (u64 (Z.shiftl v 7)) (Z.land byte 127) in
      if Z.land byte 128 =? 0 then Some (i64 v', r) else ber_decode r v'
  end.

(** ** UTF-8 (1927-2010) *)

Definition tail6 (cp k : Z) : Z := Z.lor 128 (Z.land (Z.shiftr cp k) 63).
Definition utf8_encode_one (cp : Z) : list Z :=
  if cp <=? 127 then [u8 cp]
  else if cp <=? 2047 then [u8 (Z.lor 192 (Z.shiftr cp 6)); tail6 cp 0]
  else if cp <=? 65535 then [u8 (Z.lor 224 (Z.shiftr cp 12)); tail6 cp 6; tail6 cp 0]
  else if cp <=? 2097151 then [u8 (Z.lor 240 (Z.shiftr cp 18)); tail6 cp 12; tail6 cp 6; tail6 cp 0]
  else if cp <=? 67108863 then
    [u8 (Z.lor 248 (Z.shiftr cp 24)); tail6 cp 18; tail6 cp 12; tail6 cp 6; tail6 cp 0]
  else [u8 (Z.lor 252 (Z.shiftr cp 30)); tail6 cp 24; tail6 cp 18; tail6 cp 12; tail6 cp 6; tail6 cp 0].
(** coerce_to_int_i64 of an Integer raises beyond 64 bits. *)
Definition utf8_encode_value (z : Z) : option (list Z) :=
  if (0 <=? z) && (z <=? 2 ^ 32 - 1) then Some (utf8_encode_one z) else None.

Definition utf8_decode_one (l : list Z) : option (Z * list Z) :=
  match l with
  | [] => None
  | first :: r =>
      if Z.land first 128 =? 0 then Some (first, r)
      else if Z.land first 224 =? 192 then
        match r with
        | b1 :: r1 => Some (Z.lor (Z.shiftl (Z.land first 31) 6) (Z.land b1 63), r1)
        | _ => None
        end
      else if Z.land first 240 =? 224 then
        match r with
        | b1 :: b2 :: r2 =>
            Some (Z.lor (Z.lor (Z.shiftl (Z.land first 15) 12) (Z.shiftl (Z.land b1 63) 6)) (Z.land b2 63), r2)
        | _ => None
        end
      else if Z.land first 248 =? 240 then
        match r with
        | b1 :: b2 :: b3 :: r3 =>
            Some (Z.lor (Z.lor (Z.lor (Z.shiftl (Z.land first 7) 18) (Z.shiftl (Z.land b1 63) 12))
                           (Z.shiftl (Z.land b2 63) 6)) (Z.land b3 63), r3)
        | _ => None
        end
      else None
  end.

(** ** Strings of bits and of hex digits (in pack) *)

(** 980-1009; the [k]-th character of the string, zero behind its end. *)
Fixpoint bits_loop (bg : bool) (s : list Z) (n : nat) (byte bit_i : Z) : list Z :=
  match n with
  | O => if 0 <? bit_i then [byte] else []
  | S m =>
      let bit := match s with c :: _ => Z.land c 1 | [] => 0 end in
      let byte' := Z.lor byte (u8 (Z.shiftl bit (if bg then 7 - bit_i else bit_i))) in
      if bit_i + 1 =? 8 then byte' :: bits_loop bg (tl s) m 0 0
      else bits_loop bg (tl s) m byte' (bit_i + 1)
  end.
(** 775-826. *)
Definition is_alpha (c : Z) : bool := ((65 <=? c) && (c <=? 90)) || ((97 <=? c) && (c <=? 122)).
Definition nibble (c : Z) : Z := if is_alpha c then Z.land (u8 (c + 9)) 15 else Z.land c 15.
Fixpoint hex_loop (high : bool) (s : list Z) (n : nat) (byte : Z) (second : bool) : list Z :=
  match n with
  | O => if second then [byte] else []
  | S m =>
      let d := match s with c :: _ => nibble c | [] => 0 end in
      if second then
        Z.lor byte (if high then d else u8 (Z.shiftl d 4)) :: hex_loop high (tl s) m 0 false
      else hex_loop high (tl s) m (if high then u8 (Z.shiftl d 4) else d) true
  end.

(** ** pack (552-1147) *)

Definition padded (s : list Z) (n : nat) (pad : Z) : list Z :=
  if Nat.leb n (length s) then firstn n s else s ++ List.repeat pad (n - length s).

(** One value each for [n] values, or for all (None). *)
Fixpoint pack_each (f : Z -> option (list Z)) (n : option nat) (vs : list val) : option (list Z * list val) :=
  match n, vs with
  | Some O, _ => Some ([], vs)
  | None, [] => Some ([], [])
  | Some (S _), [] => None
  | _, VInt z :: r =>
      match f z, pack_each f (option_map pred n) r with
      | Some b, Some (bs, r') => Some (b ++ bs, r')
      | _, _ => None
      end
  | _, _ => None
  end.
Fixpoint pack_floats (bg : bool) (n : option nat) (vs : list val) : option (list Z * list val) :=
  match n, vs with
  | Some O, _ => Some ([], vs)
  | None, [] => Some ([], [])
  | Some (S _), [] => None
  | _, VFlt z :: r =>
      match pack_floats bg (option_map pred n) r with
      | Some (bs, r') => Some (to_bytes bg 8 z ++ bs, r')
      | _ => None
      end
  | _, _ => None
  end.
(** 1379: nil is the empty string for a, A, Z, b, B, h, H (and, 1405, for M). *)
Definition text (v : val) : option (list Z) :=
  match v with VStr s => Some s | VNil => Some [] | _ => None end.
Definition text_strict (v : val) : option (list Z) :=
  match v with VStr s => Some s | _ => None end.
(** The string directives take one value. *)
Definition pack_text (get : val -> option (list Z)) (f : list Z -> list Z) (vs : list val)
  : option (list Z * list val) :=
  match vs with
  | v :: r => option_map (fun s => (f s, r)) (get v)
  | [] => None
  end.

(** 897-909, 944-956. *)
Definition line_len_3 (nd : node) : Z :=
  if explicit nd then
    match repeat nd with Some n => if n =? 0 then 0 else if 3 <=? n then n else 45 | None => 45 end
  else 45.
Definition line_len_qp (nd : node) : Z :=
  if explicit nd then match repeat nd with Some n => n | None => 72 end else 72.

Definition count (nd : node) : option nat := option_map Z.to_nat (repeat nd).

(** One directive; [packed] is the output so far. *)
Definition pack_node (nd : node) (packed : list Z) (vs : list val) : option (list Z * list val) :=
  let add r := match r with Some (b, vs') => Some (packed ++ b, vs') | None => None end in
  match tmpl nd with
  | IntOf _ size => add (pack_each (fun z => Some (int_bytes (big nd) size z)) (count nd) vs)
  | F64 => add (pack_floats (big nd) (count nd) vs)
  | Null => Some (packed ++ match count nd with Some n => List.repeat 0 n | None => [] end, vs)
  | Back =>
      match count nd with
      | Some n => if Nat.leb n (length packed) then Some (firstn (length packed - n) packed, vs) else None
      | None => Some (packed, vs)
      end
  | AtPos => Some (padded packed (match count nd with Some n => n | None => O end) 0, vs)
  | Hex => add (pack_text text (fun s => hex_loop (big nd) s
             (match count nd with Some n => n | None => length s end) 0 false) vs)
  | Ascii => add (pack_text text (fun s => match count nd with Some n => padded s n 0 | None => s end) vs)
  | AsciiTrim => add (pack_text text (fun s => match count nd with Some n => padded s n 32 | None => s end) vs)
  | CString => add (pack_text text (fun s => match count nd with Some n => padded s n 0 | None => s ++ [0] end) vs)
  | Base64 => add (pack_text text_strict (fun s => base64_encode s (line_len_3 nd)) vs)
  | QuotedPrintable => add (pack_text text (fun s => qp_encode s (line_len_qp nd)) vs)
  | UuEncoded => add (pack_text text_strict (fun s => uu_encode s (line_len_3 nd)) vs)
  | BitString => add (pack_text text (fun s => bits_loop (big nd) s
             (match count nd with Some n => n | None => length s end) 0 0) vs)
  | Utf8 => add (pack_each utf8_encode_value (count nd) vs)
  | BerCompressedInt => add (pack_each ber_encode_value (count nd) vs)
  | UlebUnsigned => add (pack_each (fun z => Some (encode_uleb128 (pack_u64 z))) (count nd) vs)
  | SlebSigned => (* coerce_to_int_i64 *)
      add (pack_each (fun z => if (- 2 ^ 63 <=? z) && (z <? 2 ^ 63) then Some (encode_sleb128 z) else None)
             (count nd) vs)
  | Offset => Some (packed, vs)
  | F32 | Pointer | PointerFixed => None (* not here *)
  end.
Fixpoint pack_nodes (nds : list node) (packed : list Z) (vs : list val) : option (list Z) :=
  match nds with
  | [] => Some packed
  | nd :: r =>
      match pack_node nd packed vs with
      | Some (packed', vs') => pack_nodes r packed' vs'
      | None => None
      end
  end.
Definition pack (vs : list val) (t : list Z) : option (list Z) :=
  match parse_template t with
  | Some nds => pack_nodes nds [] vs
  | None => None
  end.

(** ** unpack (112-550) *)

Section Unpack.
(** f32 as f64 on bits, and what is behind a pointer: a C string, or [n] bytes. *)
Variable widen : Z -> Z.
Variable c_string : Z -> list Z.
Variable fixed : Z -> nat -> list Z.

(** 112-156 unpack!: [n] values of [size] bytes (nil when there are not enough bytes left),
    or all. *)
Fixpoint take_n (size : nat) (f : list Z -> val) (n : nat) (l : list Z) : list val * list Z :=
  match n with
  | O => ([], l)
  | S m =>
      if Nat.leb size (length l) then
        match take_n size f m (skipn size l) with (vs, r) => (f (firstn size l) :: vs, r) end
      else match take_n size f m l with (vs, r) => (VNil :: vs, r) end
  end.
Fixpoint take_all (fuel size : nat) (f : list Z -> val) (l : list Z) : list val * list Z :=
  match fuel with
  | O => ([], l)
  | S m =>
      if Nat.leb size (length l) then
        match take_all m size f (skipn size l) with (vs, r) => (f (firstn size l) :: vs, r) end
      else ([], l)
  end.
Definition take_vals (size : nat) (f : list Z -> val) (n : option nat) (l : list Z) : list val * list Z :=
  match n with Some k => take_n size f k l | None => take_all (length l) size f l end.

(** 408-440: while there is something left. *)
Fixpoint decode_n (f : list Z -> option (Z * list Z)) (n : nat) (l : list Z) : option (list val * list Z) :=
  match n, l with
  | O, _ | _, [] => Some ([], l)
  | S m, _ =>
      match f l with
      | Some (v, r) =>
          match decode_n f m r with Some (vs, r') => Some (VInt v :: vs, r') | None => None end
      | None => None
      end
  end.
(** With [*], at most one value per byte. *)
Definition decode_vals f (n : option nat) (l : list Z) : option (list val * list Z) :=
  decode_n f (match n with Some k => k | None => length l end) l.

(** 476-530; [star]: no count.  Decoding stops at the end of the string. *)
Fixpoint leb_n (f : list Z -> outcome) (star : bool) (n : nat) (l : list Z) : list val * list Z :=
  match n with
  | O => ([], l)
  | S m =>
      match f l with
      | Value v r => match leb_n f star m r with (vs, r') => (VInt v :: vs, r') end
      | Incomplete => (if star then [] else [VNil], [])
      | End => ([], l)
      end
  end.
Definition leb_vals f (n : option nat) (l : list Z) : list val * list Z :=
  match n with Some k => leb_n f false k l | None => leb_n f true (length l) l end.

(** 207-248: {:x} of a nibble. *)
Definition hex_lower (n : Z) : Z := if n <? 10 then 48 + n else 87 + n.
Definition hex_pair (high : bool) (c : Z) : list Z :=
  let u := if high then c else Z.lor (u8 (Z.shiftl c 4)) (Z.shiftr c 4) in
  [hex_lower (u / 16); hex_lower (u mod 16)].
Fixpoint hex_n (high : bool) (n : nat) (l : list Z) : list Z * list Z :=
  match n, l with
  | S (S m), c :: r => match hex_n high m r with (s, r') => (hex_pair high c ++ s, r') end
  | S O, c :: r => (firstn 1 (hex_pair high c), r)
  | _, _ => ([], l)
  end.
Definition hex_chars (high : bool) (n : option nat) (l : list Z) : list Z * list Z :=
  match n with Some k => hex_n high k l | None => (flat_map (hex_pair high) l, []) end.

(** 365-407. *)
Definition bit_of (bg : bool) (c i : Z) : Z :=
  48 + Z.land (Z.shiftr c (if bg then 7 - i else i)) 1.
Definition bits8 (bg : bool) (c : Z) : list Z := map (bit_of bg c) [0; 1; 2; 3; 4; 5; 6; 7].
Fixpoint bits_n (bg : bool) (n : nat) (l : list Z) : list Z * list Z :=
  match l with
  | [] => ([], [])
  | c :: r =>
      match n with
      | O => ([], l)
      | _ => match bits_n bg (n - 8) r with (s, r') => (firstn n (bits8 bg c) ++ s, r') end
      end
  end.
Definition bit_chars (bg : bool) (n : option nat) (l : list Z) : list Z * list Z :=
  match n with Some k => bits_n bg k l | None => (flat_map (bits8 bg) l, []) end.

(** 303-330. *)
Fixpoint strip (l : list Z) : list Z :=
  match l with
  | [] => []
  | c :: r =>
      match strip r with
      | [] => if (c =? 32) || (c =? 0) then [] else [c]
      | s => c :: s
      end
  end.
Fixpoint until_nul (l : list Z) : list Z :=
  match l with [] => [] | c :: r => if c =? 0 then [] else c :: until_nul r end.
Definition string_vals (f : list Z -> list Z) (n : option nat) (l : list Z) : list val * list Z :=
  match n with
  | Some k => ([VStr (f (firstn k l))], skipn k l)
  | None => ([VStr (f l)], [])
  end.

(** 441-458: stops at the end. *)
Fixpoint pointers (n : nat) (l : list Z) : list val * list Z :=
  match n with
  | O => ([], l)
  | S m =>
      if Nat.leb 8 (length l) then
        let p := of_le (firstn 8 l) in
        match pointers m (skipn 8 l) with
        | (vs, r) => ((if p =? 0 then VNil else VStr (c_string p)) :: vs, r)
        end
      else ([], l)
  end.

(** One directive at position [i] of [s]: the values it yields and the new position. *)
Definition unpack_node (base : Z) (s : list Z) (nd : node) (i : nat) : option (list val * nat) :=
  let l := skipn i s in
  let n := count nd in
  let at_ r := match r with (vs, rest) => Some (vs, (length s - length rest)%nat) end in
  match tmpl nd with
  | IntOf signed size => at_ (take_vals size (fun b => VInt (int_value signed (big nd) size b)) n l)
  | F64 => at_ (take_vals 8 (fun b => VFlt (of_bytes (big nd) b)) n l)
  | F32 => at_ (take_vals 4 (fun b => VFlt (widen (of_bytes (big nd) b))) n l)
  | Hex => at_ (match hex_chars (big nd) n l with (t, r) => ([VStr t], r) end)
  | Null =>
      match n with
      | Some k => if Nat.leb k (length l) then Some ([], (i + k)%nat) else None
      | None => Some ([], length s)
      end
  | Back =>
      match n with
      | Some k => if Nat.leb k i then Some ([], (i - k)%nat) else None
      | None => Some ([], O)
      end
  | AtPos =>
      match n with
      | Some k => if Nat.leb k (length s) then Some ([], k) else None
      | None => Some ([], length s)
      end
  | Ascii => at_ (string_vals (fun b => b) n l)
  | AsciiTrim => at_ (string_vals strip n l)
  | CString => at_ (string_vals until_nul n l)
  | Base64 => Some ([VStr (base64_decode l)], length s)
  | QuotedPrintable => Some ([VStr (qp_decode l)], length s)
  | UuEncoded => Some ([VStr (uu_decode l)], length s)
  | BitString => at_ (match bit_chars (big nd) n l with (t, r) => ([VStr t], r) end)
  | Utf8 => match decode_vals utf8_decode_one n l with Some r => at_ r | None => None end
  | BerCompressedInt => match decode_vals (fun l => ber_decode l 0) n l with Some r => at_ r | None => None end
  | Pointer => at_ (pointers (match n with Some k => k | None => 1%nat end) l)
  | PointerFixed =>
      if Nat.leb 8 (length l) then
        let p := of_le (firstn 8 l) in
        Some ([if p =? 0 then VNil else VStr (fixed p (match n with Some k => k | None => 1%nat end))], (i + 8)%nat)
      else Some ([], i)
  | UlebUnsigned => at_ (leb_vals unpack_uleb128 n l)
  | SlebSigned => at_ (leb_vals unpack_sleb128 n l)
  | Offset => Some ([VInt (base + Z.of_nat i)], i)
  end.
Fixpoint unpack_nodes (base : Z) (s : list Z) (nds : list node) (i : nat) : option (list val) :=
  match nds with
  | [] => Some []
  | nd :: r =>
      match unpack_node base s nd i with
      | Some (vs, i') =>
          match unpack_nodes base s r i' with Some vs' => Some (vs ++ vs') | None => None end
      | None => None
      end
  end.
(** String#unpack and #unpack1 (the once parameter: 117-120, 545). *)
Definition unpack (s t : list Z) (base : Z) : option (list val) :=
  match parse_template t with
  | Some nds => unpack_nodes base s nds 0
  | None => None
  end.
Definition unpack1 (s t : list Z) (base : Z) : option val :=
  match parse_template t with
  | Some nds =>
      match unpack_nodes base s (firstn 1 nds) 0 with
      | Some [] => Some VNil
      | Some (v :: _) => Some v
      | None => None
      end
  | None => None
  end.
End Unpack.
