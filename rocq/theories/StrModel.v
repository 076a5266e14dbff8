(** Ruby strings: bytes, declared encoding and the cached classification of the bytes
    (the "code range").  monoruby/src/value/rvalue/string.rs unless another file is named.
    A string is a value here; which strings share a byte buffer is in [StrShareModel].
    [jis] stands for the ISO-2022-JP decoder of the crate encoding_rs: [Some n] when the
    bytes decode without error to [n] characters. *)
From Coq Require Import ZArith List Bool.
From Verif Require Import Utf8Model Utf8Spec IdModel.
Import ListNotations.
Open Scope Z_scope.

(** 155-165 [CodeRange]. *)
Inductive crange := CUnknown | C7 | CValid | CBroken.
Definition cr_dec (x y : crange) : {x = y} + {x <> y}. Proof. decide equality. Defined.
Definition is7 (c : crange) : bool := match c with C7 => true | _ => false end.
Definition is_well (c : crange) : bool := match c with C7 | CValid => true | _ => false end.

(** 767-772 [RStringInner]: content, [ty], [cr]. *)
Record str := mkS { sb : list Z; se : encoding; sc : crange }.

Definition ascii_b (b : list Z) : bool := forallb (fun x => x <? 128) b.
(** 310-312 [is_utf8_compatible]. *)
Definition utf8_compat (e : encoding) : bool := match e with Utf8 | UsAscii => true | _ => false end.
Definition enc_eqb (a b : encoding) : bool := if enc_dec a b then true else false.

(** 19-37 [eucjp_char_width]. *)
Definition euc_w (b : list Z) : option nat :=
  match b with
  | [] => None
  | c :: r =>
      if c <? 128 then Some 1%nat
      else if c =? 142 then match r with x :: _ => if between 161 223 x then Some 2%nat else None | _ => None end
      else if c =? 143 then match r with
                            | x :: y :: _ => if between 161 254 x && between 161 254 y then Some 3%nat else None
                            | _ => None end
      else if between 161 254 c then match r with x :: _ => if between 161 254 x then Some 2%nat else None | _ => None end
      else None
  end.
(** 43-53 [sjis_char_width]. *)
Definition sjis_w (b : list Z) : option nat :=
  match b with
  | [] => None
  | c :: r =>
      if (c <? 128) || between 161 223 c then Some 1%nat
      else if between 129 159 c || between 224 252 c then
        match r with x :: _ => if between 64 126 x || between 128 252 x then Some 2%nat else None | _ => None end
      else None
  end.

(** 430-441: the loop of [classify] over the widths. *)
Fixpoint walk_ok (w : list Z -> option nat) (fuel : nat) (b : list Z) : bool :=
  match b with
  | [] => true
  | _ => match fuel with
         | O => false
         | S f => match w b with Some n => walk_ok w f (skipn n b) | None => false end
         end
  end.

Section Jis.
Variable jis : list Z -> option nat.

(** 386-462 [Encoding::classify]. *)
Definition classify (e : encoding) (b : list Z) : crange :=
  match b with
  | [] => C7
  | _ =>
    if ascii_compatible e && ascii_b b then C7
    else match e with
         | UsAscii => CBroken
         | Utf8 => if utf8_ok b then CValid else CBroken
         | Ascii8 | Other _ | NamedByte _ | Iso8859 _ => CValid
         | Utf16Le | Utf16Be => if Nat.even (length b) then CValid else CBroken
         | Utf32Le | Utf32Be => if (length b mod 4 =? 0)%nat then CValid else CBroken
         | EucJp => if walk_ok euc_w (length b) b then CValid else CBroken
         | Sjis _ => if walk_ok sjis_w (length b) b then CValid else CBroken
         | Iso2022Jp => match jis b with Some _ => CValid | None => CBroken end
         end
  end.

(** 1379-1388 [code_range]: reads the cache, filling it first when empty. *)
Definition touch (s : str) : str :=
  match sc s with CUnknown => mkS (sb s) (se s) (classify (se s) (sb s)) | _ => s end.
Definition code_range (s : str) : crange := sc (touch s).
(** 1390-1396; encoding.rs:1809-1840 [valid_encoding?], [ascii_only?]. *)
Definition ascii_only (s : str) : bool := is7 (code_range s).
Definition valid_encoding (s : str) : bool := is_well (code_range s).

(** 1644-1662 [check_utf8]: whether the bytes are taken for UTF-8 without looking at them. *)
Definition unchecked (s : str) : bool :=
  is7 (code_range s) || (enc_eqb (se s) Utf8 && match code_range s with CValid => true | _ => false end).

(** 65-140 [CharByteIter::next]: the width of the next character of a non-empty rest,
    before it is cut to the rest's length. *)
Definition char_w (e : encoding) (b : list Z) : nat :=
  match b with
  | [] => 1%nat
  | c :: _ =>
    match e with
    | Ascii8 | UsAscii | Iso8859 _ | Other _ | NamedByte _ | Iso2022Jp => 1%nat
    | EucJp => if c =? 142 then 2%nat else if c =? 143 then 3%nat else if between 161 254 c then 2%nat else 1%nat
    | Sjis _ => if between 129 159 c || between 224 252 c then 2%nat else 1%nat
    | Utf16Le | Utf16Be => 2%nat
    | Utf32Le | Utf32Be => 4%nat
    | Utf8 =>
        if c <? 128 then 1%nat
        else if c <? 192 then 1%nat
        else let needed := if c <? 224 then 2%nat else if c <? 240 then 3%nat else 4%nat in
             if (needed <=? length b)%nat && utf8_ok (firstn needed b) then needed else 1%nat
    end
  end.
Fixpoint chars_f (e : encoding) (fuel : nat) (b : list Z) : list (list Z) :=
  match fuel with
  | O => []
  | S f => match b with [] => [] | _ => firstn (char_w e b) b :: chars_f e f (skipn (char_w e b) b) end
  end.
(** 1474-1480 [iter_char_bytes], run to its end. *)
Definition chars (s : str) : list (list Z) := chars_f (se s) (length (sb s)) (sb s).

(** [b & 0xC0 != 0x80]. *)
Definition lead (x : Z) : bool := negb (Z.land x 192 =? 128).
(** 1405-1465 [char_length]. *)
Definition char_length (s : str) : nat :=
  let n := length (sb s) in
  match se s with
  | Ascii8 | UsAscii | Iso8859 _ | Other _ | NamedByte _ => n
  | Utf16Le | Utf16Be => (n / 2 + n mod 2)%nat
  | Utf32Le | Utf32Be => (n / 4 + (if (0 <? n mod 4)%nat then 1 else 0))%nat
  | Utf8 => match code_range s with
            | C7 => n
            | CValid => length (filter lead (sb s))
            | _ => length (chars s)
            end
  | EucJp | Sjis _ => match code_range s with C7 => n | _ => length (chars s) end
  | Iso2022Jp => match jis (sb s) with Some k => k | None => n end
  end.

(** 1482-1520 [reverse]. *)
Definition reverse (s : str) : str :=
  let byte := is7 (code_range s) || match se s with Ascii8 | UsAscii | Iso8859 _ => true | _ => false end in
  mkS (if byte then List.rev (sb s) else concat (List.rev (chars s))) (se s) (code_range s).

(** 634-667 [Encoding::compatible]. *)
Definition compatible (ea : encoding) (ca : crange) (eb : encoding) (cb : crange) : option encoding :=
  if enc_eqb ea eb then Some ea
  else if ascii_compatible ea && ascii_compatible eb then
    if is7 ca && is7 cb then Some ea
    else if is7 ca then Some eb
    else if is7 cb then Some ea
    else None
  else None.
(** 1528-1578 [compatible_encoding]; both strings come back with the caches it filled. *)
Definition compat (s o : str) : option encoding * str * str :=
  if enc_eqb (se s) (se o) then (Some (se s), s, o)
  else match sb s, sb o with
       | [], [] => (Some (se s), s, o)
       | [], _ => if ascii_compatible (se s)
                  then (Some (if is7 (code_range o) then se s else se o), s, touch o)
                  else (Some (se o), s, o)
       | _, [] => (Some (se s), (if ascii_compatible (se o) then touch s else s), o)
       | _, _ => (compatible (se s) (code_range s) (se o) (code_range o), touch s, touch o)
       end.

(** The folding of two classifications used by every append: 2148-2163, 2186-2194, 2225-2233. *)
Definition fold_cr (a b : crange) : crange :=
  match a, b with
  | C7, C7 => C7
  | C7, CValid | CValid, C7 | CValid, CValid => CValid
  | _, _ => CUnknown
  end.

Inductive err := ECompat | ERange | EIndex | EArg | EType | EFrozen.
(** 2127-2165 [extend]: the receiver afterwards and the argument afterwards. *)
Definition extend (s o : str) : (str + err) * str * str :=
  match sb o with
  | [] => (inl s, s, o)
  | _ =>
    let '(r, s1, o1) := compat s o in
    match r with
    | None => (inr ECompat, s1, o1)
    | Some e => let o2 := touch o1 in
                (inl (mkS (sb s1 ++ sb o2) e (fold_cr (sc s1) (sc o2))), s1, o2)
    end
  end.

(** 2168-2197 [extend_from_slice_checked]. *)
Definition extend_slice (s : str) (l : list Z) : str + err :=
  if utf8_compat (se s) && negb (utf8_ok l) then inr EArg
  else let cl := if ascii_b l then C7 else if utf8_compat (se s) then CValid else CUnknown in
       inl (mkS (sb s ++ l) (se s) (fold_cr (sc s) cl)).
(** 2202-2205 [extend_from_slice_no_validate]; builtins/string.rs:4128-4170 [append_as_bytes]
    with a string other than the receiver, or an integer's low byte. *)
Definition append_raw (s : str) (l : list Z) : str := mkS (sb s ++ l) (se s) CUnknown.
(** 2217-2240 [extend_from_slice_merge_cr] ([Array#pack] with a buffer). *)
Definition append_merge (s : str) (l : list Z) : str :=
  match l with
  | [] => s
  | _ => let cl := if ascii_compatible (se s) && ascii_b l then C7 else classify (se s) l in
         mkS (sb s ++ l) (se s) (fold_cr (sc s) cl)
  end.
(** 2242-2256 [repeat]; builtins/string.rs:347-364 [mul].  The size limit of [mul] is [EArg]. *)
Fixpoint rep (n : nat) (b : list Z) : list Z := match n with O => [] | S k => b ++ rep k b end.
Definition repeat_ (s : str) (n : nat) : str :=
  mkS (rep n (sb s)) (se s) (match n with O => C7 | _ => sc s end).
Definition mul (s : str) (n : Z) : str + err :=
  if n <? 0 then inr EArg
  else let l := Z.of_nat (length (sb s)) in
       if (0 <? l) && ((2 ^ 32 - 1) / l <? n) then inr EArg
       else inl (match sb s with [] => mkS [] (se s) (if n =? 0 then C7 else sc s) | _ => repeat_ s (Z.to_nat n) end).

(** 1371-1374 [set_encoding]. *)
Definition force (s : str) (e : encoding) : str := mkS (sb s) e CUnknown.

Fixpoint upd_nth {A} (n : nat) (x : A) (l : list A) : list A :=
  match l, n with
  | [], _ => []
  | _ :: r, O => x :: r
  | y :: r, S k => y :: upd_nth k x r
  end.
(** 1983-2000 [set_byte]; builtins/string.rs:4416-4436 [setbyte]. *)
Definition set_byte (s : str) (i : nat) (x : Z) : str :=
  mkS (upd_nth i x (sb s)) (se s) (match sc s with C7 => if x <? 128 then C7 else CUnknown | _ => CUnknown end).
Definition setbyte (s : str) (i v : Z) : str + err :=
  let n := Z.of_nat (length (sb s)) in
  let i' := if i <? 0 then i + n else i in
  if (i' <? 0) || (n <=? i') then inr EIndex
  else inl (set_byte s (Z.to_nat i') (v mod 256)).

(** builtins/string.rs:765-808 [shl_inner] with an Integer argument. *)
Definition is_scalar (c : Z) : bool := (0 <=? c) && (c <? 55296) || (57344 <=? c) && (c <=? 1114111).
Definition shl_int (s : str) (c : Z) : str + err :=
  if (c <? 0) || (2 ^ 32 <=? c) then inr ERange
  else if utf8_compat (se s) then
    if is_scalar c then extend_slice s (enc_utf8 c) else inr ERange
  else if c <? 256 then extend_slice s [c] else inr ERange.

(** 2014-2018 [is_utf8_char_boundary] (1013-1015 and 1929-1931 are the same test). *)
Definition boundary (b : list Z) (i : nat) : bool :=
  (i =? 0)%nat || (i =? length b)%nat || lead (nth i b 0).
(** 1858-1925 [propagated_cr]. *)
Definition propagated (p : str) (a z : nat) : crange :=
  if (a =? z)%nat then C7
  else match code_range p with
       | C7 => C7
       | CValid =>
           match se p with
           | Ascii8 | Iso8859 _ | Other _ | NamedByte _ => CValid
           | Utf8 => if boundary (sb p) a && boundary (sb p) z then CValid else CUnknown
           | Utf16Le | Utf16Be => if Nat.even a && Nat.even z then CValid else CUnknown
           | Utf32Le | Utf32Be => if (a mod 4 =? 0)%nat && (z mod 4 =? 0)%nat then CValid else CUnknown
           | _ => CUnknown
           end
       | _ => CUnknown
       end.
(** 2438-2463 [string_substring] and 1833-1840 [from_substring], for [a <= z <= length]. *)
Definition slice (b : list Z) (a z : nat) : list Z := firstn (z - a) (skipn a b).
Definition substring (p : str) (a z : nat) : str := mkS (slice (sb p) a z) (se p) (propagated p a z).

(** 2340-2407 [bytesplice_with]: [start + len <= length] is the callers' business. *)
Definition bytesplice (s r : str) (st ln : nat) : (str + err) * str :=
  let '(e, s1, r1) := compat s r in
  match e with
  | None => (inr ECompat, s1)
  | Some e =>
    let en := (st + ln)%nat in
    let b := firstn st (sb s1) ++ sb r1 ++ skipn en (sb s1) in
    let rc := code_range r1 in
    let bounds := enc_eqb (se s1) Utf8 && is_well (sc s1) && boundary (sb s1) st && boundary (sb s1) en in
    (inl (if is7 (sc s1) && is7 rc && ascii_compatible e then mkS b e C7
          else if bounds && is_well rc then mkS b e CValid
          else match classify e b with
               | CBroken => if utf8_compat e then mkS b Ascii8 CValid else mkS b e CBroken
               | c => mkS b e c
               end), s1)
  end.

(** codegen/runtime.rs:948-1032 [concatenate_string_inner]: a string with interpolations.
    A piece is a String, or an object whose [to_s] did not answer a String, for which the
    ASCII text [#<Class:0x...>] is emitted.  The accumulator is the bytes, the encoding and
    the tracked classification. *)
Definition interp_enc (b : list Z) (prev : encoding) (c : crange) (p : str) : option encoding * crange :=
  if enc_eqb prev (se p) then (Some prev, c)
  else match b, sb p with
       | [], [] => (Some prev, c)
       | [], _ => (Some (if ascii_compatible prev && is7 (code_range p) then prev else se p), c)
       | _, [] => (Some prev, c)
       | _, _ => let c' := match c with CUnknown => classify prev b | _ => c end in
                 (compatible prev c' (se p) (code_range p), c')
       end.
Definition interp_step (b : list Z) (e : option encoding) (c : crange) (p : str + list Z)
  : option (list Z * option encoding * crange) :=
  match p with
  | inl p =>
      let '(e', c') := match e with None => (Some (se p), c) | Some prev => interp_enc b prev c p end in
      match e' with
      | None => None
      | Some e' => Some (b ++ sb p, Some e', fold_cr c' (code_range p))
      end
  | inr t => Some (b ++ t, Some (match e with None => Utf8 | Some p => p end), c)
  end.
Fixpoint interp_go (b : list Z) (e : option encoding) (c : crange) (ps : list (str + list Z)) : str + err :=
  match ps with
  | [] => inl (mkS b (match e with Some e => e | None => Utf8 end) c)
  | p :: r => match interp_step b e c p with
              | None => inr ECompat
              | Some (b', e', c') => interp_go b' e' c' r
              end
  end.
Definition interp (ps : list (str + list Z)) : str + err := interp_go [] None C7 ps.

(** builtins/string.rs:4185-4240 [write_pad], 4246-4290 [pad_string_inner]: [ljust], [rjust],
    [center] once the two numbers of padding characters are known.  The cases of [write_pad]
    for one-byte characters are the general one; ISO-2022-JP pads are not meant. *)
Definition pad_bytes (p : str) (n : nat) : list Z :=
  let cs := chars p in
  let k := length cs in
  match k with
  | O => []
  | _ => rep (n / k) (sb p) ++ concat (firstn (n mod k) cs)
  end.
Definition pad (s p : str) (head tail : nat) : str :=
  let b := pad_bytes p head ++ sb s ++ pad_bytes p tail in
  mkS b (se s) (if ascii_only s && ascii_only p then C7 else CUnknown).

(** codegen/arch/x86_64/compile/builtin.rs:213-279: compiled [<<] with a Fixnum.  [room]: the
    buffer is not shared and has a free byte.  [None]: the helper (the method above) is called. *)
Definition jit_shl_int (s : str) (c : Z) (room : bool) : option str :=
  if (0 <=? c) && (c <=? 255) && ((c <=? 127) || enc_eqb (se s) Ascii8) && room
  then Some (mkS (sb s ++ [c]) (se s) (if c <=? 127 then sc s else CUnknown))
  else None.
(** The discriminant of [Encoding], 0-6 for those without payload. *)
Definition enc_small (e : encoding) : option Z :=
  match e with
  | Ascii8 => Some 0 | Utf8 => Some 1 | UsAscii => Some 2 | Utf16Le => Some 3 | Utf16Be => Some 4
  | Utf32Le => Some 5 | Utf32Be => Some 6 | _ => None end.
(** builtin.rs:282-403: compiled [<<] with a String. *)
Definition jit_shl_str (s o : str) (room : bool) : option str :=
  let go := match enc_small (se s), enc_small (se o) with
            | Some a, Some b =>
                if a =? b then true
                else (a <=? 2) && (b <=? 2) && is7 (sc o) && is_well (sc s)
            | _, _ => false
            end in
  if go && room then Some (mkS (sb s ++ sb o) (se s) (fold_cr (sc s) (sc o))) else None.
(** builtin.rs:97-160: compiled [setbyte]; [None]: back to the interpreter. *)
Definition jit_setbyte (s : str) (i v : Z) : option str :=
  let n := Z.of_nat (length (sb s)) in
  let i' := if i <? 0 then i + n else i in
  if (i' <? 0) || (n <=? i') then None
  else let x := v mod 256 in
       Some (mkS (upd_nth (Z.to_nat i') x (sb s)) (se s)
                 (if is7 (sc s) && (Z.land v 128 =? 0) then C7 else CUnknown)).

(** ** Programs: a store of strings and the operations on it. *)
Inductive op :=
| ONew (b : list Z) (e : encoding) (scan : bool)     (* 1794-1830 from_encoding / _scanned *)
| OAuto (b : list Z)                                 (* 1936-1948 from_vec_scanned *)
| ODup (i : nat)                                     (* Clone, 789-806 *)
| OReplace (i j : nat)                               (* builtins/string.rs:7331-7341 *)
| OForce (i : nat) (e : encoding)
| OQuery (i : nat)
| OAdd (i j : nat)                                   (* builtins/string.rs:329-340 *)
| OShl (i j : nat)
| OShlInt (i : nat) (c : Z)
| JShl (i j : nat) (room : bool)
| JShlInt (i : nat) (c : Z) (room : bool)
| OSetByte (i : nat) (k v : Z)
| JSetByte (i : nat) (k v : Z)
| OAppend (i : nat) (b : list Z)
| OPack (i : nat) (b : list Z)
| OMul (i : nat) (n : Z)
| OReverse (i : nat)
| OSub (i a z : nat)
| OSplice (i st ln j : nat)
| OChars (i : nat)
| OInterp (ps : list (nat + list Z))
| OPad (i j head tail : nat).

Definition store := list str.
Definition empty_s : str := mkS [] Utf8 C7.
Definition at_ (st : store) (i : nat) : str := nth i st empty_s.
Definition put (st : store) (i : nat) (s : str) : store := upd_nth i s st.
Definition bool_len (st : store) (i : nat) : bool := (i <? length st)%nat.

(** Operations on strings that do not exist, or outside the string, do nothing ([None]).
    The result says whether an exception was raised. *)
Definition put_res (st : store) (i : nat) (r : str + err) : store * option err :=
  match r with inl s => (put st i s, None) | inr e => (st, Some e) end.
Definition new_res (st : store) (r : str + err) : store * option err :=
  match r with inl s => (st ++ [s], None) | inr e => (st, Some e) end.

Definition shl (st : store) (i j : nat) : store * option err :=
  let '(r, s1, o1) := extend (at_ st i) (at_ st j) in
  let st1 := put (put st j o1) i s1 in
  put_res st1 i r.

Definition run1 (st : store) (o : op) : option (store * option err) :=
  let ok i := bool_len st i in
  match o with
  | ONew b e scan => Some (st ++ [mkS b e (if scan then classify e b else CUnknown)], None)
  | OAuto b =>
      Some (st ++ [if ascii_b b then mkS b Utf8 C7
                   else if utf8_ok b then mkS b Utf8 CValid else mkS b Ascii8 CValid], None)
  | ODup i => if ok i then Some (st ++ [at_ st i], None) else None
  | OReplace i j => if ok i && ok j then Some (put st i (at_ st j), None) else None
  | OForce i e => if ok i then Some (put st i (force (at_ st i) e), None) else None
  | OQuery i => if ok i then Some (put st i (touch (at_ st i)), None) else None
  | OAdd i j =>
      if ok i && ok j then
        let '(r, s1, o1) := extend (at_ st i) (at_ st j) in
        Some (new_res (put st j o1) r)
      else None
  | OShl i j => if ok i && ok j then Some (shl st i j) else None
  | OShlInt i c => if ok i then Some (put_res st i (shl_int (at_ st i) c)) else None
  | JShl i j room =>
      if ok i && ok j then
        match jit_shl_str (at_ st i) (at_ st j) room with
        | Some s => Some (put st i s, None)
        | None => Some (shl st i j)
        end
      else None
  | JShlInt i c room =>
      if ok i then match jit_shl_int (at_ st i) c room with
                   | Some s => Some (put st i s, None)
                   | None => Some (put_res st i (shl_int (at_ st i) c))
                   end
      else None
  | OSetByte i k v => if ok i then Some (put_res st i (setbyte (at_ st i) k v)) else None
  | JSetByte i k v =>
      if ok i then match jit_setbyte (at_ st i) k v with
                   | Some s => Some (put st i s, None)
                   | None => Some (put_res st i (setbyte (at_ st i) k v))
                   end
      else None
  | OAppend i b => if ok i then Some (put st i (append_raw (at_ st i) b), None) else None
  | OPack i b => if ok i then Some (put st i (append_merge (at_ st i) b), None) else None
  | OMul i n => if ok i then Some (new_res st (mul (at_ st i) n)) else None
  | OReverse i => if ok i then let s := touch (at_ st i) in Some (put st i s ++ [reverse s], None) else None
  | OSub i a z =>
      if ok i && (a <=? z)%nat && (z <=? length (sb (at_ st i)))%nat then
        Some (put st i (if (a =? z)%nat then at_ st i else touch (at_ st i)) ++ [substring (at_ st i) a z], None)
      else None
  | OSplice i st0 ln j =>
      if ok i && ok j && (st0 + ln <=? length (sb (at_ st i)))%nat then
        (* builtins/string.rs:4840-4853: the replacement is a scanned copy; an empty one takes
           the receiver's encoding *)
        let o := at_ st j in
        let e := match sb o with [] => se (at_ st i) | _ => se o end in
        let '(r, s1) := bytesplice (at_ st i) (mkS (sb o) e (classify e (sb o))) st0 ln in
        Some (put_res (put st i s1) i r)
      else None
  | OChars i =>
      (* builtins/string.rs:7386-7406 *)
      if ok i then let s := at_ st i in
                   Some (st ++ map (fun c => mkS c (se s) (classify (se s) c)) (chars s), None)
      else None
  | OInterp ps =>
      if forallb (fun p => match p with inl i => ok i | inr _ => true end) ps then
        Some (new_res st (interp (map (fun p => match p with inl i => inl (at_ st i) | inr t => inr t end) ps)))
      else None
  | OPad i j h t =>
      if ok i && ok j then
        match sb (at_ st j) with
        | [] => Some (st, Some EArg)
        | _ => match fst (fst (compat (at_ st i) (at_ st j))) with
               | None => Some (st, Some ECompat)
               | Some _ => Some (st ++ [pad (at_ st i) (at_ st j) h t], None)
               end
        end
      else None
  end.

Fixpoint run (st : store) (l : list op) : option store :=
  match l with
  | [] => Some st
  | o :: r => match run1 st o with Some (st', _) => run st' r | None => None end
  end.
End Jis.
