(** Taking parts of a string: [String#\[\]] and [byteslice] with integers and ranges.
    monoruby/src/value/rvalue/string.rs ("rv") and monoruby/src/builtins/string.rs ("bi").
    Integer arguments are those that fit 64 bits signed ([coerce_to_int_i64] has raised
    otherwise); arithmetic on [usize] wraps, as in the release build. *)
From Coq Require Import ZArith List Bool.
From Verif Require Import Utf8Model Utf8Spec IdModel StrModel.
Import ListNotations.
Open Scope Z_scope.

Definition w64 (z : Z) : Z := z mod 2 ^ 64.
Definition s64 (z : Z) : Z := let m := z mod 2 ^ 64 in if m <? 2 ^ 63 then m else m - 2 ^ 64.

(** A string, nil, or bytes outside the string: a Rust panic, or for long strings a shared
    view that extends over memory that is not the string's. *)
Inductive ires := RNil | RStr (s : str) | RCrash.

Section Jis.
Variable jis : list Z -> option nat.

(** rv 2005-2019 [conv_char_index]. *)
Definition conv_char (s : str) (i : Z) : option Z :=
  let n := Z.of_nat (char_length jis s) in
  if 0 <=? i then (if i <=? n then Some i else None)
  else if n + i <? 0 then None else Some (n + i).

(** rv 2066-2087: bytes per character where that is fixed. *)
Definition unit_of (s : str) : option Z :=
  match se s with
  | Ascii8 | UsAscii | Iso8859 _ | Other _ | NamedByte _ | Iso2022Jp => Some 1
  | Utf16Le | Utf16Be => Some 2
  | Utf32Le | Utf32Be => Some 4
  | Utf8 => match code_range jis s with C7 => Some 1 | _ => None end
  | EucJp | Sjis _ => None
  end.
(** rv 2096-2112: the walk; [i] the number of characters passed, [p] their bytes. *)
Fixpoint gr_walk (cs : list (list Z)) (i p index len : Z) (start : option Z) (total : Z) : option Z * Z :=
  match cs with
  | [] => (start, total)
  | c :: r =>
      if (i =? index) && (len =? 0) then (Some p, p)
      else let start' := if i =? index then Some p else start in
           let p' := p + Z.of_nat (length c) in
           match start' with
           | Some _ => if i + 1 =? index + len then (start', p') else gr_walk r (i + 1) p' index len start' total
           | None => gr_walk r (i + 1) p' index len start' total
           end
  end.
(** rv 2060-2120 [get_range]. *)
Definition get_range (s : str) (index len : Z) : Z * Z :=
  let total := Z.of_nat (length (sb s)) in
  match unit_of s with
  | Some u => (Z.min (w64 (index * u)) total, Z.min (w64 (w64 (index + len) * u)) total)
  | None =>
      let '(st, en) := gr_walk (chars s) 0 0 index len None total in
      match st with
      | Some p => (p, en)
      | None => if index =? Z.of_nat (char_length jis s) then (total, total) else (0, 0)
      end
  end.
(** rv 2438-2463 [string_substring] on the string as it is at the call. *)
Definition sub_res (s : str) (r : Z * Z) : ires :=
  let '(a, z) := r in
  if (a <=? z) && (z <=? Z.of_nat (length (sb s))) then RStr (substring jis s (Z.to_nat a) (Z.to_nat z)) else RCrash.

(** bi 1021-1047 [index] with an Integer. *)
Definition index1 (s : str) (i : Z) : ires :=
  match conv_char s i with
  | None => RNil
  | Some k => let r := get_range s k 1 in if fst r <? snd r then sub_res s r else RNil
  end.
Definition index2 (s : str) (i len : Z) : ires :=
  match conv_char s i with
  | None => RNil
  | Some k =>
      if len =? 0 then RStr (mkS [] Utf8 C7)
      else if len <? 0 then RNil
      else sub_res s (get_range s k len)
  end.
(** bi 1048-1092 with a Range; [None] is a nil end. *)
Definition index_range (s : str) (a b : option Z) (excl : bool) : ires :=
  let n := Z.of_nat (char_length jis s) in
  let beg := match a with None => 0 | Some a => if a <? 0 then a + n else a end in
  if (beg <? 0) || (n <? beg) then RNil
  else
    let e := match b with
             | None => n
             | Some b => let b' := if b <? 0 then b + n else b in if excl then b' else s64 (b' + 1)
             end in
    sub_res s (get_range s beg (Z.max (s64 (e - beg)) 0)).

(** bi 4512-4638 [byteslice]: [s0] is the string when the method starts, [s] when the
    arguments have been converted, which may run Ruby code. *)
Definition bs_start (n i : Z) : option Z :=
  if 0 <=? i then (if i <=? n then Some i else None)
  else if n + i <? 0 then None else Some (n + i).
Definition byteslice1 (s0 s : str) (i : Z) : ires :=
  let n := Z.of_nat (length (sb s0)) in
  match (if 0 <=? i then (if i <? n then Some i else None) else if n + i <? 0 then None else Some (n + i)) with
  | None => RNil
  | Some k => if k + 1 <=? Z.of_nat (length (sb s)) then RStr (substring jis s (Z.to_nat k) (Z.to_nat (k + 1))) else RCrash
  end.
Definition byteslice2 (s0 s : str) (i len : Z) : ires :=
  let n := Z.of_nat (length (sb s0)) in
  if len <? 0 then RNil
  else match bs_start n i with
       | None => RNil
       | Some k => sub_res s (k, Z.min (w64 (k + len)) n)
       end.
Definition byteslice_range (s0 s : str) (a b : option Z) (excl : bool) : ires :=
  let n := Z.of_nat (length (sb s0)) in
  match bs_start n (match a with None => 0 | Some a => a end) with
  | None => RNil
  | Some k =>
      let fin e := if e <? k then RStr (mkS [] (se s0) CUnknown) else sub_res s (k, e) in
      match b with
      | None => fin n
      | Some b =>
          if 0 <=? b then fin (Z.min (if excl then b else b + 1) n)
          else if n + b <? 0 then RNil
          else fin (Z.min (if excl then n + b else n + b + 1) n)
      end
  end.
End Jis.
