(** What the characters of a string are in each encoding, and what part of a sequence the
    index expressions of Ruby denote.  Independent of the model. *)
From Coq Require Import ZArith List Bool.
From Verif Require Import Utf8Spec IdModel.
Import ListNotations.
Open Scope Z_scope.

Definition is_byte (x : Z) : Prop := 0 <= x < 256.
(** The 16-bit units of UTF-16 and the 32-bit units of UTF-32. *)
Definition unit16 (e : encoding) (a b : Z) : Z := match e with Utf16Le => b * 256 + a | _ => a * 256 + b end.
Definition unit32 (e : encoding) (a b c d : Z) : Z :=
  match e with
  | Utf32Le => ((d * 256 + c) * 256 + b) * 256 + a
  | _ => ((a * 256 + b) * 256 + c) * 256 + d
  end.

(** The byte sequences that are one character. *)
Inductive is_char : encoding -> list Z -> Prop :=
| ch_byte e x : match e with Ascii8 | Iso8859 _ | Other _ | NamedByte _ => True | _ => False end -> is_char e [x]
| ch_ascii e x : match e with UsAscii | EucJp | Sjis _ => True | _ => False end -> x < 128 -> is_char e [x]
| ch_utf8 u : scalar u -> is_char Utf8 (enc_utf8 u)
| ch_euc2 a b : 161 <= a <= 254 -> 161 <= b <= 254 -> is_char EucJp [a; b]
| ch_euc_kana b : 161 <= b <= 223 -> is_char EucJp [142; b]
| ch_euc3 a b : 161 <= a <= 254 -> 161 <= b <= 254 -> is_char EucJp [143; a; b]
| ch_sjis_kana n x : 161 <= x <= 223 -> is_char (Sjis n) [x]
| ch_sjis2 n a b : 129 <= a <= 159 \/ 224 <= a <= 252 -> 64 <= b <= 126 \/ 128 <= b <= 252 -> is_char (Sjis n) [a; b]
| ch_16 e a b : match e with Utf16Le | Utf16Be => True | _ => False end ->
    scalar (unit16 e a b) -> is_char e [a; b]
| ch_pair e a b c d : match e with Utf16Le | Utf16Be => True | _ => False end ->
    55296 <= unit16 e a b < 56320 -> 56320 <= unit16 e c d < 57344 -> is_char e [a; b; c; d]
| ch_32 e a b c d : match e with Utf32Le | Utf32Be => True | _ => False end ->
    scalar (unit32 e a b c d) -> is_char e [a; b; c; d].

Definition valid_in (e : encoding) (b : list Z) : Prop := exists cs, b = concat cs /\ Forall (is_char e) cs.

(** The characters of any bytes: where no character starts, one unit stands for itself. *)
Definition min_len (e : encoding) : nat :=
  match e with Utf16Le | Utf16Be => 2 | Utf32Le | Utf32Be => 4 | _ => 1 end%nat.
Inductive split (e : encoding) : list Z -> list (list Z) -> Prop :=
| sp_nil : split e [] []
| sp_char c r cs : is_char e c -> split e r cs -> split e (c ++ r) (c :: cs)
| sp_bad b cs : b <> [] -> (forall c r, b = c ++ r -> ~ is_char e c) ->
    split e (skipn (min_len e) b) cs -> split e b (firstn (min_len e) b :: cs).

(** [v\[i\]], [v\[i, l\]] and [v\[a..b\]] on a sequence of [n] things: the position and count. *)
Definition pos (n i : Z) : Z := if i <? 0 then i + n else i.
Definition one {A} (cs : list A) (i : Z) : option (list A) :=
  let k := pos (Z.of_nat (length cs)) i in
  if (0 <=? k) && (k <? Z.of_nat (length cs)) then Some (firstn 1 (skipn (Z.to_nat k) cs)) else None.
Definition some {A} (cs : list A) (i l : Z) : option (list A) :=
  let n := Z.of_nat (length cs) in
  let k := pos n i in
  if (l <? 0) || (k <? 0) || (n <? k) then None else Some (firstn (Z.to_nat (Z.min l n)) (skipn (Z.to_nat k) cs)).
Definition between {A} (cs : list A) (a b : option Z) (excl : bool) : option (list A) :=
  let n := Z.of_nat (length cs) in
  let k := match a with None => 0 | Some a => pos n a end in
  let e := match b with None => n | Some b => pos n b + (if excl then 0 else 1) end in
  if (k <? 0) || (n <? k) then None else Some (firstn (Z.to_nat (Z.min (e - k) n)) (skipn (Z.to_nat k) cs)).
