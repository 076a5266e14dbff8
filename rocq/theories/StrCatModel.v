(** Comparison of two strings.  builtins/string.rs:482-575, 575-590 and
    value/rvalue/string.rs:846-890.  Arguments that are not strings are not modelled. *)
From Coq Require Import ZArith List Bool.
From Verif Require Import IdModel StrModel.
Import ListNotations.
Open Scope Z_scope.

(** value/rvalue/string.rs:859-886: the loop over the pairs of bytes; [None]: all equal. *)
Fixpoint zip_cmp (a b : list Z) : comparison :=
  match a, b with
  | x :: a', y :: b' => match Z.compare x y with Eq => zip_cmp a' b' | c => c end
  | _, _ => Eq
  end.
Definition byte_cmp (a b : list Z) : comparison :=
  if (length b <=? length a)%nat then
    match zip_cmp a b with
    | Eq => if (length a =? length b)%nat then Eq else Gt
    | c => c
    end
  else match zip_cmp a b with Eq => Lt | c => c end.
(** builtins/string.rs:571-590 [encoding_ordinal]; ISO-8859 and the named encodings carry
    their number. *)
Definition enc_ord (e : encoding) : Z :=
  match e with
  | Ascii8 => 0 | UsAscii => 1 | Utf8 => 2 | Utf16Be => 3 | Utf16Le => 4 | Utf32Be => 5 | Utf32Le => 6
  | EucJp => 7 | Sjis _ => 8 | Iso8859 n => 100 + n | Iso2022Jp => 200 | Other _ => 300 | NamedByte i => 400 + i
  end.

Section Jis.
Variable jis : list Z -> option nat.
(** builtins/string.rs:484-499 [string_eq_bool]; also [eql?] and, negated, [!=]. *)
Definition str_eq (s o : str) : bool :=
  if bytes_dec (sb s) (sb o) then match fst (fst (compat jis s o)) with Some _ => true | None => false end else false.
(** builtins/string.rs:552-566 [string_byte_then_encoding_cmp]. *)
Definition str_cmp (s o : str) : comparison :=
  match byte_cmp (sb s) (sb o) with
  | Eq => if enc_eqb (se s) (se o) then Eq
          else if is7 (code_range jis s) && is7 (code_range jis o) then Eq
          else Z.compare (enc_ord (se s)) (enc_ord (se o))
  | c => c
  end.
End Jis.
