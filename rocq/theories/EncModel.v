(** The names of encodings: monoruby/src/value/rvalue/string.rs:220-288 (tables),
    340-373 [Encoding::name], 467-628 [Encoding::try_from_str].
    The two tables are the source's; a payload outside them ([Other], [NamedByte])
    would be an index panic and is given the empty name here. *)
From Coq Require Import String Ascii ZArith List Bool.
From Verif Require Import IdModel.
Import ListNotations.
Open Scope Z_scope.

(** string.rs:223-224. *)
Definition other_names : list string := [ "UTF-7"; "CP50220"; "CP50221"; "UTF-16"; "UTF-32" ]%string.
(** string.rs:232-278, first components. *)
Definition named_bytes : list string := [
   "Big5"; "Big5-HKSCS"; "Big5-UAO"; "GBK"; "GB2312"; "GB18030"; "GB12345"; "EUC-KR"; "EUC-TW"; "CP949";
   "TIS-620"; "KOI8-R"; "KOI8-U"; "Windows-1250"; "Windows-1251"; "Windows-1252"; "Windows-1253";
   "Windows-1254"; "Windows-1255"; "Windows-1256"; "Windows-1257"; "Windows-1258"; "IBM437"; "IBM737";
   "IBM775"; "IBM850"; "IBM852"; "IBM855"; "IBM857"; "IBM860"; "IBM861"; "IBM862"; "IBM863"; "IBM864";
   "IBM865"; "IBM866"; "IBM869"; "Emacs-Mule" ]%string.

Definition iso_name (n : Z) : string :=
  if n =? 2 then "ISO-8859-2" else if n =? 3 then "ISO-8859-3" else if n =? 4 then "ISO-8859-4"
  else if n =? 5 then "ISO-8859-5" else if n =? 6 then "ISO-8859-6" else if n =? 7 then "ISO-8859-7"
  else if n =? 8 then "ISO-8859-8" else if n =? 9 then "ISO-8859-9" else if n =? 10 then "ISO-8859-10"
  else if n =? 11 then "ISO-8859-11" else if n =? 13 then "ISO-8859-13" else if n =? 14 then "ISO-8859-14"
  else if n =? 15 then "ISO-8859-15" else if n =? 16 then "ISO-8859-16" else "ISO-8859-1".

(** string.rs:340-373 [name], as bytes. *)
Definition enc_name (e : encoding) : list Z := bs
  match e with
  | Other i => nth (Z.to_nat i) other_names ""
  | NamedByte i => nth (Z.to_nat i) named_bytes ""
  | Ascii8 => "ASCII-8BIT" | Utf8 => "UTF-8" | UsAscii => "US-ASCII"
  | Utf16Le => "UTF-16LE" | Utf16Be => "UTF-16BE" | Utf32Le => "UTF-32LE" | Utf32Be => "UTF-32BE"
  | Iso8859 n => iso_name n
  | EucJp => "EUC-JP"
  | Sjis n => if (n =? 0)%Z then "Shift_JIS" else "Windows-31J"
  | Iso2022Jp => "ISO-2022-JP"
  end%string.

(** string.rs:490-623: the arms of the match, [named_byte_index] (283-288) evaluated. *)
Definition enc_table : list (string * encoding) := [
   ("UTF_8"%string, Utf8); ("UTF8"%string, Utf8); ("CP65001"%string, Utf8); ("UTF8_MAC"%string, Utf8);
   ("UTF_8_MAC"%string, Utf8); ("CESU_8"%string, Utf8); ("CESU8"%string, Utf8); ("UTF_7"%string, Other 0);
   ("CP50220"%string, Other 1); ("CP50221"%string, Other 2); ("ASCII_8BIT"%string, Ascii8);
   ("BINARY"%string, Ascii8); ("US_ASCII"%string, UsAscii); ("ASCII"%string, UsAscii);
   ("ANSI_X3_4_1968"%string, UsAscii); ("646"%string, UsAscii); ("LOCALE"%string, Utf8);
   ("EXTERNAL"%string, Utf8); ("FILESYSTEM"%string, Utf8); ("UTF_16"%string, Other 3);
   ("UTF_32"%string, Other 4); ("UTF_16LE"%string, Utf16Le); ("UTF_16BE"%string, Utf16Be);
   ("UTF_32LE"%string, Utf32Le); ("UTF_32BE"%string, Utf32Be); ("ISO_8859_1"%string, Iso8859 1);
   ("ISO8859_1"%string, Iso8859 1); ("LATIN1"%string, Iso8859 1); ("ISO_8859_2"%string, Iso8859 2);
   ("ISO8859_2"%string, Iso8859 2); ("LATIN2"%string, Iso8859 2); ("ISO_8859_3"%string, Iso8859 3);
   ("ISO8859_3"%string, Iso8859 3); ("LATIN3"%string, Iso8859 3); ("ISO_8859_4"%string, Iso8859 4);
   ("ISO8859_4"%string, Iso8859 4); ("LATIN4"%string, Iso8859 4); ("ISO_8859_5"%string, Iso8859 5);
   ("ISO8859_5"%string, Iso8859 5); ("ISO_8859_6"%string, Iso8859 6); ("ISO8859_6"%string, Iso8859 6);
   ("ISO_8859_7"%string, Iso8859 7); ("ISO8859_7"%string, Iso8859 7); ("ISO_8859_8"%string, Iso8859 8);
   ("ISO8859_8"%string, Iso8859 8); ("ISO_8859_9"%string, Iso8859 9); ("ISO8859_9"%string, Iso8859 9);
   ("LATIN5"%string, Iso8859 9); ("ISO_8859_10"%string, Iso8859 10); ("ISO8859_10"%string, Iso8859 10);
   ("LATIN6"%string, Iso8859 10); ("ISO_8859_11"%string, Iso8859 11); ("ISO8859_11"%string, Iso8859 11);
   ("ISO_8859_13"%string, Iso8859 13); ("ISO8859_13"%string, Iso8859 13); ("LATIN7"%string, Iso8859 13);
   ("ISO_8859_14"%string, Iso8859 14); ("ISO8859_14"%string, Iso8859 14); ("LATIN8"%string, Iso8859 14);
   ("ISO_8859_15"%string, Iso8859 15); ("ISO8859_15"%string, Iso8859 15); ("LATIN9"%string, Iso8859 15);
   ("ISO_8859_16"%string, Iso8859 16); ("ISO8859_16"%string, Iso8859 16); ("LATIN10"%string, Iso8859 16);
   ("EUC_JP"%string, EucJp); ("EUCJP"%string, EucJp); ("EUCJP_MS"%string, EucJp);
   ("EUCJP_WIN"%string, EucJp); ("EUC_JP_MS"%string, EucJp); ("EUC_JP_WIN"%string, EucJp);
   ("CP51932"%string, EucJp); ("STATELESS_ISO_2022_JP"%string, EucJp); ("ISO_2022_JP"%string, Iso2022Jp);
   ("ISO2022_JP"%string, Iso2022Jp); ("ISO_2022_JP_KDDI"%string, Iso2022Jp);
   ("ISO_2022_JP_2"%string, Iso2022Jp); ("ISO_2022_JP_2004"%string, Iso2022Jp); ("SHIFT_JIS"%string, Sjis 0);
   ("SJIS"%string, Sjis 0); ("MACJAPANESE"%string, Sjis 0); ("MACJAPAN"%string, Sjis 0);
   ("WINDOWS_31J"%string, Sjis 1); ("CP932"%string, Sjis 1); ("CSWINDOWS31J"%string, Sjis 1);
   ("WINDOWS31J"%string, Sjis 1); ("BIG5"%string, NamedByte 0); ("CP950"%string, NamedByte 0);
   ("BIG5_HKSCS"%string, NamedByte 1); ("BIG5HKSCS"%string, NamedByte 1); ("CP951"%string, NamedByte 1);
   ("BIG5_UAO"%string, NamedByte 2); ("GBK"%string, NamedByte 3); ("CP936"%string, NamedByte 3);
   ("GB2312"%string, NamedByte 4); ("EUC_CN"%string, NamedByte 4); ("EUCCN"%string, NamedByte 4);
   ("GB18030"%string, NamedByte 5); ("GB12345"%string, NamedByte 6); ("EUC_KR"%string, NamedByte 7);
   ("EUCKR"%string, NamedByte 7); ("CP949"%string, NamedByte 7); ("EUC_TW"%string, NamedByte 8);
   ("EUCTW"%string, NamedByte 8); ("TIS_620"%string, NamedByte 10); ("TIS620"%string, NamedByte 10);
   ("KOI8_R"%string, NamedByte 11); ("KOI8_U"%string, NamedByte 12); ("WINDOWS_1250"%string, NamedByte 13);
   ("CP1250"%string, NamedByte 13); ("WINDOWS_1251"%string, NamedByte 14); ("CP1251"%string, NamedByte 14);
   ("WINDOWS_1252"%string, NamedByte 15); ("CP1252"%string, NamedByte 15);
   ("WINDOWS_1253"%string, NamedByte 16); ("CP1253"%string, NamedByte 16);
   ("WINDOWS_1254"%string, NamedByte 17); ("CP1254"%string, NamedByte 17);
   ("WINDOWS_1255"%string, NamedByte 18); ("CP1255"%string, NamedByte 18);
   ("WINDOWS_1256"%string, NamedByte 19); ("CP1256"%string, NamedByte 19);
   ("WINDOWS_1257"%string, NamedByte 20); ("CP1257"%string, NamedByte 20);
   ("WINDOWS_1258"%string, NamedByte 21); ("CP1258"%string, NamedByte 21); ("IBM437"%string, NamedByte 22);
   ("CP437"%string, NamedByte 22); ("IBM737"%string, NamedByte 23); ("CP737"%string, NamedByte 23);
   ("IBM775"%string, NamedByte 24); ("CP775"%string, NamedByte 24); ("IBM850"%string, NamedByte 25);
   ("CP850"%string, NamedByte 25); ("IBM852"%string, NamedByte 26); ("CP852"%string, NamedByte 26);
   ("IBM855"%string, NamedByte 27); ("CP855"%string, NamedByte 27); ("IBM857"%string, NamedByte 28);
   ("CP857"%string, NamedByte 28); ("IBM860"%string, NamedByte 29); ("CP860"%string, NamedByte 29);
   ("IBM861"%string, NamedByte 30); ("CP861"%string, NamedByte 30); ("IBM862"%string, NamedByte 31);
   ("CP862"%string, NamedByte 31); ("IBM863"%string, NamedByte 32); ("CP863"%string, NamedByte 32);
   ("IBM864"%string, NamedByte 33); ("CP864"%string, NamedByte 33); ("IBM865"%string, NamedByte 34);
   ("CP865"%string, NamedByte 34); ("IBM866"%string, NamedByte 35); ("CP866"%string, NamedByte 35);
   ("IBM869"%string, NamedByte 36); ("CP869"%string, NamedByte 36); ("EMACS_MULE"%string, NamedByte 37);
   ("MACCYRILLIC"%string, Ascii8); ("MACGREEK"%string, Ascii8); ("MACICELAND"%string, Ascii8);
   ("MACROMAN"%string, Ascii8); ("MACROMANIA"%string, Ascii8); ("MACTHAI"%string, Ascii8);
   ("MACTURKISH"%string, Ascii8); ("MACUKRAINE"%string, Ascii8) ].

(** [b'-' | b'.' => b'_', b => b.to_ascii_uppercase()]. *)
Definition norm_byte (b : Z) : Z :=
  if (b =? 45) || (b =? 46) then 95 else if (97 <=? b) && (b <=? 122) then b - 32 else b.

(** string.rs:467-628 [try_from_str]; [None] is the ArgumentError.  MAX_ENC_NAME is 32. *)
Definition enc_find (s : list Z) : option encoding :=
  if (Z.of_nat (length s) <=? 32) && forallb (fun b => b <? 128) s then
    lookup bytes_dec (map norm_byte s) (map (fun p => (bs (fst p), snd p)) enc_table)
  else None.
