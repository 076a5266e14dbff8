(** Statement vocabulary for the parts of strings. *)
From Coq Require Import ZArith List Bool.
From Verif Require Import IdModel StrModel StrSpec StrCharModel StrCharSpec.
Import ListNotations.
Open Scope Z_scope.

(** The result [x] is nil when [r] is [None], otherwise the pieces [r] put together, in the
    encoding [e]; never a crash. *)
Definition answers (e : encoding) (r : option (list (list Z))) (x : ires) : Prop :=
  match r, x with
  | None, RNil => True
  | Some cs, RStr s => sb s = concat cs /\ se s = e
  | _, _ => False
  end.
(** A string of bytes, its cached classification safe ([C90]), shorter than 2^60. *)
Definition normal (s : str) : Prop :=
  safe s /\ Forall is_byte (sb s) /\ se s <> Iso2022Jp /\ Z.of_nat (length (sb s)) < 2 ^ 60.
(** No high surrogate followed by a low one. *)
Definition bmp_only (e : encoding) (b : list Z) : Prop :=
  forall k x y u v r, skipn (2 * k) b = x :: y :: u :: v :: r ->
    ~ (55296 <= unit16 e x y < 56320 /\ 56320 <= unit16 e u v < 57344).
(** The strings whose characters are found: EUC-JP and Shift_JIS when well-formed, UTF-16
    without surrogate pairs, every string in the others. *)
Definition regular (s : str) : Prop :=
  match se s with
  | Iso2022Jp => False
  | Utf16Le | Utf16Be => bmp_only (se s) (sb s)
  | EucJp | Sjis _ => valid_in (se s) (sb s)
  | _ => True
  end.
Definition multi (e : encoding) : bool := match e with Utf16Le | Utf16Be | Utf32Le | Utf32Be => true | _ => false end.
Definition int64 (o : option Z) : Prop := match o with None => True | Some z => - 2 ^ 63 <= z < 2 ^ 63 end.
(** Ends of ranges for which the arithmetic does not wrap. *)
Definition end_fits (e : encoding) (b : option Z) (excl : bool) : Prop :=
  match b with None => True | Some b => (b < 2 ^ 63 - 1 \/ excl = true) /\ (multi e = false \/ b < 2 ^ 59) end.
Definition each_byte (b : list Z) : list (list Z) := map (fun x => [x]) b.
(** Encodings without shift states or units wider than a byte. *)
Definition byte_wise (e : encoding) : Prop :=
  match e with Utf16Le | Utf16Be | Utf32Le | Utf32Be | Iso2022Jp => False | _ => True end.
