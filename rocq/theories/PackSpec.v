(** What C34-C37 and C56 ask of pack and unpack. *)

From Coq Require Import ZArith Bool List.
From Verif Require Import PackModel.
Import ListNotations.
Local Open Scope Z_scope.

Definition bytes (l : list Z) : Prop := Forall (fun b => 0 <= b < 256) l.

(** [y] is [x] reduced to [size] bytes. *)
Definition reduces (signed : bool) (size : nat) (x y : Z) : Prop :=
  let m := 2 ^ (8 * Z.of_nat size) in
  (exists k, y = x + k * m) /\ if signed then - (m / 2) <= y < m / 2 else 0 <= y < m.

Definition is_int (nd : node) : Prop := match tmpl nd with IntOf _ _ => True | _ => False end.
(** The signedness and size that apply to each of [n] arguments. *)
Fixpoint layout (nds : list node) (n : nat) : list (bool * nat) :=
  match nds with
  | [] => []
  | nd :: r =>
      let k := match count nd with Some k => k | None => n end in
      match tmpl nd with IntOf sg size => List.repeat (sg, size) k | _ => [] end ++ layout r (n - k)
  end.

(** A template of one directive. *)
Definition one (t : list Z) (d : template) (n : option nat) : Prop :=
  exists nd, parse_template t = Some [nd] /\ tmpl nd = d /\ count nd = n.

(** A count that fits [n] values. *)
Definition for_count (n : option nat) (len : nat) : Prop := n = None \/ n = Some len.

Definition bit_string (l : list Z) : Prop := Forall (fun c => c = 48 \/ c = 49) l.
Definition hex_string (l : list Z) : Prop := Forall (fun c => 48 <= c <= 57 \/ 97 <= c <= 102) l.

(** A value an integer directive can hold. *)
Definition in_range (signed : bool) (size : nat) (x : Z) : Prop :=
  let m := 2 ^ (8 * Z.of_nat size) in if signed then - (m / 2) <= x < m / 2 else 0 <= x < m.
Definition holds (d : template) (x : Z) : Prop :=
  match d with
  | IntOf sg size => in_range sg size x
  | Utf8 => 0 <= x < 2 ^ 21
  | BerCompressedInt => 0 <= x < 2 ^ 63
  | UlebUnsigned => 0 <= x < 2 ^ 64
  | SlebSigned => - 2 ^ 63 <= x < 2 ^ 63
  | _ => False
  end.
Definition numeric (d : template) : Prop :=
  match d with IntOf _ _ | Utf8 | BerCompressedInt | UlebUnsigned | SlebSigned => True | _ => False end.
(** Room for a string. *)
Definition room (n : option nat) (len : nat) : Prop := match n with None => True | Some k => (len <= k)%nat end.
Definition whole (n : option nat) (len unit : nat) : Prop := n = Some len \/ n = None /\ exists k, len = (unit * k)%nat.

(** The values [vs] can be stored with the directive [nd] without loss. *)
Inductive field (nd : node) : list val -> Prop :=
| f_ints xs : numeric (tmpl nd) -> Forall (holds (tmpl nd)) xs -> for_count (count nd) (length xs) -> field nd (map VInt xs)
| f_floats xs : tmpl nd = F64 -> Forall (fun x => 0 <= x < 2 ^ 64) xs -> for_count (count nd) (length xs) ->
    field nd (map VFlt xs)
| f_binary s : tmpl nd = Ascii -> for_count (count nd) (length s) -> field nd [VStr s]
| f_trimmed s : tmpl nd = AsciiTrim -> room (count nd) (length s) ->
    (forall t c, s = t ++ [c] -> c <> 32 /\ c <> 0) -> field nd [VStr s]
| f_cstring s : tmpl nd = CString -> room (count nd) (length s) -> ~ In 0 s -> field nd [VStr s]
| f_bits s : tmpl nd = BitString -> bit_string s -> whole (count nd) (length s) 8 -> field nd [VStr s]
| f_hex s : tmpl nd = Hex -> hex_string s -> whole (count nd) (length s) 2 -> field nd [VStr s]
| f_skip : tmpl nd = Null -> count nd <> None -> field nd []
| f_encoded s : In (tmpl nd) [Base64; QuotedPrintable; UuEncoded] -> bytes s -> field nd [VStr s].

(** [unpack] can tell where the values of the directive end. *)
Definition delimited (nd : node) : Prop :=
  match tmpl nd with Base64 | QuotedPrintable | UuEncoded => False | _ => count nd <> None end.
Fixpoint delimited_but_last (nds : list node) : Prop :=
  match nds with
  | [] | [_] => True
  | nd :: r => delimited nd /\ delimited_but_last r
  end.

(** ** The formats themselves *)

(** The lines of a text (without their newlines); the last one is what follows the last newline. *)
Fixpoint lines (l : list Z) : list (list Z) :=
  match l with
  | [] => [[]]
  | c :: r =>
      match lines r with
      | [] => [[c]]
      | x :: xs => if c =? 10 then [] :: x :: xs else (c :: x) :: xs
      end
  end.
Definition b64_text (c : Z) : Prop :=
  65 <= c <= 90 \/ 97 <= c <= 122 \/ 48 <= c <= 57 \/ c = 43 \/ c = 47 \/ c = 61 \/ c = 10.
Definition uu_text (c : Z) : Prop := 32 <= c <= 96 \/ c = 10.
Definition qp_text (c : Z) : Prop := 32 <= c <= 126 \/ c = 9 \/ c = 10.

(** Groups of seven bits with a flag on all but the last one; the number they stand for, least
    and most significant group first. *)
Fixpoint flagged (ds : list Z) : list Z :=
  match ds with
  | [] => []
  | [d] => [d]
  | d :: r => (d + 128) :: flagged r
  end.
Fixpoint le_value (ds : list Z) : Z := match ds with [] => 0 | d :: r => d + 128 * le_value r end.
Definition be_value (ds : list Z) : Z := le_value (rev ds).
Definition groups (ds : list Z) : Prop := ds <> [] /\ Forall (fun d => 0 <= d < 128) ds.

(** The number a text of decimal digits writes. *)
Definition decimal (ds : list Z) : Z := fold_left (fun a c => a * 10 + (c - 48)) ds 0.
