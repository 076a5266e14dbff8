(** JSON texts (RFC 8259) and what they say. *)
From Coq Require Import ZArith List Bool.
From Verif Require Import JsonModel Utf8Spec.
From Verif Require MarshalModel.
Import ListNotations.
Open Scope Z_scope.

(** ** The grammar *)

(** ws *)
Definition blank (w : list Z) : Prop := Forall (fun c => c = 32 \/ c = 9 \/ c = 10 \/ c = 13) w.

(** Four hexadecimal digits. *)
Inductive hex_digit : Z -> Z -> Prop :=
| HD c : 48 <= c <= 57 -> hex_digit c (c - 48)
| HL c : 97 <= c <= 102 -> hex_digit c (c - 87)
| HU c : 65 <= c <= 70 -> hex_digit c (c - 55).
Definition code_unit (t : list Z) (u : Z) : Prop :=
  exists a b c d x y z w, t = [a; b; c; d] /\ hex_digit a x /\ hex_digit b y /\ hex_digit c z /\ hex_digit d w /\
  u = x * 4096 + y * 256 + z * 16 + w.

(** char: its text and the character it is. *)
Inductive jchar : list Z -> Z -> Prop :=
| CRaw c : scalar c -> 32 <= c -> c <> 34 -> c <> 92 -> jchar (enc_utf8 c) c
| CEsc e c : In (e, c) [(34, 34); (92, 92); (47, 47); (98, 8); (102, 12); (110, 10); (114, 13); (116, 9)] -> jchar [92; e] c
| CUnit t u : code_unit t u -> scalar u -> jchar ([92; 117] ++ t) u
| CPair t1 u1 t2 u2 : code_unit t1 u1 -> code_unit t2 u2 -> 55296 <= u1 <= 56319 -> 56320 <= u2 <= 57343 ->
    jchar ([92; 117] ++ t1 ++ [92; 117] ++ t2) (65536 + (u1 - 55296) * 1024 + (u2 - 56320)).
Inductive jchars : list Z -> list Z -> Prop :=
| CNil : jchars [] []
| CCons t c r b : jchar t c -> jchars r b -> jchars (t ++ r) (enc_utf8 c ++ b).
(** string: its text and the UTF-8 it denotes. *)
Definition jstring (t b : list Z) : Prop := exists t', t = [34] ++ t' ++ [34] /\ jchars t' b.

(** number = [-] int [frac] [exp] *)
Definition digits (l : list Z) : Prop := l <> [] /\ Forall (fun c => 48 <= c <= 57) l.
Definition jint (t : list Z) : Prop := t = [48] \/ (digits t /\ hd 0 t <> 48).
Definition jfrac (t : list Z) : Prop := exists d, t = [46] ++ d /\ digits d.
Definition jexp (t : list Z) : Prop :=
  exists e g d, t = [e] ++ g ++ d /\ (e = 101 \/ e = 69) /\ (g = [] \/ g = [43] \/ g = [45]) /\ digits d.
Definition minus (t : list Z) : Prop := t = [] \/ t = [45].
Fixpoint decimal (a : Z) (l : list Z) : Z := match l with [] => a | c :: r => decimal (10 * a + (c - 48)) r end.
(** An Integer, and a number with a fraction or an exponent. *)
Inductive jinteger : list Z -> Z -> Prop :=
| NPos t : jint t -> jinteger t (decimal 0 t)
| NNeg t : jint t -> jinteger ([45] ++ t) (- decimal 0 t).
Definition jdecimal (t : list Z) : Prop :=
  exists g i f e, t = g ++ i ++ f ++ e /\ minus g /\ jint i /\ (f = [] \/ jfrac f) /\ (e = [] \/ jexp e) /\ f ++ e <> [].

Section Grammar.
(** The Float nearest to a number text; the Integers that are considered. *)
Variables (rd : list Z -> option Z) (ok : Z -> Prop).

(** value; array elements and object members, with the blanks around them. *)
Inductive jvalue : list Z -> jv -> Prop :=
| VNull : jvalue [110; 117; 108; 108] JNull
| VTrue : jvalue [116; 114; 117; 101] JTrue
| VFalse : jvalue [102; 97; 108; 115; 101] JFalse
| VInt t z : jinteger t z -> ok z -> jvalue t (JInt z)
| VFlo t b : jdecimal t -> rd t = Some b -> jvalue t (JFlo b)
| VStr t b : jstring t b -> jvalue t (JStr b)
| VArr0 w : blank w -> jvalue ([91] ++ w ++ [93]) (JArr [])
| VArr t l : jelems t l -> jvalue ([91] ++ t ++ [93]) (JArr l)
| VObj0 w : blank w -> jvalue ([123] ++ w ++ [125]) (JObj [])
| VObj t l : jmembers t l -> jvalue ([123] ++ t ++ [125]) (JObj (fold_left (fun m p => hput (fst p) (snd p) m) l []))
with jelems : list Z -> list jv -> Prop :=
| EOne w1 t w2 v : blank w1 -> blank w2 -> jvalue t v -> jelems (w1 ++ t ++ w2) [v]
| EMore w1 t w2 v r l : blank w1 -> blank w2 -> jvalue t v -> jelems r l ->
    jelems (w1 ++ t ++ w2 ++ [44] ++ r) (v :: l)
with jmembers : list Z -> list (list Z * jv) -> Prop :=
| MOne w1 k b w2 w3 t w4 v : blank w1 -> blank w2 -> blank w3 -> blank w4 -> jstring k b -> jvalue t v ->
    jmembers (w1 ++ k ++ w2 ++ [58] ++ w3 ++ t ++ w4) [(b, v)]
| MMore w1 k b w2 w3 t w4 v r l : blank w1 -> blank w2 -> blank w3 -> blank w4 -> jstring k b -> jvalue t v ->
    jmembers r l ->
    jmembers (w1 ++ k ++ w2 ++ [58] ++ w3 ++ t ++ w4 ++ [44] ++ r) ((b, v) :: l).

(** JSON-text = ws value ws *)
Definition jtext (t : list Z) (v : jv) : Prop :=
  exists w1 w2 u, t = w1 ++ u ++ w2 /\ blank w1 /\ blank w2 /\ jvalue u v.
End Grammar.

(** The Integers of 64 bits; fixnums; all. *)
Definition i64 (z : Z) : Prop := - 2 ^ 63 <= z < 2 ^ 63.
Definition fixnum (z : Z) : Prop := - 2 ^ 62 <= z < 2 ^ 62.
Definition any_int (z : Z) : Prop := True.
Fixpoint all_ints (ok : Z -> Prop) (v : jv) : Prop :=
  match v with
  | JInt z => ok z
  | JArr l => (fix go l := match l with [] => True | x :: r => all_ints ok x /\ go r end) l
  | JObj l => (fix go l := match l with [] => True | (_, x) :: r => all_ints ok x /\ go r end) l
  | _ => True
  end.

(** ** What a Ruby value says in JSON: nothing for what JSON has no place for. *)
Definition finite (b : Z) : Prop := MarshalModel.f_nan b = false /\ MarshalModel.f_inf b = false.
Inductive says : rv -> jv -> Prop :=
| SNil : says RNil JNull
| STrue : says RTrue JTrue
| SFalse : says RFalse JFalse
| SInt z : says (RInt z) (JInt z)
| SFlo b : finite b -> says (RFlo b) (JFlo b)
| SStr b : utf8_valid b -> says (RStr 0 b) (JStr b)
| SArr l m : Forall2 says l m -> says (RArr l) (JArr m)
| SHash l m : Forall2 (fun p q => fst p = RStr 0 (fst q) /\ utf8_valid (fst q) /\ says (snd p) (snd q)) l m ->
    NoDup (map fst m) -> says (RHash l) (JObj m).

(** How deep Arrays and Hashes are nested. *)
Fixpoint nesting (v : rv) : nat :=
  match v with
  | RArr l => S ((fix go l := match l with [] => O | x :: r => Nat.max (nesting x) (go r) end) l)
  | RHash l => S ((fix go l := match l with [] => O | (_, x) :: r => Nat.max (nesting x) (go r) end) l)
  | _ => O
  end.

(** A formatter of Floats writes JSON numbers that read back. *)
Definition format_ok (fmt : Z -> list Z) (rd : list Z -> option Z) : Prop :=
  forall b, finite b -> jdecimal (fmt b) /\ rd (fmt b) = Some b.

(** Text of characters from U+0020 on other than the backslash. *)
Definition unescaped (s : list Z) : Prop :=
  exists cs, Forall (fun c => scalar c /\ 32 <= c /\ c <> 92) cs /\ s = concat (map enc_utf8 cs).
