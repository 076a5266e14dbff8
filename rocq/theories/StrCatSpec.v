(** Which encoding two texts have in common (the rule of Ruby's [Encoding.compatible?]),
    what joining them gives, and how they compare.  Independent of the model. *)
From Coq Require Import ZArith List Bool.
From Verif Require Import IdModel.
Import ListNotations.
Open Scope Z_scope.

Definition text : Type := encoding * list Z.
(** Text of ASCII characters only; the empty text counts in every encoding. *)
Definition text7 (e : encoding) (b : list Z) : bool :=
  match b with [] => true | _ => ascii_compatible e && forallb (fun x => x <? 128) b end.
Definition joint (a b : text) : option encoding :=
  let '(ea, x) := a in let '(eb, y) := b in
  if enc_dec ea eb then Some ea
  else match x, y with
       | _, [] => Some ea
       | [], _ => Some (if ascii_compatible ea && text7 eb y then ea else eb)
       | _, _ => if ascii_compatible ea && ascii_compatible eb then
                   if text7 eb y then Some ea else if text7 ea x then Some eb else None
                 else None
       end.
Definition join (a b : text) : option text :=
  match joint a b with Some e => Some (e, snd a ++ snd b) | None => None end.
Fixpoint join_all (a : text) (l : list text) : option text :=
  match l with
  | [] => Some a
  | b :: r => match join a b with Some c => join_all c r | None => None end
  end.
(** A literal with interpolations: its pieces joined from the left; without pieces empty UTF-8. *)
Definition joined (l : list text) : option text :=
  match l with [] => Some (Utf8, []) | a :: r => join_all a r end.

(** Dictionary order. *)
Inductive lex : list Z -> list Z -> comparison -> Prop :=
| lex_eq a : lex a a Eq
| lex_lt p y b : lex p (p ++ y :: b) Lt
| lex_gt p y b : lex (p ++ y :: b) p Gt
| lex_d p x y a b : x <> y -> lex (p ++ x :: a) (p ++ y :: b) (Z.compare x y).
(** Equal strings: the same bytes, in encodings that can be joined. *)
Definition same (a b : text) : Prop := snd a = snd b /\ joint a b <> None.
(** Encodings as they exist (ISO-8859-1 to -16, the table of named ones), and pairs that
    are not two variants of Shift_JIS or two of the encodings known by name only. *)
Definition real_enc (e : encoding) : Prop :=
  match e with Iso8859 n => 0 <= n <= 16 | NamedByte n => 0 <= n | _ => True end.
Definition apart (a b : encoding) : Prop :=
  match a, b with Sjis m, Sjis n => m = n | Other m, Other n => m = n | _, _ => True end.
