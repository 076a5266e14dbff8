(** Decimal texts and the numbers they write. *)
From Coq Require Import ZArith List Bool.
From Verif Require Import FtextModel MarshalModel MarshalSpec.
From Verif Require ValueModel.
Import ListNotations.
Open Scope Z_scope.
Local Notation len l := (Z.of_nat (length l)).

(** int [. frac] [e exp] *)
Record dec := mkd { dint : list Z; dfrac : option (list Z); dexp : option Z }.
Definition fracs (d : dec) : list Z := match dfrac d with Some f => f | None => [] end.
Definition text (d : dec) : list Z :=
  dint d ++ match dfrac d with Some f => [46] ++ f | None => [] end ++ match dexp d with Some e => [101] ++ show e | None => [] end.
(** Its value is mantissa * 10 ^ scale. *)
Definition mantissa (d : dec) : Z := num (dint d ++ fracs d).
Definition scale (d : dec) : Z := match dexp d with Some e => e | None => 0 end - len (fracs d).
Definition same_value (x y : dec) : Prop :=
  exists k, 0 <= scale x + k /\ 0 <= scale y + k /\ mantissa x * 10 ^ (scale x + k) = mantissa y * 10 ^ (scale y + k).

Definition digits (l : list Z) : Prop := Forall (fun c => 48 <= c <= 57) l.
(** A positive number, at least one digit on both sides of the point, of reasonable size. *)
Definition proper (d : dec) : Prop :=
  dint d <> [] /\ digits (dint d) /\ digits (fracs d) /\ dfrac d <> Some [] /\ 0 < mantissa d /\
  len (dint d) + len (fracs d) <= 10000 /\ match dexp d with Some e => -10000 <= e <= 10000 | None => True end.
(** No leading zero, except 0 itself before a point; not long. *)
Definition normal (d : dec) : Prop :=
  ((exists c r, dint d = c :: r /\ c <> 48) \/ (dint d = [48] /\ dfrac d <> None)) /\
  len (dint d) + len (fracs d) <= 1000 /\ match dexp d with Some e => -1000 <= e <= 1000 | None => True end.

Definition finite (b : Z) : Prop := float_word b /\ ValueModel.f64_eq_zero b = false /\ f_inf b = false /\ f_nan b = false.

(** The dtoa crate writes a positive finite Float as a decimal text that parses back. *)
Definition dtoa_ok (dtoa : Z -> list Z) (prs : list Z -> option Z) : Prop :=
  forall b, finite b -> b < 2 ^ 63 ->
  prs (dtoa b) = Some b /\ exists d, dtoa b = text d /\ proper d /\ normal d.
(** [str::parse::<f64>] looks at the number, not at how it is written. *)
Definition parse_ok (prs : list Z -> option Z) : Prop :=
  (forall x y, proper x -> proper y -> same_value x y -> prs (text x) = prs (text y)) /\
  (forall x b, proper x -> prs (text x) = Some b -> prs (45 :: text x) = Some (b + 2 ^ 63)).
