(** What Ruby promises about Integer operators: they are the mathematical
    operations on unbounded integers.  Nothing here mentions representations. *)
From Coq Require Import ZArith.
Open Scope Z_scope.

(** Floor division: the unique q, r with a = q*b + r, r between 0 and b. *)
Definition is_floor_div (a b q r : Z) : Prop :=
  a = q * b + r /\ (0 <= r < b \/ b < r <= 0).

(** [x] is floor(a * 2^n) for a signed shift count [n]. *)
Definition is_floor_shift (a n x : Z) : Prop :=
  if 0 <=? n then x = a * 2 ^ n
  else x * 2 ^ (- n) <= a < (x + 1) * 2 ^ (- n).

(** [a ** n] as a fraction p/q: a^n when n >= 0, 1/a^-n otherwise. *)
Definition is_power (a n p q : Z) : Prop :=
  0 < q /\ if 0 <=? n then q * a ^ n = p else p * a ^ (- n) = q.
