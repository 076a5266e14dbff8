(** Exact values of finite doubles and exact comparison, in terms of rationals. *)
From Coq Require Import ZArith QArith.
Open Scope Z_scope.

(** The rational number m * 2^e. *)
Definition dyadic (m e : Z) : Q :=
  if 0 <=? e then (m * 2 ^ e) # 1 else m # Z.to_pos (2 ^ (- e)).

(** (m, e) is a mantissa/exponent pair of some IEEE-754 binary64 number. *)
Definition is_double (m e : Z) : Prop := Z.abs m < 2 ^ 53 /\ -1074 <= e <= 971.

(** Exact comparison of an integer with a dyadic number. *)
Definition exact_cmp (z m e : Z) : comparison := Qcompare (inject_Z z) (dyadic m e).
