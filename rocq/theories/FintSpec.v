(** What converting a Float to an Integer means. Every finite double is a
    multiple of 2^-1074: [fx f] says which. *)
From Coq Require Import ZArith Bool Floats.SpecFloat.
From Verif Require Import IntModel FintModel.
Open Scope Z_scope.

Definition U : Z := 2 ^ 1074.
Definition fx (f : spec_float) : Z :=
  match f with
  | S754_finite s m e => (if s then Zneg m else Zpos m) * 2 ^ (e + 1074)
  | _ => 0
  end.
(** The doubles. *)
Definition dbl (f : spec_float) : Prop := valid_binary 53 1024 f = true.

Definition is_trunc (f : spec_float) (n : Z) : Prop :=
  (0 <= fx f -> n * U <= fx f < (n + 1) * U) /\ (fx f <= 0 -> (n - 1) * U < fx f <= n * U).
(** Multiples of [p] next to the Float. *)
Definition floors (f : spec_float) (p n : Z) : Prop := (p | n) /\ n * U <= fx f < (n + p) * U.
Definition ceils (f : spec_float) (p n : Z) : Prop := (p | n) /\ (n - p) * U < fx f <= n * U.
(** The nearest one; of two nearest, the one the mode says. *)
Definition rounds (f : spec_float) (p : Z) (h : half_mode) (n : Z) : Prop :=
  (p | n) /\ 2 * Z.abs (fx f - n * U) <= p * U /\
  (2 * Z.abs (fx f - n * U) = p * U ->
   match h with
   | HUp => Z.abs (fx f) < Z.abs (n * U)
   | HDown => Z.abs (n * U) < Z.abs (fx f)
   | HEven => (2 * p | n)
   end).

(** The Integer of a result. *)
Definition gives (r : fres fval) (P : Z -> Prop) : Prop :=
  exists v z, r = FOk (VInt v) /\ ival v = z /\ canonical v /\ P z.
Definition gives_num (r : fres num) (P : Z -> Prop) : Prop :=
  exists v, r = FOk v /\ canonical v /\ P (ival v).

(** Digit counts that survive the cast to u32. *)
Definition in_digits (nd : Z) : Prop := - 2 ^ 32 < nd < 0.
