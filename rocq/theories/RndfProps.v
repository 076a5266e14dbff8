(** C145: Random::Formatter#random_number. *)
From Coq Require Import ZArith List Bool.
From Verif Require Import RndfModel RndfSpec RndfProofs.
Import ListNotations.
Local Open Scope Z_scope.

(** C145. random_number(n): every Integer below n comes from the same number of draws. *)
Theorem C145_uniform : forall n v d, 0 < n -> 0 <= v < n ->
  (draw_of (nbytes n) d /\ round n d = Some v
   <-> exists j, 0 <= j < 2 ^ (8 * nbytes n - bits n) /\ d = v + j * 2 ^ bits n).
Proof. exact (round_uniform). Qed.
Example C145_uniform_example : bits 300 = 9 /\ nbytes 300 = 2 /\ round 300 (299 + 5 * 512) = Some 299 /\ round 300 (300 + 5 * 512) = None /\ bits 1 = 0 /\ nbytes 1 = 0 /\ round 1 0 = Some 0 /\ bits 256 = 8 /\ nbytes 256 = 1.
Proof. repeat split; reflexivity. Qed.
Print Assumptions C145_uniform.

(** More than half of the draws end its loop. *)
Theorem C145_half : forall n, 1 < n -> 2 ^ bits n < 2 * n.
Proof. exact (round_half). Qed.
Example C145_half_example : 2 ^ bits 257 = 512 /\ 2 ^ bits 256 = 256.
Proof. repeat split; reflexivity. Qed.
Print Assumptions C145_half.

(** It answers what the first draw gives that gives something. *)
Theorem C145_first : forall n draws v, 0 < n -> (random_number n draws = AInt v <->
  exists a d b, draws = a ++ d :: b /\ round n d = Some v /\ Forall (fun e => round n e = None) a).
Proof. exact (random_int_ok). Qed.
Example C145_first_example : random_number 5 [7; 6; 12; 1] = AInt 4 /\ random_number 5 [7; 6] = AMore.
Proof. repeat split; reflexivity. Qed.
Print Assumptions C145_first.

(** It answers an Integer from 0 to n - 1. *)
Theorem C145_range : forall n draws v, 0 < n -> random_number n draws = AInt v -> 0 <= v < n.
Proof. exact (random_int_range). Qed.
Example C145_range_example : random_number 1 [0] = AInt 0.
Proof. repeat split; reflexivity. Qed.
Print Assumptions C145_range.

(** random_number(0) answers a Float in [0, 1). Missing: negative arguments (refuted below). *)
Theorem C145_float_partial : forall d r, draw_of 8 d -> is_float (random_number 0 (d :: r)).
Proof. exact (random_zero_ok). Qed.
Example C145_float_example : random_number 0 [2 ^ 64 - 1] = AFloat (2 ^ 53 - 1) /\ random_number 0 [2047] = AFloat 0.
Proof. repeat split; reflexivity. Qed.
Print Assumptions C145_float_partial.

(** Every such Float comes from 2048 draws. *)
Theorem C145_float_uniform : forall m d, 0 <= m < 2 ^ 53 ->
  (draw_of 8 d /\ float_num d = m <-> exists j, 0 <= j < 2 ^ 11 /\ d = m * 2 ^ 11 + j).
Proof. exact (float_uniform). Qed.
Example C145_float_uniform_example : float_num (5 * 2048 + 2047) = 5 /\ float_num (6 * 2048) = 6.
Proof. repeat split; reflexivity. Qed.
Print Assumptions C145_float_uniform.

(** False: a negative Integer raises ArgumentError. Ruby answers a Float for it as for 0. *)
Theorem C145_negative_refuted : ~ (forall n d r, n <= 0 -> draw_of 8 d -> is_float (random_number n (d :: r))).
Proof. exact (random_negative_bad). Qed.
Example C145_negative_example : random_number (-1) [0] = AArgumentError.
Proof. repeat split; reflexivity. Qed.
Print Assumptions C145_negative_refuted.
