(** C16, C17, C48: Rational arithmetic, rounding and rationalize. *)
From Coq Require Import ZArith QArith Qpower Qabs Lia.
From Verif Require Import RatModel RatSpec RatProofs.
Open Scope Q_scope.

(** *** C16 *)
(** Every expression over Rational(), + - * / ** -@ abs gives the exact value in
    lowest terms, and raises ZeroDivisionError exactly when the value is
    undefined.  Partial: exponents below 2^32 in absolute value. *)
Theorem C16_exact_partial x : small_powers x ->
  match eval x, qeval x with
  | Ok r, Some q => lowest r /\ qof r == q
  | DivZero, None => True
  | _, _ => False
  end.
Proof. exact (eval_ok x). Qed.
Print Assumptions C16_exact_partial.
(** == and <=> between Rationals and with Integers are those of the values. *)
Theorem C16_compare r s : lowest r -> lowest s -> (eq r s = true <-> qof r == qof s) /\ cmp r s = (qof r ?= qof s).
Proof. exact (eq_ok r s). Qed.
Print Assumptions C16_compare.
(** != only with small Integers. *)
Theorem C16_compare_integer_partial r i : lowest r ->
  (eq_int r i = true <-> qof r == inject_Z i) /\ cmp_int r i = Ok (qof r ?= inject_Z i) /\ (fixnum i = true -> ne_int r i = negb (eq_int r i)).
Proof. exact (int_ok r i). Qed.
Print Assumptions C16_compare_integer_partial.
(** Rational(1, 2) ** (2**32) is (1/1): the exponent is truncated to 32 bits. *)
Theorem C16_power_refuted : exists r e t, lowest r /\ pow r e = Ok t /\ ~ qof t == qof r ^ e.
Proof.
  exists (mkrat 1 2), (2 ^ 32)%Z, (mkrat 1 1). split; [split; reflexivity|]. split; [vm_compute; reflexivity|].
  exact (half_power (2 ^ 32)).
Qed.
Print Assumptions C16_power_refuted.
(** Rational(2**62) != 2**62 is true, although == is true as well. *)
Theorem C16_not_equal_refuted : exists r i, lowest r /\ qof r == inject_Z i /\ eq_int r i = true /\ ne_int r i = true.
Proof. exists (mkrat (2 ^ 62) 1), (2 ^ 62)%Z. repeat split; reflexivity. Qed.
Print Assumptions C16_not_equal_refuted.
Example C16_example :
  eval (EAdd (ERational 6 (-4)) (EPow (ERational (-2) 3) (-3))) = Ok (mkrat (-39) 8)
  /\ eval (EDiv (EInt 1) (ESub (ERational 1 2) (ERational 2 4))) = DivZero
  /\ qeval (EDiv (EInt 1) (ESub (ERational 1 2) (ERational 2 4))) = None
  /\ cmp (mkrat (-1) 3) (mkrat (-1) 4) = Lt.
Proof. vm_compute. repeat split. Qed.

(** *** C17 *)
(** Partial: fewer than 2^32 digits; negative digit counts need a non-negative or
    integral receiver. *)
Theorem C17_floor_partial r nd : lowest r -> (- 2 ^ 32 < nd < 2 ^ 32)%Z -> (0 <= nd \/ 0 <= num r \/ den r = 1)%Z ->
  exists o, rational_floor r nd = Ok o /\ shaped nd o (floor_of (unit nd) (qof r)).
Proof. exact (floor_ok r nd). Qed.
Print Assumptions C17_floor_partial.
Theorem C17_ceil_partial r nd : lowest r -> (- 2 ^ 32 < nd < 2 ^ 32)%Z -> (0 <= nd \/ num r <= 0 \/ den r = 1)%Z ->
  exists o, rational_ceil r nd = Ok o /\ shaped nd o (ceil_of (unit nd) (qof r)).
Proof. exact (ceil_ok r nd). Qed.
Print Assumptions C17_ceil_partial.
(** Partial only in the digit count. *)
Theorem C17_truncate_partial r nd : lowest r -> (- 2 ^ 32 < nd < 2 ^ 32)%Z ->
  exists o, rational_truncate r nd = Ok o /\ shaped nd o (trunc_of (unit nd) (qof r)).
Proof. exact (truncate_ok r nd). Qed.
Print Assumptions C17_truncate_partial.
(** Partial: with nd >= 0 the receiver is not negative or its truncation is a
    nearest value; with nd < 0 the mode is half up or the receiver integral. *)
Theorem C17_round_partial r nd h : lowest r -> (- 2 ^ 32 < nd < 2 ^ 32)%Z ->
  ((0 <= nd)%Z -> (0 <= num r)%Z \/ exists y, trunc_of (unit nd) (qof r) y /\ 2 * Qabs (qof r - y) <= unit nd) ->
  ((nd < 0)%Z -> h = Up \/ den r = 1%Z) ->
  exists o, rational_round r nd h = Ok o /\ shaped nd o (fun y => round_of (unit nd) (qof r) y h).
Proof. exact (round_ok r nd h). Qed.
Print Assumptions C17_round_partial.
(** Rational(-5, 3).round is -1. *)
Theorem C17_round_negative_refuted : exists r nd h o, lowest r /\ rational_round r nd h = Ok o /\ ~ shaped nd o (fun y => round_of (unit nd) (qof r) y h).
Proof.
  exists (mkrat (-5) 3), 0%Z, Up, (RInt (-1)). split; [split; reflexivity|]. split; [reflexivity|].
  intros [_ (m & _ & h & _)]. revert h. vm_compute. auto.
Qed.
Print Assumptions C17_round_negative_refuted.
(** Rational(51, 2).round(-1, half: :down) is 20. *)
Theorem C17_round_half_refuted : exists r nd h o, lowest r /\ (0 <= num r)%Z /\ rational_round r nd h = Ok o /\ ~ shaped nd o (fun y => round_of (unit nd) (qof r) y h).
Proof.
  exists (mkrat 51 2), (-1)%Z, Down, (RInt 20). split; [split; reflexivity|]. split; [discriminate|]. split; [reflexivity|].
  intros [_ (m & _ & h & _)]. revert h. vm_compute. auto.
Qed.
Print Assumptions C17_round_half_refuted.
(** Rational(-1, 2).floor(-1) and Rational(1, 2).ceil(-1) are 0. *)
Theorem C17_floor_refuted : exists r nd o, lowest r /\ rational_floor r nd = Ok o /\ ~ shaped nd o (floor_of (unit nd) (qof r)).
Proof.
  exists (mkrat (-1) 2), (-1)%Z, (RInt 0). split; [split; reflexivity|]. split; [reflexivity|]. intros [_ (_ & h & _)]. revert h. vm_compute. auto.
Qed.
Print Assumptions C17_floor_refuted.
Theorem C17_ceil_refuted : exists r nd o, lowest r /\ rational_ceil r nd = Ok o /\ ~ shaped nd o (ceil_of (unit nd) (qof r)).
Proof.
  exists (mkrat 1 2), (-1)%Z, (RInt 0). split; [split; reflexivity|]. split; [reflexivity|]. intros [_ (_ & h & _)]. revert h. vm_compute. auto.
Qed.
Print Assumptions C17_ceil_refuted.
(** Rational(7, 1).truncate(-2**32) is 7 instead of 0: the digit count is
    truncated to 32 bits. *)
Theorem C17_digits_refuted : exists r nd o, lowest r /\ rational_truncate r nd = Ok o /\ ~ shaped nd o (trunc_of (unit nd) (qof r)).
Proof.
  exists (mkrat 7 1), (- 2 ^ 32)%Z, (RInt 7). split; [split; reflexivity|]. split; [vm_compute; reflexivity|].
  intros [_ [h _]]. specialize (h ltac:(discriminate)). destruct h as ([m hm] & _ & _).
  exact (seven_not_multiple (2 ^ 32) m hm).
Qed.
Print Assumptions C17_digits_refuted.
Example C17_example :
  rational_floor (mkrat (-22) 7) 2 = Ok (RRat (mkrat (-63) 20)) /\ rational_ceil (mkrat (-12345) 1) (-2) = Ok (RInt (-12300))
  /\ rational_round (mkrat 25 2) 0 Even = Ok (RInt 12) /\ rational_round (mkrat 1 8) 2 Even = Ok (RRat (mkrat 3 25)) /\ rational_round (mkrat 1 8) 5 Up = Ok (RRat (mkrat 1 8)).
Proof. vm_compute. repeat split. Qed.

(** *** C48 *)
(** Rational#rationalize(eps) ends and gives the simplest fraction. *)
Theorem C48_rational_rationalize v eps : lowest v -> lowest eps ->
  exists n0 y, forall n, (n0 <= n)%nat -> rb_rationalize n v eps = Some (Ok y) /\ simplest (qof v) (Qabs (qof eps)) y.
Proof. exact (rb_rationalize_ok v eps). Qed.
Print Assumptions C48_rational_rationalize.
(** Float#rationalize(eps) ([v] the exact value) when |eps| < |v|. *)
Theorem C48_float_rationalize_partial v eps : lowest v -> lowest eps -> Qabs (qof eps) < Qabs (qof v) ->
  exists n0 y, forall n, (n0 <= n)%nat -> find_simplest n v eps = Some (Ok y) /\ simplest (qof v) (Qabs (qof eps)) y.
Proof. exact (find_simplest_ok v eps). Qed.
Print Assumptions C48_float_rationalize_partial.
(** Otherwise not: 0.25.rationalize(Rational(1, 2)) is (1/2) instead of (0/1). *)
Theorem C48_float_rationalize_refuted : exists v eps y, lowest v /\ lowest eps /\ find_simplest 5 v eps = Some (Ok y) /\ ~ simplest (qof v) (Qabs (qof eps)) y.
Proof.
  exists (mkrat 1 4), (mkrat 1 2), (mkrat 1 2). split; [split; reflexivity|]. split; [split; reflexivity|]. split; [vm_compute; reflexivity|].
  intros (_ & _ & h). destruct (h 0%Z 1%positive) as [h1 h2]; [discriminate|]. cbn in h1. lia.
Qed.
Print Assumptions C48_float_rationalize_refuted.
Example C48_example :
  rb_rationalize 20 (mkrat 355 113) (mkrat 1 100) = Some (Ok (mkrat 22 7)) /\ find_simplest 20 (mkrat (-3) 10) (mkrat 1 50) = Some (Ok (mkrat (-2) 7))
  /\ rb_rationalize 20 (mkrat 1 4) (mkrat 1 2) = Some (Ok (mkrat 0 1)).
Proof. vm_compute. repeat split. Qed.
