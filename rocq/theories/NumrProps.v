(** C143: the divisions and step of Numeric. *)
From Coq Require Import ZArith QArith List Bool.
From Verif Require Import NumrModel NumrSpec NumrProofs.
Import ListNotations.
Local Open Scope Q_scope.

(** C143. divmod, div and modulo: an Integer quotient, and a rest between 0 and the divisor. *)
Theorem C143_divmod : forall a b, ~ b == 0 -> exists q r, divmod a b = Some (q, r) /\ div a b = Some q /\ modulo a b = Some r
  /\ a == b * inject_Z q + r /\ between r b.
Proof. exact (divmod_ok). Qed.
Example C143_divmod_example : div (-7 # 2) 2 = Some (-2)%Z /\ option_map Qred (modulo (-7 # 2) 2) = Some (1 # 2) /\ div (7 # 2) (-2) = Some (-2)%Z /\ option_map Qred (modulo (7 # 2) (-2)) = Some (-1 # 2).
Proof. repeat split; reflexivity. Qed.
Print Assumptions C143_divmod.

(** They raise ZeroDivisionError for the divisor 0, and so does remainder. *)
Theorem C143_div_zero : forall a b, b == 0 -> div a b = None /\ modulo a b = None /\ divmod a b = None /\ remainder a b = None.
Proof. exact (div_zero). Qed.
Example C143_div_zero_example : div (7 # 2) (0 # 5) = None /\ remainder 0 0 = None.
Proof. repeat split; reflexivity. Qed.
Print Assumptions C143_div_zero.

(** remainder: a rest of the sign of the dividend, nearer to 0 than the divisor. *)
Theorem C143_remainder : forall a b, ~ b == 0 -> exists q r, remainder a b = Some r
  /\ a == b * inject_Z q + r /\ nearer r b /\ along r a.
Proof. exact (remainder_ok). Qed.
Example C143_remainder_example : option_map Qred (remainder (-7 # 2) 2) = Some (-3 # 2) /\ option_map Qred (remainder (7 # 2) (-2)) = Some (3 # 2) /\ option_map Qred (remainder (-4) 2) = Some 0 /\ option_map Qred (remainder (-7 # 2) (-2)) = Some (-3 # 2).
Proof. repeat split; reflexivity. Qed.
Print Assumptions C143_remainder.

(** step with a limit gives the block the values up to it, and ends. *)
Theorem C143_step_limit : forall n a l s, s <> 0%Z ->
  step n a (Some l) s = Some (progression a s (Nat.min n (steps a l s)), Nat.ltb (steps a l s) n).
Proof. exact (step_limit_ok). Qed.
Example C143_step_limit_example : step 9 1 (Some 8%Z) 3 = Some ([1; 4; 7]%Z, true) /\ step 9 5 (Some (-1)%Z) (-3) = Some ([5; 2; -1]%Z, true) /\ step 9 1 (Some 0%Z) 3 = Some ([], true) /\ step 2 1 (Some 8%Z) 3 = Some ([1; 4]%Z, false).
Proof. repeat split; reflexivity. Qed.
Print Assumptions C143_step_limit.

(** step without a limit gives it all of them. *)
Theorem C143_step_endless : forall n a s, s <> 0%Z -> step n a None s = Some (progression a s n, false).
Proof. exact (step_endless_ok). Qed.
Example C143_step_endless_example : step 3 1 None (-2) = Some ([1; -1; -3]%Z, false).
Proof. repeat split; reflexivity. Qed.
Print Assumptions C143_step_endless.

(** step by 0 raises ArgumentError. *)
Theorem C143_step_zero : forall n a l, step n a l 0 = None.
Proof. exact (step_zero). Qed.
Example C143_step_zero_example : step 3 1 (Some 5%Z) 0 = None.
Proof. repeat split; reflexivity. Qed.
Print Assumptions C143_step_zero.
