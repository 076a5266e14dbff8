(** Witnesses for conversions that go wrong. *)
From Coq Require Import ZArith Bool Lia Floats.SpecFloat.
From Verif Require Import IntModel AseqModel FintModel FintSpec.
Open Scope Z_scope.

(** Integer(2.0**63). *)
Lemma kernel_bad : exists f, dbl f /\ is_trunc f (2 ^ 63) /\ kernel_int f = FOk (NBig (2 ^ 63 - 1)).
Proof.
  exists (f_of_Z (2 ^ 63)). split; [reflexivity|]. split; [|vm_compute; reflexivity].
  split; intros _; vm_compute; split; congruence.
Qed.

(** (-1.0).floor(-309) and 1.0.ceil(-309) are 0. *)
Lemma far_bad : float_floor (f_of_Z (-1)) (-309) = FOk (VInt (NFix 0)) /\ ~ floors (f_of_Z (-1)) (10 ^ 309) 0 /\
  float_ceil (f_of_Z 1) (-309) = FOk (VInt (NFix 0)) /\ ~ ceils (f_of_Z 1) (10 ^ 309) 0.
Proof.
  split; [vm_compute; reflexivity|]. split; [|split; [vm_compute; reflexivity|]]; intros [_ [A B]].
  - vm_compute in A. apply A. reflexivity.
  - vm_compute in B. apply B. reflexivity.
Qed.
(** 15.0.floor(-2**32) is 15, 15.0.round(-2**32) is 16. *)
Lemma digits_wrap_bad : float_floor (f_of_Z 15) (- 2 ^ 32) = FOk (VInt (NFix 15)) /\
  float_round (f_of_Z 15) (- 2 ^ 32) HUp = FOk (VInt (NFix 16)).
Proof. split; vm_compute; reflexivity. Qed.

(** 1.5.floor(400) is NaN, 1e300.floor(20) is Infinity. *)
Lemma digits_bad : float_floor (f_div (f_of_Z 3) (f_of_Z 2)) 400 = FOk (VFlt S754_nan) /\
  float_ceil (f_div (f_of_Z 3) (f_of_Z 2)) 400 = FOk (VFlt S754_nan) /\
  float_truncate (f_div (f_of_Z 3) (f_of_Z 2)) 400 = FOk (VFlt S754_nan) /\
  float_floor (S754_finite false 6724873095247260 (944)) 20 = FOk (VFlt (S754_infinity false)).
Proof. repeat split; vm_compute; reflexivity. Qed.

(** 0.8999999999999999.floor(1) is 0.9. *)
Lemma floor_above_bad : exists f g, dbl f /\ float_floor f 1 = FOk (VFlt g) /\ f_lt f g = true.
Proof. exists (S754_finite false 8106479329266892 (-53)). eexists. split; [reflexivity|]. split; vm_compute; reflexivity. Qed.

(** 2.3639999999999995e+21.truncate(-18), 1.0.truncate(-400). *)
Lemma truncate_bad : exists f, dbl f /\ float_truncate f (-18) = FOk (VInt (NBig 2363000000000000262144)) /\
  is_trunc f 2363999999999999475712 /\ float_truncate (f_of_Z 1) (-400) = FRange.
Proof.
  exists (S754_finite false 4508972167968749 (19)). split; [reflexivity|]. split; [vm_compute; reflexivity|]. split; [|vm_compute; reflexivity].
  split; intros _; vm_compute; split; congruence.
Qed.

(** 1e300.divmod(1.0) and 1.0.divmod(0.1). *)
Lemma divmod_bad : (exists r, float_divmod (S754_finite false 6724873095247260 (944)) (f_of_Z 1) = FOk (NBig (2 ^ 63 - 1), r)) /\
  let b := f_div (f_of_Z 1) (f_of_Z 10) in
  exists r, float_divmod (f_of_Z 1) b = FOk (NFix 10, r) /\ 0 < fx r < fx b /\ fx (f_of_Z 1) < 10 * fx b.
Proof.
  split; [eexists; vm_compute; reflexivity|]. cbv zeta. eexists. split; [vm_compute; reflexivity|].
  vm_compute. repeat split; congruence.
Qed.
