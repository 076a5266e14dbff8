(** Witnesses against the unrestricted claims of ImProps. *)
From Coq Require Import ZArith Bool Lia ZifyBool List.
From Verif Require Import IntModel IntProofs ImModel ImSpec ImBitProofs ImArithProofs.
Open Scope Z_scope.

(** [(-1)[2**64]] is 1: every bit of -1 is set. *)
Lemma bit_bad : exists self i, canonical self /\ canonical i /\ 0 <= ival i /\
  Z.testbit (ival self) (ival i) = true /\ index_bit self i = NFix 0.
Proof.
  exists (NFix (-1)), (NBig (2 ^ 64)). repeat split; try reflexivity; cbn; try lia.
Qed.

(** [(-1)[0, 64]] is 2**64 - 1. *)
Lemma len_bad : exists self s w, canonical self /\ 0 <= w /\
  exists x, is_bits (ival self) s w x /\ 0 < x /\
  index_len self (NFix s) (NFix w) = Ok (NFix (-1)).
Proof.
  exists (NFix (-1)), 0, 64. split; [cbn; lia|]. split; [lia|].
  exists (Z.ones 64). split; [|split; reflexivity].
  intros i Hi. cbn [ival]. rewrite Z.bits_m1 by lia. rewrite andb_true_r.
  destruct (Z.ltb_spec i 64); [apply Z.ones_spec_low|apply Z.ones_spec_high]; lia.
Qed.

(** [5[64..65]] is 0: 5 has no bits there. *)
Lemma span_bad : exists self s e, canonical self /\ 0 <= s <= e /\
  is_bits (ival self) s (width_of s e false) 0 /\
  index_range self (Some (NFix s)) (Some (NFix e)) false = Ok (NFix 1).
Proof.
  exists (NFix 5), 64, 65. split; [cbn; lia|]. split; [lia|]. split; [|reflexivity].
  intros i Hi. rewrite Z.bits_0. cbn [ival].
  rewrite (Z.bits_above_log2 5 (64 + i)) by (change (Z.log2 5) with 2; lia).
  symmetry. apply andb_false_r.
Qed.

(** A start below -63 reads bits that are not there either. *)
Lemma span_neg_bad : exists self s e, canonical self /\ s <= e < 0 /\
  is_bits (ival self) s (width_of s e false) 0 /\
  index_range self (Some (NFix s)) (Some (NFix e)) false = Ok (NFix 320).
Proof.
  exists (NFix 5), (-70), (-60). split; [cbn; lia|]. split; [lia|]. split; [|reflexivity].
  intros i Hi. rewrite Z.bits_0. cbn [ival width_of].
  destruct (Z.ltb_spec i (-60 + 1 - -70)); [|reflexivity].
  symmetry. apply Z.testbit_neg_r. lia.
Qed.

(** [2.pow(0, 1)] is 0, the only residue modulo 1. *)
Lemma pow_unit_bad : (ival (NFix 2) ^ 0) mod 1 = 0 /\
  pow_mod (NFix 2) (NFix 0) (NFix 1) = Ok (NFix 1).
Proof. split; reflexivity. Qed.

(** [3.pow(1, -2**63)]. *)
Lemma pow_min_bad : ival (NFix 3) ^ 1 mod (- 2 ^ 63) = 3 - 2 ^ 63 /\
  pow_mod (NFix 3) (NFix 1) (NBig (- 2 ^ 63)) = Ok (NBig (3 + 2 ^ 63)).
Proof. split; reflexivity. Qed.

(** Every exponent and every modulus outside i64 is refused. *)
Lemma pow_big_bad self e m : in_i64 e = false -> pow_mod self (NBig e) m = Err RangeErr.
Proof. intros H. unfold pow_mod. cbn. now rewrite H. Qed.
Lemma pow_big_mod_bad self e m : 0 <= e -> in_i64 m = false -> pow_mod self (NFix e) (NBig m) = Err RangeErr.
Proof. intros He H. unfold pow_mod. cbn. destruct (Z.ltb_spec e 0); [lia|]. now rewrite H. Qed.

Lemma pow2_32_pos : 15 < 10 ^ (2 ^ 32).
Proof.
  apply Z.lt_le_trans with (10 ^ 2); [reflexivity|]. apply Z.pow_le_mono_r; [lia|].
  discriminate.
Qed.

(** [15.floor(-2**32)]: the digit count wraps to 0. *)
Lemma floor_wrap_bad : exists self d r, canonical self /\ d < 0 /\
  int_floor self (NFix d) = Ok self /\ is_floor_to (10 ^ (- d)) (ival self) r /\ r <> ival self.
Proof.
  exists (NFix 15), (- 2 ^ 32), 0. split; [cbn; lia|]. split; [reflexivity|].
  split; [reflexivity|]. split; [|discriminate].
  rewrite Z.opp_involutive. generalize pow2_32_pos. generalize (10 ^ (2 ^ 32)). intros t P.
  split; [apply Z.divide_0_r|]. cbn [ival]. lia.
Qed.
