(** Proofs about random_number. *)
From Coq Require Import ZArith List Bool Lia.
From Verif Require Import RndfModel RndfSpec.
Import ListNotations.
Local Open Scope Z_scope.

Lemma bits_nonneg : forall n, 0 <= bits n.
Proof. intros n; unfold bits, bit_length. destruct (n - 1 =? 0); [lia|]. pose proof (Z.log2_nonneg (n - 1)); lia. Qed.

(** The width is the least that n - 1 fits in. *)
Lemma bits_ok : forall n, 0 < n -> n <= 2 ^ bits n /\ (1 < n -> 2 ^ (bits n - 1) < n).
Proof.
  intros n N; unfold bits, bit_length. destruct (Z.eqb_spec (n - 1) 0); [split; [cbn; lia | lia]|].
  pose proof (Z.log2_spec (n - 1) ltac:(lia)) as [A B]. replace (Z.succ (Z.log2 (n - 1))) with (Z.log2 (n - 1) + 1) in B by lia.
  split; [lia|]. intros _. replace (Z.log2 (n - 1) + 1 - 1) with (Z.log2 (n - 1)) by lia. lia.
Qed.

Lemma nbytes_ok : forall n, bits n <= 8 * nbytes n < bits n + 8.
Proof.
  intros n; unfold nbytes. pose proof (Z.div_mod (bits n + 7) 8 ltac:(lia)). pose proof (Z.mod_pos_bound (bits n + 7) 8 ltac:(lia)). lia.
Qed.

Lemma mask_mod : forall n d, Z.land d (mask n) = d mod 2 ^ bits n.
Proof.
  intros n d; unfold mask. rewrite Z.shiftl_1_l. replace (2 ^ bits n - 1) with (Z.ones (bits n)) by (rewrite Z.ones_equiv; lia).
  apply Z.land_ones, bits_nonneg.
Qed.

(** Every Integer below n comes from the same number of draws: v comes from v + j * 2**bits, for each j below the
    same bound. *)
Lemma round_uniform : forall n v d, 0 < n -> 0 <= v < n ->
  (draw_of (nbytes n) d /\ round n d = Some v
   <-> exists j, 0 <= j < 2 ^ (8 * nbytes n - bits n) /\ d = v + j * 2 ^ bits n).
Proof.
  intros n v d N V. destruct (bits_ok n N) as [B _]. pose proof (nbytes_ok n) as K. pose proof (bits_nonneg n) as P.
  assert (W : 2 ^ (8 * nbytes n) = 2 ^ (8 * nbytes n - bits n) * 2 ^ bits n).
  { rewrite <- Z.pow_add_r by lia. f_equal; lia. }
  assert (Q : 0 < 2 ^ bits n) by (apply Z.pow_pos_nonneg; lia).
  unfold draw_of, round. rewrite mask_mod, W. split.
  - intros [D R]. destruct (Z.ltb_spec (d mod 2 ^ bits n) n); [|discriminate]. injection R as <-.
    exists (d / 2 ^ bits n). split.
    + split; [apply Z.div_pos; lia | apply Z.div_lt_upper_bound; lia].
    + pose proof (Z.div_mod d (2 ^ bits n) ltac:(lia)). lia.
  - intros [j [J ->]]. rewrite Z.mod_add, Z.mod_small by lia. split; [nia|].
    destruct (Z.ltb_spec v n); [reflexivity | lia].
Qed.

(** More than half of the draws end the loop. *)
Lemma round_half : forall n, 1 < n -> 2 ^ bits n < 2 * n.
Proof.
  intros n N. destruct (bits_ok n ltac:(lia)) as [_ B]. specialize (B N).
  assert (P : 0 < bits n).
  { unfold bits, bit_length. destruct (Z.eqb_spec (n - 1) 0); [lia|]. pose proof (Z.log2_nonneg (n - 1)); lia. }
  replace (bits n) with (Z.succ (bits n - 1)) by lia. rewrite Z.pow_succ_r by lia. lia.
Qed.

Lemma round_range : forall n d v, 0 < n -> round n d = Some v -> 0 <= v < n.
Proof.
  intros n d v N H; unfold round in H. rewrite mask_mod in H.
  destruct (Z.ltb_spec (d mod 2 ^ bits n) n); [|discriminate]. injection H as <-.
  pose proof (Z.mod_pos_bound d (2 ^ bits n) ltac:(apply Z.pow_pos_nonneg; [lia | apply bits_nonneg])). lia.
Qed.

(** The answer is that of the first draw that gives one, and lies in 0...n. *)
Lemma random_int_ok : forall n draws v, 0 < n -> (random_number n draws = AInt v <->
  exists a d b, draws = a ++ d :: b /\ round n d = Some v /\ Forall (fun e => round n e = None) a).
Proof.
  intros n draws v N; unfold random_number. destruct (Z.ltb_spec n 0); [lia|]. destruct (Z.eqb_spec n 0); [lia|].
  induction draws as [|e r IH]; cbn.
  - split; [discriminate | intros [[|x a] [d [b [H2 _]]]]; discriminate].
  - destruct (round n e) as [w|] eqn:E; split; intros H2.
    + injection H2 as ->. exists [], e, r. repeat split; [exact E | constructor].
    + destruct H2 as [[|x a] [d [b [H2 [R F]]]]]; cbn in H2; injection H2 as -> ->.
      * congruence.
      * inversion F; congruence.
    + apply IH in H2 as [a [d [b [-> [R F]]]]]. exists (e :: a), d, b. repeat split; [exact R | constructor; assumption].
    + apply IH. destruct H2 as [[|x a] [d [b [H2 [R F]]]]]; cbn in H2; injection H2 as -> ->; [congruence|].
      inversion F; subst. exists a, d, b. repeat split; assumption.
Qed.

Lemma random_int_range : forall n draws v, 0 < n -> random_number n draws = AInt v -> 0 <= v < n.
Proof.
  intros n draws v N H. apply random_int_ok in H as [a [d [b [_ [R _]]]]]; [|exact N]. exact (round_range n d v N R).
Qed.

(** random_number(0): a Float in [0, 1), each numerator from 2048 draws. *)
Lemma random_zero_ok : forall d r, draw_of 8 d -> is_float (random_number 0 (d :: r)).
Proof.
  intros d r D. unfold draw_of in D. change (2 ^ (8 * 8)) with (2 ^ 53 * 2 ^ 11) in D.
  exists (float_num d). split; [reflexivity|]. unfold float_num. rewrite Z.shiftr_div_pow2 by lia.
  split; [apply Z.div_pos; lia | apply Z.div_lt_upper_bound; lia].
Qed.
Lemma float_uniform : forall m d, 0 <= m < 2 ^ 53 ->
  (draw_of 8 d /\ float_num d = m <-> exists j, 0 <= j < 2 ^ 11 /\ d = m * 2 ^ 11 + j).
Proof.
  intros m d M. unfold draw_of, float_num. change (2 ^ (8 * 8)) with (2 ^ 53 * 2 ^ 11). rewrite Z.shiftr_div_pow2 by lia. split.
  - intros [D <-]. exists (d mod 2 ^ 11). split; [apply Z.mod_pos_bound; lia|].
    pose proof (Z.div_mod d (2 ^ 11) ltac:(lia)). lia.
  - intros [j [J ->]]. split; [lia|]. rewrite Z.add_comm, Z.div_add by lia. rewrite Z.div_small by lia. lia.
Qed.

(** A negative argument raises. *)
Lemma random_negative_bad : ~ (forall n d r, n <= 0 -> draw_of 8 d -> is_float (random_number n (d :: r))).
Proof.
  intros H. destruct (H (-1) 0 [] ltac:(lia) ltac:(unfold draw_of; lia)) as [m [X _]]. discriminate X.
Qed.
