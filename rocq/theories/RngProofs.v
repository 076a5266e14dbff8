(** Proofs for C15, C46, C47. *)
From Coq Require Import ZArith List Bool Arith Lia Permutation Sorted Floats.SpecFloat.
From Verif Require Import RngSpec RngModel.
Import ListNotations.
Open Scope Z_scope.

Local Arguments next_u32 : simpl never.
Local Arguments build_mt : simpl never.
Local Opaque MT_N.

(** *** Bits *)
Lemma bound_bits n x : 0 <= n -> 0 <= x -> (forall i, n <= i -> Z.testbit x i = false) -> x < 2 ^ n.
Proof.
  intros hn hx h. destruct (Z.eq_dec x 0) as [->|ne]; [apply Z.pow_pos_nonneg; lia|].
  apply Z.log2_lt_pow2; [lia|]. apply Z.nle_gt. intro c. specialize (h (Z.log2 x) c). rewrite Z.bit_log2 in h by lia. discriminate.
Qed.
Lemma bits_bound n x i : 0 <= x < 2 ^ n -> n <= i -> Z.testbit x i = false.
Proof.
  intros h hi. destruct (Z.eq_dec x 0) as [->|ne]; [apply Z.bits_0|]. apply Z.bits_above_log2; [lia|].
  apply Z.lt_le_trans with n; auto. apply Z.log2_lt_pow2; lia.
Qed.
Lemma u32_pow x : u32 x <-> 0 <= x < 2 ^ 32. Proof. reflexivity. Qed.
Lemma u32_lxor a b : u32 a -> u32 b -> u32 (Z.lxor a b).
Proof.
  rewrite !u32_pow. intros ha hb. assert (0 <= Z.lxor a b) by (apply Z.lxor_nonneg; lia). split; auto.
  apply bound_bits; auto; [lia|]. intros i hi. rewrite Z.lxor_spec, (bits_bound 32 a), (bits_bound 32 b); auto.
Qed.
Lemma u32_lor a b : u32 a -> u32 b -> u32 (Z.lor a b).
Proof.
  rewrite !u32_pow. intros ha hb. assert (0 <= Z.lor a b) by (apply Z.lor_nonneg; lia). split; auto.
  apply bound_bits; auto; [lia|]. intros i hi. rewrite Z.lor_spec, (bits_bound 32 a), (bits_bound 32 b); auto.
Qed.
Lemma u32_land a b : u32 b -> u32 (Z.land a b).
Proof.
  rewrite !u32_pow. intros hb. assert (0 <= Z.land a b) by (apply Z.land_nonneg; lia). split; auto.
  apply bound_bits; auto; [lia|]. intros i hi. rewrite Z.land_spec, (bits_bound 32 b), andb_false_r; auto.
Qed.
Lemma u32_shiftr a k : 0 <= k -> u32 a -> u32 (Z.shiftr a k).
Proof.
  unfold u32. intros hk h. rewrite Z.shiftr_div_pow2 by auto. assert (0 < 2 ^ k) by (apply Z.pow_pos_nonneg; lia).
  split; [apply Z.div_pos; lia|]. apply Z.div_lt_upper_bound; auto. nia.
Qed.
Lemma u32_w32 x : u32 (w32 x).
Proof. unfold u32, w32, M32. apply Z.mod_pos_bound. lia. Qed.

(** *** The twister's words *)
Definition good (g : mt) : Prop := Forall u32 (words g).
Lemma u32_0 : u32 0. Proof. unfold u32; lia. Qed.
Lemma at_u32 l i : Forall u32 l -> u32 (at_ l i).
Proof.
  intro h. unfold at_. destruct (Nat.lt_ge_cases i (length l)).
  - rewrite Forall_forall in h. apply h, nth_In; auto.
  - rewrite nth_overflow by auto. apply u32_0.
Qed.
Lemma put_u32 l : forall i x, Forall u32 l -> u32 x -> Forall u32 (put l i x).
Proof. induction l as [|h t IH]; intros [|i] x hl hx; cbn; auto; inversion hl; subst; constructor; auto. Qed.
Lemma genrand_u32 k : forall i p, Forall u32 (genrand_from k i p).
Proof. induction k as [|k IH]; intros; cbn [genrand_from]; constructor; auto using u32_w32. Qed.
Lemma init_good seed : u32 seed -> good (init_genrand seed).
Proof. intro h. constructor; auto. apply genrand_u32. Qed.
Lemma bump_u32 l i l' i' : bump l i = (l', i') -> Forall u32 l -> Forall u32 l'.
Proof. unfold bump. destruct (MT_N <=? S i)%nat; intro h; inversion h; subst; auto. intro. apply put_u32; auto. apply at_u32; auto. Qed.
Lemma key1_u32 k : forall key l i j l' i', key1 k key l i j = (l', i') -> Forall u32 l -> Forall u32 l'.
Proof.
  induction k as [|k IH]; intros key l i j l' i' h hl; cbn [key1] in h; [inversion h; subst; auto|].
  destruct (bump _ i) as [l1 i1] eqn:E. eapply IH; [exact h|]. eapply bump_u32; [exact E|]. apply put_u32; auto using u32_w32.
Qed.
Lemma key2_u32 k : forall l i l' i', key2 k l i = (l', i') -> Forall u32 l -> Forall u32 l'.
Proof.
  induction k as [|k IH]; intros l i l' i' h hl; cbn [key2] in h; [inversion h; subst; auto|].
  destruct (bump _ i) as [l1 i1] eqn:E. eapply IH; [exact h|]. eapply bump_u32; [exact E|]. apply put_u32; auto using u32_w32.
Qed.
Lemma new_with_key_good key : good (new_with_key key).
Proof.
  unfold new_with_key. destruct (key1 _ _ _ _ _) as [l i] eqn:E. destruct (key2 _ _ _) as [l2 i2] eqn:E2.
  unfold good. cbn [words]. apply put_u32; [|unfold u32; lia]. eapply key2_u32; [exact E2|]. eapply key1_u32; [exact E|].
  apply init_good. unfold u32; lia.
Qed.
Lemma twist1_u32 l k : Forall u32 l -> Forall u32 (twist1 l k).
Proof.
  intro h. unfold twist1. apply put_u32; auto. apply u32_lxor; [apply u32_lxor; [apply at_u32; auto|]|].
  - apply u32_shiftr; [lia|]. apply u32_lor; apply u32_land; unfold u32; lia.
  - destruct (Z.odd _); unfold u32; lia.
Qed.
Lemma twist_u32 l : Forall u32 l -> Forall u32 (twist l).
Proof. unfold twist. generalize (seq 0 MT_N). intros s. revert l. induction s; cbn; auto. intros. apply IHs, twist1_u32; auto. Qed.
Lemma temper_u32 y : u32 y -> u32 (temper y).
Proof.
  intro h. unfold temper.
  assert (L : forall z k, 0 <= k -> u32 z -> u32 (Z.lxor z (Z.shiftr z k))) by (intros; apply u32_lxor; auto; apply u32_shiftr; auto).
  assert (R : forall z m k, u32 m -> u32 z -> u32 (Z.lxor z (Z.land (w32 (Z.shiftl z k)) m))) by (intros; apply u32_lxor; auto; apply u32_land; auto).
  apply L; [lia|]. apply R; [unfold u32; lia|]. apply R; [unfold u32; lia|]. apply L; auto. lia.
Qed.
Theorem next_good g w g' : good g -> next_u32 g = (w, g') -> u32 w /\ good g'.
Proof.
  unfold next_u32. intros hg h. inversion h; subst; clear h.
  assert (good (if (MT_N <=? mti g)%nat then mkmt (twist (words g)) 0 else g)).
  { destruct (MT_N <=? mti g)%nat; auto. apply twist_u32; auto. }
  split; auto. apply temper_u32, at_u32; auto.
Qed.
Lemma le_digits_u32 n : forall x, 0 <= x < 2 ^ (32 * (Z.of_nat n + 1)) -> Forall u32 (le_digits n x).
Proof.
  induction n as [|n IH]; intros x h; cbn [le_digits].
  - repeat constructor; apply h.
  - destruct (Z.ltb_spec x M32); [constructor; auto; unfold u32, M32 in *; lia|].
    constructor; [apply u32_w32|]. apply IH. unfold M32 in *. split; [apply Z.div_pos; lia|]. apply Z.div_lt_upper_bound; [lia|].
    replace (32 * (Z.of_nat (S n) + 1)) with (32 + 32 * (Z.of_nat n + 1)) in h by lia. rewrite Z.pow_add_r in h by lia. exact (proj2 h).
Qed.
Lemma digits_fuel x : 0 <= x -> x < 2 ^ (32 * (Z.of_nat (Z.to_nat (Z.log2 x)) + 1)).
Proof.
  intro h. rewrite Z2Nat.id by apply Z.log2_nonneg. destruct (Z.eq_dec x 0) as [->|ne]; [reflexivity|].
  pose proof (Z.log2_spec x ltac:(lia)) as [_ L]. apply Z.lt_le_trans with (1 := L). apply Z.pow_le_mono_r; [lia|].
  pose proof (Z.log2_nonneg x). lia.
Qed.
Lemma to_digits_u32 x : 0 <= x -> Forall u32 (to_digits x).
Proof. intro h. apply le_digits_u32. split; auto. apply digits_fuel; auto. Qed.
Lemma build_good seed : good (build_mt seed).
Proof.
  unfold build_mt. pose proof (to_digits_u32 (Z.abs seed) (Z.abs_nonneg _)) as h.
  destruct (to_digits (Z.abs seed)) as [|w [|w2 t]]; try apply new_with_key_good. inversion h; subst. apply init_good; auto.
Qed.
Lemma skip_good n : forall g, good g -> good (skip n g).
Proof. induction n as [|n IH]; intros g h; cbn [skip]; auto. apply IH. destruct (next_u32 g) eqn:E. eapply next_good; eauto. Qed.

(** *** Numbers in words *)
Lemma number_snoc a : forall w, number (a ++ [w]) = number a * M32 + w.
Proof.
  induction a as [|x a IH]; intro w; cbn [app number length]; [cbn; lia|]. rewrite IH, app_length. cbn [length].
  rewrite Nat2Z.inj_add. change (Z.of_nat 1) with 1. rewrite Z.mul_add_distr_l, Z.pow_add_r by lia. change (2 ^ (32 * 1)) with M32. lia.
Qed.
Lemma value_number d : value d = number d.
Proof.
  unfold value. assert (H : forall a, fold_left (fun a x => a * M32 + x) d a = number d + a * 2 ^ (32 * Z.of_nat (length d))).
  { induction d as [|x d IH]; intro a; cbn [fold_left number length]; [cbn; lia|]. rewrite IH.
    rewrite Nat2Z.inj_succ, <- Z.add_1_r, Z.mul_add_distr_l, Z.pow_add_r by lia. change (2 ^ (32 * 1)) with M32. lia. }
  rewrite H. lia.
Qed.
Lemma number_bound d : Forall u32 d -> 0 <= number d < 2 ^ (32 * Z.of_nat (length d)).
Proof.
  induction 1 as [|x d hx hd IH]; cbn [number length]; [cbn; lia|].
  rewrite Nat2Z.inj_succ, <- Z.add_1_r, Z.mul_add_distr_l, Z.pow_add_r by lia. change (2 ^ (32 * 1)) with M32. unfold u32, M32 in *.
  generalize dependent (2 ^ (32 * Z.of_nat (length d))). intros. nia.
Qed.
Lemma to_digits_number x : 0 <= x -> number (rev (to_digits x)) = x.
Proof.
  intro h. unfold to_digits. pose proof (digits_fuel x h) as f. clear f. generalize (Z.to_nat (Z.log2 x)). intro n. revert x h.
  induction n as [|n IH]; intros x h; cbn [le_digits]; [cbn; lia|].
  destruct (x <? M32); [cbn; lia|]. cbn [rev]. rewrite number_snoc, IH by (apply Z.div_pos; unfold M32; lia).
  pose proof (Z.div_mod x M32 ltac:(unfold M32; lia)). lia.
Qed.

(** *** Rejection sampling *)
Section D.
Variable G : Type.
Variable next : G -> Z * G.
Lemma mask_u32 m : u32 m -> u32 (make_mask m).
Proof. intro h. unfold make_mask. repeat first [apply u32_lor | apply u32_shiftr; [lia|] | exact h]. Qed.

Lemma pass_range lims : forall mask boundary g cnt d g' c', Forall u32 lims -> pass G next lims mask boundary g cnt = (Some d, g', c') ->
  length d = length lims /\ Forall u32 d /\ (boundary = true -> number d <= number lims).
Proof.
  induction lims as [|lim t IH]; intros mask b g cnt d g' c' hl h; cbn [pass] in h.
  { inversion h; subst. cbn. repeat split; auto; lia. }
  inversion hl as [|? ? hlim ht]; subst.
  set (mk := if mask =? 0 then make_mask lim else 4294967295) in h.
  assert (hmk : u32 mk) by (subst mk; destruct (mask =? 0); [apply mask_u32; auto|unfold u32; lia]).
  destruct (Z.eqb_spec mk 0) as [e|ne].
  - destruct (pass G next t mk b g cnt) as [[[d1|] g1] c1] eqn:P; inversion h; subst.
    destruct (IH _ _ _ _ _ _ _ ht P) as (h1 & h2 & h3). cbn [length number]. split; [lia|]. split; [constructor; auto using u32_0|].
    intro hb. specialize (h3 hb). rewrite h1. pose proof (Z.pow_pos_nonneg 2 (32 * Z.of_nat (length t)) ltac:(lia) ltac:(lia)). unfold u32 in hlim. nia.
  - destruct (next g) as [w g1] eqn:N. destruct (b && (lim <? Z.land w mk)) eqn:B; [discriminate|].
    destruct (pass G next t mk _ g1 (cnt + 1)) as [[[d1|] g2] c1] eqn:P; inversion h; subst.
    destruct (IH _ _ _ _ _ _ _ ht P) as (h1 & h2 & h3). cbn [length number]. split; [lia|]. split; [constructor; auto; apply u32_land; auto|].
    intros ->. cbn [andb] in *. apply Z.ltb_ge in B. rewrite h1. pose proof (number_bound d1 h2) as b1. pose proof (number_bound t ht) as b2. rewrite h1 in b1.
    destruct (Z.ltb_spec (Z.land w mk) lim).
    + generalize dependent (2 ^ (32 * Z.of_nat (length t))). intros. nia.
    + assert (Z.land w mk = lim) by lia. rewrite H0. specialize (h3 eq_refl). lia.
Qed.
Lemma limited_range n : forall lims g cnt d g' c', Forall u32 lims -> limited G next n lims g cnt = Some (d, g', c') ->
  Forall u32 d /\ number d <= number lims.
Proof.
  induction n as [|n IH]; intros lims g cnt d g' c' hl h; cbn [limited] in h; [discriminate|].
  destruct (pass G next lims 0 true g cnt) as [[[d1|] g1] c1] eqn:P.
  - inversion h; subst. apply pass_range in P as (h1 & h2 & h3); auto.
  - eapply IH; eauto.
Qed.
Lemma Forall_rev {X} (P : X -> Prop) l : Forall P l -> Forall P (rev l).
Proof. rewrite !Forall_forall. intros h x hx. apply h, in_rev; auto. Qed.
Theorem rand_int_range n max g cnt x g' c' : 0 < max -> rand_int G next n max g cnt = Some (x, g', c') -> 0 <= x < max.
Proof.
  unfold rand_int. intro hm. destruct (limited G next n _ g cnt) as [[[d g1] c1]|] eqn:L; [|discriminate]. intro h. inversion h; subst.
  apply limited_range in L as [h1 h2]; [|apply Forall_rev, to_digits_u32; lia]. rewrite to_digits_number in h2 by lia.
  rewrite value_number. pose proof (number_bound d h1). lia.
Qed.
Theorem ulong_range n max g cnt x g' c' : 0 <= max < 2 ^ 64 -> ulong_limited G next n max g cnt = Some (x, g', c') -> 0 <= x <= max.
Proof.
  unfold ulong_limited. intro hm. destruct (Z.eqb_spec max 0); [intro h; inversion h; lia|].
  assert (hlo : Z.land max 4294967295 = max mod M32). { change 4294967295 with (Z.ones 32). rewrite Z.land_ones by lia. reflexivity. }
  assert (hhi : Z.shiftr max 32 = max / M32) by (rewrite Z.shiftr_div_pow2 by lia; reflexivity).
  rewrite hlo, hhi. pose proof (Z.div_mod max M32 ltac:(unfold M32; lia)) as dm. pose proof (Z.mod_pos_bound max M32 ltac:(unfold M32; lia)) as mb.
  assert (hd : u32 (max / M32)). { unfold u32. split; [apply Z.div_pos; unfold M32; lia|]. apply Z.div_lt_upper_bound; unfold M32; [lia|]. exact (proj2 hm). }
  destruct (limited G next n _ g cnt) as [[[d g1] c1]|] eqn:L; [|discriminate]. intro h. inversion h; subst.
  apply limited_range in L as [h1 h2]; [|destruct (max / M32 =? 0); [apply Forall_cons; [exact mb|constructor]|apply Forall_cons; [exact hd|apply Forall_cons; [exact mb|constructor]]]].
  rewrite value_number. pose proof (number_bound d h1). split; [lia|]. apply Z.le_trans with (1 := h2).
  destruct (Z.eqb_spec (max / M32) 0) as [e|e]; cbn [number length]; [cbn; lia|]. change (2 ^ (32 * Z.of_nat 1)) with M32. change (2 ^ (32 * Z.of_nat 0)) with 1. lia.
Qed.
End D.

(** What one pass does with the words it reads. *)
Lemma mask_step x y k : 0 <= k -> (forall i, 0 <= i -> Z.testbit y i = true <-> exists d, 0 <= d < k /\ Z.testbit x (i + d) = true) ->
  forall i, 0 <= i -> Z.testbit (Z.lor y (Z.shiftr y k)) i = true <-> exists d, 0 <= d < 2 * k /\ Z.testbit x (i + d) = true.
Proof.
  intros hk h i hi. rewrite Z.lor_spec, Z.shiftr_spec, orb_true_iff, h, h by lia. split.
  - intros [(d & h1 & h2)|(d & h1 & h2)]; [exists d; split; auto; lia|]. exists (k + d). split; [lia|]. rewrite Z.add_assoc. auto.
  - intros (d & h1 & h2). destruct (Z.lt_ge_cases d k); [left; exists d; split; [lia|auto]|right]. exists (d - k). split; [lia|].
    replace (i + k + (d - k)) with (i + d) by lia. auto.
Qed.
Lemma mask_bits x i : 0 <= i -> Z.testbit (make_mask x) i = true <-> exists d, 0 <= d < 32 /\ Z.testbit x (i + d) = true.
Proof.
  intro hi. unfold make_mask. revert i hi.
  repeat match goal with |- forall i, 0 <= i -> Z.testbit (Z.lor _ (Z.shiftr _ ?k)) i = true <-> exists d, 0 <= d < ?n /\ _ => change n with (2 * k); apply mask_step; [lia|] end.
  intros i hi. split.
  - intro h. exists 0. split; [lia|]. rewrite Z.add_0_r. auto.
  - intros (d & h1 & h2). replace (i + d) with i in h2 by lia. auto.
Qed.
Lemma make_mask_ones x : u32 x -> make_mask x = if x =? 0 then 0 else Z.ones (Z.log2 x + 1).
Proof.
  intro h. destruct (Z.eqb_spec x 0) as [->|ne]; [reflexivity|]. unfold u32 in h.
  apply Z.bits_inj'. intros i hi. pose proof (Z.log2_nonneg x).
  assert (L32 : Z.log2 x < 32) by (apply Z.log2_lt_pow2; lia).
  destruct (Z.lt_ge_cases i (Z.log2 x + 1)).
  - rewrite Z.ones_spec_low by lia. apply mask_bits; auto. exists (Z.log2 x - i). split; [lia|]. replace (i + (Z.log2 x - i)) with (Z.log2 x) by lia. apply Z.bit_log2. lia.
  - rewrite Z.ones_spec_high by lia. destruct (Z.testbit (make_mask x) i) eqn:E; auto. apply mask_bits in E as (d & h1 & h2); auto.
    rewrite Z.bits_above_log2 in h2 by lia. discriminate.
Qed.

Lemma pass_full lims : forall mask b ws rest cnt, mask <> 0 -> Forall u32 lims -> Forall u32 ws -> length ws = length lims ->
  exists g c, pass (list Z) serve lims mask b (ws ++ rest) cnt = (if b && (number lims <? number ws) then None else Some ws, g, c)
    /\ (b && (number lims <? number ws) = false -> g = rest /\ c = cnt + Z.of_nat (length ws)).
Proof.
  induction lims as [|lim t IH]; intros mask b [|w ws] rest cnt hm hl hw hlen; try discriminate.
  - cbn. rewrite andb_false_r. eexists _, _. split; [reflexivity|]. split; auto. lia.
  - inversion hl as [|? ? hlim ht]; inversion hw as [|? ? hw1 hws]; subst. cbn [pass app serve].
    apply Z.eqb_neq in hm. rewrite hm. change (4294967295 =? 0) with false. cbn iota.
    change 4294967295 with (Z.ones 32). rewrite Z.land_ones by lia. rewrite (Z.mod_small w) by (apply u32_pow; auto).
    cbn [length] in hlen. assert (hlen' : length ws = length t) by lia. cbn [number]. rewrite hlen'.
    pose proof (number_bound ws hws) as b1. pose proof (number_bound t ht) as b2. rewrite hlen' in b1.
    destruct (b && (lim <? w)) eqn:B.
    + apply andb_true_iff in B as [-> B]. apply Z.ltb_lt in B. cbn [andb].
      replace (_ <? _) with true. 2: { symmetry. apply Z.ltb_lt. generalize dependent (2 ^ (32 * Z.of_nat (length t))). intros. nia. }
      eexists _, _. split; [reflexivity|discriminate].
    + destruct (IH (Z.ones 32) (b && negb (w <? lim)) ws rest (cnt + 1)) as (g & c & -> & e2); auto; [discriminate|].
      assert (X : b && negb (w <? lim) && (number t <? number ws) = b && (lim * 2 ^ (32 * Z.of_nat (length t)) + number t <? w * 2 ^ (32 * Z.of_nat (length t)) + number ws)).
      { destruct b; auto. cbn [andb] in *. apply Z.ltb_ge in B. destruct (Z.ltb_spec w lim); cbn [negb andb].
        - symmetry. apply Z.ltb_ge. generalize dependent (2 ^ (32 * Z.of_nat (length t))). intros. nia.
        - assert (w = lim) by lia. subst. destruct (Z.ltb_spec (number t) (number ws)), (Z.ltb_spec (lim * 2 ^ (32 * Z.of_nat (length t)) + number t) (lim * 2 ^ (32 * Z.of_nat (length t)) + number ws)); auto; lia. }
      rewrite <- X. eexists _, _. split; [destruct (b && negb (w <? lim) && (number t <? number ws)); reflexivity|].
      intro e. destruct (e2 e). split; auto. cbn [length]. lia.
Qed.
Lemma le_digits_top n : forall x, 0 <= x -> exists h t, rev (le_digits n x) = h :: t /\ (h = 0 -> t = [] /\ x = 0).
Proof.
  induction n as [|n IH]; intros x hx; cbn [le_digits].
  - exists x, []. split; auto.
  - destruct (Z.ltb_spec x M32); [exists x, []; auto|]. destruct (IH (x / M32)) as (h & t & e & hh); [apply Z.div_pos; unfold M32; lia|].
    exists h, (t ++ [x mod M32]). cbn [rev]. rewrite e. split; auto. intro h0. destruct (hh h0) as [_ h1].
    pose proof (Z.div_str_pos x M32 ltac:(unfold M32 in *; lia)). lia.
Qed.
(** A pass reads [k] words as one number, keeps it modulo [2 ^ b] and accepts the
    result when it is below [max]; every value below [max] fits in [b] bits. *)
Theorem rejection_exact max : 0 < max -> exists (k : nat) (b : Z), 0 <= b <= 32 * Z.of_nat k /\ max <= 2 ^ b /\ (b = 0 \/ 2 ^ (b - 1) < max) /\
  forall ws rest, Forall u32 ws -> length ws = k ->
    rand_int (list Z) serve 1 max (ws ++ rest) 0 = if number ws mod 2 ^ b <? max then Some (number ws mod 2 ^ b, rest, Z.of_nat k) else None.
Proof.
  intro hm. unfold rand_int. cbn [limited]. pose proof (to_digits_u32 (max - 1) ltac:(lia)) as hu. apply Forall_rev in hu.
  pose proof (to_digits_number (max - 1) ltac:(lia)) as hn. unfold to_digits in *.
  destruct (le_digits_top (Z.to_nat (Z.log2 (max - 1))) (max - 1)) as (h & t & e & h0); [lia|]. rewrite e in *. clear e.
  inversion hu as [|? ? hh ht]; subst. cbn [number] in hn.
  destruct (Z.eq_dec h 0) as [->|ne].
  - destruct (h0 eq_refl) as [-> hx]. exists O, 0. repeat split; try lia. intros [|w ws] rest hw hl; [|discriminate].
    cbn. destruct (0 <? max) eqn:E; auto. lia.
  - clear h0. set (l := Z.log2 h + 1). pose proof (Z.log2_nonneg h). assert (hpos : 0 < h) by (unfold u32 in hh; lia).
    assert (l32 : Z.log2 h < 32). { apply Z.log2_lt_pow2; auto. exact (proj2 hh). }
    pose proof (Z.log2_spec h hpos) as [ls1 ls2]. replace (Z.succ (Z.log2 h)) with l in ls2 by (subst l; lia).
    set (P := 2 ^ (32 * Z.of_nat (length t))) in *. assert (hP : 0 < P) by (apply Z.pow_pos_nonneg; lia).
    pose proof (number_bound t ht) as bt. fold P in bt.
    assert (pw : 2 ^ (l + 32 * Z.of_nat (length t)) = 2 ^ l * P) by (apply Z.pow_add_r; lia).
    exists (S (length t)), (l + 32 * Z.of_nat (length t)).
    split; [lia|]. split; [rewrite pw; nia|].
    split. { right. replace (l + 32 * Z.of_nat (length t) - 1) with (Z.log2 h + 32 * Z.of_nat (length t)) by (subst l; lia). rewrite Z.pow_add_r by lia. fold P. nia. }
    intros [|w ws] rest hw hl; [discriminate|]. inversion hw as [|? ? hw1 hws]; subst. cbn [length] in hl.
    assert (hlen : length ws = length t) by lia. cbn [pass app serve]. change (0 =? 0) with true. cbn iota.
    rewrite make_mask_ones by auto. replace (h =? 0) with false by (symmetry; apply Z.eqb_neq; auto). fold l.
    assert (on : Z.ones l <> 0). { rewrite Z.ones_equiv. pose proof (Z.pow_gt_1 2 l ltac:(lia)). lia. }
    replace (Z.ones l =? 0) with false by (symmetry; apply Z.eqb_neq; auto). rewrite Z.land_ones by lia.
    pose proof (Z.mod_pos_bound w (2 ^ l) ltac:(lia)) as wb. set (r := w mod 2 ^ l) in *.
    pose proof (number_bound ws hws) as bw. rewrite hlen in bw. fold P in bw.
    assert (NM : number (w :: ws) mod 2 ^ (l + 32 * Z.of_nat (length t)) = r * P + number ws).
    { cbn [number]. rewrite hlen. fold P. rewrite pw. symmetry. apply Z.mod_unique with (q := w / 2 ^ l); [left; nia|].
      pose proof (Z.div_mod w (2 ^ l) ltac:(lia)) as d. fold r in d. rewrite d at 1. ring. }
    rewrite NM. cbn [andb]. destruct (Z.ltb_spec h r) as [c|c].
    + replace (_ <? max) with false; auto. symmetry. apply Z.ltb_ge. nia.
    + destruct (pass_full t (Z.ones l) (negb (r <? h)) ws rest (0 + 1) on ht hws hlen) as (g & cc & -> & e2).
      assert (X : negb (r <? h) && (number t <? number ws) = negb (r * P + number ws <? max)).
      { destruct (Z.ltb_spec r h); cbn [negb andb].
        - symmetry. apply negb_false_iff, Z.ltb_lt. nia.
        - assert (r = h) by lia. destruct (Z.ltb_spec (number t) (number ws)), (Z.ltb_spec (r * P + number ws) max); auto; nia. }
      rewrite X in *. destruct (r * P + number ws <? max); cbn [negb] in *.
      * destruct (e2 eq_refl) as [-> ->]. cbn [option_map]. rewrite value_number. cbn [number]. rewrite hlen. fold P. repeat f_equal. lia.
      * reflexivity.
Qed.
(** Floats. *)
Lemma next_real_range g cnt k g' c' : good g -> next_real mt next_u32 g cnt = (k, g', c') -> 0 <= k < 2 ^ 53 /\ good g'.
Proof.
  intro hg. unfold next_real. destruct (next_u32 g) as [a g1] eqn:E1. apply next_good in E1 as [h1 hg1]; auto.
  destruct (next_u32 g1) as [b g2] eqn:E2. apply next_good in E2 as [h2 hg2]; auto.
  intro h. inversion h; subst. split; auto. unfold u32 in *. rewrite !Z.shiftr_div_pow2 by lia. change (2 ^ 5) with 32. change (2 ^ 6) with 64.
  change (2 ^ 53) with 9007199254740992. pose proof (Z.div_pos a 32 ltac:(lia)). pose proof (Z.div_pos b 64 ltac:(lia)).
  pose proof (Z.div_lt_upper_bound a 32 134217728 ltac:(lia) ltac:(lia)). pose proof (Z.div_lt_upper_bound b 64 67108864 ltac:(lia) ltac:(lia)). nia.
Qed.
Lemma next_real_inclusive_range g k g' : good g -> next_real_inclusive mt next_u32 g = (k, g') -> 0 <= k <= 2 ^ 53 /\ good g'.
Proof.
  intro hg. unfold next_real_inclusive. destruct (next_u32 g) as [a g1] eqn:E1. apply next_good in E1 as [h1 hg1]; auto.
  destruct (next_u32 g1) as [b g2] eqn:E2. apply next_good in E2 as [h2 hg2]; auto.
  intro h. inversion h; subst. split; auto. unfold u32, M32 in *. rewrite Z.shiftr_div_pow2 by lia. change (2 ^ 53) with 9007199254740992. change (2 ^ 64) with 18446744073709551616.
  split; [apply Z.div_pos; nia|]. apply Z.lt_succ_r. apply Z.div_lt_upper_bound; [lia|]. nia.
Qed.

(** *** Replay: the count is the number of words drawn *)
Lemma skip_add a : forall b g, skip (a + b) g = skip b (skip a g).
Proof. induction a as [|a IH]; intros; cbn; auto. Qed.
Definition moved (g : mt) (c : Z) (g' : mt) (c' : Z) : Prop := c <= c' /\ g' = skip (Z.to_nat (c' - c)) g.
Lemma moved_refl g c : moved g c g c.
Proof. split; [lia|]. rewrite Z.sub_diag. reflexivity. Qed.
Lemma moved_trans g c g1 c1 g2 c2 : moved g c g1 c1 -> moved g1 c1 g2 c2 -> moved g c g2 c2.
Proof.
  intros [h1 ->] [h2 ->]. split; [lia|]. rewrite <- skip_add. f_equal. lia.
Qed.
Lemma moved_next g c w g' : next_u32 g = (w, g') -> moved g c g' (c + 1).
Proof. intro h. split; [lia|]. replace (Z.to_nat (c + 1 - c)) with 1%nat by lia. cbn. rewrite h. reflexivity. Qed.
Lemma pass_moved lims : forall mask b g c d g' c', pass mt next_u32 lims mask b g c = (d, g', c') -> moved g c g' c'.
Proof.
  induction lims as [|lim t IH]; intros mask b g c d g' c' h; cbn [pass] in h; [inversion h; subst; apply moved_refl|].
  set (mk := if mask =? 0 then make_mask lim else 4294967295) in h. destruct (mk =? 0).
  - destruct (pass _ _ t mk b g c) as [[d1 g1] c1] eqn:P. inversion h; subst. eauto.
  - destruct (next_u32 g) as [w g1] eqn:N. apply (moved_next g c) in N. destruct (b && (lim <? Z.land w mk)); [inversion h; subst; auto|].
    destruct (pass _ _ t mk _ g1 (c + 1)) as [[d1 g2] c1] eqn:P. inversion h; subst. apply IH in P. eapply moved_trans; eauto.
Qed.
Lemma limited_moved n : forall lims g c d g' c', limited mt next_u32 n lims g c = Some (d, g', c') -> moved g c g' c'.
Proof.
  induction n as [|n IH]; intros lims g c d g' c' h; cbn [limited] in h; [discriminate|].
  destruct (pass mt next_u32 lims 0 true g c) as [[[d1|] g1] c1] eqn:P; apply pass_moved in P.
  - inversion h; subst. auto.
  - apply IH in h. eapply moved_trans; eauto.
Qed.
Lemma ulong_moved n max g c x g' c' : ulong_limited mt next_u32 n max g c = Some (x, g', c') -> moved g c g' c'.
Proof.
  unfold ulong_limited. destruct (max =? 0); [intro h; inversion h; subst; apply moved_refl|].
  destruct (limited mt next_u32 n _ g c) as [[[d g1] c1]|] eqn:L; [|discriminate]. intro h; inversion h; subst. eapply limited_moved; eauto.
Qed.
Lemma rand_int_moved n max g c x g' c' : rand_int mt next_u32 n max g c = Some (x, g', c') -> moved g c g' c'.
Proof.
  unfold rand_int. destruct (limited mt next_u32 n _ g c) as [[[d g1] c1]|] eqn:L; [|discriminate]. intro h; inversion h; subst. eapply limited_moved; eauto.
Qed.
Lemma draws_moved n maxes : forall g c l g' c', draws mt next_u32 n maxes g c = Some (l, g', c') -> moved g c g' c'.
Proof.
  induction maxes as [|m t IH]; intros g c l g' c' h; cbn [draws] in h; [inversion h; subst; apply moved_refl|].
  destruct (ulong_limited mt next_u32 n m g c) as [[[x g1] c1]|] eqn:U; [|discriminate]. apply ulong_moved in U.
  destruct (draws mt next_u32 n t g1 c1) as [[[l1 g2] c2]|] eqn:D; [|discriminate]. inversion h; subst. eapply moved_trans; eauto.
Qed.
Lemma bytes_moved k : forall size g l g', (size <= k)%nat -> fill_bytes mt next_u32 k size g = (l, g') -> g' = skip ((size + 3) / 4) g /\ length l = size.
Proof.
  induction k as [|k IH]; intros size g l g' hk h; cbn [fill_bytes] in h.
  - inversion h; subst. assert (size = 0)%nat by lia. subst. auto.
  - destruct size as [|sz]; [inversion h; subst; auto|]. set (size := S sz) in *.
    destruct (next_u32 g) as [w g1] eqn:N. destruct (fill_bytes mt next_u32 k (size - 4) g1) as [r g2] eqn:F. injection h as <- <-.
    apply IH in F as [-> F]; [|subst size; lia]. split.
    + replace ((size + 3) / 4)%nat with (S ((size - 4 + 3) / 4)). { cbn [skip]. rewrite N. reflexivity. }
      destruct (Nat.lt_ge_cases size 4).
      * replace (size - 4)%nat with 0%nat by lia. subst size. destruct sz as [|[|[|sz]]]; try reflexivity. lia.
      * replace (size + 3)%nat with (size - 4 + 3 + 1 * 4)%nat by lia. rewrite Nat.div_add by lia. lia.
    + change (length (firstn size (le_bytes w) ++ r) = size). rewrite app_length, firstn_length, F. change (length (le_bytes w)) with 4%nat. lia.
Qed.
Lemma do_call_moved n c g cnt a g' cnt' : do_call mt next_u32 n c g cnt = Some (a, g', cnt') -> moved g cnt g' cnt'.
Proof.
  destruct c as [|max|s e excl|size|maxes]; cbn [do_call].
  - unfold next_real. destruct (next_u32 g) as [x g1] eqn:E1. destruct (next_u32 g1) as [y g2] eqn:E2. intro h. inversion h; subst.
    replace (cnt + 2) with (cnt + 1 + 1) by lia. eapply moved_trans; eapply moved_next; eauto.
  - destruct (max <=? 0); [intro h; inversion h; subst; apply moved_refl|].
    destruct (rand_int mt next_u32 n max g cnt) as [[[x g1] c1]|] eqn:R; [|discriminate]. intro h; inversion h; subst. eapply rand_int_moved; eauto.
  - unfold random_range. destruct (_ <=? 0); [intro h; inversion h; subst; apply moved_refl|].
    destruct (rand_int mt next_u32 n _ g cnt) as [[[x g1] c1]|] eqn:R; [|discriminate]. intro h; inversion h; subst. eapply rand_int_moved; eauto.
  - destruct (fill_bytes mt next_u32 size size g) as [l g1] eqn:F. apply bytes_moved in F as [-> _]; auto. intro h; inversion h; subst.
    split; [lia|]. f_equal. lia.
  - destruct (draws mt next_u32 n maxes g cnt) as [[[l g1] c1]|] eqn:D; [|discriminate]. intro h; inversion h; subst. eapply draws_moved; eauto.
Qed.

Definition live_step (n : nat) (c : call) (s : mt * Z) : option (answer * (mt * Z)) :=
  match do_call mt next_u32 n c (fst s) (snd s) with Some (a, g, k) => Some (a, (g, k)) | None => None end.
Theorem replay n cs : forall seed g cnt l g' cnt', 0 <= cnt -> g = mt_at seed cnt -> cnt' < 2 ^ 62 ->
  live (mt * Z) call answer (live_step n) cs (g, cnt) = Some (l, (g', cnt')) ->
  cnt <= cnt' /\ g' = mt_at seed cnt' /\ inst_run n cs (mkrandom seed cnt) = Some (l, mkrandom seed cnt').
Proof.
  induction cs as [|c cs IH]; intros seed g cnt l g' cnt' h0 hg hb h; cbn [live inst_run] in *.
  - inversion h; subst. repeat split; auto. lia.
  - unfold live_step in h at 1. cbn [fst snd] in h. destruct (do_call mt next_u32 n c g cnt) as [[[a g1] c1]|] eqn:D; [|discriminate].
    destruct (live (mt * Z) call answer (live_step n) cs (g1, c1)) as [[l1 s1]|] eqn:L; [|discriminate]. inversion h; subst; clear h.
    pose proof (do_call_moved _ _ _ _ _ _ _ D) as [m1 m2].
    assert (hg1 : g1 = mt_at seed c1). { rewrite m2. unfold mt_at. rewrite <- skip_add. f_equal. lia. }
    destruct (IH seed g1 c1 l1 g' cnt') as (h1 & h2 & h3); auto; [lia|]. split; [lia|]. split; auto.
    unfold inst_call, load. cbn [r_cnt r_seed]. replace (fixnum cnt) with true.
    2: { symmetry. unfold fixnum. apply andb_true_iff. split; [apply Z.leb_le|apply Z.ltb_lt]; lia. }
    rewrite D, h3. reflexivity.
Qed.

(** *** Swaps *)
Lemma swap_spec {A} (l : list A) i j : (i < length l)%nat -> (j < length l)%nat -> exists l', swap A l i j = Some l' /\ length l' = length l /\
  forall k, nth_error l' k = if Nat.eqb k i then nth_error l j else if Nat.eqb k j then nth_error l i else nth_error l k.
Proof.
  intros hi hj. unfold swap. destruct (nth_error l i) as [x|] eqn:X; [|apply nth_error_None in X; lia].
  destruct (nth_error l j) as [y|] eqn:Y; [|apply nth_error_None in Y; lia].
  eexists. split; [reflexivity|]. split; [rewrite map_length, combine_length, seq_length; lia|]. intro k.
  destruct (Nat.lt_ge_cases k (length l)) as [hk|hk].
  - destruct (nth_error l k) as [z|] eqn:Z; [|apply nth_error_None in Z; lia].
    erewrite map_nth_error.
    2: { instantiate (1 := (k, z)). clear -Z. assert (G : forall o, nth_error (combine (seq o (length l)) l) k = Some ((o + k)%nat, z)).
         { revert k Z. induction l as [|h t IH]; intros [|k] Z o; cbn in *; try discriminate; [inversion Z; subst; f_equal; f_equal; lia|].
           rewrite (IH k Z (S o)). f_equal. f_equal. lia. }
         apply G. }
    cbn [fst snd]. destruct (Nat.eqb k i); auto. destruct (Nat.eqb k j); auto.
  - rewrite (proj2 (nth_error_None _ _)) by (rewrite map_length, combine_length, seq_length; lia).
    destruct (Nat.eqb_spec k i); [lia|]. destruct (Nat.eqb_spec k j); [lia|]. symmetry. apply nth_error_None. auto.
Qed.
Lemma swap_some {A} (l : list A) i j l' : swap A l i j = Some l' -> (i < length l)%nat /\ (j < length l)%nat.
Proof.
  unfold swap. destruct (nth_error l i) eqn:X; [|discriminate]. destruct (nth_error l j) eqn:Y; [|discriminate]. intros _.
  split; apply nth_error_Some; congruence.
Qed.
Lemma swap_perm {A} (l : list A) i j l' : swap A l i j = Some l' -> Permutation l l'.
Proof.
  intro h. destruct (swap_some _ _ _ _ h) as [hi hj]. destruct (swap_spec l i j hi hj) as (l2 & e & hl & hn). assert (l2 = l') by congruence. subst l2.
  apply Permutation_nth_error. split; auto. exists (fun k => if Nat.eqb k i then j else if Nat.eqb k j then i else k). split.
  - intros x y hxy. destruct (Nat.eqb_spec x i), (Nat.eqb_spec y i), (Nat.eqb_spec x j), (Nat.eqb_spec y j); subst; auto; try congruence; lia.
  - intro k. rewrite hn. destruct (Nat.eqb k i); auto. destruct (Nat.eqb k j); auto.
Qed.
Lemma nth_error_ext {A} (a : list A) : forall b, (forall k, nth_error a k = nth_error b k) -> a = b.
Proof.
  induction a as [|x a IH]; intros [|y b] h; auto.
  - specialize (h O). discriminate.
  - specialize (h O). discriminate.
  - pose proof (h O) as h0. inversion h0. f_equal. apply IH. intro k. apply (h (S k)).
Qed.
Lemma swap_map {A B} (f : A -> B) l i j : swap B (map f l) i j = option_map (map f) (swap A l i j).
Proof.
  destruct (Nat.lt_ge_cases i (length l)) as [hi|hi]; [destruct (Nat.lt_ge_cases j (length l)) as [hj|hj]|].
  - destruct (swap_spec l i j hi hj) as (l' & -> & _ & hn).
    destruct (swap_spec (map f l) i j) as (l2 & -> & _ & hn2); try (rewrite map_length; auto). cbn [option_map]. f_equal.
    apply nth_error_ext. intro k. rewrite hn2, !nth_error_map, hn. destruct (Nat.eqb k i); auto. destruct (Nat.eqb k j); auto.
  - unfold swap. rewrite !nth_error_map. rewrite (proj2 (nth_error_None l j)) by auto. cbn. destruct (nth_error l i); auto.
  - unfold swap. rewrite !nth_error_map. rewrite (proj2 (nth_error_None l i)) by auto. reflexivity.
Qed.

(** *** shuffle *)
Section Sh.
Variables A St : Type.
Variable draw : nat -> St -> list A -> option nat * St * list A.
Hypothesis below : forall m s l j s' l', (0 < m <= length l)%nat -> draw m s l = (Some j, s', l') -> (j < m)%nat.
Lemma shuffle_loop_perm i : forall guard s l, (forall m s l r s' l', draw m s l = (r, s', l') -> l' = l) -> (i <= length l)%nat ->
  (guard = None \/ guard = Some (length l)) ->
  exists o s' l', shuffle_loop A St draw guard i s l = (o, s', l') /\ Permutation l l' /\ (o = Done \/ o = Raised).
Proof.
  induction i as [|i IH]; intros guard s l hd hi hg; cbn [shuffle_loop]; [eauto 8|]. destruct i as [|i]; [eauto 8|].
  destruct (draw (S (S i)) s l) as [[r s1] l1] eqn:D. pose proof (hd _ _ _ _ _ _ D). subst l1.
  destruct r as [j|]; [|eauto 8].
  replace (match guard with Some len => negb (length l =? len)%nat | None => false end) with false.
  2: { destruct hg as [-> | ->]; auto. rewrite Nat.eqb_refl. reflexivity. }
  apply below in D; [|lia]. destruct (swap_spec l (S i) j) as (l2 & e & hl & _); [lia|lia|]. rewrite e.
  destruct (IH guard s1 l2 hd) as (o & s' & l' & h1 & h2 & h3); [lia|rewrite hl; auto|].
  exists o, s', l'. split; [exact h1|]. split; auto. eapply Permutation_trans; [eapply swap_perm; eauto|auto].
Qed.
(** Even when drawing rewrites or resizes the array, no access is out of bounds. *)
Lemma shuffle_loop_safe i : forall len s l, length l = len -> (i <= len)%nat -> fst (fst (shuffle_loop A St draw (Some len) i s l)) <> OutOfBounds.
Proof.
  induction i as [|i IH]; intros len s l hlen hi; cbn [shuffle_loop]; [discriminate|]. destruct i as [|i]; [discriminate|].
  destruct (draw (S (S i)) s l) as [[[j|] s1] l1] eqn:D; [|discriminate]. apply below in D; [|lia].
  destruct (Nat.eqb_spec (length l1) len); cbn [negb]; [|discriminate].
  destruct (swap_spec l1 (S i) j) as (l2 & e2 & hl & _); [lia|lia|]. rewrite e2. apply IH; lia.
Qed.
End Sh.
(** The built-in generators. *)
Definition twister_draw (A : Type) (n : nat) (m : nat) (g : mt) (l : list A) : option nat * mt * list A :=
  match ulong_limited mt next_u32 n (Z.of_nat m - 1) g 0 with
  | Some (x, g, _) => (Some (Z.to_nat x), g, l)
  | None => (None, g, l)
  end.
Lemma twister_draw_below A n m g (l : list A) j g' l' : Z.of_nat m <= 2 ^ 64 -> (0 < m)%nat -> twister_draw A n m g l = (Some j, g', l') -> (j < m)%nat.
Proof.
  unfold twister_draw. intros h0 h1. destruct (ulong_limited mt next_u32 n (Z.of_nat m - 1) g 0) as [[[x g2] c]|] eqn:U; intro h; inversion h; subst.
  apply ulong_range in U; lia.
Qed.
Lemma twister_draw_same A n m g (l : list A) r g' l' : twister_draw A n m g l = (r, g', l') -> l' = l.
Proof. unfold twister_draw. destruct (ulong_limited _ _ _ _ _ _) as [[[x g2] c]|]; intro h; inversion h; auto. Qed.
(** Every arrangement is produced by some draws. *)
Definition feed (A : Type) (m : nat) (js : list nat) (l : list A) : option nat * list nat * list A :=
  match js with j :: t => (Some j, t, l) | [] => (None, [], l) end.
Lemma shuffle_loop_onto A i : forall (a a' tl : list A), length a = i -> Permutation a a' ->
  exists js, Forall2 lt js (map (fun k => (i - k)%nat) (seq 0 (i - 1))) /\ shuffle_loop A (list nat) (feed A) None i js (a ++ tl) = (Done, [], a' ++ tl).
Proof.
  induction i as [|i IH]; intros a a' tl hl hp.
  - destruct a; [|discriminate]. apply Permutation_nil in hp. subst. exists []. split; [constructor|reflexivity].
  - destruct i as [|i].
    + destruct a as [|x [|]]; try discriminate. apply Permutation_length_1_inv in hp. subst. exists []. split; [constructor|reflexivity].
    + assert (hl' : length a' = S (S i)) by (rewrite <- (Permutation_length hp); auto).
      destruct (exists_last (l := a')) as (b' & y & ->); [destruct a'; [discriminate|discriminate]|].
      rewrite app_length in hl'. cbn [length] in hl'.
      assert (hy : In y a). { apply (Permutation_in (l := b' ++ [y])); [symmetry; auto|apply in_or_app; cbn; auto]. }
      apply In_nth_error in hy as [j hj]. assert (hjl : (j < length a)%nat) by (apply nth_error_Some; congruence).
      destruct (swap_spec a (S i) j) as (c & e & hc & hn); [lia|auto|].
      destruct (exists_last (l := c)) as (c1 & z & ->); [destruct c; [cbn in hc; lia|discriminate]|].
      rewrite app_length in hc. cbn [length] in hc. assert (z = y).
      { specialize (hn (S i)). rewrite Nat.eqb_refl, nth_error_app2 in hn by lia. replace (S i - length c1)%nat with 0%nat in hn by lia. cbn in hn. congruence. }
      subst z. assert (hpc : Permutation c1 b').
      { apply Permutation_app_inv_r with (l := [y]). eapply Permutation_trans; [symmetry; eapply swap_perm; exact e|exact hp]. }
      destruct (IH c1 b' (y :: tl)) as (js & f & hjs); [lia|auto|].
      exists (j :: js). split.
      * replace (S (S i) - 1)%nat with (S i) by lia. cbn [seq map]. constructor; [lia|]. replace (S i - 1)%nat with i in f by lia.
        rewrite <- seq_shift, map_map. exact f.
      * cbn [shuffle_loop feed].
        assert (sw : swap A (a ++ tl) (S i) j = Some (c1 ++ y :: tl)).
        { destruct (swap_spec (a ++ tl) (S i) j) as (c2 & e2 & hc2 & hn2); [rewrite app_length; lia|rewrite app_length; lia|].
          rewrite e2. f_equal. apply nth_error_ext. intro k. rewrite hn2. change (y :: tl) with ([y] ++ tl). rewrite app_assoc.
          rewrite (nth_error_app1 a tl (n := j)) by lia. rewrite (nth_error_app1 a tl (n := S i)) by lia.
          destruct (Nat.lt_ge_cases k (length a)).
          - rewrite (nth_error_app1 (c1 ++ [y])) by (rewrite app_length; cbn; lia). rewrite hn, nth_error_app1 by auto. reflexivity.
          - rewrite (nth_error_app2 (c1 ++ [y])) by (rewrite app_length; cbn; lia).
            destruct (Nat.eqb_spec k (S i)); [lia|]. destruct (Nat.eqb_spec k j); [lia|]. rewrite nth_error_app2 by auto. f_equal. rewrite app_length. cbn. lia. }
        rewrite sw, <- app_assoc. exact hjs.
Qed.

(** *** sample *)
Lemma at_all_ok {A} (l : list A) idx : Forall (fun i => (i < length l)%nat) idx ->
  exists r, at_all A l idx = Picked A r /\ Forall2 (fun i x => nth_error l i = Some x) idx r.
Proof.
  intro h. unfold at_all. enough (exists r, fold_right (fun i r => match nth_error l i, r with Some x, Some t => Some (x :: t) | _, _ => None end) (Some []) idx = Some r
    /\ Forall2 (fun i x => nth_error l i = Some x) idx r) as (r & -> & hr) by eauto.
  induction h as [|i idx hi h IH]; cbn; [eauto|]. destruct IH as (r & -> & hr).
  destruct (nth_error l i) as [x|] eqn:X; [|apply nth_error_None in X; lia]. eexists. split; [reflexivity|]. constructor; auto.
Qed.
Lemma lift_ok sorted : forall k k' s', StronglySorted lt sorted -> lift k sorted = (k', s') ->
  ~ In k' sorted /\ (k <= k' <= k + length sorted)%nat /\ Permutation s' (k' :: sorted) /\ StronglySorted lt s'.
Proof.
  induction sorted as [|x t IH]; intros k k' s' hs h; cbn [lift] in h.
  - inversion h; subst. cbn. repeat split; auto; try lia. constructor; constructor.
  - inversion hs as [|? ? hs' hx]; subst. destruct (Nat.leb_spec x k).
    + destruct (lift (S k) t) as [k1 t1] eqn:L. inversion h; subst. apply IH in L as (h1 & h2 & h3 & h4); auto. cbn [length]. repeat split; try lia.
      * intros [->|c]; [lia|auto].
      * eapply Permutation_trans; [apply perm_skip, h3|apply perm_swap].
      * constructor; auto. apply Forall_forall. intros y hy. apply (Permutation_in _ h3) in hy. destruct hy as [<-|hy]; [lia|].
        rewrite Forall_forall in hx. apply hx; auto.
    + inversion h; subst. cbn [length]. repeat split; try lia.
      * intros [->|c]; [lia|]. rewrite Forall_forall in hx. apply hx in c. lia.
      * auto.
      * constructor; auto. constructor; auto. eapply Forall_impl; [|exact hx]. cbn. intros; lia.
Qed.
Lemma lift_all_ok len rnds : forall sorted, StronglySorted lt sorted -> Forall (fun x => (x < len)%nat) sorted ->
  Forall2 lt rnds (map (fun k => (len - length sorted - k)%nat) (seq 0 (length rnds))) ->
  NoDup (lift_all rnds sorted) /\ Forall (fun x => (x < len)%nat /\ ~ In x sorted) (lift_all rnds sorted) /\ length (lift_all rnds sorted) = length rnds.
Proof.
  induction rnds as [|k t IH]; intros sorted hs hb hr; cbn [lift_all]; [repeat constructor|].
  cbn [length seq map] in hr. inversion hr as [|? ? ? ? hk ht]; subst. destruct (lift k sorted) as [k' s'] eqn:L.
  apply lift_ok in L as (h1 & h2 & h3 & h4); auto.
  assert (hl : length s' = S (length sorted)) by (rewrite (Permutation_length h3); reflexivity).
  destruct (IH s') as (i1 & i2 & i3); auto.
  - apply Forall_forall. intros y hy. apply (Permutation_in _ h3) in hy. destruct hy as [<-|hy]; [lia|]. rewrite Forall_forall in hb. auto.
  - rewrite <- seq_shift, map_map in ht. rewrite hl.
    erewrite map_ext; [exact ht|]. intro x. cbn. lia.
  - rewrite Forall_forall in i2. repeat split.
    + constructor; auto. intro c. apply i2 in c as [_ c]. apply c. apply (Permutation_in _ (Permutation_sym h3)). cbn; auto.
    + constructor; [split; [lia|auto]|]. apply Forall_forall. intros y hy. apply i2 in hy as [y1 y2]. split; auto. intro c. apply y2.
      apply (Permutation_in _ (Permutation_sym h3)). cbn; auto.
    + cbn. lia.
Qed.

(** Partial Fisher-Yates as a function of the draws. *)
Fixpoint fy {X} (rs : list nat) (i : nat) (c : list X) : list X :=
  match rs with [] => c | r :: t => fy t (S i) (match swap X c i (r + i) with Some c' => c' | None => c end) end.
Lemma fy_perm {X} rs : forall i (c : list X), Permutation c (fy rs i c).
Proof.
  induction rs as [|r t IH]; intros i c; cbn [fy]; auto. destruct (swap X c i (r + i)) as [c'|] eqn:E; auto.
  eapply Permutation_trans; [eapply swap_perm; eauto|auto].
Qed.
Lemma fy_map {X Y} (f : X -> Y) rs : forall i c, fy rs i (map f c) = map f (fy rs i c).
Proof. induction rs as [|r t IH]; intros i c; cbn [fy]; auto. rewrite swap_map. destruct (swap X c i (r + i)) as [c'|]; cbn; auto. Qed.
Lemma fy_low {X} rs : forall i (c : list X) k, (k < i)%nat -> nth_error (fy rs i c) k = nth_error c k.
Proof.
  induction rs as [|r t IH]; intros i c k hk; cbn [fy]; auto. rewrite IH by lia. destruct (swap X c i (r + i)) as [c'|] eqn:E; auto.
  destruct (swap_some _ _ _ _ E) as [h1 h2]. destruct (swap_spec c i (r + i) h1 h2) as (c2 & e & _ & hn). assert (c2 = c') by congruence. subst.
  rewrite hn. destruct (Nat.eqb_spec k i); [lia|]. destruct (Nat.eqb_spec k (r + i)); [lia|]. auto.
Qed.
Definition inb (len : nat) (i : nat) (rs : list nat) : Prop := Forall2 lt rs (map (fun k => (len - i - k)%nat) (seq 0 (length rs))).
Lemma inb_cons len i r t : inb len i (r :: t) -> (r < len - i)%nat /\ inb len (S i) t.
Proof.
  unfold inb. cbn [length seq map]. intro h. inversion h; subst. split; [lia|]. rewrite <- seq_shift, map_map in H4.
  erewrite map_ext; [exact H4|]. intro; cbn; lia.
Qed.
Lemma look_cons j v m k : look ((j, v) :: m) k = if Nat.eqb j k then v else look m k.
Proof. unfold look. cbn [find fst]. destruct (Nat.eqb j k); reflexivity. Qed.
Lemma sparse_fy rs : forall i m (c : list nat), inb (length c) i rs -> (forall k, (i <= k < length c)%nat -> nth_error c k = Some (look m k)) ->
  forall q, (q < length rs)%nat -> nth_error (sparse (add_from i rs) i m) q = nth_error (fy rs i c) (i + q).
Proof.
  induction rs as [|r t IH]; intros i m c hb hm q hq; [cbn in hq; lia|]. apply inb_cons in hb as [hr hb]. cbn [add_from sparse fy].
  destruct (swap_spec c i (r + i)) as (c' & e & hl & hn); [lia|lia|]. rewrite e. destruct q as [|q].
  - cbn [nth_error]. rewrite Nat.add_0_r, fy_low by lia. rewrite hn, Nat.eqb_refl, hm by lia. reflexivity.
  - cbn [nth_error length] in *. replace (i + S q)%nat with (S i + q)%nat by lia. apply IH; [rewrite hl; auto| |lia].
    intros k hk. rewrite hl in hk. rewrite hn, look_cons. destruct (Nat.eqb_spec k i); [lia|]. rewrite (Nat.eqb_sym (r + i) k).
    destruct (Nat.eqb k (r + i)); apply hm; lia.
Qed.
Lemma sparse_length picks : forall i m, length (sparse picks i m) = length picks.
Proof. induction picks as [|j t IH]; intros; cbn; auto. Qed.
Lemma add_from_length rs : forall i, length (add_from i rs) = length rs.
Proof. induction rs; intros; cbn; auto. Qed.
Lemma sparse_firstn rs len : inb len 0 rs -> (length rs <= len)%nat -> sparse (add_from 0 rs) 0 [] = firstn (length rs) (fy rs 0 (seq 0 len)).
Proof.
  intros hb hl. apply nth_error_ext. intro k. destruct (Nat.lt_ge_cases k (length rs)) as [h|h].
  - rewrite sparse_fy with (c := seq 0 len); auto.
    + cbn [Nat.add]. rewrite <- (firstn_skipn (length rs) (fy rs 0 (seq 0 len))) at 1.
      apply nth_error_app1. rewrite firstn_length, <- (Permutation_length (fy_perm rs 0 (seq 0 len))), seq_length. lia.
    + rewrite seq_length. auto.
    + intros q hq. rewrite seq_length in hq. change (look [] q) with q.
      rewrite (nth_error_nth' (seq 0 len) 0%nat) by (rewrite seq_length; lia). rewrite seq_nth by lia. reflexivity.
  - rewrite (proj2 (nth_error_None _ _)) by (rewrite sparse_length, add_from_length; auto).
    symmetry. apply nth_error_None. rewrite firstn_length. lia.
Qed.
Lemma map_nth_seq {A} (l : list A) d : map (fun k => nth k l d) (seq 0 (length l)) = l.
Proof.
  apply nth_error_ext. intro k. rewrite nth_error_map. destruct (Nat.lt_ge_cases k (length l)).
  - rewrite (nth_error_nth' (seq 0 (length l)) 0%nat) by (rewrite seq_length; auto). rewrite seq_nth by auto. cbn. symmetry. apply nth_error_nth'; auto.
  - rewrite (proj2 (nth_error_None (seq 0 (length l)) k)) by (rewrite seq_length; auto). symmetry. apply nth_error_None. auto.
Qed.
Lemma NoDup_app_l {X} (a b : list X) : NoDup (a ++ b) -> NoDup a.
Proof. induction a as [|x a IH]; intro h; [constructor|]. cbn in h. inversion h; subst. constructor; auto. intro c. apply H1, in_or_app. auto. Qed.
Lemma fy_selection rs len : (length rs <= len)%nat -> NoDup (firstn (length rs) (fy rs 0 (seq 0 len))) /\
  Forall (fun i => (i < len)%nat) (firstn (length rs) (fy rs 0 (seq 0 len))) /\ length (firstn (length rs) (fy rs 0 (seq 0 len))) = length rs.
Proof.
  intro h. pose proof (fy_perm rs 0 (seq 0 len)) as p. assert (nd : NoDup (fy rs 0 (seq 0 len))) by (apply (Permutation_NoDup p), seq_NoDup).
  split; [apply NoDup_app_l with (skipn (length rs) (fy rs 0 (seq 0 len))); rewrite firstn_skipn; auto|]. split.
  - apply Forall_forall. intros x hx. assert (hin : In x (fy rs 0 (seq 0 len))). { rewrite <- (firstn_skipn (length rs)). apply in_or_app; auto. }
    apply (Permutation_in _ (Permutation_sym p)) in hin. apply in_seq in hin. lia.
  - rewrite firstn_length, <- (Permutation_length p), seq_length. lia.
Qed.

Section Sa.
Variables A St : Type.
Variable draw : nat -> St -> list A -> option nat * St * list A.
Hypothesis fair : forall m s l, (0 < m <= length l)%nat -> exists j s', draw m s l = (Some j, s', l) /\ (j < m)%nat.
Lemma roll_ok n : forall len s l, (n <= len)%nat -> (len <= length l)%nat -> exists rs s', roll A St draw n len s l = (Some rs, s', l) /\ length rs = n /\ inb len 0 rs.
Proof.
  induction n as [|n IH]; intros len s l hn hll; cbn [roll]; [exists [], s; repeat split; constructor|].
  destruct (fair len s l) as (j & s1 & -> & hj); [lia|]. destruct (IH (len - 1)%nat s1 l) as (rs & s2 & -> & h1 & h2); [lia|lia|].
  exists (j :: rs), s2. split; auto. split; [cbn; lia|]. unfold inb in *. cbn [length seq map]. constructor; [lia|].
  rewrite <- seq_shift, map_map. erewrite map_ext; [exact h2|]. intro; cbn; lia.
Qed.
Lemma partial_ok n : forall i len s l (c : list A), (i + n <= len)%nat -> length c = len -> length l = len ->
  exists rs, partial_shuffle A St draw n i len s l c = (Some (fy rs i c), false) /\ length rs = n /\ inb len i rs.
Proof.
  induction n as [|n IH]; intros i len s l c hi hc hll; cbn [partial_shuffle]; [exists []; repeat split; constructor|].
  destruct (fair (len - i)%nat s l) as (j & s1 & -> & hj); [lia|].
  destruct (swap_spec c i (j + i)) as (c' & e & hl & _); [lia|lia|]. rewrite e.
  destruct (IH (S i) len s1 l c') as (rs & -> & h1 & h2); [lia|lia|auto|]. exists (j :: rs). cbn [fy length]. rewrite e. split; auto. split; [lia|].
  unfold inb in *. cbn [length seq map]. constructor; [lia|]. rewrite <- seq_shift, map_map. erewrite map_ext; [exact h2|]. intro; cbn; lia.
Qed.
Lemma add_from_max rs : forall i len, inb len i rs -> (i + length rs <= len)%nat -> (0 < len)%nat -> (fold_right Nat.max 0 (add_from i rs) < len)%nat.
Proof.
  induction rs as [|r t IH]; intros i len h hl h0; cbn [add_from fold_right]; [lia|]. apply inb_cons in h as [h1 h2]. cbn [length] in hl.
  specialize (IH (S i) len h2 ltac:(lia) h0). lia.
Qed.
Lemma pick_done (l : list A) n idx : NoDup idx -> Forall (fun i => (i < length l)%nat) idx -> length idx = n ->
  exists r, at_all A l idx = Picked A r /\ selection l n r.
Proof. intros h1 h2 h3. destruct (at_all_ok l idx h2) as (r & e & f). exists r. split; auto. exists idx. auto. Qed.
Theorem sample_ok n s l : exists r, sample A St draw n s l = Picked A r /\ selection l (Nat.min n (length l)) r.
Proof.
  unfold sample. set (k := Nat.min n (length l)). assert (hk : (k <= length l)%nat) by (subst k; lia).
  assert (R : exists rnds s', (if (k <=? 10)%nat then roll A St draw k (length l) s l else (Some [], s, l)) = (Some rnds, s', l)
     /\ ((k <= 10)%nat -> length rnds = k /\ inb (length l) 0 rnds)).
  { destruct (Nat.leb_spec k 10).
    - destruct (roll_ok k (length l) s l hk (le_n _)) as (rs & s' & h1 & h2 & h3). exists rs, s'. auto.
    - exists [], s. split; auto. lia. }
  destruct R as (rnds & s' & -> & hr). rewrite Nat.ltb_irrefl. cbn [andb]. rewrite Nat.min_l by auto.
  assert (LA : (k <= 10)%nat -> exists r, at_all A l (lift_all rnds []) = Picked A r /\ selection l k r).
  { intro h. destruct (hr h) as [h1 h2]. destruct (lift_all_ok (length l) rnds []) as (a1 & a2 & a3); [constructor|constructor| |].
    - unfold inb in h2. cbn [length]. exact h2.
    - apply pick_done; auto; [|lia]. eapply Forall_impl; [|exact a2]. cbn. tauto. }
  destruct (Nat.eq_dec k 0) as [e0|n0].
  { rewrite e0. exists []. split; auto. exists []. repeat split; constructor. }
  destruct (Nat.eq_dec k 1) as [e1|n1].
  { destruct (hr ltac:(lia)) as [h1 _]. specialize (LA ltac:(lia)). rewrite e1 in *. destruct rnds as [|a [|b t]]; try discriminate. cbn [nth]. exact LA. }
  destruct (Nat.eq_dec k 2) as [e2|n2].
  { destruct (hr ltac:(lia)) as [h1 _]. specialize (LA ltac:(lia)). rewrite e2 in *. destruct rnds as [|a [|b [|c t]]]; try discriminate. cbn [nth].
    cbn [lift_all lift] in LA. destruct (a <=? b)%nat; exact LA. }
  destruct (Nat.eq_dec k 3) as [e3|n3].
  { destruct (hr ltac:(lia)) as [h1 _]. specialize (LA ltac:(lia)). rewrite e3 in *. destruct rnds as [|a [|b [|c [|d t]]]]; try discriminate. cbn [nth].
    cbn [lift_all lift] in LA. destruct (a <=? b)%nat; cbn [lift] in LA.
    - destruct (a <=? c)%nat; cbn [lift] in LA; [|exact LA]. destruct (S b <=? S c)%nat; exact LA.
    - destruct (b <=? c)%nat; cbn [lift] in LA; [|exact LA]. destruct (a <=? S c)%nat; exact LA. }
  assert (G : exists r, (if (k <=? 10)%nat then at_all A l (lift_all (firstn k rnds) [])
       else if (k <=? memo_threshold (length l) / 2)%nat then
              match roll A St draw k (length l) s' l with
              | (None, _, _) => PRaised A
              | (Some rs, s, l) =>
                  let picks := add_from 0 rs in
                  let len := length l in
                  let n := if (len <=? fold_right Nat.max 0 picks)%nat then O else Nat.min k len in
                  at_all A l (sparse (firstn n picks) 0 [])
              end
            else match partial_shuffle A St draw k 0 (length l) s' l l with
                 | (Some c, _) => Picked A (firstn k c)
                 | (None, true) => POutOfBounds A
                 | (None, false) => PRaised A
                 end) = Picked A r /\ selection l k r).
  { destruct (Nat.leb_spec k 10).
    - rewrite firstn_all2 by (destruct (hr ltac:(lia)); lia). auto.
    - destruct (k <=? memo_threshold (length l) / 2)%nat.
      + destruct (roll_ok k (length l) s' l hk (le_n _)) as (rs & s2 & -> & h1 & h2). cbn zeta.
        pose proof (add_from_max rs 0 (length l) h2 ltac:(lia) ltac:(lia)) as mx. destruct (Nat.leb_spec (length l) (fold_right Nat.max 0%nat (add_from 0 rs))); [lia|].
        rewrite Nat.min_l by auto. rewrite firstn_all2 by (rewrite add_from_length; lia). rewrite (sparse_firstn rs (length l)) by (auto; lia).
        destruct (fy_selection rs (length l)) as (f1 & f2 & f3); [lia|]. apply pick_done; auto. lia.
      + destruct (partial_ok k 0 (length l) s' l l) as (rs & -> & h1 & h2); [lia|auto|auto|]. eexists. split; [reflexivity|].
        destruct (fy_selection rs (length l)) as (f1 & f2 & f3); [lia|]. exists (firstn (length rs) (fy rs 0 (seq 0 (length l)))).
        split; auto. split; [lia|]. destruct l as [|d0 l']; [cbn in hk; lia|]. set (ll := d0 :: l') in *.
        assert (E : firstn k (fy rs 0 ll) = map (fun q => nth q ll d0) (firstn (length rs) (fy rs 0 (seq 0 (length ll))))).
        { rewrite <- (map_nth_seq ll d0) at 1. rewrite fy_map, firstn_map, h1. reflexivity. }
        rewrite E. clear -f2. induction f2; cbn [map]; constructor; auto. apply nth_error_nth'; auto. }
  destruct k as [|[|[|[|k]]]]; try lia. exact G.
Qed.
End Sa.

Theorem shuffle_perm (A St : Type) (draw : nat -> St -> list A -> option nat * St * list A) reenters s l :
  (forall m s l j s' l', (0 < m <= length l)%nat -> draw m s l = (Some j, s', l') -> (j < m)%nat) ->
  (forall m s l r s' l', draw m s l = (r, s', l') -> l' = l) ->
  exists o s' l', shuffle A St draw reenters s l = (o, s', l') /\ Permutation l l' /\ (o = Done \/ o = Raised).
Proof. intros h1 h2. apply shuffle_loop_perm; auto. destruct reenters; auto. Qed.
Theorem shuffle_onto (A : Type) (l l' : list A) : Permutation l l' ->
  exists js, Forall2 lt js (map (fun k => (length l - k)%nat) (seq 0 (length l - 1))) /\
    shuffle A (list nat) (feed A) false js l = (Done, [], l').
Proof.
  intro h. destruct (shuffle_loop_onto A (length l) l l' [] eq_refl h) as (js & h1 & h2). rewrite !app_nil_r in h2. exists js. auto.
Qed.

(** *** rand(range) *)
Lemma w64_id x : - 2 ^ 63 <= x < 2 ^ 63 -> w64 x = x.
Proof. intro h. unfold w64. rewrite Z.mod_small; lia. Qed.
Lemma span_ok s e (excl : bool) : fixnum s = true -> fixnum e = true -> e - s + (if excl then 0 else 1) < 2 ^ 63 ->
  w64 (w64 (e - s) + if excl then 0 else 1) = e - s + (if excl then 0 else 1).
Proof.
  unfold fixnum. rewrite !andb_true_iff, !Z.leb_le, !Z.ltb_lt. intros [h1 h2] [h3 h4] h5.
  change (2 ^ 62) with 4611686018427387904 in *. change (2 ^ 63) with 9223372036854775808 in *.
  rewrite (w64_id (e - s)) by (change (2 ^ 63) with 9223372036854775808; destruct excl; lia). apply w64_id. change (2 ^ 63) with 9223372036854775808. destruct excl; lia.
Qed.
Lemma kernel_range_ok (G : Type) (next : G -> Z * G) n s e (excl : bool) g cnt r g' cnt' :
  fixnum s = true -> fixnum e = true -> e - s + (if excl then 0 else 1) < 2 ^ 63 ->
  kernel_range G next n s e excl g cnt = Some (r, g', cnt') ->
  match r with Some x => s <= x /\ (if excl then x < e else x <= e) | None => if excl then e <= s else e < s end.
Proof.
  intros h1 h2 h3. unfold kernel_range. rewrite span_ok by auto. destruct (Z.leb_spec (e - s + (if excl then 0 else 1)) 0) as [c|c].
  - intro h. inversion h; subst. destruct excl; lia.
  - destruct (ulong_limited G next n _ g cnt) as [[[x g1] c1]|] eqn:U; [|discriminate]. intro h. inversion h; subst.
    apply ulong_range in U; [destruct excl; lia|]. change (2 ^ 63) with 9223372036854775808 in h3. change (2 ^ 64) with 18446744073709551616. lia.
Qed.
Lemma random_range_ok (G : Type) (next : G -> Z * G) n s e (excl : bool) g cnt r g' cnt' :
  fixnum s = true -> fixnum e = true -> e - s + (if excl then 0 else 1) < 2 ^ 63 ->
  random_range G next n s e excl g cnt = Some (r, g', cnt') ->
  match r with Some x => s <= x /\ (if excl then x < e else x <= e) | None => if excl then e <= s else e < s end.
Proof.
  intros h1 h2 h3. unfold random_range. rewrite span_ok by auto. destruct (Z.leb_spec (e - s + (if excl then 0 else 1)) 0) as [c|c].
  - intro h. inversion h; subst. destruct excl; lia.
  - destruct (rand_int G next n _ g cnt) as [[[x g1] c1]|] eqn:U; [|discriminate]. intro h. inversion h; subst.
    apply rand_int_range in U; [destruct excl, (fixnum x); lia|]. lia.
Qed.
Lemma random_range_low (G : Type) (next : G -> Z * G) n g cnt x g' cnt' :
  random_range G next n (- 2 ^ 62) (2 ^ 62 - 2) false g cnt = Some (Some x, g', cnt') -> x < 0.
Proof.
  unfold random_range. change (w64 (w64 (2 ^ 62 - 2 - - 2 ^ 62) + 1)) with 9223372036854775807.
  change (9223372036854775807 <=? 0) with false. cbn iota.
  destruct (rand_int G next n _ g cnt) as [[[v g1] c1]|] eqn:U; [|discriminate]. intro h.
  assert (e : x = - 2 ^ 62 + (if fixnum v then v else 0)) by congruence. rewrite e. clear h e U.
  destruct (fixnum v) eqn:F; [|reflexivity]. unfold fixnum in F. apply andb_true_iff in F as [_ F]. apply Z.ltb_lt in F. lia.
Qed.
Definition is_finite_sf (x : spec_float) : bool := match x with S754_zero _ | S754_finite _ _ _ => true | _ => false end.
(** 2^1023 and its opposite (about 9e307). *)
Lemma float_range_overflow : exists s e, SFltb s e = true /\ is_finite_sf s = true /\ is_finite_sf e = true /\
  forall (G : Type) (next : G -> Z * G) excl g, match fst (kernel_float_range G next s e excl g) with
                                            | Some x => is_finite_sf x = false
                                            | None => False
                                            end.
Proof.
  exists (S754_finite true 4503599627370496 971), (S754_finite false 4503599627370496 971).
  split; [reflexivity|]. split; [reflexivity|]. split; [reflexivity|]. intros G next excl g. unfold kernel_float_range.
  change (SFltb (S754_finite false 4503599627370496 971) (S754_finite true 4503599627370496 971)) with false.
  change (SFleb (S754_finite false 4503599627370496 971) (S754_finite true 4503599627370496 971)) with false.
  change (SFeqb (S754_finite false 4503599627370496 971) (S754_finite true 4503599627370496 971)) with false.
  rewrite andb_false_r. cbn [orb].
  replace (SFsub 53 1024 (S754_finite false 4503599627370496 971) (S754_finite true 4503599627370496 971)) with (S754_infinity false) by (vm_compute; reflexivity).
  destruct (if excl then _ else _) as [k g'] eqn:E. cbn [fst]. destruct (real k); reflexivity.
Qed.
