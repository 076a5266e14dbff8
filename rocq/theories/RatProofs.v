(** Proofs about Rationals. *)
From Coq Require Import ZArith QArith Qpower Qabs Qfield Lia Bool Znumtheory Setoid Morphisms.
From Verif Require Import RatModel RatSpec.
Open Scope Z_scope.

(** *** Normal form *)
Lemma new_ok n d : d <> 0 -> exists r, new n d = Ok r /\ lowest r /\ num r * d = n * den r.
Proof.
  intro hd. unfold new. destruct (Z.eqb_spec d 0) as [|_]; [contradiction|].
  set (n' := if d <? 0 then - n else n). set (d' := if d <? 0 then - d else d).
  assert (h1 : 0 < d') by (unfold d'; destruct (Z.ltb_spec d 0); lia).
  assert (h2 : n' * d = n * d') by (unfold n', d'; destruct (Z.ltb_spec d 0); lia).
  clearbody n' d'. destruct (Z.eqb_spec (Z.gcd n' d') 1) as [e|e].
  { eexists. split; [reflexivity|]. split; [split; cbn; lia|exact h2]. }
  assert (hg : 0 < Z.gcd n' d').
  { pose proof (Z.gcd_nonneg n' d'). pose proof (Z.gcd_eq_0_r n' d'). lia. }
  destruct (Z.gcd_divide_l n' d') as [a ha]. destruct (Z.gcd_divide_r n' d') as [b hb].
  assert (hq1 : Z.quot n' (Z.gcd n' d') = a) by (rewrite ha at 1; apply Z.quot_mul; lia).
  assert (hq2 : Z.quot d' (Z.gcd n' d') = b) by (rewrite hb at 1; apply Z.quot_mul; lia).
  rewrite hq1, hq2. eexists. split; [reflexivity|].
  pose proof (Z.gcd_mul_mono_r_nonneg a b (Z.gcd n' d') ltac:(lia)) as hm. rewrite <- ha, <- hb in hm. clear hq1 hq2 e.
  set (g := Z.gcd n' d') in *. clearbody g. subst n' d'. split.
  - split; cbn; [nia|]. apply Z.mul_reg_r with g; lia.
  - cbn. apply Z.mul_reg_r with g; lia.
Qed.
Lemma new_low n d r : new n d = Ok r -> d <> 0 /\ lowest r /\ num r * d = n * den r.
Proof.
  intro h. destruct (Z.eq_dec d 0) as [->|hd]; [discriminate|]. destruct (new_ok n d hd) as (r' & h1 & h2 & h3). rewrite h1 in h. injection h as ->. auto.
Qed.
(** Lowest terms are unique. *)
Lemma low_unique r s : lowest r -> lowest s -> num r * den s = num s * den r -> num r = num s /\ den r = den s.
Proof.
  intros [h1 g1] [h2 g2] h.
  assert (d1 : (den r | den s)).
  { apply Gauss with (num r); [exists (num s); lia|]. apply Zgcd_1_rel_prime. rewrite Z.gcd_comm. exact g1. }
  assert (d2 : (den s | den r)).
  { apply Gauss with (num s); [exists (num r); lia|]. apply Zgcd_1_rel_prime. rewrite Z.gcd_comm. exact g2. }
  assert (e : den r = den s) by (apply Z.divide_antisym_nonneg; auto; lia). rewrite e in *. split; nia.
Qed.

Open Scope Q_scope.
Lemma injZ_nz d : (d <> 0)%Z -> ~ inject_Z d == 0.
Proof. unfold Qeq; cbn. lia. Qed.
Lemma qof_frac r : (0 < den r)%Z -> qof r == inject_Z (num r) / inject_Z (den r).
Proof.
  intro h. unfold qof. rewrite Qmake_Qdiv. rewrite Z2Pos.id by auto. reflexivity.
Qed.
Lemma qof_val r n d : (0 < den r)%Z -> (d <> 0)%Z -> (num r * d = n * den r)%Z -> qof r == inject_Z n / inject_Z d.
Proof.
  intros h1 h2 h. rewrite qof_frac by auto. pose proof (injZ_nz d h2). pose proof (injZ_nz (den r) ltac:(lia)).
  apply Qmult_inj_r with (inject_Z d); auto. apply Qmult_inj_r with (inject_Z (den r)); auto.
  transitivity (inject_Z (num r) * inject_Z d); [field; auto|]. transitivity (inject_Z n * inject_Z (den r)); [|field; auto].
  rewrite <- !inject_Z_mult, h. reflexivity.
Qed.
Lemma new_val n d : (d <> 0)%Z -> exists r, new n d = Ok r /\ lowest r /\ qof r == inject_Z n / inject_Z d.
Proof.
  intro h. destruct (new_ok n d h) as (r & h1 & h2 & h3). exists r. repeat split; try apply h2; auto. apply qof_val; auto. apply h2.
Qed.
Lemma qof_eq r s : lowest r -> lowest s -> (qof r == qof s <-> (num r * den s = num s * den r)%Z).
Proof.
  intros [h1 _] [h2 _]. unfold qof, Qeq. cbn. rewrite !Z2Pos.id by auto. reflexivity.
Qed.
Lemma qof_zero r : lowest r -> (qof r == 0 <-> num r = 0%Z).
Proof. intros [h1 _]. unfold qof, Qeq. cbn. lia. Qed.

(** *** Operations *)
Lemma add_ok r s : lowest r -> lowest s -> exists t, add r s = Ok t /\ lowest t /\ qof t == qof r + qof s.
Proof.
  intros [h1 _] [h2 _]. unfold add. destruct (new_val (num r * den s + num s * den r) (den r * den s) ltac:(nia)) as (t & e1 & e2 & e3).
  exists t. split; auto. split; auto. rewrite e3, !qof_frac by auto. rewrite inject_Z_plus, !inject_Z_mult. field. split; apply injZ_nz; lia.
Qed.
Lemma sub_ok r s : lowest r -> lowest s -> exists t, sub r s = Ok t /\ lowest t /\ qof t == qof r - qof s.
Proof.
  intros [h1 _] [h2 _]. unfold sub. destruct (new_val (num r * den s - num s * den r) (den r * den s) ltac:(nia)) as (t & e1 & e2 & e3).
  exists t. split; auto. split; auto. rewrite e3, !qof_frac by auto. unfold Z.sub. rewrite inject_Z_plus, inject_Z_opp, !inject_Z_mult. field. split; apply injZ_nz; lia.
Qed.
Lemma mul_ok r s : lowest r -> lowest s -> exists t, mul r s = Ok t /\ lowest t /\ qof t == qof r * qof s.
Proof.
  intros [h1 _] [h2 _]. unfold mul. destruct (new_val (num r * num s) (den r * den s) ltac:(nia)) as (t & e1 & e2 & e3).
  exists t. split; auto. split; auto. rewrite e3, !qof_frac by auto. rewrite !inject_Z_mult. field. split; apply injZ_nz; lia.
Qed.
Lemma div_ok r s : lowest r -> lowest s ->
  if Qeq_bool (qof s) 0 then div r s = DivZero else exists t, div r s = Ok t /\ lowest t /\ qof t == qof r / qof s.
Proof.
  intros l1 l2. pose proof l1 as [h1 _]. pose proof l2 as [h2 _]. unfold div.
  destruct (Qeq_bool (qof s) 0) eqn:E.
  - apply Qeq_bool_iff in E. apply qof_zero in E; auto. rewrite E. reflexivity.
  - assert (hn : (num s <> 0)%Z). { intro e. apply (proj2 (qof_zero s l2)) in e. apply Qeq_bool_iff in e. congruence. }
    destruct (Z.eqb_spec (num s) 0) as [|_]; [contradiction|].
    destruct (new_val (num r * den s) (den r * num s) ltac:(nia)) as (t & e1 & e2 & e3).
    exists t. split; auto. split; auto. rewrite e3, !qof_frac by auto. rewrite !inject_Z_mult. field. repeat split; apply injZ_nz; lia.
Qed.
Lemma of_int_ok i : exists r, new i 1 = Ok r /\ lowest r /\ qof r == inject_Z i.
Proof.
  destruct (new_val i 1 ltac:(lia)) as (t & e1 & e2 & e3). exists t. split; auto. split; auto. rewrite e3. change (inject_Z 1) with 1. field.
Qed.
Lemma rational_ok a b : if Z.eqb b 0 then kernel_rational a b = DivZero else
  exists t, kernel_rational a b = Ok t /\ lowest t /\ qof t == inject_Z a / inject_Z b.
Proof.
  unfold kernel_rational. destruct (of_int_ok a) as (x & -> & x1 & x2). destruct (of_int_ok b) as (y & -> & y1 & y2). cbn [bind].
  pose proof (div_ok x y x1 y1) as h. destruct (Z.eqb_spec b 0) as [->|hb].
  - replace (Qeq_bool (qof y) 0) with true in h; auto. symmetry. apply Qeq_bool_iff. exact y2.
  - replace (Qeq_bool (qof y) 0) with false in h.
    + destruct h as (t & e1 & e2 & e3). exists t. split; auto. split; auto. rewrite e3, x2, y2. reflexivity.
    + symmetry. apply not_true_iff_false. rewrite Qeq_bool_iff, y2. apply injZ_nz; auto.
Qed.
Lemma neg_ok r : lowest r -> lowest (neg r) /\ qof (neg r) == - qof r.
Proof. intros [h1 h2]. split; [split; cbn; auto; rewrite Z.gcd_opp_l; auto|]. unfold qof, neg, Qeq. cbn. lia. Qed.
Lemma abs_num r : num (abs r) = Z.abs (num r).
Proof. unfold abs. cbn. destruct (Z.ltb_spec (num r) 0); lia. Qed.
Lemma abs_ok r : lowest r -> lowest (abs r) /\ qof (abs r) == Qabs (qof r).
Proof.
  intros [h1 h2]. split; [split; cbn [den abs]; auto; rewrite abs_num, Z.gcd_abs_l; auto|]. unfold qof. rewrite abs_num. reflexivity.
Qed.

(** *** Powers *)
Lemma inj_pow a (p : positive) : inject_Z (a ^ Zpos p) == inject_Z a ^ Zpos p.
Proof.
  assert (h : forall n : nat, inject_Z (a ^ Z.of_nat n) == inject_Z a ^ Z.of_nat n).
  { induction n as [|n IH]; [reflexivity|]. rewrite Nat2Z.inj_succ, Z.pow_succ_r by lia. rewrite inject_Z_mult, IH.
    destruct n as [|n]; [cbn; change (inject_Z 1) with 1; ring|].
    change (Z.succ (Z.of_nat (S n))) with (Z.of_nat (S n) + 1)%Z. rewrite Qpower_plus'; [change (inject_Z a ^ 1) with (inject_Z a); ring|lia]. }
  specialize (h (Pos.to_nat p)). rewrite positive_nat_Z in h. exact h.
Qed.
Lemma frac_pow a b (p : positive) : (b <> 0)%Z -> inject_Z (a ^ Zpos p) / inject_Z (b ^ Zpos p) == (inject_Z a / inject_Z b) ^ Zpos p.
Proof.
  intro h. rewrite !inj_pow. unfold Qdiv. rewrite Qmult_power, Qinv_power. reflexivity.
Qed.
Lemma pow_ok r e : lowest r -> (- 2 ^ 32 < e < 2 ^ 32)%Z ->
  if (Qeq_bool (qof r) 0 && (e <? 0)%Z)%bool then pow r e = DivZero else exists t, pow r e = Ok t /\ lowest t /\ qof t == qof r ^ e.
Proof.
  intros l he. pose proof l as [h1 h2]. unfold pow.
  assert (ez : Qeq_bool (qof r) 0 = is_zero r).
  { unfold is_zero. apply eq_true_iff_eq. rewrite Qeq_bool_iff, Z.eqb_eq. apply qof_zero; auto. }
  rewrite ez. destruct (Z.eqb_spec e 0) as [->|e0].
  { rewrite andb_false_r. destruct (of_int_ok 1) as (t & a & b & c). exists t. split; auto. }
  destruct (is_zero r) eqn:Z0; cbn [andb].
  { unfold is_zero in Z0. apply Z.eqb_eq in Z0. destruct (Z.ltb_spec e 0); [reflexivity|].
    destruct (of_int_ok 0) as (t & a & b & c). exists t. split; auto. split; auto. rewrite c.
    assert (q0 : qof r == 0) by (apply qof_zero; auto). rewrite q0. destruct e; try lia. cbn. rewrite Qpower_positive_0. reflexivity. }
  unfold is_zero in Z0. apply Z.eqb_neq in Z0.
  destruct ((num r =? 1)%Z && (den r =? 1)%Z)%bool eqn:O.
  { apply andb_true_iff in O as [o1 o2]. apply Z.eqb_eq in o1, o2. destruct (of_int_ok 1) as (t & a & b & c). exists t. split; auto. split; auto.
    rewrite c. unfold qof. rewrite o1, o2. cbn. symmetry. apply Qpower_1. }
  destruct ((num r =? -1)%Z && (den r =? 1)%Z)%bool eqn:O'.
  { apply andb_true_iff in O' as [o1 o2]. apply Z.eqb_eq in o1, o2.
    destruct (of_int_ok (if (Z.rem e 2 =? 0)%Z then 1 else -1)) as (t & a & b & c). exists t. split; auto. split; auto.
    rewrite c. unfold qof. rewrite o1, o2. cbn [Z.to_pos].
    assert (sq : forall k, (-1 # 1) ^ (2 * k) == 1). { intro k. rewrite Qpower_mult. change ((-1 # 1) ^ 2) with 1. apply Qpower_1. }
    pose proof (Z.quot_rem e 2 ltac:(lia)) as qr.
    pose proof (Z.rem_bound_abs e 2 ltac:(lia)) as rb.
    destruct (Z.eqb_spec (Z.rem e 2) 0) as [r0|r0].
    - rewrite qr, r0, Z.add_0_r, sq. reflexivity.
    - rewrite qr. rewrite Qpower_plus by discriminate. rewrite sq.
      assert (Z.rem e 2 = 1 \/ Z.rem e 2 = -1)%Z as [-> | ->] by lia; reflexivity. }
  assert (b1 : (e <? - 2 ^ 63)%Z = false) by (apply Z.ltb_ge; lia). assert (b2 : (2 ^ 63 <=? e)%Z = false) by (apply Z.leb_gt; lia).
  rewrite b1, b2. cbn [orb]. destruct (Z.leb_spec 0 e).
  - unfold u32. rewrite Z.mod_small by lia. destruct e as [|p|p]; try lia.
    destruct (new_val (num r ^ Zpos p) (den r ^ Zpos p)) as (t & a & b & c); [apply Z.pow_nonzero; lia|].
    exists t. split; auto. split; auto. rewrite c, frac_pow by lia. rewrite qof_frac by auto. reflexivity.
  - unfold u32, w64. destruct e as [|p|p]; try lia. rewrite Pos2Z.opp_neg. rewrite (Z.mod_small (Zpos p + 2 ^ 63)) by lia.
    replace (Zpos p + 2 ^ 63 - 2 ^ 63)%Z with (Zpos p) by lia. rewrite Z.mod_small by lia.
    destruct (new_val (den r ^ Zpos p) (num r ^ Zpos p)) as (t & a & b & c); [apply Z.pow_nonzero; lia|].
    exists t. split; auto. split; auto. rewrite c, frac_pow by lia. rewrite qof_frac by auto.
    change (?x ^ Zneg p) with (/ (x ^ Zpos p)). rewrite <- Qinv_power.
    assert (E : inject_Z (den r) / inject_Z (num r) == / (inject_Z (num r) / inject_Z (den r))) by (field; split; apply injZ_nz; lia).
    rewrite E. reflexivity.
Qed.

(** *** Expressions *)
Definition agrees (x : res rat) (y : option Q) : Prop :=
  match x, y with
  | Ok r, Some q => lowest r /\ qof r == q
  | DivZero, None => True
  | _, _ => False
  end.
Lemma agrees_ok r y : agrees (Ok r) y -> exists q, y = Some q /\ lowest r /\ qof r == q.
Proof. destruct y as [q|]; cbn; [|tauto]. intros [h1 h2]. eauto. Qed.
Lemma agrees_two (f : rat -> rat -> res rat) (g : Q -> Q -> option Q) x y a b :
  (forall r s p q, lowest r -> lowest s -> qof r == p -> qof s == q -> agrees (f r s) (g p q)) ->
  agrees x a -> agrees y b -> agrees (bind x (fun u => bind y (f u))) (two g a b).
Proof.
  intros hf hx hy. destruct x as [r| | |]; cbn [bind]; destruct a as [p|]; try (now cbn in hx).
  - destruct y as [s| | |]; cbn [bind]; destruct b as [q|]; try (now cbn in hy); cbn in hx, hy |- *. apply hf; tauto.
Qed.
Theorem eval_ok x : small_powers x -> agrees (eval x) (qeval x).
Proof.
  induction x as [i|a b|x IHx y IHy|x IHx y IHy|x IHx y IHy|x IHx y IHy|x IHx|x IHx|x IHx e]; cbn [small_powers eval qeval]; intro hs.
  - destruct (of_int_ok i) as (r & -> & h1 & h2). split; auto.
  - pose proof (rational_ok a b) as h. destruct (Z.eqb b 0); [rewrite h; exact I|]. destruct h as (r & -> & h1 & h2). split; auto.
  - apply agrees_two; try tauto. intros r s p q l1 l2 e1 e2. destruct (add_ok r s l1 l2) as (t & -> & h1 & h2). split; auto. rewrite h2, e1, e2. reflexivity.
  - apply agrees_two; try tauto. intros r s p q l1 l2 e1 e2. destruct (sub_ok r s l1 l2) as (t & -> & h1 & h2). split; auto. rewrite h2, e1, e2. reflexivity.
  - apply agrees_two; try tauto. intros r s p q l1 l2 e1 e2. destruct (mul_ok r s l1 l2) as (t & -> & h1 & h2). split; auto. rewrite h2, e1, e2. reflexivity.
  - apply agrees_two; try tauto. intros r s p q l1 l2 e1 e2. pose proof (div_ok r s l1 l2) as h.
    replace (Qeq_bool q 0) with (Qeq_bool (qof s) 0) by (apply eq_true_iff_eq; rewrite !Qeq_bool_iff, e2; reflexivity).
    destruct (Qeq_bool (qof s) 0); [rewrite h; exact I|]. destruct h as (t & -> & h1 & h2). split; auto. rewrite h2, e1, e2. reflexivity.
  - specialize (IHx hs). destruct (eval x) as [r| | |]; cbn [bind]; destruct (qeval x) as [q|]; try (now cbn in IHx). cbn in IHx |- *.
    destruct IHx as [l e]. destruct (neg_ok r l) as [h1 h2]. split; auto. rewrite h2, e. reflexivity.
  - specialize (IHx hs). destruct (eval x) as [r| | |]; cbn [bind]; destruct (qeval x) as [q|]; try (now cbn in IHx). cbn in IHx |- *.
    destruct IHx as [l e]. destruct (abs_ok r l) as [h1 h2]. split; auto. rewrite h2, e. reflexivity.
  - destruct hs as [hs he]. specialize (IHx hs). destruct (eval x) as [r| | |]; cbn [bind]; destruct (qeval x) as [q|]; try (now cbn in IHx). cbn in IHx.
    destruct IHx as [l e1]. pose proof (pow_ok r e l he) as h.
    replace (Qeq_bool q 0) with (Qeq_bool (qof r) 0) by (apply eq_true_iff_eq; rewrite !Qeq_bool_iff, e1; reflexivity).
    destruct (Qeq_bool (qof r) 0 && (e <? 0)%Z)%bool; [rewrite h; exact I|]. destruct h as (t & -> & h1 & h2). split; auto. rewrite h2, e1. reflexivity.
Qed.
Theorem eq_ok r s : lowest r -> lowest s -> (eq r s = true <-> qof r == qof s) /\ cmp r s = (qof r ?= qof s).
Proof.
  intros l1 l2. split.
  - unfold eq. rewrite andb_true_iff, !Z.eqb_eq, qof_eq by auto. split; [intros [-> ->]; auto|]. apply low_unique; auto.
  - unfold cmp, Qcompare, qof. cbn. rewrite !Z2Pos.id by (apply l1 || apply l2). reflexivity.
Qed.
Theorem int_ok r i : lowest r -> (eq_int r i = true <-> qof r == inject_Z i) /\ cmp_int r i = Ok (qof r ?= inject_Z i)
  /\ (fixnum i = true -> ne_int r i = negb (eq_int r i)).
Proof.
  intro l. pose proof l as [h1 _]. assert (l2 : lowest (mkrat i 1)) by (split; cbn; [lia|apply Z.gcd_1_r]). split; [|split].
  - unfold eq_int. rewrite andb_true_iff, !Z.eqb_eq. change (inject_Z i) with (qof (mkrat i 1)). rewrite qof_eq by auto. cbn. split; [intros [-> ->]; lia|].
    intro e. destruct (low_unique r (mkrat i 1) l l2) as [a b]; cbn in *; auto.
  - unfold cmp_int. assert (e : new i 1 = Ok (mkrat i 1)) by (unfold new; cbn; rewrite Z.gcd_1_r; reflexivity).
    rewrite e. cbn [bind]. f_equal. unfold cmp, Qcompare, qof, inject_Z. cbn. rewrite !Z2Pos.id by auto. reflexivity.
  - intro f. unfold ne_int, eq_int. rewrite f. reflexivity.
Qed.

(** *** Rounding: reduction to integers *)
Lemma red_floor K N m c x y u : x == (N # K) -> y == ((m * c)%Z # K) -> u == (c # K) -> y == inject_Z m * u -> (m * c <= N < (m + 1) * c)%Z -> floor_of u x y.
Proof.
  intros hx hy hu hm h. split; [exists m; auto|]. rewrite hx, hy, hu. split; unfold Qle, Qlt, Qplus; cbn; nia.
Qed.
Lemma red_ceil K N m c x y u : x == (N # K) -> y == ((m * c)%Z # K) -> u == (c # K) -> y == inject_Z m * u -> ((m - 1) * c < N <= m * c)%Z -> ceil_of u x y.
Proof.
  intros hx hy hu hm h. split; [exists m; auto|]. rewrite hx, hy, hu. split; unfold Qle, Qlt, Qplus; cbn; nia.
Qed.
Definition near (N c m : Z) (h : half) : Prop :=
  (2 * Z.abs (N - m * c) <= c /\
   (2 * Z.abs (N - m * c) = c -> match h with Up => Z.abs N < Z.abs (m * c) | Down => Z.abs (m * c) < Z.abs N | Even => Z.Even m end))%Z.
Lemma abs_frac N K : Qabs (N # K) == (Z.abs N # K).
Proof. reflexivity. Qed.
Lemma dist_frac a b K x y : x == (a # K) -> y == (b # K) -> Qabs (x - y) == (Z.abs (a - b) # K).
Proof.
  intros hx hy. rewrite hx, hy.
  assert (e : (a # K) - (b # K) == ((a - b)%Z # K)) by (unfold Qeq, Qminus, Qplus, Qopp; cbn; nia). rewrite e. reflexivity.
Qed.
Lemma dbl_frac a K : 2 * (a # K) == ((2 * a)%Z # K).
Proof. unfold Qeq. cbn [Qnum Qden Qmult]. rewrite Pos.mul_1_l. reflexivity. Qed.
Lemma le_frac a b K : (a # K) <= (b # K) <-> (a <= b)%Z.
Proof. unfold Qle. cbn [Qnum Qden]. nia. Qed.
Lemma lt_frac a b K : (a # K) < (b # K) <-> (a < b)%Z.
Proof. unfold Qlt. cbn [Qnum Qden]. nia. Qed.
Lemma eq_frac a b K : (a # K) == (b # K) <-> (a = b)%Z.
Proof. unfold Qeq. cbn [Qnum Qden]. nia. Qed.
Lemma red_round K N m c x y u h : x == (N # K) -> y == ((m * c)%Z # K) -> u == (c # K) -> y == inject_Z m * u -> near N c m h -> round_of u x y h.
Proof.
  intros hx hy hu hm [h1 h2]. exists m. split; [auto|]. rewrite (dist_frac N (m * c) K x y hx hy), hu, dbl_frac, le_frac, eq_frac.
  split; [auto|]. intro e. specialize (h2 e). destruct h; [| |exact h2]; rewrite hx, hy, !abs_frac, lt_frac; auto.
Qed.
Lemma unit_neg nd : (nd <= 0)%Z -> unit nd == inject_Z (10 ^ (- nd)).
Proof.
  intro h. unfold unit. destruct nd as [|p|p]; [reflexivity|lia|]. cbn [Z.opp]. rewrite inj_pow. reflexivity.
Qed.
Lemma unit_pos nd : (0 < nd)%Z -> unit nd == 1 / inject_Z (10 ^ nd).
Proof.
  intro h. unfold unit. destruct nd as [|p|p]; try lia. cbn [Z.opp]. rewrite inj_pow. change (10 ^ Z.neg p) with (/ (10 ^ Zpos p)).
  unfold Qdiv. rewrite Qmult_1_l. reflexivity.
Qed.
(** Frames: an integer result and a decimal fraction. *)
Lemma frame_int r nd m : lowest r -> (nd <= 0)%Z -> let U := (10 ^ (- nd))%Z in let K := Z.to_pos (den r) in let c := (U * den r)%Z in
  qof r == (num r # K) /\ inject_Z (m * U) == ((m * c)%Z # K) /\ unit nd == (c # K) /\ inject_Z (m * U) == inject_Z m * unit nd.
Proof.
  intros [h _] hn U K c. pose proof (unit_neg nd hn) as hu. repeat split.
  - unfold Qeq, inject_Z; cbn. unfold K, c. rewrite Z2Pos.id by auto. lia.
  - rewrite hu. unfold Qeq, inject_Z; cbn. unfold K, c. rewrite Z2Pos.id by auto. lia.
  - rewrite hu, <- inject_Z_mult. reflexivity.
Qed.
Lemma frame_rat r nd m s n' d' : lowest r -> (0 < nd)%Z -> let T := (10 ^ nd)%Z in
  (0 < d')%Z -> (n' * den r = num r * T * d')%Z -> new m T = Ok s -> let K := Z.to_pos (d' * T) in
  qof r == (n' # K) /\ qof s == ((m * d')%Z # K) /\ unit nd == (d' # K) /\ qof s == inject_Z m * unit nd.
Proof.
  intros [h _] hn T hd hv hs K. pose proof (unit_pos nd hn) as hu. assert (hT : (0 < T)%Z) by (apply Z.pow_pos_nonneg; lia).
  apply new_low in hs as (_ & [hs _] & hs2).
  assert (hK : Zpos K = (d' * T)%Z) by (unfold K; rewrite Z2Pos.id; nia).
  pose proof (qof_val s m T hs ltac:(lia) hs2) as es. repeat split.
  - unfold qof, Qeq; cbn. rewrite hK, Z2Pos.id by auto. lia.
  - rewrite es. rewrite (Qmake_Qdiv (m * d') K), hK, !inject_Z_mult. field. split; apply injZ_nz; lia.
  - rewrite hu. rewrite (Qmake_Qdiv d' K), hK, !inject_Z_mult. fold T. field. split; apply injZ_nz; lia.
  - rewrite es, hu. fold T. field. apply injZ_nz; lia.
Qed.

(** Enough digits: the value is a multiple of the unit. *)
Lemma strip_ok n p t c t' c' : (1 < p)%Z -> (0 < t)%Z -> (0 <= c)%Z -> strip n p t c = (t', c') -> (0 < t' /\ c <= c' /\ t = t' * p ^ (c' - c))%Z.
Proof.
  intro hp. revert t c. induction n as [|n IH]; intros t c ht hc; cbn [strip].
  - intro h. injection h as <- <-. rewrite Z.sub_diag. change (p ^ 0)%Z with 1%Z. lia.
  - destruct (Z.eqb_spec (Z.rem t p) 0) as [e|e].
    + pose proof (Z.quot_rem t p ltac:(lia)) as q. rewrite e in q. assert (0 < Z.quot t p)%Z by nia.
      intro h. apply IH in h; try lia. destruct h as (h1 & h2 & h3). split; [lia|]. split; [lia|].
      rewrite q at 1. rewrite h3 at 1. replace (c' - c)%Z with (Z.succ (c' - (c + 1)))%Z by lia. rewrite Z.pow_succ_r by lia. ring.
    + intro h. injection h as <- <-. rewrite Z.sub_diag. change (p ^ 0)%Z with 1%Z. lia.
Qed.
Lemma sufficient_ok r nd : lowest r -> (0 < nd)%Z -> ndigits_sufficient r nd = true -> exists k, (10 ^ nd = k * den r)%Z.
Proof.
  intros [h _] hn. unfold ndigits_sufficient. destruct (Z.eqb_spec (den r) 1) as [e|_]; [intros _; rewrite e; eexists; symmetry; apply Z.mul_1_r|].
  destruct (strip (fuel (den r)) 2 (den r) 0) as [t d2] eqn:S1. destruct (strip (fuel t) 5 t 0) as [t5 d5] eqn:S2.
  destruct (Z.eqb_spec t5 1) as [->|]; cbn [negb]; [|discriminate]. intro hm. apply Z.leb_le in hm.
  apply strip_ok in S1; try lia. destruct S1 as (a1 & a2 & a3). apply strip_ok in S2; try lia. destruct S2 as (b1 & b2 & b3).
  rewrite Z.sub_0_r in *. rewrite b3 in a3. exists (2 ^ (nd - d2) * 5 ^ (nd - d5))%Z. rewrite a3.
  change 10%Z with (2 * 5)%Z. rewrite Z.pow_mul_l.
  replace nd with (nd - d2 + d2)%Z at 1 by lia. replace nd with (nd - d5 + d5)%Z at 2 by lia. rewrite !Z.pow_add_r by lia. ring.
Qed.
Lemma sufficient_multiple r nd : lowest r -> (0 < nd)%Z -> ndigits_sufficient r nd = true -> exists m : Z, qof r == inject_Z m * unit nd.
Proof.
  intros l hn h. destruct (sufficient_ok r nd l hn h) as [k hk]. exists (num r * k)%Z. pose proof l as [hd _].
  assert (hT : (0 < 10 ^ nd)%Z) by (apply Z.pow_pos_nonneg; lia).
  rewrite unit_pos, qof_frac, hk by auto. rewrite !inject_Z_mult. field. split; apply injZ_nz; nia.
Qed.
Lemma unit_gt nd : 0 < unit nd.
Proof. unfold unit. apply Qpower_0_lt. reflexivity. Qed.
Lemma exact_floor x nd : (exists m : Z, x == inject_Z m * unit nd) -> floor_of (unit nd) x x.
Proof. intro h. split; [exact h|]. pose proof (unit_gt nd). split; [apply Qle_refl|]. rewrite <- (Qplus_0_r x) at 1. apply Qplus_lt_r; auto. Qed.
Lemma exact_ceil x nd : (exists m : Z, x == inject_Z m * unit nd) -> ceil_of (unit nd) x x.
Proof. intro h. split; [exact h|]. pose proof (unit_gt nd). split; [apply Qle_refl|]. rewrite <- (Qplus_0_r x) at 1. apply Qplus_lt_r; auto. Qed.
Lemma exact_round x nd h : (exists m : Z, x == inject_Z m * unit nd) -> round_of (unit nd) x x h.
Proof.
  intros [m hm]. exists m. split; [exact hm|]. assert (e : 2 * Qabs (x - x) == 0).
  { assert (e : x - x == 0) by ring. rewrite e. reflexivity. }
  rewrite e. pose proof (unit_gt nd) as hu. split; [apply Qlt_le_weak; auto|]. intro e'. rewrite <- e' in hu. exfalso. apply (Qlt_irrefl 0); auto.
Qed.
Lemma ten_ok nd : (0 <= nd < 2 ^ 32)%Z -> ten nd = (10 ^ nd)%Z.
Proof. intro h. unfold ten, u32. rewrite Z.mod_small by lia. reflexivity. Qed.
Lemma ten_neg nd : (- 2 ^ 32 < nd <= 0)%Z -> ten (w64 (- nd)) = (10 ^ (- nd))%Z.
Proof. intro h. unfold w64. rewrite Z.mod_small by lia. replace (- nd + 2 ^ 63 - 2 ^ 63)%Z with (- nd)%Z by lia. apply ten_ok. lia. Qed.

(** *** floor, ceil, truncate *)
Lemma rat_of_frame (P : Q -> Prop) r nd m : lowest r -> (0 < nd)%Z ->
  (forall s, new m (10 ^ nd) = Ok s -> P (qof s)) -> exists o, rat_of m (10 ^ nd) = Ok o /\ shaped nd o P.
Proof.
  intros l hn h. assert (hT : (0 < 10 ^ nd)%Z) by (apply Z.pow_pos_nonneg; lia).
  destruct (new_ok m (10 ^ nd) ltac:(lia)) as (s & e1 & e2 & e3). unfold rat_of. rewrite e1. cbn [bind]. eexists. split; [reflexivity|]. cbn. auto.
Qed.
Theorem floor_ok r nd : lowest r -> (- 2 ^ 32 < nd < 2 ^ 32)%Z -> (0 <= nd \/ 0 <= num r \/ den r = 1)%Z ->
  exists o, rational_floor r nd = Ok o /\ shaped nd o (floor_of (unit nd) (qof r)).
Proof.
  intros l hnd hc. pose proof l as [hd _]. unfold rational_floor. destruct (Z.eqb_spec nd 0) as [->|h0].
  { eexists. split; [reflexivity|]. split; [lia|]. destruct (frame_int r 0 (num r / den r) l ltac:(lia)) as (f1 & f2 & f3 & f4). change (10 ^ (-0))%Z with 1%Z in *.
    rewrite Z.mul_1_r in *. eapply red_floor; eauto. pose proof (Z.div_mod (num r) (den r) ltac:(lia)). pose proof (Z.mod_pos_bound (num r) (den r) hd). nia. }
  destruct (Z.ltb_spec 0 nd) as [hp|hp].
  { destruct (ndigits_sufficient r nd) eqn:S.
    - eexists. split; [reflexivity|]. cbn. split; [lia|]. split; auto. apply exact_floor, sufficient_multiple; auto.
    - rewrite ten_ok by lia. apply (rat_of_frame _ r); auto. intros s hs.
      destruct (frame_rat r nd _ s (num r * 10 ^ nd) (den r) l hp hd ltac:(ring) hs) as (f1 & f2 & f3 & f4).
      eapply red_floor; eauto. pose proof (Z.div_mod (num r * 10 ^ nd) (den r) ltac:(lia)). pose proof (Z.mod_pos_bound (num r * 10 ^ nd) (den r) hd). nia. }
  rewrite ten_neg by lia. eexists. split; [reflexivity|]. split; [lia|].
  set (U := (10 ^ (- nd))%Z). assert (hU : (0 < U)%Z) by (apply Z.pow_pos_nonneg; lia).
  destruct (frame_int r nd (Z.quot (num r) (den r) / U) l ltac:(lia)) as (f1 & f2 & f3 & f4). fold U in f2, f3, f4.
  eapply red_floor; eauto.
  assert (hq : Z.quot (num r) (den r) = (num r / den r)%Z).
  { destruct hc as [hc|[hc|hc]]; [lia|apply Z.quot_div_nonneg; lia|rewrite hc, Z.quot_1_r, Z.div_1_r; auto]. }
  rewrite hq. pose proof (Z.div_mod (num r) (den r) ltac:(lia)). pose proof (Z.mod_pos_bound (num r) (den r) hd).
  pose proof (Z.div_mod (num r / den r) U ltac:(lia)). pose proof (Z.mod_pos_bound (num r / den r) U hU).
  set (a := (num r / den r)%Z) in *. set (b := (a / U)%Z) in *. clearbody U. nia.
Qed.
Theorem ceil_ok r nd : lowest r -> (- 2 ^ 32 < nd < 2 ^ 32)%Z -> (0 <= nd \/ num r <= 0 \/ den r = 1)%Z ->
  exists o, rational_ceil r nd = Ok o /\ shaped nd o (ceil_of (unit nd) (qof r)).
Proof.
  intros l hnd hc. pose proof l as [hd _]. unfold rational_ceil. destruct (Z.eqb_spec nd 0) as [->|h0].
  { eexists. split; [reflexivity|]. split; [lia|]. destruct (frame_int r 0 (- ((- num r) / den r)) l ltac:(lia)) as (f1 & f2 & f3 & f4). change (10 ^ (-0))%Z with 1%Z in *.
    rewrite Z.mul_1_r in *. eapply red_ceil; eauto. pose proof (Z.div_mod (- num r) (den r) ltac:(lia)). pose proof (Z.mod_pos_bound (- num r) (den r) hd). nia. }
  destruct (Z.ltb_spec 0 nd) as [hp|hp].
  { destruct (ndigits_sufficient r nd) eqn:S.
    - eexists. split; [reflexivity|]. cbn. split; [lia|]. split; auto. apply exact_ceil, sufficient_multiple; auto.
    - rewrite ten_ok by lia. apply (rat_of_frame _ r); auto. intros s hs.
      destruct (frame_rat r nd _ s (num r * 10 ^ nd) (den r) l hp hd ltac:(ring) hs) as (f1 & f2 & f3 & f4).
      eapply red_ceil; eauto. pose proof (Z.div_mod (- (num r * 10 ^ nd)) (den r) ltac:(lia)). pose proof (Z.mod_pos_bound (- (num r * 10 ^ nd)) (den r) hd). nia. }
  rewrite ten_neg by lia. eexists. split; [reflexivity|]. split; [lia|].
  set (U := (10 ^ (- nd))%Z). assert (hU : (0 < U)%Z) by (apply Z.pow_pos_nonneg; lia).
  destruct (frame_int r nd (- (- Z.quot (num r) (den r) / U)) l ltac:(lia)) as (f1 & f2 & f3 & f4). fold U in f2, f3, f4.
  eapply red_ceil; eauto.
  assert (hq : (- Z.quot (num r) (den r) = - num r / den r)%Z).
  { destruct hc as [hc|[hc|hc]]; [lia|rewrite <- Z.quot_opp_l by lia; apply Z.quot_div_nonneg; lia|rewrite hc, Z.quot_1_r, Z.div_1_r; auto]. }
  rewrite hq. pose proof (Z.div_mod (- num r) (den r) ltac:(lia)). pose proof (Z.mod_pos_bound (- num r) (den r) hd).
  pose proof (Z.div_mod (- num r / den r) U ltac:(lia)). pose proof (Z.mod_pos_bound (- num r / den r) U hU).
  set (a := (- num r / den r)%Z) in *. set (b := (a / U)%Z) in *. clearbody U. nia.
Qed.
Lemma sign_of r : lowest r -> (0 <= qof r <-> (0 <= num r)%Z) /\ (qof r < 0 <-> (num r < 0)%Z).
Proof. intros [h _]. unfold qof, Qle, Qlt. cbn. split; lia. Qed.
Theorem truncate_ok r nd : lowest r -> (- 2 ^ 32 < nd < 2 ^ 32)%Z ->
  exists o, rational_truncate r nd = Ok o /\ shaped nd o (trunc_of (unit nd) (qof r)).
Proof.
  intros l hnd. pose proof l as [hd _]. destruct (sign_of r l) as [sg1 sg2]. destruct (Z_le_gt_dec 0 (num r)) as [hs|hs].
  - destruct (floor_ok r nd l hnd ltac:(auto)) as (o & e1 & e2). exists o. split.
    + rewrite <- e1. unfold rational_truncate, rational_floor. destruct (Z.eqb_spec nd 0) as [|h0]; [rewrite Z.quot_div_nonneg by lia; auto|].
      destruct (Z.ltb_spec 0 nd); [destruct (ndigits_sufficient r nd); auto; rewrite ten_ok by lia; rewrite Z.quot_div_nonneg by nia; auto|].
      rewrite ten_neg by lia. rewrite (Z.quot_div_nonneg (Z.quot (num r) (den r))); auto; [apply Z.quot_pos; lia|apply Z.pow_pos_nonneg; lia].
    + destruct o as [i|s]; cbn in *; [split; [tauto|]|split; [tauto|split; [tauto|]]]; (split; [tauto|]); intro n; apply sg2 in n; lia.
  - destruct (ceil_ok r nd l hnd ltac:(lia)) as (o & e1 & e2). exists o. split.
    + rewrite <- e1. unfold rational_truncate, rational_ceil. 
      assert (hq : forall a b, (a <= 0)%Z -> (0 < b)%Z -> Z.quot a b = (- (- a / b))%Z).
      { intros a b ha hb. rewrite <- (Z.quot_div_nonneg (- a) b) by lia. rewrite Z.quot_opp_l by lia. lia. }
      destruct (Z.eqb_spec nd 0) as [|h0]; [rewrite hq by lia; auto|].
      destruct (Z.ltb_spec 0 nd); [destruct (ndigits_sufficient r nd); auto; rewrite ten_ok by lia; rewrite hq by nia; auto|].
      rewrite ten_neg by lia. rewrite (hq (Z.quot (num r) (den r))); auto; [|apply Z.pow_pos_nonneg; lia].
      rewrite hq by lia. pose proof (Z.div_pos (- num r) (den r)). lia.
    + destruct o as [i|s]; cbn in *; [split; [tauto|]|split; [tauto|split; [tauto|]]]; (split; [|tauto]); intro n; apply sg1 in n; lia.
Qed.

(** *** round *)
Lemma near_opp N c m h : near N c m h -> near (- N) c (- m) h.
Proof.
  unfold near. replace (- N - - m * c)%Z with (- (N - m * c))%Z by ring. replace (- m * c)%Z with (- (m * c))%Z by ring. rewrite !Z.abs_opp.
  intros [h1 h2]. split; auto. intro e. specialize (h2 e). destruct h; auto. destruct h2 as [k hk]; exists (- k)%Z; lia.
Qed.
Lemma rem2 q : (Z.rem q 2 =? 0)%Z = true <-> Z.Even q.
Proof.
  rewrite Z.eqb_eq. split.
  - intro h. exists (Z.quot q 2). pose proof (Z.quot_rem q 2 ltac:(lia)). lia.
  - intros [k ->]. rewrite Z.mul_comm. apply Z.rem_mul. lia.
Qed.
Lemma odd_next q : (Z.rem q 2 =? 0)%Z = false -> Z.Even (q + 1) /\ Z.Even (q - 1).
Proof.
  intro h. destruct (Z.Even_or_Odd q) as [e|[k ->]]; [apply rem2 in e; congruence|]. split; [exists (k + 1)%Z|exists k]; lia.
Qed.
(** Round to nearest from quotient and remainder of a non-negative number. *)
Lemma near_pos N c q e h : (0 < c)%Z -> (0 <= e < c)%Z -> (0 <= q)%Z -> (N = q * c + e)%Z ->
  near N c (if (c <? 2 * e)%Z then q + 1 else if (2 * e <? c)%Z then q
            else match h with Down => q | Even => if (Z.rem q 2 =? 0)%Z then q else q + 1 | Up => q + 1 end) h.
Proof.
  intros hc he hq ->. destruct (Z.ltb_spec c (2 * e)) as [h1|h1].
  { split; [|intro e']; replace (q * c + e - (q + 1) * c)%Z with (- (c - e))%Z in * by ring; lia. }
  destruct (Z.ltb_spec (2 * e) c) as [h2|h2].
  { split; [|intro e']; replace (q * c + e - q * c)%Z with e in * by ring; lia. }
  assert (ee : (2 * e = c)%Z) by lia.
  assert (P : forall k, k = q \/ k = (q + 1)%Z -> (2 * Z.abs (q * c + e - k * c) <= c)%Z).
  { intros k [-> | ->]; [replace (q * c + e - q * c)%Z with e by ring|replace (q * c + e - (q + 1) * c)%Z with (- (c - e))%Z by ring]; lia. }
  destruct h.
  - split; [apply P; auto|]. intros _. nia.
  - split; [apply P; auto|]. intros _. nia.
  - destruct (Z.rem q 2 =? 0)%Z eqn:E; (split; [apply P; auto|]); intros _; [apply rem2; auto|apply odd_next; auto].
Qed.
Lemma round0_pos r h : (0 < den r)%Z -> (0 <= num r)%Z -> near (num r) (den r) (round0 r h) h.
Proof.
  intros hd hn. unfold round0. destruct (Z.eqb_spec (den r) 1) as [e|_].
  { rewrite e. split; [|intro e']; replace (num r - num r * 1)%Z with 0%Z in * by ring; lia. }
  pose proof (Z.quot_rem (num r) (den r) ltac:(lia)) as qr. pose proof (Z.rem_bound_pos (num r) (den r) hn hd) as rb. pose proof (Z.quot_pos (num r) (den r) hn hd) as qp.
  rewrite (Z.abs_eq (den r)), (Z.abs_eq (Z.rem _ _ * 2)) by lia. rewrite (Z.mul_comm _ 2). destruct (Z.leb_spec 0 (num r)) as [_|]; [|lia].
  apply (near_pos (num r) (den r) (Z.quot (num r) (den r)) (Z.rem (num r) (den r)) h); auto. lia.
Qed.
Lemma rem_neg x y : (x < 0)%Z -> (0 < y)%Z -> (- y < Z.rem x y <= 0)%Z.
Proof.
  intros hx hy. pose proof (Z.rem_bound_pos (- x) y ltac:(lia) hy) as h. rewrite Z.rem_opp_l in h by lia. lia.
Qed.
Lemma round0_neg r h : (0 < den r)%Z -> (num r < 0)%Z -> (2 * Z.abs (Z.rem (num r) (den r)) <= den r)%Z -> near (num r) (den r) (round0 r h) h.
Proof.
  intros hd hn hr. unfold round0. destruct (Z.eqb_spec (den r) 1) as [e|_].
  { rewrite e. split; [|intro e']; replace (num r - num r * 1)%Z with 0%Z in * by ring; lia. }
  pose proof (Z.quot_rem (num r) (den r) ltac:(lia)) as qr. pose proof (rem_neg (num r) (den r) ltac:(lia) hd) as rb.
  rewrite (Z.abs_eq (den r)) by lia. rewrite Z.abs_mul, (Z.mul_comm _ (Z.abs 2)). change (Z.abs 2) with 2%Z.
  destruct (Z.ltb_spec (den r) (2 * Z.abs (Z.rem (num r) (den r)))); [lia|].
  set (q := Z.quot (num r) (den r)) in *. set (e := Z.rem (num r) (den r)) in *.
  assert (q0 : (q <= 0)%Z) by nia.
  pose proof (near_pos (- num r) (den r) (- q) (- e) h hd ltac:(lia) ltac:(lia) ltac:(lia)) as np. apply near_opp in np. rewrite Z.opp_involutive in np.
  replace (2 * - e)%Z with (2 * Z.abs e)%Z in np by lia.
  destruct (Z.ltb_spec (den r) (2 * Z.abs e)); [lia|]. destruct (Z.ltb_spec (2 * Z.abs e) (den r)).
  - destruct (Z.leb_spec 0 (num r)); [lia|]. replace (- - q)%Z with q in np by lia. exact np.
  - destruct (Z.leb_spec 0 (num r)); [lia|]. rewrite Z.rem_opp_l in np by lia.
    assert (zz : (- Z.rem q 2 =? 0)%Z = (Z.rem q 2 =? 0)%Z) by (apply eq_true_iff_eq; rewrite !Z.eqb_eq; lia). rewrite zz in np.
    destruct h; [| |destruct (Z.rem q 2 =? 0)%Z]; match goal with |- near _ _ ?m _ => match type of np with near _ _ ?m' _ => replace m with m' by lia end end; exact np.
Qed.
Lemma round_int_opp i d h : round_int (- i) d h = (- round_int i d h)%Z.
Proof.
  destruct (Z.eq_dec d 0) as [->|hd].
  { unfold round_int. destruct i; cbn; destruct h; reflexivity. }
  unfold round_int. rewrite Z.quot_opp_l, Z.rem_opp_l, Z.mul_opp_l, Z.abs_opp by auto.
  set (q := Z.quot i d). set (b := Z.abs (Z.rem i d * 2)).
  assert (i0 : (i = 0)%Z -> (b < Z.abs d)%Z /\ q = 0%Z).
  { intros ->. unfold b, q. rewrite Z.rem_0_l, Z.quot_0_l by auto. cbn. lia. }
  assert (zz : (Z.rem (- q) 2 =? 0)%Z = (Z.rem q 2 =? 0)%Z) by (rewrite Z.rem_opp_l by lia; apply eq_true_iff_eq; rewrite !Z.eqb_eq; lia). rewrite zz.
  destruct (Z.ltb_spec (Z.abs d) b), (Z.ltb_spec b (Z.abs d)), (Z.leb_spec 0 (- i)), (Z.leb_spec 0 i), h, (Z.rem q 2 =? 0)%Z; try lia; try nia.
Qed.
Lemma round_int_pos n d U h : (0 < d)%Z -> (0 <= n)%Z -> (0 < U)%Z -> Z.Even U -> h = Up \/ d = 1%Z ->
  exists m, round_int (Z.quot n d) U h = (m * U)%Z /\ near n (U * d) m h.
Proof.
  intros hd hn hU [V hV] hh. set (i := Z.quot n d).
  pose proof (Z.quot_rem n d ltac:(lia)) as q1. pose proof (Z.rem_bound_pos n d hn hd) as r1. pose proof (Z.quot_pos n d hn hd) as p1. fold i in q1, p1.
  pose proof (Z.quot_rem i U ltac:(lia)) as q2. pose proof (Z.rem_bound_pos i U p1 hU) as r2. pose proof (Z.quot_pos i U p1 hU) as p2.
  unfold round_int. rewrite (Z.abs_eq U), (Z.abs_eq (Z.rem i U * 2)) by lia. destruct (Z.leb_spec 0 i); [|lia].
  set (q := Z.quot i U) in *. set (e := Z.rem i U) in *. set (f := Z.rem n d) in *.
  pose proof (near_pos n (U * d) q (e * d + f) h ltac:(nia) ltac:(nia) p2 ltac:(rewrite q1, q2; ring)) as np.
  assert (he1 : (U < e * 2)%Z -> (U * d < 2 * (e * d + f))%Z) by nia.
  assert (he2 : (e * 2 < U)%Z -> (2 * (e * d + f) < U * d)%Z).
  { intro. assert (e + 1 <= V)%Z by lia. subst U. nia. }
  destruct (Z.ltb_spec U (e * 2)) as [c1|c1].
  { specialize (he1 c1). destruct (Z.ltb_spec (U * d) (2 * (e * d + f))); [|lia]. eexists; split; [reflexivity|exact np]. }
  destruct (Z.ltb_spec (e * 2) U) as [c2|c2].
  { specialize (he2 c2). destruct (Z.ltb_spec (U * d) (2 * (e * d + f))); [lia|]. destruct (Z.ltb_spec (2 * (e * d + f)) (U * d)); [|lia]. eexists; split; [reflexivity|exact np]. }
  assert (ee : (e * 2 = U)%Z) by lia. destruct hh as [-> | hd1].
  - destruct (Z.ltb_spec (U * d) (2 * (e * d + f))); [eexists; split; [reflexivity|exact np]|].
    destruct (Z.ltb_spec (2 * (e * d + f)) (U * d)); [exfalso; subst U; nia|]. eexists; split; [reflexivity|exact np].
  - assert (f = 0)%Z by lia. destruct (Z.ltb_spec (U * d) (2 * (e * d + f))); [exfalso; rewrite hd1 in *; lia|].
    destruct (Z.ltb_spec (2 * (e * d + f)) (U * d)); [exfalso; rewrite hd1 in *; lia|].
    destruct h; [eexists; split; [reflexivity|exact np]|eexists; split; [reflexivity|exact np]|].
    destruct (Z.rem q 2 =? 0)%Z; (eexists; split; [reflexivity|exact np]).
Qed.
Lemma round_int_ok n d U h : (0 < d)%Z -> (0 < U)%Z -> Z.Even U -> h = Up \/ d = 1%Z ->
  exists m, round_int (Z.quot n d) U h = (m * U)%Z /\ near n (U * d) m h.
Proof.
  intros hd hU he hh. destruct (Z_le_gt_dec 0 n); [apply round_int_pos; auto|].
  destruct (round_int_pos (- n) d U h hd ltac:(lia) hU he hh) as (m & h1 & h2). exists (- m)%Z.
  rewrite Z.quot_opp_l, round_int_opp in h1 by lia. split; [lia|]. apply near_opp in h2. rewrite Z.opp_involutive in h2. exact h2.
Qed.
Theorem round_ok r nd h : lowest r -> (- 2 ^ 32 < nd < 2 ^ 32)%Z ->
  ((0 <= nd)%Z -> (0 <= num r)%Z \/ exists y, trunc_of (unit nd) (qof r) y /\ 2 * Qabs (qof r - y) <= unit nd) ->
  ((nd < 0)%Z -> h = Up \/ den r = 1%Z) ->
  exists o, rational_round r nd h = Ok o /\ shaped nd o (fun y => round_of (unit nd) (qof r) y h).
Proof.
  intros l hnd hc1 hc2. pose proof l as [hd _]. unfold rational_round.
  (* the hypothesis on negative numbers, for the fraction n'/d' = qof r / unit *)
  assert (key : (0 <= nd)%Z -> forall s, lowest s -> (num s * den r = num r * 10 ^ nd * den s)%Z -> near (num s) (den s) (round0 s h) h).
  { intros h0 s ls hs. pose proof ls as [ds _]. assert (hT : (0 < 10 ^ nd)%Z) by (apply Z.pow_pos_nonneg; lia).
    destruct (Z_le_gt_dec 0 (num s)) as [g|g]; [apply round0_pos; auto|]. apply round0_neg; auto; [lia|].
    assert (hn : (num r < 0)%Z) by nia.
    destruct (hc1 h0) as [?|(y & ty & dy)]; [lia|]. destruct ty as [_ ty]. specialize (ty (proj2 (proj2 (sign_of r l)) hn)). destruct ty as ([m hm] & t1 & t2).
    assert (hu : unit nd == 1 / inject_Z (10 ^ nd)).
    { destruct (Z.eq_dec nd 0) as [->|]; [reflexivity|apply unit_pos; lia]. }
    set (K := Z.to_pos (den s * 10 ^ nd)). assert (hK : Zpos K = (den s * 10 ^ nd)%Z) by (unfold K; rewrite Z2Pos.id; nia).
    assert (fx : qof r == (num s # K)). { unfold qof, Qeq; cbn. rewrite hK, Z2Pos.id by auto. lia. }
    assert (fu : unit nd == (den s # K)).
    { rewrite hu. rewrite (Qmake_Qdiv (den s) K), hK, !inject_Z_mult. field. split; apply injZ_nz; lia. }
    assert (fy : y == ((m * den s)%Z # K)).
    { rewrite hm, fu. unfold Qeq, Qmult, inject_Z; cbn. lia. }
    rewrite fx, fy in t1. rewrite fx, fy, fu in t2. rewrite (dist_frac _ _ _ _ _ fx fy), fu, dbl_frac, le_frac in dy. apply le_frac in t1.
    assert (t3 : (m * den s < num s + den s)%Z). { unfold Qlt, Qplus in t2; cbn in t2. nia. }
    pose proof (Z.quot_rem (num s) (den s) ltac:(lia)) as qr. pose proof (rem_neg (num s) (den s) ltac:(lia) ds) as rb.
    assert (m = Z.quot (num s) (den s)) by nia. subst m. replace (num s - Z.quot (num s) (den s) * den s)%Z with (Z.rem (num s) (den s)) in dy by lia. exact dy. }
  destruct (Z.eqb_spec nd 0) as [->|h0].
  { eexists. split; [reflexivity|]. split; [lia|]. destruct (frame_int r 0 (round0 r h) l ltac:(lia)) as (f1 & f2 & f3 & f4). change (10 ^ (-0))%Z with 1%Z in *.
    rewrite Z.mul_1_r, Z.mul_1_l in *. eapply red_round; eauto. apply key; auto; change (10 ^ 0)%Z with 1%Z; lia. }
  destruct (Z.ltb_spec 0 nd) as [hp|hp].
  { destruct (ndigits_sufficient r nd) eqn:S.
    - eexists. split; [reflexivity|]. cbn. split; [lia|]. split; auto. apply exact_round, sufficient_multiple; auto.
    - rewrite ten_ok by lia. destruct (new_ok (num r * 10 ^ nd) (den r) ltac:(lia)) as (s & -> & ls & vs). cbn [bind].
      apply (rat_of_frame _ r); auto. intros s' hs'.
      destruct (frame_rat r nd _ s' (num s) (den s) l hp (proj1 ls) vs hs') as (f1 & f2 & f3 & f4).
      eapply red_round; eauto. apply key; auto. lia. }
  rewrite ten_neg by lia. eexists. split; [reflexivity|]. split; [lia|].
  set (U := (10 ^ (- nd))%Z). assert (hU : (0 < U)%Z) by (apply Z.pow_pos_nonneg; lia).
  assert (eU : Z.Even U).
  { exists (5 * 10 ^ (- nd - 1))%Z. pose proof (Z.pow_succ_r 10 (- nd - 1) ltac:(lia)) as e. replace (Z.succ (- nd - 1)) with (- nd)%Z in e by lia. unfold U. lia. }
  destruct (round_int_ok (num r) (den r) U h hd hU eU (hc2 ltac:(lia))) as (m & e1 & e2). rewrite e1.
  destruct (frame_int r nd m l ltac:(lia)) as (f1 & f2 & f3 & f4). fold U in f2, f3, f4. eapply red_round; eauto.
Qed.

(** *** rationalize *)
Open Scope Z_scope.
Lemma new_coprime p q : 0 < q -> Z.gcd p q = 1 -> new p q = Ok (mkrat p q).
Proof.
  intros hq hg. unfold new. destruct (Z.eqb_spec q 0); [lia|]. destruct (Z.ltb_spec q 0); [lia|]. rewrite hg. reflexivity.
Qed.
Lemma kernel_coprime p q : 0 < q -> Z.gcd p q = 1 -> kernel_rational p q = Ok (mkrat p q).
Proof.
  intros hq hg. unfold kernel_rational. rewrite (new_coprime p 1), (new_coprime q 1) by (lia || apply Z.gcd_1_r). cbn [bind]. unfold div. cbn.
  destruct (Z.eqb_spec q 0); [lia|]. rewrite Z.mul_1_r. destruct q; try lia. apply new_coprime; auto.
Qed.
(** A step length: the least [k] with [a <= k * b]. *)
Definition is_ceil (a b k : Z) : Prop := (k - 1) * b < a <= k * b.
Lemma div_ceil_ok a b : 0 < a -> 0 < b -> is_ceil a b (div_ceil a b).
Proof.
  intros ha hb. unfold div_ceil, is_ceil. destruct (Z.eqb_spec b 0); [lia|].
  pose proof (Z.quot_rem a b ltac:(lia)). pose proof (Z.rem_bound_pos a b ltac:(lia) hb). set (q := Z.quot a b) in *. set (r := Z.rem a b) in *.
  destruct (Z.eqb_spec r 0); cbn [orb]; [nia|]. replace ((0 <? r) && (0 <? b))%bool with true by (symmetry; apply andb_true_iff; split; apply Z.ltb_lt; lia).
  rewrite orb_true_r. nia.
Qed.
Record inv (lo hi : rat) (p0 q0 p1 q1 : Z) : Prop := {
  i_pos : 0 <= p0 /\ 0 < q0 /\ 0 < p1 /\ 0 <= q1;
  i_det : p1 * q0 - p0 * q1 = 1;
  i_lo : p0 * den lo < num lo * q0;
  i_hi : num hi * q1 < p1 * den hi }.
Definition weight (lo : rat) (p0 q0 p1 q1 : Z) : Z := (p1 * den lo - q1 * num lo) + (num lo * q0 - den lo * p0).
Definition between (lo hi : rat) (p q : Z) : Prop := num lo * q <= p * den lo /\ p * den hi <= num hi * q.
Section Sb.
Variable lo hi : rat.
Hypothesis dlo : 0 < den lo.
Hypothesis dhi : 0 < den hi.
Hypothesis le : num lo * den hi <= num hi * den lo.
Lemma inv_alpha p0 q0 p1 q1 : inv lo hi p0 q0 p1 q1 -> 0 < p1 * den lo - q1 * num lo.
Proof. intros [[h1 [h2 [h3 h4]]] h5 h6 h7]. nia. Qed.
Lemma inv_start : 0 < num lo -> inv lo hi 0 1 1 0.
Proof. intro h. constructor; lia. Qed.
Lemma inv_gcd p0 q0 p1 q1 : inv lo hi p0 q0 p1 q1 -> Z.gcd (p0 + p1) (q0 + q1) = 1.
Proof.
  intros [_ h _ _]. apply Z.bezout_1_gcd. exists q0, (- p0). lia.
Qed.
Lemma inv_cmp p0 q0 p1 q1 x : inv lo hi p0 q0 p1 q1 -> cmp (mkrat (p0 + p1) (q0 + q1)) x = ((p0 + p1) * den x ?= num x * (q0 + q1)).
Proof. reflexivity. Qed.
Lemma inv_left p0 q0 p1 q1 k : inv lo hi p0 q0 p1 q1 -> (p0 + p1) * den lo < num lo * (q0 + q1) ->
  is_ceil (num lo * (q0 + q1) - (p0 + p1) * den lo) (p1 * den lo - num lo * q1) k ->
  inv lo hi (p0 + k * p1) (q0 + k * q1) p1 q1 /\ 0 < weight lo (p0 + k * p1) (q0 + k * q1) p1 q1 < weight lo p0 q0 p1 q1.
Proof.
  intros hi0 hm hk. pose proof (inv_alpha _ _ _ _ hi0) as ha. destruct hi0 as [[h1 [h2 [h3 h4]]] h5 h6 h7]. unfold is_ceil in hk.
  set (B := p1 * den lo - num lo * q1) in *. set (A := num lo * (q0 + q1) - (p0 + p1) * den lo) in *.
  assert (hB : 0 < B) by (unfold B; lia). assert (hA : 0 < A) by (unfold A; lia).
  assert (k1 : 1 <= k) by nia.
  assert (b : num lo * (q0 + k * q1) - den lo * (p0 + k * p1) = A - (k - 1) * B) by (unfold A, B; ring).
  split; [constructor; auto|].
  - repeat split; nia.
  - lia.
  - lia.
  - unfold weight. rewrite b. replace (p1 * den lo - q1 * num lo) with B by (unfold B; ring).
    assert (num lo * q0 - den lo * p0 = A + B) by (unfold A, B; ring). nia.
Qed.
Lemma inv_right p0 q0 p1 q1 k : inv lo hi p0 q0 p1 q1 -> num hi * (q0 + q1) < (p0 + p1) * den hi ->
  is_ceil ((p0 + p1) * den hi - num hi * (q0 + q1)) (num hi * q0 - p0 * den hi) k ->
  inv lo hi p0 q0 (p1 + k * p0) (q1 + k * q0) /\ 0 < weight lo p0 q0 (p1 + k * p0) (q1 + k * q0) < weight lo p0 q0 p1 q1.
Proof.
  intros hi0 hm hk. pose proof hi0 as [[h1 [h2 [h3 h4]]] h5 h6 h7]. unfold is_ceil in hk.
  set (B := num hi * q0 - p0 * den hi) in *. set (A := (p0 + p1) * den hi - num hi * (q0 + q1)) in *.
  assert (hB : 0 < B). { unfold B. assert (p0 * den lo * den hi < num hi * den lo * q0) by nia. nia. } assert (hA : 0 < A) by (unfold A; lia).
  assert (k1 : 1 <= k) by nia.
  assert (b : (p1 + k * p0) * den hi - num hi * (q1 + k * q0) = A - (k - 1) * B) by (unfold A, B; ring).
  assert (I2 : inv lo hi p0 q0 (p1 + k * p0) (q1 + k * q0)).
  { constructor; auto; [repeat split; nia|lia|lia]. }
  split; auto. pose proof (inv_alpha _ _ _ _ I2). unfold weight.
  replace ((p1 + k * p0) * den lo - (q1 + k * q0) * num lo) with ((p1 * den lo - q1 * num lo) - k * (num lo * q0 - den lo * p0)) in * by ring. nia.
Qed.
Lemma inv_least p0 q0 p1 q1 p q : inv lo hi p0 q0 p1 q1 -> 0 < q -> between lo hi p q -> q0 + q1 <= q /\ p0 + p1 <= p.
Proof.
  intros [[h1 [h2 [h3 h4]]] h5 h6 h7] hq [b1 b2].
  assert (x : 0 < p1 * q - q1 * p).
  { assert (p * q1 * den hi < p1 * den hi * q); [|nia]. nia. }
  assert (y : 0 < p * q0 - q * p0).
  { assert (p0 * den lo * q < p * den lo * q0); [|nia]. nia. }
  assert (e1 : p = (p1 * q - q1 * p) * p0 + (p * q0 - q * p0) * p1).
  { transitivity (p * (p1 * q0 - p0 * q1)); [rewrite h5; ring|ring]. }
  assert (e2 : q = (p1 * q - q1 * p) * q0 + (p * q0 - q * p0) * q1).
  { transitivity (q * (p1 * q0 - p0 * q1)); [rewrite h5; ring|ring]. }
  set (u := p1 * q - q1 * p) in *. set (v := p * q0 - q * p0) in *. clearbody u v. nia.
Qed.
Definition least (y : rat) : Prop := lowest y /\ between lo hi (num y) (den y) /\ 0 <= num y /\
  forall p q, 0 < q -> between lo hi p q -> den y <= q /\ num y <= p.
Lemma found p0 q0 p1 q1 : inv lo hi p0 q0 p1 q1 -> between lo hi (p0 + p1) (q0 + q1) -> least (mkrat (p0 + p1) (q0 + q1)).
Proof.
  intros h b. pose proof (inv_gcd _ _ _ _ h). split; [split; cbn; auto; destruct h as [? _ _ _]; lia|]. split; [exact b|]. split; [destruct h as [? _ _ _]; cbn; lia|].
  intros p q hq hb. apply (inv_least p0 q0 p1 q1); auto.
Qed.
Lemma search_ok n p0 q0 p1 q1 : inv lo hi p0 q0 p1 q1 -> weight lo p0 q0 p1 q1 < Z.of_nat n ->
  exists y, search n lo hi p0 q0 p1 q1 = Some (Ok y) /\ least y.
Proof.
  revert p0 q0 p1 q1. induction n as [|n IH]; intros p0 q0 p1 q1 h hw.
  { pose proof (inv_alpha _ _ _ _ h). unfold weight in hw. destruct h. lia. }
  cbn [search]. rewrite new_coprime by (try apply inv_gcd; auto; destruct h; lia). rewrite !(inv_cmp p0 q0 p1 q1) by auto.
  pose proof (inv_alpha _ _ _ _ h) as ha.
  destruct (Z.compare_spec ((p0 + p1) * den lo) (num lo * (q0 + q1))) as [e|e|e].
  - eexists. split; [reflexivity|]. apply found; auto. split; [lia|].
    assert (num lo * (q0 + q1) * den hi <= num hi * den lo * (q0 + q1)) by (destruct h; nia). nia.
  - destruct (inv_left p0 q0 p1 q1 (div_ceil (num lo * (q0 + q1) - (p0 + p1) * den lo) (p1 * den lo - num lo * q1)) h e) as [h1 h2]; [apply div_ceil_ok; lia|].
    apply IH; auto. lia.
  - destruct (Z.compare_spec ((p0 + p1) * den hi) (num hi * (q0 + q1))) as [e2|e2|e2].
    + eexists. split; [reflexivity|]. apply found; auto. split; lia.
    + eexists. split; [reflexivity|]. apply found; auto. split; lia.
    + destruct (inv_right p0 q0 p1 q1 (div_ceil ((p0 + p1) * den hi - num hi * (q0 + q1)) (num hi * q0 - p0 * den hi)) h e2) as [h1 h2].
      { apply div_ceil_ok; [lia|]. destruct h as [[? [? [? ?]]] ? ? ?]. assert (p0 * den lo * den hi < num hi * den lo * q0) by nia. nia. }
      apply IH; auto. lia.
Qed.
(** The step of the Ruby version, computed with Rational arithmetic. *)
Lemma rb_step (x : rat) (u v u' v' : Z) : lowest x -> 0 < num x * u - v * den x -> 0 < v' * den x - num x * u' ->
  exists k, bind (of_int u) (fun q => bind (mul x q) (fun a => bind (of_int v) (fun p => bind (sub a p) (fun top =>
            bind (of_int u') (fun q' => bind (mul x q') (fun b => bind (of_int v') (fun p' => bind (sub p' b) (fun bot =>
            bind (div top bot) (fun x => Ok (ceil_int x)))))))))) = Ok k /\ is_ceil (num x * u - v * den x) (v' * den x - num x * u') k.
Proof.
  intros lx hA hB. pose proof lx as [dx _]. unfold of_int.
  destruct (new_ok u 1 ltac:(lia)) as (q & -> & q1 & q2). cbn [bind]. unfold mul at 1.
  destruct (new_ok (num x * num q) (den x * den q) ltac:(destruct q1; nia)) as (a & -> & a1 & a2). cbn [bind].
  destruct (new_ok v 1 ltac:(lia)) as (p & -> & p1 & p2). cbn [bind]. unfold sub at 1.
  destruct (new_ok (num a * den p - num p * den a) (den a * den p) ltac:(destruct a1, p1; nia)) as (t & -> & t1 & t2). cbn [bind].
  destruct (new_ok u' 1 ltac:(lia)) as (q' & -> & q1' & q2'). cbn [bind]. unfold mul at 1.
  destruct (new_ok (num x * num q') (den x * den q') ltac:(destruct q1'; nia)) as (b & -> & b1 & b2). cbn [bind].
  destruct (new_ok v' 1 ltac:(lia)) as (p' & -> & p1' & p2'). cbn [bind]. unfold sub at 1.
  destruct (new_ok (num p' * den b - num b * den p') (den p' * den b) ltac:(destruct b1, p1'; nia)) as (w & -> & w1 & w2). cbn [bind].
  set (A := num x * u - v * den x) in *. set (B := v' * den x - num x * u') in *.
  destruct q1 as [dq _], a1 as [da _], p1 as [dp _], t1 as [dt _], q1' as [dq' _], b1 as [db _], p1' as [dp' _], w1 as [dw _].
  assert (ea : num a * den x = num x * u * den a).
  { apply Z.mul_reg_r with (den q); [lia|]. transitivity (num a * (den x * den q)); [ring|]. rewrite a2. transitivity (num x * (num q * 1) * den a); [ring|]. rewrite q2. ring. }
  assert (et : num t * den x = A * den t).
  { apply Z.mul_reg_r with (den a * den p); [nia|]. transitivity (num t * (den a * den p) * den x); [ring|]. rewrite t2.
    transitivity ((num a * den x * den p - num p * 1 * den a * den x) * den t); [ring|]. rewrite ea, p2. unfold A. ring. }
  assert (eb : num b * den x = num x * u' * den b).
  { apply Z.mul_reg_r with (den q'); [lia|]. transitivity (num b * (den x * den q')); [ring|]. rewrite b2. transitivity (num x * (num q' * 1) * den b); [ring|]. rewrite q2'. ring. }
  assert (ew : num w * den x = B * den w).
  { apply Z.mul_reg_r with (den p' * den b); [nia|]. transitivity (num w * (den p' * den b) * den x); [ring|]. rewrite w2.
    transitivity ((num p' * 1 * den b * den x - num b * den x * den p') * den w); [ring|]. rewrite eb, p2'. unfold B. ring. }
  assert (hw : 0 < num w) by nia. assert (ht : 0 < num t) by nia.
  unfold div. destruct (Z.eqb_spec (num w) 0); [lia|].
  destruct (new_ok (num t * den w) (den t * num w) ltac:(nia)) as (z & -> & z1 & z2). cbn [bind]. eexists. split; [reflexivity|].
  destruct z1 as [dz _]. assert (ez : num z * B = A * den z).
  { apply Z.mul_reg_r with (den t * den w * num w); [nia|]. transitivity (num z * (den t * num w) * (B * den w)); [ring|]. rewrite z2, <- ew.
    transitivity ((num t * den x) * (den w * den z * num w)); [ring|]. rewrite et. ring. }
  unfold ceil_int, is_ceil. pose proof (Z.div_mod (- num z) (den z) ltac:(lia)) as dm. pose proof (Z.mod_pos_bound (- num z) (den z) dz) as mb.
  set (k := - num z / den z) in *. clearbody k A B.
  assert (c1 : (- k - 1) * den z < num z <= - k * den z) by lia.
  split; apply Z.mul_lt_mono_pos_r with (den z) || apply Z.mul_le_mono_pos_r with (den z); auto; rewrite <- ez; nia.
Qed.
Lemma rb_step_hi (x : rat) (u v u' v' : Z) : lowest x -> 0 < v * den x - num x * u -> 0 < num x * u' - v' * den x ->
  exists k, bind (of_int u) (fun q => bind (mul x q) (fun a => bind (of_int v) (fun p => bind (sub p a) (fun top =>
            bind (of_int u') (fun q' => bind (mul x q') (fun b => bind (of_int v') (fun p' => bind (sub b p') (fun bot =>
            bind (div top bot) (fun x => Ok (ceil_int x)))))))))) = Ok k /\ is_ceil (v * den x - num x * u) (num x * u' - v' * den x) k.
Proof.
  intros lx hA hB. pose proof lx as [dx _]. unfold of_int.
  destruct (new_ok u 1 ltac:(lia)) as (q & -> & q1 & q2). cbn [bind]. unfold mul at 1.
  destruct (new_ok (num x * num q) (den x * den q) ltac:(destruct q1; nia)) as (a & -> & a1 & a2). cbn [bind].
  destruct (new_ok v 1 ltac:(lia)) as (p & -> & p1 & p2). cbn [bind]. unfold sub at 1.
  destruct (new_ok (num p * den a - num a * den p) (den p * den a) ltac:(destruct a1, p1; nia)) as (t & -> & t1 & t2). cbn [bind].
  destruct (new_ok u' 1 ltac:(lia)) as (q' & -> & q1' & q2'). cbn [bind]. unfold mul at 1.
  destruct (new_ok (num x * num q') (den x * den q') ltac:(destruct q1'; nia)) as (b & -> & b1 & b2). cbn [bind].
  destruct (new_ok v' 1 ltac:(lia)) as (p' & -> & p1' & p2'). cbn [bind]. unfold sub at 1.
  destruct (new_ok (num b * den p' - num p' * den b) (den b * den p') ltac:(destruct b1, p1'; nia)) as (w & -> & w1 & w2). cbn [bind].
  set (A := v * den x - num x * u) in *. set (B := num x * u' - v' * den x) in *.
  destruct q1 as [dq _], a1 as [da _], p1 as [dp _], t1 as [dt _], q1' as [dq' _], b1 as [db _], p1' as [dp' _], w1 as [dw _].
  assert (ea : num a * den x = num x * u * den a).
  { apply Z.mul_reg_r with (den q); [lia|]. transitivity (num a * (den x * den q)); [ring|]. rewrite a2. transitivity (num x * (num q * 1) * den a); [ring|]. rewrite q2. ring. }
  assert (et : num t * den x = A * den t).
  { apply Z.mul_reg_r with (den p * den a); [nia|]. transitivity (num t * (den p * den a) * den x); [ring|]. rewrite t2.
    transitivity ((num p * 1 * den a * den x - num a * den x * den p) * den t); [ring|]. rewrite ea, p2. unfold A. ring. }
  assert (eb : num b * den x = num x * u' * den b).
  { apply Z.mul_reg_r with (den q'); [lia|]. transitivity (num b * (den x * den q')); [ring|]. rewrite b2. transitivity (num x * (num q' * 1) * den b); [ring|]. rewrite q2'. ring. }
  assert (ew : num w * den x = B * den w).
  { apply Z.mul_reg_r with (den b * den p'); [nia|]. transitivity (num w * (den b * den p') * den x); [ring|]. rewrite w2.
    transitivity ((num b * den x * den p' - num p' * 1 * den b * den x) * den w); [ring|]. rewrite eb, p2'. unfold B. ring. }
  assert (hw : 0 < num w) by nia. assert (ht : 0 < num t) by nia.
  unfold div. destruct (Z.eqb_spec (num w) 0); [lia|].
  destruct (new_ok (num t * den w) (den t * num w) ltac:(nia)) as (z & -> & z1 & z2). cbn [bind]. eexists. split; [reflexivity|].
  destruct z1 as [dz _]. assert (ez : num z * B = A * den z).
  { apply Z.mul_reg_r with (den t * den w * num w); [nia|]. transitivity (num z * (den t * num w) * (B * den w)); [ring|]. rewrite z2, <- ew.
    transitivity ((num t * den x) * (den w * den z * num w)); [ring|]. rewrite et. ring. }
  unfold ceil_int, is_ceil. pose proof (Z.div_mod (- num z) (den z) ltac:(lia)) as dm. pose proof (Z.mod_pos_bound (- num z) (den z) dz) as mb.
  set (k := - num z / den z) in *. clearbody k A B.
  assert (c1 : (- k - 1) * den z < num z <= - k * den z) by lia.
  split; apply Z.mul_lt_mono_pos_r with (den z) || apply Z.mul_le_mono_pos_r with (den z); auto; rewrite <- ez; nia.
Qed.
Lemma rb_search_ok (llo : lowest lo) (lhi : lowest hi) n p0 q0 p1 q1 : inv lo hi p0 q0 p1 q1 -> weight lo p0 q0 p1 q1 < Z.of_nat n ->
  exists y, rb_search n lo hi p0 q0 p1 q1 = Some (Ok y) /\ least y.
Proof.
  revert p0 q0 p1 q1. induction n as [|n IH]; intros p0 q0 p1 q1 h hw.
  { pose proof (inv_alpha _ _ _ _ h). unfold weight in hw. destruct h. lia. }
  cbn [rb_search]. rewrite kernel_coprime by (try apply inv_gcd; auto; destruct h; lia). rewrite !(inv_cmp p0 q0 p1 q1) by auto.
  pose proof (inv_alpha _ _ _ _ h) as ha.
  assert (hmed : num lo * (q0 + q1) <= (p0 + p1) * den lo -> exists y, match (p0 + p1) * den hi ?= num hi * (q0 + q1) with
    | Gt => match bind (of_int (q0 + q1)) (fun q => bind (mul hi q) (fun a => bind (of_int (p0 + p1)) (fun p => bind (sub p a) (fun top =>
                        bind (of_int q0) (fun q' => bind (mul hi q') (fun b => bind (of_int p0) (fun p' => bind (sub b p') (fun bot =>
                        bind (div top bot) (fun x => Ok (ceil_int x)))))))))) with
                  | Ok k => rb_search n lo hi p0 q0 (p1 + k * p0) (q1 + k * q0)
                  | DivZero => Some DivZero | ArgErr => Some ArgErr | Panic => Some Panic
                  end
    | _ => Some (Ok (mkrat (p0 + p1) (q0 + q1))) end = Some (Ok y) /\ least y).
  { intro hl. destruct (Z.compare_spec ((p0 + p1) * den hi) (num hi * (q0 + q1))) as [e2|e2|e2].
    + eexists. split; [reflexivity|]. apply found; auto. split; lia.
    + eexists. split; [reflexivity|]. apply found; auto. split; lia.
    + assert (hB : 0 < num hi * q0 - p0 * den hi). { destruct h as [[? [? [? ?]]] ? ? ?]. assert (p0 * den lo * den hi < num hi * den lo * q0) by nia. nia. }
      destruct (rb_step_hi hi (q0 + q1) (p0 + p1) q0 p0 lhi ltac:(lia) hB) as (k & -> & hk).
      destruct (inv_right p0 q0 p1 q1 k h e2 hk) as [h1 h2]. apply IH; auto. lia. }
  destruct (Z.compare_spec ((p0 + p1) * den lo) (num lo * (q0 + q1))) as [e|e|e].
  - apply hmed. lia.
  - destruct (rb_step lo (q0 + q1) (p0 + p1) q1 p1 llo ltac:(lia) ltac:(lia)) as (k & -> & hk).
    destruct (inv_left p0 q0 p1 q1 k h e hk) as [h1 h2]. apply IH; auto. lia.
  - apply hmed. lia.
Qed.
End Sb.
(** Bounds as rationals. *)
Open Scope Q_scope.
Lemma between_iff v eps lo hi p (q : positive) : lowest lo -> lowest hi -> qof lo == v - eps -> qof hi == v + eps ->
  (between lo hi p (Zpos q) <-> Qabs ((p # q) - v) <= eps).
Proof.
  intros [l1 _] [l2 _] e1 e2. rewrite Qabs_Qle_condition. unfold between.
  assert (a1 : qof lo <= (p # q) <-> (num lo * Z.pos q <= p * den lo)%Z) by (unfold qof, Qle; cbn; rewrite Z2Pos.id by auto; reflexivity).
  assert (a2 : (p # q) <= qof hi <-> (p * den hi <= num hi * Z.pos q)%Z) by (unfold qof, Qle; cbn; rewrite Z2Pos.id by auto; reflexivity).
  rewrite <- a1, <- a2, e1, e2. split; intros [h1 h2].
  - split; [apply Qplus_le_l with v|apply Qplus_le_l with v].
    + setoid_replace (- eps + v) with (v - eps) by ring. setoid_replace ((p # q) - v + v) with (p # q) by ring. auto.
    + setoid_replace (eps + v) with (v + eps) by ring. setoid_replace ((p # q) - v + v) with (p # q) by ring. auto.
  - split; apply Qplus_le_l with (- v).
    + setoid_replace (v - eps + - v) with (- eps) by ring. exact h1.
    + setoid_replace (v + eps + - v) with eps by ring. exact h2.
Qed.
Lemma least_simplest lo hi y v eps : lowest lo -> lowest hi -> qof lo == v - eps -> qof hi == v + eps -> least lo hi y -> simplest v eps y.
Proof.
  intros l1 l2 e1 e2 (h1 & h2 & h3 & h4). pose proof h1 as [hd _]. split; auto. split.
  - unfold qof. apply (between_iff v eps lo hi); auto. rewrite Z2Pos.id by auto. auto.
  - intros p q h. apply (between_iff v eps lo hi) in h; auto. apply h4 in h; [|reflexivity]. lia.
Qed.
Lemma simplest_zero v eps r : new 0 1 = Ok r -> Qabs v <= eps -> simplest v eps r.
Proof.
  intros h hv. injection h as <-. split; [split; [reflexivity|reflexivity]|]. split.
  - setoid_replace (qof (mkrat (Z.quot 0 1) (Z.quot 1 1)) - v) with (- v) by (unfold qof; cbn; ring) || setoid_replace (qof (mkrat 0 1) - v) with (- v) by (unfold qof; cbn; ring).
    rewrite Qabs_opp. auto.
  - intros p q _. cbn. lia.
Qed.
Lemma simplest_neg v eps y : simplest v eps y -> simplest (- v) eps (neg y).
Proof.
  intros (h1 & h2 & h3). destruct (neg_ok y h1) as [n1 n2]. split; auto. split.
  - rewrite n2. setoid_replace (- qof y - - v) with (- (qof y - v)) by ring. rewrite Qabs_opp. auto.
  - intros p q h. specialize (h3 (- p)%Z q). cbn. rewrite Z.abs_opp in *. apply h3.
    setoid_replace ((- p # q) - v) with (- ((p # q) - - v)) by (setoid_replace (- p # q) with (- (p # q)) by reflexivity; ring). rewrite Qabs_opp. auto.
Qed.
Lemma simplest_eq v v' eps y : v == v' -> simplest v eps y -> simplest v' eps y.
Proof.
  intros e (h1 & h2 & h3). split; auto. split; [rewrite <- e; auto|]. intros p q h. apply h3. rewrite e. auto.
Qed.
Lemma simplest_eps v e e' y : e == e' -> simplest v e y -> simplest v e' y.
Proof.
  intros e0 (h1 & h2 & h3). split; auto. split; [rewrite <- e0; auto|]. intros p q h. apply h3. rewrite e0. auto.
Qed.
Lemma le_bounds lo hi v eps : lowest lo -> lowest hi -> qof lo == v - eps -> qof hi == v + eps -> 0 <= eps -> (num lo * den hi <= num hi * den lo)%Z.
Proof.
  intros [l1 _] [l2 _] e1 e2 he. assert (h : qof lo <= qof hi).
  { rewrite e1, e2. apply Qle_trans with (v + 0); [apply Qplus_le_r; apply Qopp_le_compat in he; exact he|apply Qplus_le_r; auto]. }
  unfold Qle, qof in h. cbn in h. rewrite !Z2Pos.id in h by auto. auto.
Qed.
(** Float side: the tolerance is smaller than the number. *)
Lemma simplest_pos_ok v eps : lowest v -> lowest eps -> 0 <= qof eps -> qof eps < qof v ->
  exists n0 y, forall n, (n0 <= n)%nat -> simplest_pos n v eps = Some (Ok y) /\ simplest (qof v) (qof eps) y.
Proof.
  intros lv le h0 h. unfold simplest_pos. destruct (sub_ok v eps lv le) as (lo & -> & ll & el). destruct (add_ok v eps lv le) as (hi & -> & lh & eh).
  change (new 0 1) with (Ok (mkrat 0 1)).
  assert (plo : (0 < num lo)%Z).
  { assert (x : 0 < qof lo). { rewrite el. apply Qplus_lt_l with (qof eps). setoid_replace (qof v - qof eps + qof eps) with (qof v) by ring. rewrite Qplus_0_l. auto. }
    unfold Qlt, qof in x. cbn in x. lia. }
  pose proof (le_bounds lo hi _ _ ll lh el eh h0) as lb. pose proof ll as [dl _]. pose proof lh as [dh _].
  assert (phi : (0 < num hi)%Z) by nia.
  unfold cmp. cbn [num den]. rewrite !Z.mul_1_r, !Z.mul_0_l. rewrite (proj2 (Z.compare_gt_iff _ _) phi), (proj2 (Z.compare_gt_iff _ _) plo).
  set (n0 := S (Z.to_nat (weight lo 0 1 1 0))).
  destruct (search_ok lo hi dl dh lb n0 0 1 1 0 (inv_start lo hi dh plo)) as (y & e & hy); [unfold n0; lia|].
  exists n0, y. intros n hn.
  destruct (search_ok lo hi dl dh lb n 0 1 1 0 (inv_start lo hi dh plo)) as (y' & e' & hy'); [unfold n0 in hn; lia|].
  assert (y' = y).
  { destruct hy as (a1 & a2 & a3 & a4), hy' as (b1 & b2 & b3 & b4).
    pose proof (a4 _ _ (proj1 b1) b2). pose proof (b4 _ _ (proj1 a1) a2). destruct y, y'; cbn in *. f_equal; lia. }
  subst y'. split; auto. apply (least_simplest lo hi); auto.
Qed.
Theorem find_simplest_ok v eps : lowest v -> lowest eps -> Qabs (qof eps) < Qabs (qof v) ->
  exists n0 y, forall n, (n0 <= n)%nat -> find_simplest n v eps = Some (Ok y) /\ simplest (qof v) (Qabs (qof eps)) y.
Proof.
  intros lv le h. unfold find_simplest. destruct (abs_ok eps le) as [la ea]. destruct (sign_of v lv) as [s1 s2].
  unfold is_negative. destruct (Z.ltb_spec (num v) 0) as [hn|hn].
  - destruct (neg_ok v lv) as [ln en]. assert (e : new (- num v) (den v) = Ok (neg v)) by (destruct ln as [x y]; apply new_coprime; auto). rewrite e.
    destruct (abs_ok (abs eps) la) as [la2 ea2].
    assert (hq : qof (abs (abs eps)) == Qabs (qof eps)). { rewrite ea2, ea. apply Qabs_pos, Qabs_nonneg. }
    destruct (simplest_pos_ok (neg v) (abs (abs eps)) ln la2) as (n0 & y & hy).
    { rewrite hq. apply Qabs_nonneg. }
    { rewrite hq, en. rewrite <- Qabs_neg; [auto|]. apply Qlt_le_weak. apply s2. auto. }
    exists n0, (neg y). intros n hl. destruct (hy n hl) as [h1 h2]. rewrite h1. split; auto. apply simplest_neg in h2.
    apply (simplest_eps _ _ _ _ hq). eapply simplest_eq; [|exact h2]. rewrite en. ring.
  - destruct (simplest_pos_ok v (abs eps) lv la) as (n0 & y & hy).
    { rewrite ea. apply Qabs_nonneg. }
    { rewrite ea. rewrite <- (Qabs_pos (qof v)); [auto|]. apply s1. auto. }
    exists n0, y. intros n hl. destruct (hy n hl) as [h1 h2]. split; auto. apply (simplest_eps _ _ _ _ ea). auto.
Qed.
Lemma rb_pos_ok v eps : lowest v -> lowest eps -> 0 <= qof eps -> 0 <= qof v ->
  exists n0 y, forall n, (n0 <= n)%nat -> rb_pos n v eps = Some (Ok y) /\ simplest (qof v) (qof eps) y.
Proof.
  intros lv le h0 hv. unfold rb_pos. destruct (sub_ok v eps lv le) as (lo & -> & ll & el). destruct (add_ok v eps lv le) as (hi & -> & lh & eh).
  pose proof (le_bounds lo hi _ _ ll lh el eh h0) as lb. pose proof ll as [dl _]. pose proof lh as [dh _].
  unfold cmp. cbn [num den]. rewrite Z.mul_1_r, Z.mul_0_l.
  destruct (Z.compare_spec (num lo) 0) as [e|e|plo].
  1,2: exists 0%nat, (mkrat 0 1); intros n _; split; [reflexivity|]; apply simplest_zero; [reflexivity|]; rewrite Qabs_pos by auto;
    apply Qplus_le_l with (- qof eps); setoid_replace (qof eps + - qof eps) with 0 by ring; change (qof v + - qof eps) with (qof v - qof eps); rewrite <- el;
    unfold qof, Qle; cbn; lia.
  set (n0 := S (Z.to_nat (weight lo 0 1 1 0))).
  destruct (rb_search_ok lo hi dl dh lb ll lh n0 0 1 1 0 (inv_start lo hi dh plo)) as (y & e & hy); [unfold n0; lia|].
  exists n0, y. intros n hn.
  destruct (rb_search_ok lo hi dl dh lb ll lh n 0 1 1 0 (inv_start lo hi dh plo)) as (y' & e' & hy'); [unfold n0 in hn; lia|].
  assert (y' = y).
  { destruct hy as (a1 & a2 & a3 & a4), hy' as (b1 & b2 & b3 & b4).
    pose proof (a4 _ _ (proj1 b1) b2). pose proof (b4 _ _ (proj1 a1) a2). destruct y, y'; cbn in *. f_equal; lia. }
  subst y'. split; auto. apply (least_simplest lo hi); auto.
Qed.
Theorem rb_rationalize_ok v eps : lowest v -> lowest eps ->
  exists n0 y, forall n, (n0 <= n)%nat -> rb_rationalize n v eps = Some (Ok y) /\ simplest (qof v) (Qabs (qof eps)) y.
Proof.
  intros lv le. unfold rb_rationalize. destruct (abs_ok eps le) as [la ea]. destruct (sign_of v lv) as [s1 s2].
  unfold is_negative. destruct (Z.ltb_spec (num v) 0) as [hn|hn].
  - destruct (neg_ok v lv) as [ln en]. destruct (abs_ok (abs eps) la) as [la2 ea2].
    assert (hq : qof (abs (abs eps)) == Qabs (qof eps)). { rewrite ea2, ea. apply Qabs_pos, Qabs_nonneg. }
    destruct (rb_pos_ok (neg v) (abs (abs eps)) ln la2) as (n0 & y & hy).
    { rewrite hq. apply Qabs_nonneg. }
    { rewrite en. apply s2 in hn. apply Qlt_le_weak in hn. apply Qopp_le_compat in hn. exact hn. }
    exists n0, (neg y). intros n hl. destruct (hy n hl) as [h1 h2]. rewrite h1. split; auto. apply simplest_neg in h2.
    apply (simplest_eps _ _ _ _ hq). eapply simplest_eq; [|exact h2]. rewrite en. ring.
  - destruct (rb_pos_ok v (abs eps) lv la) as (n0 & y & hy).
    { rewrite ea. apply Qabs_nonneg. }
    { apply s1. auto. }
    exists n0, y. intros n hl. destruct (hy n hl) as [h1 h2]. split; auto. apply (simplest_eps _ _ _ _ ea). auto.
Qed.

Lemma half_power p : ~ 1 == (1 # 2) ^ Zpos p.
Proof.
  intro h. rewrite Qpower_decomp_pos in h. unfold Qeq in h. cbn [Qnum Qden] in h. rewrite Z.pow_1_l in h by lia.
  assert (1 < 2 ^ p)%positive by (apply Pos.pow_gt_1; reflexivity). lia.
Qed.

Lemma seven_not_multiple p m : ~ inject_Z 7 == inject_Z m * unit (Zneg p).
Proof.
  intro h. rewrite unit_neg in h by lia. cbn [Z.opp] in h. rewrite <- inject_Z_mult in h. apply (proj1 (inject_Z_injective _ _)) in h.
  replace (Zpos p) with (Z.succ (Zpos p - 1)) in h by lia. rewrite Z.pow_succ_r in h by lia. set (k := (10 ^ (Zpos p - 1))%Z) in h. clearbody k.
  assert (7 = 10 * (m * k))%Z by (rewrite h; ring). lia.
Qed.
