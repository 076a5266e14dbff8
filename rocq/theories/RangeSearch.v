(** Binary search over the integers and the Floats of a range. *)
From Coq Require Import List Bool ZArith Lia.
From Verif Require Import RangeModel RangeSpec.
Import ListNotations.
Local Open Scope Z_scope.

Lemma half_in lo hi : lo <= hi -> lo <= half lo hi <= hi.
Proof. intros. unfold half. pose proof (Z.div_pos (hi - lo) 2). pose proof (Z.mul_div_le (hi - lo) 2). lia. Qed.
(** The loop asks the block about at most log2 of the width, plus one, elements. *)
Lemma search_ends p : forall fuel lo hi sat, hi - lo + 1 < 2 ^ Z.of_nat fuel -> search (S fuel) p lo hi sat <> Running.
Proof.
  induction fuel; intros lo hi sat W.
  - cbn [search]. change (2 ^ Z.of_nat 0) with 1 in W. destruct (Z.leb_spec lo hi); [lia|]. destruct sat; discriminate.
  - remember (S fuel) as f. cbn [search]. subst f. destruct (Z.leb_spec lo hi) as [L|L]; [|destruct sat; discriminate].
    assert (P : 2 ^ Z.of_nat (S fuel) = 2 * 2 ^ Z.of_nat fuel) by (rewrite Nat2Z.inj_succ, Z.pow_succ_r; lia).
    assert (A : half lo hi - lo < 2 ^ Z.of_nat fuel /\ hi - half lo hi < 2 ^ Z.of_nat fuel).
    { unfold half. pose proof (Z.mul_div_le (hi - lo) 2). pose proof (Z.mul_succ_div_gt (hi - lo) 2). lia. }
    destruct (p (half lo hi)); try discriminate; apply IHfuel; lia.
Qed.
Lemma search_fuel p f lo hi sat : search f p lo hi sat <> Running -> search (S f) p lo hi sat = search f p lo hi sat.
Proof.
  revert lo hi sat; induction f; intros lo hi sat N; [destruct N; reflexivity|]. remember (S f) as g. cbn [search]. subst g. cbn [search] in N. cbn [search].
  destruct (lo <=? hi); [|reflexivity]. destruct (p (half lo hi)); try reflexivity; now apply IHf.
Qed.
Lemma search_mono p f f' lo hi sat : (f <= f')%nat -> search f p lo hi sat <> Running -> search f' p lo hi sat = search f p lo hi sat.
Proof. induction 1; intros N; [reflexivity|]. rewrite search_fuel; rewrite IHle; auto. Qed.

Lemma search_min p L H : (forall z, L <= z <= H -> p z = Sat \/ p z = Unsat) -> (forall x y, L <= x <= y -> y <= H -> p x = Sat -> p y = Sat) ->
  forall fuel lo hi sat, L <= lo -> hi <= H -> lo <= hi + 1 -> (forall y, L <= y < lo -> p y = Unsat) ->
  match sat with Some s => s = hi + 1 /\ s <= H /\ p s = Sat | None => hi = H end ->
  match search fuel p lo hi sat with
  | Found z => L <= z <= H /\ p z = Sat /\ forall y, L <= y < z -> p y = Unsat
  | Nothing => forall y, L <= y <= H -> p y = Unsat
  | Running => True
  end.
Proof.
  intros B M. induction fuel; intros lo hi sat L1 H1 W U S; cbn [search]; [trivial|].
  destruct (Z.leb_spec lo hi) as [C|C].
  - pose proof (half_in lo hi C) as K. set (mid := half lo hi) in *. destruct (B mid ltac:(lia)) as [E|E]; rewrite E.
    + apply IHfuel; try lia; trivial. split; [lia|]. split; [lia|exact E].
    + apply IHfuel; try lia; trivial. intros y Y. destruct (Z_lt_dec y lo); [apply U; lia|].
      destruct (B y ltac:(lia)) as [E'|E']; [|exact E']. rewrite (M y mid) in E; [discriminate|lia|lia|exact E'].
  - destruct sat as [s|].
    + destruct S as (-> & S2 & S3). assert (lo = hi + 1) by lia. subst lo. split; [lia|]. split; [exact S3|exact U].
    + subst hi. intros y Y. apply U. lia.
Qed.
Lemma search_any p L H : (forall z, L <= z <= H -> p z = Greater \/ p z = Equal \/ p z = Less) -> (forall x y, L <= x <= y -> y <= H -> rank (p x) <= rank (p y)) ->
  forall fuel lo hi, L <= lo -> hi <= H -> lo <= hi + 1 -> (forall y, L <= y < lo -> p y = Greater) -> (forall y, hi < y <= H -> p y = Less) ->
  match search fuel p lo hi None with
  | Found z => L <= z <= H /\ p z = Equal
  | Nothing => forall y, L <= y <= H -> p y <> Equal
  | Running => True
  end.
Proof.
  intros B M. induction fuel; intros lo hi L1 H1 W U D; cbn [search]; [trivial|].
  destruct (Z.leb_spec lo hi) as [C|C].
  - pose proof (half_in lo hi C) as K. set (mid := half lo hi) in *. destruct (B mid ltac:(lia)) as [E|[E|E]]; rewrite E.
    + apply IHfuel; try lia; trivial. intros y Y. destruct (Z_lt_dec y lo); [apply U; lia|].
      pose proof (M y mid ltac:(lia) ltac:(lia)) as R. rewrite E in R. destruct (B y ltac:(lia)) as [E'|[E'|E']]; rewrite E' in *; cbn in R; trivial; lia.
    + split; [lia|exact E].
    + apply IHfuel; try lia; trivial. intros y Y. destruct (Z_lt_dec hi y); [apply D; lia|].
      pose proof (M mid y ltac:(lia) ltac:(lia)) as R. rewrite E in R. destruct (B y ltac:(lia)) as [E'|[E'|E']]; rewrite E' in *; cbn in R; trivial; lia.
  - intros y Y. destruct (Z_lt_dec y lo); [rewrite U by lia|rewrite D by lia]; discriminate.
Qed.
Lemma probe_down_hit p fuel : forall hi step b, 1 <= step -> probe_down fuel p hi step = Some b -> b < hi /\ (p b = Unsat \/ p b = Greater).
Proof.
  induction fuel; intros hi step b S; cbn; [discriminate|].
  destruct (p (hi - step)) eqn:E; intros X; try (injection X as <-; split; [lia|tauto]); (eapply IHfuel; [|exact X]; lia).
Qed.
Lemma probe_up_hit p fuel : forall b step hi, 1 <= step -> probe_up fuel p b step = Some hi -> b < hi /\ (p hi = Sat \/ p hi = Equal \/ p hi = Less).
Proof.
  induction fuel; intros b step hi S; cbn; [discriminate|].
  destruct (p (b + step)) eqn:E; intros X; try (injection X as <-; split; [lia|tauto]); (eapply IHfuel; [|exact X]; lia).
Qed.

Theorem bsearch_min fuel p b e ex : rising p -> (b <> None \/ e <> None) ->
  match bsearch fuel p b e ex with
  | Found z => between b e ex z /\ p z = Sat /\ forall y, between b e ex y -> y < z -> p y = Unsat
  | Nothing => forall y, between b e ex y -> p y = Unsat
  | Running => True
  end.
Proof.
  intros [B M] NN.
  assert (MU : forall x y, x <= y -> p y = Unsat -> p x = Unsat) by (intros x y L U; destruct (B x) as [E|E]; [|exact E]; rewrite (M x y L E) in U; discriminate).
  assert (S : forall L H, L <= H -> match search fuel p L H None with
     | Found z => L <= z <= H /\ p z = Sat /\ forall y, L <= y < z -> p y = Unsat | Nothing => forall y, L <= y <= H -> p y = Unsat | Running => True end).
  { intros L H LH. apply (search_min p L H); try lia; trivial; intros. apply M with x; [lia|trivial]. }
  unfold bsearch. destruct b as [b|], e as [e|]; cbn [option_map].
  - set (hi := if ex then e - 1 else e). assert (BE : forall y, between (Some b) (Some e) ex y <-> b <= y <= hi) by (intros y; unfold between; subst hi; destruct ex; lia).
    destruct (Z.ltb_spec hi b) as [C|C]; [intros y Y; apply BE in Y; lia|]. specialize (S b hi C).
    destruct (search fuel p b hi None); trivial.
    + destruct S as (S1 & S2 & S3). split; [now apply BE|]. split; [trivial|]. intros y Y L. apply BE in Y. apply S3. lia.
    + intros y Y. apply BE in Y. auto.
  - destruct (probe_up fuel p b 1) as [hi|] eqn:P; [|trivial]. apply probe_up_hit in P as [P1 P2]; [|lia].
    assert (PS : p hi = Sat) by (destruct (B hi) as [E|E]; [trivial|]; rewrite E in P2; intuition discriminate).
    specialize (S b hi ltac:(lia)). destruct (search fuel p b hi None); trivial.
    + destruct S as (S1 & S2 & S3). split; [unfold between; lia|]. split; [trivial|]. intros y [Y _] L. apply S3. lia.
    + rewrite S in PS by lia. discriminate.
  - set (hi := if ex then e - 1 else e). assert (BE : forall y, between None (Some e) ex y <-> y <= hi) by (intros y; unfold between; subst hi; destruct ex; lia).
    destruct (probe_down fuel p hi 1) as [b|] eqn:P; [|trivial]. apply probe_down_hit in P as [P1 P2]; [|lia].
    assert (PS : p b = Unsat) by (destruct (B b) as [E|E]; [|trivial]; rewrite E in P2; intuition discriminate).
    specialize (S b hi ltac:(lia)). destruct (search fuel p b hi None); trivial.
    + destruct S as (S1 & S2 & S3). split; [apply BE; lia|]. split; [trivial|]. intros y _ L. destruct (Z_lt_dec y b); [apply (MU y b); [lia|trivial]|apply S3; lia].
    + intros y Y. apply BE in Y. destruct (Z_lt_dec y b); [apply (MU y b); [lia|trivial]|apply S; lia].
  - destruct NN; congruence.
Qed.
Theorem bsearch_any fuel p b e ex : signs p -> (b <> None \/ e <> None) ->
  match bsearch fuel p b e ex with
  | Found z => between b e ex z /\ p z = Equal
  | Nothing => forall y, between b e ex y -> p y <> Equal
  | Running => True
  end.
Proof.
  intros [B M] NN.
  assert (GU : forall x y, x <= y -> p y = Greater -> p x = Greater) by (intros x y L U; pose proof (M x y L) as R; rewrite U in R; destruct (B x) as [E|[E|E]]; rewrite E in *; cbn in R; trivial; lia).
  assert (LU : forall x y, x <= y -> p x = Less -> p y = Less) by (intros x y L U; pose proof (M x y L) as R; rewrite U in R; destruct (B y) as [E|[E|E]]; rewrite E in *; cbn in R; trivial; lia).
  assert (S : forall L H, L <= H -> match search fuel p L H None with
     | Found z => L <= z <= H /\ p z = Equal | Nothing => forall y, L <= y <= H -> p y <> Equal | Running => True end).
  { intros L H LH. apply (search_any p L H); try lia; trivial; intros; try lia; [apply M; lia]. }
  unfold bsearch. destruct b as [b|], e as [e|]; cbn [option_map].
  - set (hi := if ex then e - 1 else e). assert (BE : forall y, between (Some b) (Some e) ex y <-> b <= y <= hi) by (intros y; unfold between; subst hi; destruct ex; lia).
    destruct (Z.ltb_spec hi b) as [C|C]; [intros y Y; apply BE in Y; lia|]. specialize (S b hi C).
    destruct (search fuel p b hi None); trivial.
    + destruct S as (S1 & S2). split; [now apply BE|trivial].
    + intros y Y. apply BE in Y. auto.
  - destruct (probe_up fuel p b 1) as [hi|] eqn:P; [|trivial]. apply probe_up_hit in P as [P1 P2]; [|lia].
    specialize (S b hi ltac:(lia)). destruct (search fuel p b hi None); trivial.
    + destruct S as (S1 & S2). split; [unfold between; lia|trivial].
    + intros y [Y _]. destruct (Z_le_dec y hi); [apply S; lia|]. pose proof (S hi ltac:(lia)) as NE.
      rewrite (LU hi y ltac:(lia)); [discriminate|]. destruct (B hi) as [E|[E|E]]; rewrite E in *; intuition congruence.
  - set (hi := if ex then e - 1 else e). assert (BE : forall y, between None (Some e) ex y <-> y <= hi) by (intros y; unfold between; subst hi; destruct ex; lia).
    destruct (probe_down fuel p hi 1) as [b|] eqn:P; [|trivial]. apply probe_down_hit in P as [P1 P2]; [|lia].
    assert (PS : p b = Greater) by (destruct (B b) as [E|[E|E]]; rewrite E in *; intuition congruence).
    specialize (S b hi ltac:(lia)). destruct (search fuel p b hi None); trivial.
    + destruct S as (S1 & S2). split; [apply BE; lia|trivial].
    + intros y Y. apply BE in Y. destruct (Z_lt_dec y b); [rewrite (GU y b); [discriminate|lia|trivial]|apply S; lia].
  - destruct NN; congruence.
Qed.

(** The searches end. *)
Lemma probe_down_ends p z0 : (forall z, z <= z0 -> p z = Unsat \/ p z = Greater) -> forall f hi step, 1 <= step -> hi - step * 2 ^ Z.of_nat f <= z0 ->
  exists b, probe_down (S f) p hi step = Some b.
Proof.
  intros P. induction f; intros hi step S H.
  - change (2 ^ Z.of_nat 0) with 1 in H. cbn. destruct (P (hi - step) ltac:(lia)) as [-> | ->]; eauto.
  - remember (Datatypes.S f) as g. cbn [probe_down]. subst g.
    assert (X : exists b, probe_down (Datatypes.S f) p hi (step * 2) = Some b).
    { apply IHf; [lia|]. rewrite Nat2Z.inj_succ, Z.pow_succ_r in H by lia. lia. }
    destruct (p (hi - step)); eauto.
Qed.
Lemma probe_up_ends p z0 : (forall z, z0 <= z -> p z = Sat \/ p z = Equal \/ p z = Less) -> forall f b step, 1 <= step -> z0 <= b + step * 2 ^ Z.of_nat f ->
  exists hi, probe_up (S f) p b step = Some hi.
Proof.
  intros P. induction f; intros b step S H.
  - change (2 ^ Z.of_nat 0) with 1 in H. cbn. destruct (P (b + step) ltac:(lia)) as [-> |[-> | ->]]; eauto.
  - remember (Datatypes.S f) as g. cbn [probe_up]. subst g.
    assert (X : exists hi, probe_up (Datatypes.S f) p b (step * 2) = Some hi).
    { apply IHf; [lia|]. rewrite Nat2Z.inj_succ, Z.pow_succ_r in H by lia. lia. }
    destruct (p (b + step)); eauto.
Qed.
Lemma probe_down_mono p f f' hi step b : (f <= f')%nat -> probe_down f p hi step = Some b -> probe_down f' p hi step = Some b.
Proof.
  revert f' step; induction f; intros [|f'] step L; cbn; try discriminate; try lia.
  destruct (p (hi - step)); trivial; apply IHf; lia.
Qed.
Lemma probe_up_mono p f f' hi step b : (f <= f')%nat -> probe_up f p hi step = Some b -> probe_up f' p hi step = Some b.
Proof.
  revert f' step; induction f; intros [|f'] step L; cbn; try discriminate; try lia.
  destruct (p (hi + step)); trivial; apply IHf; lia.
Qed.
Lemma pow_large n : 0 <= n -> n < 2 ^ Z.of_nat (Z.to_nat n).
Proof. intros. rewrite Z2Nat.id by lia. apply Z.pow_gt_lin_r; lia. Qed.
Theorem bsearch_ends p b e ex :
  (b = None -> exists z0, forall z, z <= z0 -> p z = Unsat \/ p z = Greater) ->
  (e = None -> exists z0, forall z, z0 <= z -> p z = Sat \/ p z = Equal \/ p z = Less) ->
  exists fuel, bsearch fuel p b e ex <> Running.
Proof.
  intros HB HE. unfold bsearch.
  assert (S : forall lo hi, exists f, forall f', (f <= f')%nat -> search f' p lo hi None <> Running).
  { intros lo hi. exists (Datatypes.S (Z.to_nat (Z.max 0 (hi - lo + 1)))). intros f' L. rewrite (search_mono p _ f' lo hi None L);
      apply search_ends; pose proof (pow_large (Z.max 0 (hi - lo + 1)) ltac:(lia)); lia. }
  destruct b as [b|], e as [e|]; cbn [option_map].
  - destruct (S b (if ex then e - 1 else e)) as (f & F). exists f. destruct (_ <? b); [discriminate|apply F; lia].
  - destruct (HE eq_refl) as (z0 & P). destruct (probe_up_ends p z0 P (Z.to_nat (Z.max 0 (z0 - b))) b 1 ltac:(lia)) as (hi & E).
    { pose proof (pow_large (Z.max 0 (z0 - b)) ltac:(lia)). lia. }
    destruct (S b hi) as (f & F). exists (Nat.max f (Datatypes.S (Z.to_nat (Z.max 0 (z0 - b))))). rewrite (probe_up_mono p _ _ _ _ _ (Nat.le_max_r _ _) E). apply F. lia.
  - set (h := if ex then e - 1 else e). destruct (HB eq_refl) as (z0 & P). destruct (probe_down_ends p z0 P (Z.to_nat (Z.max 0 (h - z0))) h 1 ltac:(lia)) as (b & E).
    { pose proof (pow_large (Z.max 0 (h - z0)) ltac:(lia)). lia. }
    destruct (S b h) as (f & F). exists (Nat.max f (Datatypes.S (Z.to_nat (Z.max 0 (h - z0))))). rewrite (probe_down_mono p _ _ _ _ _ (Nat.le_max_r _ _) E). apply F. lia.
  - exists 0%nat. discriminate.
Qed.
(** A bounded search asks at most log2 of the number of elements, plus one, times. *)
Theorem bsearch_fast p b e (ex : bool) n : (if ex then e else e + 1) - b < 2 ^ Z.of_nat n -> bsearch (S n) p (Some b) (Some e) ex <> Running.
Proof.
  intros H. unfold bsearch. cbn [option_map]. destruct (_ <? b); [discriminate|]. apply search_ends. destruct ex; lia.
Qed.

(** * Floats *)
Lemma mag_lt m n : 0 <= m < n -> mag m < mag n.
Proof.
  intros H. unfold mag. assert (K : 0 < 2 ^ 52) by reflexivity. generalize dependent (2 ^ 52). intros K2 K.
  pose proof (Z.div_mod m K2 ltac:(lia)) as DM. pose proof (Z.mod_pos_bound m K2 K) as MB.
  pose proof (Z.div_mod n K2 ltac:(lia)) as DN. pose proof (Z.mod_pos_bound n K2 K) as NB.
  destruct (Z.ltb_spec m K2) as [A|A], (Z.ltb_spec n K2) as [B|B]; try lia.
  - assert (1 <= n / K2) by (apply Z.div_le_lower_bound; lia). pose proof (Z.pow_pos_nonneg 2 (n / K2 - 1)). nia.
  - assert (1 <= m / K2) by (apply Z.div_le_lower_bound; lia).
    assert (m / K2 <= n / K2) by (apply Z.div_le_mono; lia). destruct (Z.eq_dec (m / K2) (n / K2)) as [E|E].
    + rewrite E in *. pose proof (Z.pow_pos_nonneg 2 (n / K2 - 1)). nia.
    + assert (P : 2 ^ (m / K2) <= 2 ^ (n / K2 - 1)) by (apply Z.pow_le_mono_r; lia).
      replace (m / K2) with (Z.succ (m / K2 - 1)) in P by lia. rewrite Z.pow_succ_r in P by lia.
      pose proof (Z.pow_pos_nonneg 2 (m / K2 - 1)). nia.
Qed.
Lemma mag_0 : mag 0 = 0. Proof. reflexivity. Qed.
Lemma mag_le m n : 0 <= m -> 0 <= n -> (mag m < mag n <-> m < n).
Proof.
  intros A B. split; [|intros; apply mag_lt; lia]. intros L. destruct (Z.lt_trichotomy m n) as [C|[C|C]]; [exact C|subst; lia|].
  pose proof (mag_lt n m). lia.
Qed.
Theorem float_order a b : float a -> float b -> (fval a < fval b <-> signed a < signed b).
Proof.
  intros [A1 A2] [B1 B2]. unfold fval, signed. change (2 ^ 64) with (2 * 2 ^ 63) in *.
  pose proof mag_0 as M0. pose proof (fun m => mag_lt 0 m) as MP. generalize dependent (2 ^ 63). intros K A2 B2.
  destruct (Z.ltb_spec a K), (Z.ltb_spec b K).
  - apply mag_le; lia.
  - assert (0 <= mag a) by (destruct (Z.eq_dec a 0) as [-> |]; [lia|specialize (MP a); lia]).
    assert (0 <= mag (b - K)) by (destruct (Z.eq_dec (b - K) 0) as [-> |]; [lia|specialize (MP (b - K)); lia]). lia.
  - assert (XA : 0 <= mag (a - K) /\ (a - K = 0 \/ 0 < mag (a - K))) by (destruct (Z.eq_dec (a - K) 0) as [-> |]; [lia|specialize (MP (a - K)); lia]).
    assert (XB : 0 <= mag b /\ (b = 0 \/ 0 < mag b)) by (destruct (Z.eq_dec b 0) as [-> |]; [lia|specialize (MP b); lia]).
    destruct XA as [XA [EA|EA]], XB as [XB [EB|EB]]; try rewrite EA in *; try rewrite EB in *; rewrite ?M0 in *; try lia.
    + destruct (Z.eq_dec b 0) as [-> |]; [rewrite M0 in EB|]; lia.
    + destruct (Z.eq_dec (a - K) 0) as [E|]; [rewrite E, M0 in EA|]; lia.
    + destruct (Z.eq_dec (a - K) 0) as [E|]; [rewrite E, M0 in EA; lia|]. lia.
  - pose proof (mag_le (b - K) (a - K)). lia.
Qed.
Lemma float_order_le a b : float a -> float b -> (fval a <= fval b <-> signed a <= signed b).
Proof. intros A B. pose proof (float_order b a B A). lia. Qed.
Theorem key_inverse bits : float bits -> from_key (to_key bits) = bits /\ 0 <= to_key bits < 2 ^ 64.
Proof.
  intros [A B]. unfold from_key, to_key. change (2 ^ 64) with (2 * 2 ^ 63) in *. assert (0 < 2 ^ 63) by reflexivity. generalize dependent (2 ^ 63). intros K B P.
  destruct (Z.ltb_spec bits K).
  - destruct (Z.leb_spec K (bits + K)); lia.
  - destruct (Z.leb_spec K (2 * K - 1 - bits)); lia.
Qed.
Theorem key_back k : 0 <= k < 2 ^ 64 -> to_key (from_key k) = k /\ float (from_key k).
Proof.
  intros [A B]. unfold from_key, to_key, float. change (2 ^ 64) with (2 * 2 ^ 63) in *. assert (0 < 2 ^ 63) by reflexivity. generalize dependent (2 ^ 63). intros K B P.
  destruct (Z.leb_spec K k).
  - destruct (Z.ltb_spec (k - K) K); lia.
  - destruct (Z.ltb_spec (2 * K - 1 - k) K); lia.
Qed.
Theorem key_order a b : float a -> float b -> fval a < fval b -> to_key a < to_key b.
Proof.
  intros A B L. apply float_order in L; trivial. destruct A as [A1 A2], B as [B1 B2]. revert L. unfold signed, to_key. change (2 ^ 64) with (2 * 2 ^ 63) in *. generalize dependent (2 ^ 63). intros K A2 B2.
  destruct (Z.ltb_spec a K), (Z.ltb_spec b K); lia.
Qed.
(** only the two zeros share a value *)
Theorem key_order_back a b : float a -> float b -> to_key a < to_key b -> fval a < fval b \/ (a = 2 ^ 63 /\ b = 0).
Proof.
  intros A B. rewrite (float_order a b A B). destruct A as [A1 A2], B as [B1 B2]. unfold signed, to_key. change (2 ^ 64) with (2 * 2 ^ 63) in *. generalize dependent (2 ^ 63). intros K A2 B2.
  destruct (Z.ltb_spec a K), (Z.ltb_spec b K); lia.
Qed.
Lemma zero_val : fval 0 = 0 /\ fval (2 ^ 63) = 0. Proof. split; reflexivity. Qed.
Lemma key_le a b : float a -> float b -> to_key a <= to_key b -> fval a <= fval b.
Proof.
  intros A B L. destruct (Z.eq_dec (to_key a) (to_key b)) as [E|E].
  - apply (f_equal from_key) in E. rewrite (proj1 (key_inverse a A)), (proj1 (key_inverse b B)) in E. subst. lia.
  - destruct (key_order_back a b A B ltac:(lia)) as [H|[-> ->]]; [lia|]. destruct zero_val as [-> ->]. lia.
Qed.
(** The keys searched are the Floats of the range. *)
Lemma keys_are b e (ex : bool) k : float b -> float e -> (ex = true -> e <> 0) -> to_key b <= k <= to_key e - (if ex then 1 else 0) ->
  float (from_key k) /\ fval b <= fval (from_key k) /\ if ex then fval (from_key k) < fval e else fval (from_key k) <= fval e.
Proof.
  intros B E Z K. pose proof (proj2 (key_inverse b B)). pose proof (proj2 (key_inverse e E)).
  destruct (key_back k) as [KB KF]; [destruct ex; lia|]. split; [exact KF|]. split; [apply key_le; trivial; lia|].
  destruct ex; [|apply key_le; trivial; lia]. destruct (key_order_back (from_key k) e KF E ltac:(lia)) as [L|[_ L]]; [exact L|]. now destruct (Z eq_refl).
Qed.
(** Every Float of the range has a key there, or is a zero whose other sign has. *)
Lemma keys_all b e (ex : bool) y : float b -> float e -> float y -> ~ (b = 0 /\ e = 2 ^ 63) -> fval b <= fval y -> (if ex then fval y < fval e else fval y <= fval e) ->
  exists y', float y' /\ fval y' = fval y /\ to_key b <= to_key y' <= to_key e - (if ex then 1 else 0).
Proof.
  intros B E Y NZ L1 L2.
  assert (U : (exists y', float y' /\ fval y' = fval y /\ to_key b <= to_key y' <= to_key e - (if ex then 1 else 0)) \/ to_key y < to_key b \/ to_key e - (if ex then 1 else 0) < to_key y).
  { destruct (Z_lt_dec (to_key y) (to_key b)); [tauto|]. destruct (Z_lt_dec (to_key e - (if ex then 1 else 0)) (to_key y)); [tauto|]. left. exists y. split; [exact Y|]. split; [reflexivity|lia]. }
  destruct U as [U|[U|U]]; [exact U| |].
  - destruct (key_order_back y b Y B U) as [C|[-> ->]]; [lia|]. destruct zero_val as [Z1 Z2]. exists 0. split; [exact B|]. split; [congruence|]. split; [lia|].
    destruct ex.
    + rewrite Z2 in L2. pose proof (key_order 0 e B E). rewrite Z1 in *. lia.
    + destruct (Z_lt_dec (to_key e) (to_key 0)) as [C|C]; [|lia]. destruct (key_order_back e 0 E B C) as [D|[-> _]]; [rewrite Z1, Z2 in *; lia|]. now destruct NZ.
  - destruct ex; [pose proof (key_order y e Y E L2); lia|]. destruct (key_order_back e y E Y ltac:(lia)) as [C|[-> ->]]; [lia|].
    destruct zero_val as [Z1 Z2]. exists (2 ^ 63). split; [exact E|]. split; [congruence|]. split; [|lia].
    destruct (Z_lt_dec (to_key (2 ^ 63)) (to_key b)) as [C|C]; [|lia]. destruct (key_order_back (2 ^ 63) b E B C) as [D|[_ ->]]; [rewrite Z1, Z2 in *; lia|]. now destruct NZ.
Qed.
Lemma float_guards b e (ex : bool) : float b -> float e ->
  (if signed e <? signed b then true else ex && (signed b =? signed e)) = true ->
  forall y, fval b <= fval y -> ~ (if ex then fval y < fval e else fval y <= fval e).
Proof.
  intros B E. pose proof (float_order e b E B). pose proof (float_order b e B E). pose proof (float_order_le b e B E).
  destruct (Z.ltb_spec (signed e) (signed b)); intros X y; [destruct ex; lia|]. apply andb_prop in X as [-> X]. apply Z.eqb_eq in X. lia.
Qed.
Lemma bsf_unfold fuel p b e ex : bsearch_float fuel p b e ex =
  if (if signed e <? signed b then true else ex && (signed b =? signed e)) then Nothing
  else if to_key e - (if ex then 1 else 0) <? to_key b then Nothing
  else match search fuel (fun k => p (from_key k)) (to_key b) (to_key e - (if ex then 1 else 0)) None with Found k => Found (from_key k) | r => r end.
Proof. unfold bsearch_float. destruct (signed e <? signed b); reflexivity. Qed.
Theorem float_min fuel p b e (ex : bool) : float b -> float e -> (ex = true -> e <> 0) -> ~ (b = 0 /\ e = 2 ^ 63) ->
  (forall z, p z = Sat \/ p z = Unsat) -> (forall x y, float x -> float y -> fval x <= fval y -> p x = Sat -> p y = Sat) ->
  match bsearch_float fuel p b e ex with
  | Found z => float z /\ fval b <= fval z /\ (if ex then fval z < fval e else fval z <= fval e) /\ p z = Sat /\
      forall y, float y -> fval b <= fval y < fval z -> p y = Unsat
  | Nothing => forall y, float y -> fval b <= fval y -> (if ex then fval y < fval e else fval y <= fval e) -> p y = Unsat
  | Running => True
  end.
Proof.
  intros B E EZ NZ T M. rewrite bsf_unfold.
  destruct (if signed e <? signed b then true else ex && (signed b =? signed e)) eqn:G.
  { intros y _ Y1 Y2. destruct (float_guards b e ex B E G y Y1 Y2). }
  set (hi := to_key e - (if ex then 1 else 0)) in *.
  assert (SAME : forall x y, float x -> float y -> fval x = fval y -> p y = Unsat -> p x = Unsat).
  { intros x y X Y EQ U. destruct (T x) as [S|S]; [|exact S]. rewrite (M x y X Y ltac:(lia) S) in U. discriminate. }
  destruct (Z.ltb_spec hi (to_key b)) as [C|C].
  { intros y Y Y1 Y2. destruct (keys_all b e ex y B E Y NZ Y1 Y2) as (y' & _ & _ & K). subst hi. lia. }
  pose proof (search_min (fun k => p (from_key k)) (to_key b) hi) as S.
  assert (R : forall k, to_key b <= k <= hi -> 0 <= k < 2 ^ 64) by (intros k K; pose proof (proj2 (key_inverse b B)); pose proof (proj2 (key_inverse e E)); subst hi; destruct ex; lia).
  specialize (S (fun z _ => T (from_key z))).
  assert (MK : forall x y, to_key b <= x <= y -> y <= hi -> p (from_key x) = Sat -> p (from_key y) = Sat).
  { intros x y X Y PX. destruct (key_back x (R x ltac:(lia))) as [X1 X2], (key_back y (R y ltac:(lia))) as [Y1 Y2].
    apply (M (from_key x)); trivial. apply key_le; trivial. lia. }
  specialize (S MK fuel (to_key b) hi None ltac:(lia) ltac:(lia) ltac:(lia) ltac:(intros; lia) eq_refl).
  destruct (search fuel (fun k => p (from_key k)) (to_key b) hi None) as [k| |]; [| |exact Logic.I].
  - destruct S as (S1 & S2 & S3). destruct (keys_are b e ex k B E EZ S1) as (K1 & K2 & K3). split; [exact K1|]. split; [exact K2|]. split; [exact K3|]. split; [exact S2|].
    intros y Y [L1 L2]. assert (LE : if ex then fval y < fval e else fval y <= fval e) by (destruct ex; lia).
    destruct (keys_all b e ex y B E Y NZ L1 LE) as (y' & F' & V' & K').
    apply (SAME y y'); [exact Y|exact F'|congruence|]. rewrite <- (proj1 (key_inverse y' F')). apply S3. split; [lia|].
    destruct (Z_lt_dec (to_key y') k) as [|N]; [trivial|]. exfalso. pose proof (proj1 (key_back k (R k S1))) as KB.
    assert (fval (from_key k) <= fval y') by (apply key_le; trivial; lia). lia.
  - intros y Y L1 L2. destruct (keys_all b e ex y B E Y NZ L1 L2) as (y' & F' & V' & K').
    apply (SAME y y'); [exact Y|exact F'|congruence|]. rewrite <- (proj1 (key_inverse y' F')). apply S. exact K'.
Qed.
(** At most 65 calls of the block *)
Theorem float_ends p b e ex : float b -> float e -> bsearch_float 66 p b e ex <> Running.
Proof.
  intros B E. rewrite bsf_unfold. destruct (if signed e <? signed b then true else _); [discriminate|]. destruct (_ <? to_key b); [discriminate|].
  pose proof (search_ends (fun k => p (from_key k)) 65 (to_key b) (to_key e - (if ex then 1 else 0)) None) as S.
  change (Z.of_nat 65) with 65 in S. pose proof (proj2 (key_inverse b B)). pose proof (proj2 (key_inverse e E)).
  assert (X : to_key e - (if ex then 1 else 0) - to_key b + 1 < 2 ^ 65) by (change (2 ^ 65) with (2 * 2 ^ 64); assert (1 < 2 ^ 64) by reflexivity; destruct ex; lia).
  specialize (S X). destruct (search 66 _ _ _ None); [discriminate|discriminate|]. now destruct S.
Qed.
