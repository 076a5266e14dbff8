(** Proofs about Numeric. *)
From Coq Require Import ZArith QArith Qround List Bool Lia Lqa.
From Verif Require Import NumrModel NumrSpec.
Import ListNotations.
Local Open Scope Q_scope.

Lemma nonzero_sign : forall b, ~ b == 0 -> 0 < b \/ b < 0.
Proof. intros b N. destruct (Q_dec b 0) as [[H|H]|H]; [right; exact H | left; exact H | contradiction]. Qed.

Lemma div_zero : forall a b, b == 0 -> div a b = None /\ modulo a b = None /\ divmod a b = None /\ remainder a b = None.
Proof.
  intros a b Z. assert (D : div a b = None) by (unfold div; rewrite (proj2 (Qeq_bool_iff b 0) Z); reflexivity).
  unfold divmod, remainder, modulo. rewrite D. repeat split; reflexivity.
Qed.

Lemma div_some : forall a b, ~ b == 0 -> div a b = Some (Qfloor (a / b)).
Proof.
  intros a b N; unfold div. destruct (Qeq_bool b 0) eqn:E; [apply Qeq_bool_iff in E; contradiction | reflexivity].
Qed.

Lemma floor_between : forall a b, ~ b == 0 -> between (a - b * inject_Z (Qfloor (a / b))) b.
Proof.
  intros a b N. pose proof (Qfloor_le (a / b)) as L. pose proof (Qlt_floor (a / b)) as U.
  rewrite inject_Z_plus in U. change (inject_Z 1) with 1 in U.
  set (f := inject_Z (Qfloor (a / b))) in *.
  assert (E : a == b * (a / b)) by (field; exact N).
  set (x := a / b) in *. unfold between. destruct (nonzero_sign b N) as [P|M].
  - left. split; nra.
  - right. split; nra.
Qed.

(** divmod: the quotient is an Integer, and the rest lies between 0 and the divisor. *)
Lemma divmod_ok : forall a b, ~ b == 0 -> exists q r, divmod a b = Some (q, r) /\ div a b = Some q /\ modulo a b = Some r
  /\ a == b * inject_Z q + r /\ between r b.
Proof.
  intros a b N. exists (Qfloor (a / b)), (a - b * inject_Z (Qfloor (a / b))).
  unfold divmod, modulo. rewrite (div_some a b N). repeat split; try reflexivity; [ring | apply floor_between; exact N].
Qed.

Lemma qlt_ok : forall a b, qlt a b = true <-> a < b.
Proof.
  intros a b; unfold qlt. rewrite negb_true_iff, <- not_true_iff_false, Qle_bool_iff. split; [apply Qnot_le_lt | apply Qlt_not_le].
Qed.

Lemma modulo_zero : forall a b m, ~ b == 0 -> a == 0 -> modulo a b = Some m -> m == 0.
Proof.
  intros a b m N Z M. unfold modulo in M. rewrite (div_some a b N) in M.
  assert (M' : m = a - b * inject_Z (Qfloor (a / b))) by congruence. rewrite M'. clear M M'.
  assert (D : a / b == 0) by (rewrite Z; field; exact N).
  rewrite (Qfloor_comp _ _ D). rewrite Z. change (inject_Z (Qfloor 0)) with 0. ring.
Qed.

(** remainder: the rest has the sign of the dividend. *)
Lemma remainder_ok : forall a b, ~ b == 0 -> exists q r, remainder a b = Some r
  /\ a == b * inject_Z q + r /\ nearer r b /\ along r a.
Proof.
  intros a b N. destruct (divmod_ok a b N) as [q [m [_ [_ [M [E B]]]]]]. unfold remainder. rewrite M.
  assert (Q1 : forall z, inject_Z (z + 1) == inject_Z z + 1) by (intros z; rewrite inject_Z_plus; reflexivity).
  destruct (Qeq_bool m 0) eqn:Z.
  - apply Qeq_bool_iff in Z. exists q, m. split; [reflexivity|]. split; [exact E|].
    unfold nearer, along. repeat split; intros; lra.
  - assert (NZ : ~ m == 0) by (intros X; apply Qeq_bool_iff in X; congruence).
    destruct ((qlt a 0 && qlt 0 b) || (qlt 0 a && qlt b 0)) eqn:S.
    + exists (q + 1)%Z, (m - b). split; [reflexivity|]. split; [rewrite Q1, E; ring|].
      apply orb_true_iff in S. rewrite !andb_true_iff, !qlt_ok in S.
      unfold between in B. unfold nearer, along.
      destruct S as [[A P]|[A P]], B as [[B1 B2]|[B1 B2]]; repeat split; intros; try lra;
        destruct (nonzero_sign m NZ); lra.
    + exists q, m. split; [reflexivity|]. split; [exact E|].
      apply orb_false_iff in S as [S1 S2].
      assert (A1 : ~ (a < 0 /\ 0 < b)) by (rewrite <- !qlt_ok, <- andb_true_iff; congruence).
      assert (A2 : ~ (0 < a /\ b < 0)) by (rewrite <- !qlt_ok, <- andb_true_iff; congruence).
      unfold between in B. unfold nearer, along.
      assert (A0 : ~ a == 0).
      { intros Z0. apply NZ. exact (modulo_zero a b m N Z0 M). }
      destruct (nonzero_sign a A0) as [P|P], B as [[B1 B2]|[B1 B2]]; repeat split; intros; try lra; exfalso; (apply A1 || apply A2); split; lra.
Qed.

(** step *)
Lemma progression_cons : forall a s n, progression a s (S n) = a :: progression (a + s) s n.
Proof.
  intros a s n; unfold progression. cbn [seq map]. f_equal; [lia|].
  rewrite <- seq_shift, map_map. apply map_ext; intros k. lia.
Qed.

Lemma step_endless : forall n a s, step_loop n None s a = (progression a s n, false).
Proof.
  intros n; induction n as [|n IH]; intros a s; cbn [step_loop]; [reflexivity|].
  rewrite IH, progression_cons; reflexivity.
Qed.

Lemma step_bounded : forall n a l s, s <> 0%Z ->
  step_loop n (Some l) s a = (progression a s (Nat.min n (steps a l s)), Nat.ltb (steps a l s) n).
Proof.
  intros n; induction n as [|n IH]; intros a l s NZ; [reflexivity|]. cbn [step_loop].
  assert (X : forall d t, (0 < t)%Z -> ((d - t) / t = d / t - 1)%Z).
  { intros d t T. replace (d - t)%Z with (d + (-1) * t)%Z by lia. rewrite Z.div_add by lia. lia. }
  assert (G : (if (0 <? s)%Z then (a <=? l)%Z else (l <=? a)%Z) = true -> steps a l s = S (steps (a + s) l s)).
  { unfold steps. destruct (Z.ltb_spec 0 s) as [P|P]; intros H; apply Z.leb_le in H.
    - replace (l - (a + s))%Z with (l - a - s)%Z by lia. rewrite X by lia.
      assert (0 <= (l - a) / s)%Z by (apply Z.div_pos; lia). lia.
    - replace (a + s - l)%Z with (a - l - - s)%Z by lia. rewrite X by lia.
      assert (0 <= (a - l) / - s)%Z by (apply Z.div_pos; lia). lia. }
  assert (K : (if (0 <? s)%Z then (a <=? l)%Z else (l <=? a)%Z) = false -> steps a l s = 0%nat).
  { unfold steps. destruct (Z.ltb_spec 0 s) as [P|P]; intros H; apply Z.leb_gt in H.
    - assert ((l - a) / s < 0)%Z by (apply Z.div_lt_upper_bound; lia). lia.
    - assert ((a - l) / - s < 0)%Z by (apply Z.div_lt_upper_bound; lia). lia. }
  destruct (if (0 <? s)%Z then (a <=? l)%Z else (l <=? a)%Z).
  - rewrite (G eq_refl), (IH (a + s)%Z l s NZ). cbn [Nat.min]. rewrite progression_cons. reflexivity.
  - rewrite (K eq_refl). reflexivity.
Qed.

(** step with a limit: the values up to it, and the end once there are rounds enough. *)
Lemma step_limit_ok : forall n a l s, s <> 0%Z ->
  step n a (Some l) s = Some (progression a s (Nat.min n (steps a l s)), Nat.ltb (steps a l s) n).
Proof.
  intros n a l s NZ; unfold step. destruct (Z.eqb_spec s 0); [contradiction|]. rewrite step_bounded by exact NZ. reflexivity.
Qed.
Lemma step_endless_ok : forall n a s, s <> 0%Z -> step n a None s = Some (progression a s n, false).
Proof. intros n a s NZ; unfold step. destruct (Z.eqb_spec s 0); [contradiction|]. rewrite step_endless; reflexivity. Qed.
Lemma step_zero : forall n a l, step n a l 0 = None.
Proof. reflexivity. Qed.
