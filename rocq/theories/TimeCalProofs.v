From Coq Require Import List Bool ZArith Lia.
From Verif Require Import TimeModel TimeSpec.
Import ListNotations.
Open Scope Z_scope.

Definition valid_day (x : Z * Z * Z) : bool := let '(y, m, d) := x in (1 <=? m) && (m <=? 12) && (1 <=? d) && (d <=? month_len y m).
Definition number (x : Z * Z * Z) : Z := let '(y, m, d) := x in day_number y m d.
Fixpoint all_from (f : Z -> bool) (k : nat) (n : Z) : bool := match k with O => true | S k => f n && all_from f k (n + 1) end.
Lemma all_from_ok f k : forall n, all_from f k n = true -> forall i, n <= i < n + Z.of_nat k -> f i = true.
Proof.
  induction k as [|k IH]; intros n H i Hi; [lia|]. cbn [all_from] in H. apply andb_true_iff in H. destruct H as [H1 H2].
  destruct (Z.eq_dec i n) as [->|]; [exact H1|]. apply (IH (n + 1) H2). lia.
Qed.
Ltac months m :=
  let D := fresh "D" in
  assert (m = 1 \/ m = 2 \/ m = 3 \/ m = 4 \/ m = 5 \/ m = 6 \/ m = 7 \/ m = 8 \/ m = 9 \/ m = 10 \/ m = 11 \/ m = 12) as D by lia;
  repeat destruct D as [->|D]; [..|subst m].
Lemma month_len_eq y m : 1 <= m <= 12 -> month_len y m = ruby_month y m.
Proof.
  intros H. assert (leap y = ruby_leap y) as E.
  { unfold leap, ruby_leap. pose proof (Z.div_mod y 400 ltac:(lia)) as H4. pose proof (Z.mod_pos_bound y 400 ltac:(lia)) as B4.
    pose proof (Z.div_mod y 100 ltac:(lia)) as H1. pose proof (Z.mod_pos_bound y 100 ltac:(lia)) as B1.
    pose proof (Z.div_mod y 4 ltac:(lia)) as H0. pose proof (Z.mod_pos_bound y 4 ltac:(lia)) as B0.
    destruct (y mod 400 =? 0); destruct (Z.eqb_spec (y mod 100) 0) as [E|E]; destruct (Z.eqb_spec (y mod 4) 0) as [E'|E']; cbn; reflexivity. }
  unfold month_len, ruby_month. rewrite E.
  assert (m = 1 \/ m = 2 \/ m = 3 \/ m = 4 \/ m = 5 \/ m = 6 \/ m = 7 \/ m = 8 \/ m = 9 \/ m = 10 \/ m = 11 \/ m = 12) as D by lia.
  repeat destruct D as [->|D]; try reflexivity. subst m. reflexivity.
Qed.
Lemma days_in_month_eq y m : 1 <= m <= 12 -> days_in_month y m = month_len y m.
Proof.
  intros H. assert (R : forall c, 0 < c -> (Z.rem y c =? 0) = (y mod c =? 0)).
  { intros c Hc. destruct (Z.eqb_spec (Z.rem y c) 0) as [E|E]; destruct (Z.eqb_spec (y mod c) 0) as [E'|E']; try reflexivity.
    - exfalso. apply E'. apply Z.rem_divide in E; [|lia]. destruct E as [k ->]. apply Z_mod_mult.
    - exfalso. apply E. apply Z.mod_divide in E'; [|lia]. destruct E' as [k ->]. apply Z.rem_mul. lia. }
  unfold days_in_month, month_len, leap. rewrite !R by lia.
  assert (m = 1 \/ m = 2 \/ m = 3 \/ m = 4 \/ m = 5 \/ m = 6 \/ m = 7 \/ m = 8 \/ m = 9 \/ m = 10 \/ m = 11 \/ m = 12) as D by lia.
  repeat destruct D as [->|D]; try reflexivity. subst m. reflexivity.
Qed.

(** * Days *)
Lemma div_plus a b c : c > 0 -> (a * c + b) / c = a + b / c.
Proof. intros H. rewrite Z.add_comm, Z.div_add by lia. lia. Qed.
Definition lead (y : Z) : Z := 365 * y + y / 4 - y / 100 + y / 400.
Lemma lead_eq y : y / 400 * 146097 + (y mod 400 * 365 + y mod 400 / 4 - y mod 400 / 100) = lead y.
Proof.
  unfold lead. pose proof (Z.div_mod y 400 ltac:(lia)) as D. set (q := y / 400) in *. set (r := y mod 400) in *. clearbody q r. subst y.
  replace (400 * q + r) with ((100 * q) * 4 + r) at 2 by lia. rewrite div_plus by lia.
  replace (400 * q + r) with ((4 * q) * 100 + r) at 2 by lia. rewrite div_plus by lia. lia.
Qed.
Definition base (m : Z) : Z := (153 * (if 2 <? m then m - 3 else m + 9) + 2) / 5.
Lemma number_eq y m d : day_number y m d = lead (if m <=? 2 then y - 1 else y) + base m + d - 1 - 719468.
Proof. unfold day_number. cbv zeta. rewrite <- lead_eq. unfold base. lia. Qed.
Ltac bases :=
  repeat match goal with
         | |- context [base ?k] => let v := eval vm_compute in (base k) in change (base k) with v
         | |- context [?a <=? 2] => let v := eval vm_compute in (a <=? 2) in change (a <=? 2) with v
         end; cbv beta iota.
Lemma lead_step y : lead y = lead (y - 1) + 365 + (if leap y then 1 else 0).
Proof.
  unfold lead, leap. pose proof (Z.div_mod y 4 ltac:(lia)) as D1. pose proof (Z.mod_pos_bound y 4 ltac:(lia)) as B1.
  pose proof (Z.div_mod y 100 ltac:(lia)) as D2. pose proof (Z.mod_pos_bound y 100 ltac:(lia)) as B2.
  pose proof (Z.div_mod y 400 ltac:(lia)) as D3. pose proof (Z.mod_pos_bound y 400 ltac:(lia)) as B3.
  assert (S : forall c, 0 < c -> (y - 1) / c = y / c - (if y mod c =? 0 then 1 else 0)).
  { intros c Hc. pose proof (Z.div_mod y c ltac:(lia)) as D. pose proof (Z.mod_pos_bound y c ltac:(lia)) as B.
    destruct (Z.eqb_spec (y mod c) 0) as [E|E]; symmetry; [apply (Z.div_unique _ c _ (c - 1))|apply (Z.div_unique _ c _ (y mod c - 1))]; lia. }
  rewrite !S by lia.
  destruct (Z.eqb_spec (y mod 4) 0); destruct (Z.eqb_spec (y mod 100) 0); destruct (Z.eqb_spec (y mod 400) 0); cbn [negb andb orb]; lia.
Qed.
Lemma next_number x : valid_day x = true -> number (next_day x) = number x + 1.
Proof.
  destruct x as [[y m] d]. cbn [valid_day]. rewrite !andb_true_iff, !Z.leb_le. intros [[[H1 H2] H3] H4].
  rewrite month_len_eq in H4 by lia. cbn [next_day]. destruct (Z.ltb_spec d (ruby_month y m)) as [L|L].
  { cbn [number]. rewrite !number_eq. lia. }
  assert (E : d = month_len y m) by (rewrite month_len_eq by lia; lia). subst d. clear H3 H4 L.
  pose proof (lead_step y) as LS. unfold month_len.
  months m; cbn [Z.eqb Pos.eqb orb]; try (change (12 <? 12) with false); try match goal with |- context [?a <? 12] => change (a <? 12) with true end;
  cbv beta iota; cbn [number]; rewrite !number_eq; bases; replace (y + 1 - 1) with y by lia; try lia.
  destruct (leap y); lia.
Qed.
Lemma month_len_range y m : 28 <= month_len y m <= 31.
Proof. unfold month_len. repeat match goal with |- context [if ?b then _ else _] => destruct b end; lia. Qed.
Lemma next_onto x : valid_day x = true -> exists w, valid_day w = true /\ next_day w = x.
Proof.
  destruct x as [[y m] d]. cbn [valid_day]. rewrite !andb_true_iff, !Z.leb_le. intros [[[H1 H2] H3] H4].
  destruct (Z.ltb_spec 1 d).
  { exists (y, m, d - 1). cbn [valid_day next_day]. rewrite !andb_true_iff, !Z.leb_le. split; [lia|].
    rewrite <- month_len_eq by lia. destruct (Z.ltb_spec (d - 1) (month_len y m)); [|lia]. repeat f_equal. lia. }
  assert (d = 1) as -> by lia. destruct (Z.ltb_spec 1 m).
  { exists (y, m - 1, month_len y (m - 1)). pose proof (month_len_range y (m - 1)). cbn [valid_day next_day].
    rewrite !andb_true_iff, !Z.leb_le. split; [lia|]. rewrite <- month_len_eq by lia. rewrite Z.ltb_irrefl.
    destruct (Z.ltb_spec (m - 1) 12); [|lia]. repeat f_equal. lia. }
  assert (m = 1) as -> by lia. exists (y - 1, 12, 31). split; [reflexivity|]. cbn [next_day].
  change (31 <? ruby_month (y - 1) 12) with false. change (12 <? 12) with false. cbv beta iota. repeat f_equal. lia.
Qed.
Lemma next_valid x : valid_day x = true -> valid_day (next_day x) = true.
Proof.
  destruct x as [[y m] d]. cbn [valid_day]. rewrite !andb_true_iff, !Z.leb_le. intros [[[H1 H2] H3] H4]. cbn [next_day].
  rewrite <- month_len_eq by lia. pose proof (month_len_range y (m + 1)). pose proof (month_len_range (y + 1) 1).
  destruct (Z.ltb_spec d (month_len y m)); [|destruct (Z.ltb_spec m 12)]; cbn [valid_day]; rewrite !andb_true_iff, !Z.leb_le; lia.
Qed.
Lemma all_days n : exists x, valid_day x = true /\ number x = n.
Proof.
  destruct (Z_le_gt_dec 0 n) as [H|H].
  - pattern n. apply natlike_ind; [exists (1970, 1, 1); split; reflexivity| |exact H].
    intros k Hk (x & Hv & E). exists (next_day x). split; [apply next_valid, Hv|]. rewrite next_number by exact Hv. lia.
  - assert (Hk : forall k, 0 <= k -> exists x, valid_day x = true /\ number x = - k).
    { apply natlike_ind; [exists (1970, 1, 1); split; reflexivity|]. intros k Hk (x & Hv & E).
      destruct (next_onto x Hv) as (w & Hw & <-). exists w. split; [exact Hw|]. rewrite next_number in E by exact Hw. lia. }
    destruct (Hk (- n) ltac:(lia)) as (x & Hv & E). exists x. split; [exact Hv|lia].
Qed.
(** The way back. *)
Definition g (e : Z) : Z := e - e / 1460 + e / 36524 - e / 146096.
Lemma g_step e : 0 <= e -> e + 1 < 146097 -> g e <= g (e + 1).
Proof.
  intros H1 H2. unfold g.
  assert (A : (e + 1) / 1460 <= e / 1460 + 1) by (rewrite <- (Z.div_add _ 1 1460) by lia; apply Z.div_le_mono; lia).
  assert (B : e / 36524 <= (e + 1) / 36524) by (apply Z.div_le_mono; lia).
  destruct (Z.eq_dec e 146095) as [->|]; [vm_compute; discriminate|].
  rewrite (Z.div_small e 146096), (Z.div_small (e + 1) 146096) by lia. lia.
Qed.
Lemma g_mono a k : 0 <= a -> a + Z.of_nat k < 146097 -> g a <= g (a + Z.of_nat k).
Proof.
  intros Ha. induction k as [|k IH]; intros Hb; [rewrite Z.add_0_r; lia|]. specialize (IH ltac:(lia)).
  replace (a + Z.of_nat (S k)) with (a + Z.of_nat k + 1) by lia. pose proof (g_step (a + Z.of_nat k) ltac:(lia) ltac:(lia)). lia.
Qed.
Definition start (r : Z) : Z := r * 365 + r / 4 - r / 100.
Definition year_len (r : Z) : Z := if leap (r + 1) then 366 else 365.
Definition check_year (r : Z) : bool :=
  (g (start r) / 365 =? r) && (g (start r + year_len r - 1) / 365 =? r) && (0 <=? start r) && (start r + year_len r <=? 146097).
Lemma check_years : all_from check_year (Z.to_nat 400) 0 = true.
Proof. vm_compute. reflexivity. Qed.
Lemma year_back r e : 0 <= r < 400 -> start r <= e < start r + year_len r -> g e / 365 = r /\ 0 <= e < 146097.
Proof.
  intros Hr He. pose proof (all_from_ok _ _ _ check_years r) as H. rewrite Z2Nat.id in H by lia. specialize (H ltac:(lia)).
  unfold check_year in H. rewrite !andb_true_iff, !Z.eqb_eq, !Z.leb_le in H. destruct H as [[[H1 H2] H3] H4].
  assert (Hl : g (start r) <= g e).
  { pose proof (g_mono (start r) (Z.to_nat (e - start r)) H3) as M. rewrite Z2Nat.id in M by lia. replace (start r + (e - start r)) with e in M by lia. apply M. lia. }
  assert (Hu : g e <= g (start r + year_len r - 1)).
  { pose proof (g_mono e (Z.to_nat (start r + year_len r - 1 - e)) ltac:(lia)) as M. rewrite Z2Nat.id in M by lia.
    replace (e + (start r + year_len r - 1 - e)) with (start r + year_len r - 1) in M by lia. apply M. lia. }
  split; [|lia]. pose proof (Z.div_le_mono _ _ 365 ltac:(lia) Hl). pose proof (Z.div_le_mono _ _ 365 ltac:(lia) Hu). lia.
Qed.
Lemma month_back mp d : 0 <= mp <= 11 -> 1 <= d -> d <= month_len 4 (if mp <? 10 then mp + 3 else mp - 9) ->
  (5 * ((153 * mp + 2) / 5 + d - 1) + 2) / 153 = mp.
Proof.
  intros Hm Hd. assert (mp = 0 \/ mp = 1 \/ mp = 2 \/ mp = 3 \/ mp = 4 \/ mp = 5 \/ mp = 6 \/ mp = 7 \/ mp = 8 \/ mp = 9 \/ mp = 10 \/ mp = 11) as D by lia.
  repeat destruct D as [->|D]; [..|subst mp]; match goal with |- _ <= ?a -> (5 * (?b + _ - _) + _) / _ = _ =>
    let a' := eval vm_compute in a in let b' := eval vm_compute in b in change a with a'; change b with b' end; intros Hu;
  symmetry; match goal with |- ?k = ?x / 153 => apply (Z.div_unique x 153 k (x - 153 * k)); lia end.
Qed.
Lemma civil_number y m d : valid_day (y, m, d) = true -> civil (day_number y m d) = (y, m, d).
Proof.
  cbn [valid_day]. rewrite !andb_true_iff, !Z.leb_le. intros [[[H1 H2] H3] H4]. unfold civil, day_number. cbv zeta.
  set (y' := if m <=? 2 then y - 1 else y). set (mp := if 2 <? m then m - 3 else m + 9).
  pose proof (Z.div_mod y' 400 ltac:(lia)) as D. pose proof (Z.mod_pos_bound y' 400 ltac:(lia)) as B.
  set (q := y' / 400) in *. set (r := y' mod 400) in *. clearbody q r.
  set (doy := (153 * mp + 2) / 5 + d - 1).
  assert (Em : (if mp <? 10 then mp + 3 else mp - 9) = m).
  { unfold mp. destruct (Z.ltb_spec 2 m).
    - destruct (Z.ltb_spec (m - 3) 10); lia.
    - destruct (Z.ltb_spec (m + 9) 10); lia. }
  assert (Hmp : 0 <= mp <= 11) by (unfold mp; destruct (Z.ltb_spec 2 m); lia).
  assert (Hl : 0 <= doy < year_len r).
  { assert (Lr : leap (r + 1) = leap (y' + 1)).
    { rewrite D. unfold leap. replace (400 * q + r + 1) with (r + 1 + (100 * q) * 4) at 1 by lia. rewrite Z_mod_plus_full.
      replace (400 * q + r + 1) with (r + 1 + (4 * q) * 100) at 1 by lia. rewrite Z_mod_plus_full.
      replace (400 * q + r + 1) with (r + 1 + q * 400) by lia. rewrite Z_mod_plus_full. reflexivity. }
    unfold year_len. rewrite Lr. unfold doy, mp, y' in *. clear - H1 H2 H3 H4. revert H4. unfold month_len.
    months m; cbn [Z.eqb Pos.eqb orb]; intros H4; match goal with |- 0 <= ?b + _ - _ < _ => let b' := eval vm_compute in b in change b with b' end;
    try (match goal with |- context [leap ?x] => destruct (leap x) end; lia).
    change (2 <=? 2) with true. cbv iota. replace (y - 1 + 1) with y by lia. destruct (leap y); lia. }
  replace (q * 146097 + (r * 365 + r / 4 - r / 100 + doy) - 719468 + 719468) with ((start r + doy) + q * 146097) by (unfold start; lia).
  destruct (year_back r (start r + doy) B ltac:(lia)) as [Hy He].
  rewrite Z_mod_plus_full, Z_div_plus_full by lia. rewrite (Z.mod_small (start r + doy) 146097), (Z.div_small (start r + doy) 146097) by exact He.
  change (start r + doy - (start r + doy) / 1460 + (start r + doy) / 36524 - (start r + doy) / 146096) with (g (start r + doy)). rewrite Hy.
  replace (start r + doy - (365 * r + r / 4 - r / 100)) with doy by (unfold start; lia).
  assert (Eb : (5 * doy + 2) / 153 = mp).
  { unfold doy. apply month_back; [exact Hmp|exact H3|]. rewrite Em. clear - H1 H2 H4. revert H4. unfold month_len. destruct (m =? 2); [|lia].
    change (leap 4) with true. destruct (leap y); lia. }
  rewrite Eb, Em. f_equal; [f_equal|unfold doy; lia]. unfold y' in *. destruct (m <=? 2); lia.
Qed.
Lemma day_facts n : number (civil n) = n /\ valid_day (civil n) = true /\ civil (n + 1) = next_day (civil n).
Proof.
  destruct (all_days n) as ([[y m] d] & Hv & <-). cbn [number]. rewrite (civil_number y m d Hv). repeat split; [exact Hv|].
  pose proof (next_number _ Hv) as E. cbn [number] in E. rewrite <- E. pose proof (next_valid _ Hv) as Hn. destruct (next_day (y, m, d)) as [[y1 m1] d1].
  exact (civil_number y1 m1 d1 Hn).
Qed.

(** * Seconds *)
Lemma epoch : fields_of 0 = (1970, 1, 1, (0, 0, 0)).
Proof. reflexivity. Qed.
Lemma clock_split r h mi s : 0 <= mi < 60 -> 0 <= s < 60 -> r = h * 3600 + mi * 60 + s -> r / 3600 = h /\ r / 60 mod 60 = mi /\ r mod 60 = s.
Proof.
  intros Hm Hs ->. assert (E : (h * 3600 + mi * 60 + s) / 60 = h * 60 + mi).
  { symmetry. apply (Z.div_unique _ 60 _ s); lia. }
  repeat split.
  - symmetry. apply (Z.div_unique _ 3600 _ (mi * 60 + s)); lia.
  - rewrite E. symmetry. apply (Z.mod_unique _ 60 h); lia.
  - symmetry. apply (Z.mod_unique _ 60 (h * 60 + mi)); lia.
Qed.
Lemma fields_at n h mi s : 0 <= h < 24 -> 0 <= mi < 60 -> 0 <= s < 60 ->
  fields_of (n * 86400 + h * 3600 + mi * 60 + s) = (civil n, (h, mi, s)).
Proof.
  intros Hh Hm Hs. unfold fields_of. cbv zeta.
  replace ((n * 86400 + h * 3600 + mi * 60 + s) / 86400) with n by (apply (Z.div_unique _ 86400 _ (h * 3600 + mi * 60 + s)); lia).
  replace ((n * 86400 + h * 3600 + mi * 60 + s) mod 86400) with (h * 3600 + mi * 60 + s) by (apply (Z.mod_unique _ 86400 n); lia).
  destruct (clock_split (h * 3600 + mi * 60 + s) h mi s Hm Hs eq_refl) as (-> & -> & ->). reflexivity.
Qed.
Lemma split_sec x : exists n h mi s, x = n * 86400 + h * 3600 + mi * 60 + s /\ 0 <= h < 24 /\ 0 <= mi < 60 /\ 0 <= s < 60.
Proof.
  pose proof (Z.mod_pos_bound x 86400 ltac:(lia)) as B1. pose proof (Z.div_mod x 86400 ltac:(lia)) as D1.
  set (r := x mod 86400) in *. clearbody r. pose proof (Z.mod_pos_bound r 3600 ltac:(lia)) as B2. pose proof (Z.div_mod r 3600 ltac:(lia)) as D2.
  set (q := r mod 3600) in *. clearbody q. pose proof (Z.mod_pos_bound q 60 ltac:(lia)) as B3. pose proof (Z.div_mod q 60 ltac:(lia)) as D3.
  exists (x / 86400), (r / 3600), (q / 60), (q mod 60). lia.
Qed.
Lemma one_tick x : fields_of (x + 1) = tick (fields_of x).
Proof.
  destruct (split_sec x) as (n & h & mi & s & -> & Hh & Hm & Hs). rewrite fields_at by assumption. cbn [tick].
  destruct (Z.ltb_spec s 59).
  { replace (n * 86400 + h * 3600 + mi * 60 + s + 1) with (n * 86400 + h * 3600 + mi * 60 + (s + 1)) by lia. apply fields_at; lia. }
  destruct (Z.ltb_spec mi 59).
  { replace (n * 86400 + h * 3600 + mi * 60 + s + 1) with (n * 86400 + h * 3600 + (mi + 1) * 60 + 0) by lia. apply fields_at; lia. }
  destruct (Z.ltb_spec h 23).
  { replace (n * 86400 + h * 3600 + mi * 60 + s + 1) with (n * 86400 + (h + 1) * 3600 + 0 * 60 + 0) by lia. apply fields_at; lia. }
  replace (n * 86400 + h * 3600 + mi * 60 + s + 1) with ((n + 1) * 86400 + 0 * 3600 + 0 * 60 + 0) by lia. rewrite fields_at by lia.
  destruct (day_facts n) as (_ & _ & ->). reflexivity.
Qed.
Lemma many_ticks k x : fields_of (x + Z.of_nat k) = after k (fields_of x).
Proof.
  induction k as [|k IH]; [rewrite Z.add_0_r; reflexivity|]. cbn [after]. rewrite <- IH, <- one_tick. f_equal. lia.
Qed.
