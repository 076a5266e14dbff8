From Coq Require Import List Bool ZArith Lia.
From Verif Require Import TimeModel TimeSpec TimeCalProofs.
Import ListNotations.
Open Scope Z_scope.

Lemma date_ok_iff y m d : date_ok y m d = true <-> MIN_YEAR <= y <= MAX_YEAR /\ valid_day (y, m, d) = true.
Proof. unfold date_ok. cbn [valid_day]. rewrite !andb_true_iff, !Z.leb_le. tauto. Qed.
Lemma number_linear y m d k : day_number y m (d + k) = day_number y m d + k.
Proof. rewrite !number_eq. lia. Qed.
Lemma first_ok y m : 1 <= m <= 12 -> valid_day (y, m, 1) = true.
Proof. intros H. pose proof (month_len_range y m). cbn [valid_day]. rewrite !andb_true_iff, !Z.leb_le. lia. Qed.
Lemma date_carry y mon day : MIN_YEAR < y < MAX_YEAR -> 1 <= mon <= 12 -> 1 <= day <= 31 ->
  match from_ymd y mon day with
  | Some d => Ok d
  | None => let dim := days_in_month y mon in
            if day <=? dim then Raise
            else let excess := day - dim in or_raise (if mon =? 12 then from_ymd (y + 1) 1 excess else from_ymd y (mon + 1) excess)
  end = Ok (day_number y mon 1 + (day - 1)).
Proof.
  intros Hy Hm Hd. unfold from_ymd. destruct (date_ok y mon day) eqn:E.
  { rewrite <- number_linear. repeat f_equal. lia. }
  cbv zeta. rewrite days_in_month_eq by lia. pose proof (month_len_range y mon) as Hl.
  destruct (Z.leb_spec day (month_len y mon)).
  { exfalso. assert (date_ok y mon day = true); [|congruence]. apply date_ok_iff. split; [lia|]. cbn [valid_day]. rewrite !andb_true_iff, !Z.leb_le. lia. }
  destruct (Z.eqb_spec mon 12) as [->|Hn]; [exfalso; cbn in H; lia|].
  assert (V : valid_day (y, mon, month_len y mon) = true) by (cbn [valid_day]; rewrite !andb_true_iff, !Z.leb_le; lia).
  pose proof (next_number _ V) as N. cbn [next_day] in N. rewrite <- month_len_eq, Z.ltb_irrefl in N by lia.
  destruct (Z.ltb_spec mon 12); [|lia]. cbn [number] in N.
  assert (D : date_ok y (mon + 1) (day - month_len y mon) = true).
  { apply date_ok_iff. split; [lia|]. pose proof (month_len_range y (mon + 1)). cbn [valid_day]. rewrite !andb_true_iff, !Z.leb_le. lia. }
  rewrite D. cbn [or_raise]. f_equal. replace (day - month_len y mon) with (1 + (day - month_len y mon - 1)) by lia. rewrite number_linear, N.
  pose proof (number_linear y mon 1 (month_len y mon - 1)) as N1. replace (1 + (month_len y mon - 1)) with (month_len y mon) in N1 by lia. lia.
Qed.
Lemma lead_mono a k : 0 <= k -> lead a + 365 * k <= lead (a + k) <= lead a + 366 * k.
Proof.
  intros Hk. pattern k. apply natlike_ind; [replace (a + 0) with a by lia; lia| |exact Hk]. intros i Hi IH. pose proof (lead_step (a + Z.succ i)) as L.
  replace (a + Z.succ i - 1) with (a + i) in L by lia. destruct (leap (a + Z.succ i)); lia.
Qed.
Lemma inside y mon k : MIN_YEAR < y < MAX_YEAR -> 1 <= mon <= 12 -> 0 <= k <= 31 * 86400 -> sec_ok (day_number y mon 1 * 86400 + k) = true.
Proof.
  intros Hy Hm Hk. unfold sec_ok, MIN_SEC, MAX_SEC. rewrite !number_eq. unfold MIN_YEAR, MAX_YEAR in *.
  change (if 1 <=? 2 then _ else _) with (-262143 - 1). change (if 12 <=? 2 then _ else _) with 262142.
  change (base 1) with 306. change (base 12) with 275.
  assert (L1 : lead (-262143 - 1) + 365 * ((if mon <=? 2 then y - 1 else y) - (-262143 - 1)) <= lead (if mon <=? 2 then y - 1 else y)).
  { pose proof (lead_mono (-262143 - 1) ((if mon <=? 2 then y - 1 else y) - (-262143 - 1)) ltac:(destruct (mon <=? 2); lia)) as L.
    replace (-262143 - 1 + ((if mon <=? 2 then y - 1 else y) - (-262143 - 1))) with (if mon <=? 2 then y - 1 else y) in L by lia. lia. }
  assert (L2 : lead (if mon <=? 2 then y - 1 else y) + 365 * (262142 - (if mon <=? 2 then y - 1 else y)) <= lead 262142).
  { pose proof (lead_mono (if mon <=? 2 then y - 1 else y) (262142 - (if mon <=? 2 then y - 1 else y)) ltac:(destruct (mon <=? 2); lia)) as L.
    replace ((if mon <=? 2 then y - 1 else y) + (262142 - (if mon <=? 2 then y - 1 else y))) with 262142 in L by lia. lia. }
  assert (B : 0 <= base mon <= 337 /\ (mon <= 2 -> 306 <= base mon) /\ (2 < mon -> base mon <= 275)).
  { clear - Hm. months mon; match goal with |- context [base ?x] => let v := eval vm_compute in (base x) in change (base x) with v end; lia. }
  set (l0 := lead (-262143 - 1)) in *. set (l1 := lead 262142) in *. clearbody l0 l1.
  apply andb_true_iff. rewrite !Z.leb_le. destruct (Z.leb_spec mon 2).
  - set (ly := lead (y - 1)) in *. clearbody ly. lia.
  - set (ly := lead y) in *. clearbody ly. lia.
Qed.
Lemma build_ok y mon day h mi s n : MIN_YEAR < y < MAX_YEAR -> in_month mon day h mi -> 0 <= s <= 60 -> 0 <= n < G ->
  build_naive y mon day h mi s n = Ok (day_number y mon 1 * 86400 + ((day - 1) * 86400 + h * 3600 + mi * 60 + s), n).
Proof.
  intros Hy (Hm & Hd & Hh & Hi) Hs Hn. unfold build_naive.
  replace ((1 <=? mon) && (mon <=? 12)) with true by (symmetry; apply andb_true_iff; rewrite !Z.leb_le; lia).
  replace ((1 <=? day) && (day <=? 31)) with true by (symmetry; apply andb_true_iff; rewrite !Z.leb_le; lia).
  replace ((23 <? h) || (59 <? mi) || (60 <? s) || (G <=? n)) with false
    by (symmetry; rewrite !orb_false_iff, !Z.ltb_ge, Z.leb_gt; lia).
  cbn [negb]. rewrite date_carry by assumption. cbn [bind]. unfold from_hms.
  assert (Hr : 0 <= (if s =? 60 then 0 else s) < 60) by (destruct (Z.eqb_spec s 60); lia).
  replace ((0 <=? h) && (h <? 24) && (0 <=? mi) && (mi <? 60) && (0 <=? (if s =? 60 then 0 else s)) && ((if s =? 60 then 0 else s) <? 60) && (0 <=? n) && (n <? G))
    with true by (symmetry; rewrite !andb_true_iff, !Z.leb_le, !Z.ltb_lt; lia).
  cbn [or_raise bind]. unfold at_day. cbn [fst snd]. destruct (Z.eqb_spec s 60) as [->|Hne].
  - replace ((day_number y mon 1 + (day - 1)) * 86400 + (h * 3600 + mi * 60 + 0) + 60)
      with (day_number y mon 1 * 86400 + ((day - 1) * 86400 + h * 3600 + mi * 60 + 60)) by lia.
    rewrite (inside y mon ((day - 1) * 86400 + h * 3600 + mi * 60 + 60)) by lia. reflexivity.
  - f_equal. f_equal. lia.
Qed.
Lemma first_fields y mon : 1 <= mon <= 12 -> fields_of (day_number y mon 1 * 86400) = midnight y mon 1.
Proof.
  intros H. pose proof (fields_at (day_number y mon 1) 0 0 0 ltac:(lia) ltac:(lia) ltac:(lia)) as F.
  replace (day_number y mon 1 * 86400 + 0 * 3600 + 0 * 60 + 0) with (day_number y mon 1 * 86400) in F by lia.
  rewrite F, civil_number by (apply first_ok, H). reflexivity.
Qed.
Lemma i32_small y : MIN_YEAR < y < MAX_YEAR -> i32_of y = Some y.
Proof.
  unfold MIN_YEAR, MAX_YEAR, i32_of. intros H. replace ((-(2 ^ 31) <=? y) && (y <? 2 ^ 31)) with true; [reflexivity|].
  symmetry. rewrite andb_true_iff, Z.leb_le, Z.ltb_lt. change (2 ^ 31) with 2147483648. lia.
Qed.
Lemma u32_small y : 0 <= y < 1000 -> u32_of y = Some y.
Proof.
  unfold u32_of. intros H. replace ((0 <=? y) && (y <? 2 ^ 32)) with true; [reflexivity|].
  symmetry. rewrite andb_true_iff, Z.leb_le, Z.ltb_lt. change (2 ^ 32) with 4294967296. lia.
Qed.
Lemma frac_ns n d : 0 < d -> 0 <= (n mod d) * G / d < G.
Proof.
  intros Hd. pose proof (Z.mod_pos_bound n d Hd) as B. split; [apply Z.div_pos; unfold G; nia|]. apply Z.div_lt_upper_bound; [exact Hd|]. unfold G. nia.
Qed.
Lemma sec_rat n d : 0 < d -> 0 <= n / d <= 60 -> sec_split (SRat n d) = (n / d, (n mod d) * G / d).
Proof.
  intros Hd Hb. cbn [sec_split]. replace (i64_fits (n / d)) with true.
  2:{ symmetry. unfold i64_fits. rewrite andb_true_iff, Z.leb_le, Z.ltb_lt. change (2 ^ 63) with 9223372036854775808. lia. }
  f_equal. pose proof (frac_ns n d Hd). unfold clamp_ns. unfold G in *. lia.
Qed.
Lemma usec_small un ud : 0 < ud -> 0 <= un -> un < 1000000 * ud -> usec_ns un ud = Some (un * 1000 / ud) /\ 0 <= un * 1000 / ud < G.
Proof.
  intros Hd H0 H1. assert (B : 0 <= un * 1000 / ud < G).
  { split; [apply Z.div_pos; lia|]. apply Z.div_lt_upper_bound; [exact Hd|]. unfold G. lia. }
  split; [|exact B]. unfold usec_ns. cbv zeta. replace ((0 <=? un * 1000 / ud) && (un * 1000 / ud <? 2 ^ 32)) with true; [reflexivity|].
  symmetry. rewrite andb_true_iff, Z.leb_le, Z.ltb_lt. change (2 ^ 32) with 4294967296. unfold G in B. lia.
Qed.
Lemma args_ok y mon day h mi n d us nn : MIN_YEAR < y < MAX_YEAR -> in_month mon day h mi -> 0 < d -> 0 <= n / d <= 60 ->
  match us with Some (un, ud) => 0 < ud /\ 0 <= un < 1000000 * ud /\ nn = un * 1000 / ud | None => nn = (n mod d) * G / d end ->
  from_args y mon day h mi (SRat n d) us = Ok (day_number y mon 1 * 86400 + ((day - 1) * 86400 + h * 3600 + mi * 60 + n / d), nn).
Proof.
  intros Hy Hf Hd Hs Hu. pose proof Hf as (Hm & Hdd & Hh & Hi). unfold from_args. rewrite i32_small by exact Hy. cbn [or_raise bind].
  rewrite !u32_small by lia. cbn [or_raise bind]. rewrite sec_rat by assumption. cbv beta iota. destruct us as [[un ud]|].
  - destruct Hu as (Hud & Hr & ->). destruct (usec_small un ud Hud) as [-> B]; try lia. cbn [or_raise bind]. rewrite u32_small by lia. cbn [or_raise bind].
    apply build_ok; assumption.
  - subst nn. cbn [or_raise bind]. rewrite u32_small by lia. cbn [or_raise bind]. apply build_ok; try assumption. apply frac_ns, Hd.
Qed.
Lemma whole_floor n d : 0 < d -> whole_ns n d (n * 1000000000 / d).
Proof.
  intros Hd. unfold whole_ns. pose proof (Z.mul_div_le (n * 1000000000) d Hd). pose proof (Z.mul_succ_div_gt (n * 1000000000) d Hd). lia.
Qed.
Lemma fields_ok y mon day h mi n d : MIN_YEAR < y < MAX_YEAR -> in_month mon day h mi -> 0 < d -> 0 <= n / d <= 60 ->
  exists w, from_args y mon day h mi (SRat n d) None = Ok w /\
    fields_of (fst w) = after (seconds day h mi (n / d)) (midnight y mon 1) /\ whole_ns n d (n / d * 1000000000 + snd w) /\ 0 <= snd w < 1000000000.
Proof.
  intros Hy Hf Hd Hs. pose proof Hf as (Hm & Hdd & Hh & Hi). eexists. split; [apply (args_ok y mon day h mi n d None _ Hy Hf Hd Hs eq_refl)|].
  cbn [fst snd]. split; [|split; [|apply frac_ns, Hd]].
  - unfold seconds. rewrite <- first_fields by exact Hm. rewrite <- many_ticks, Z2Nat.id by lia. reflexivity.
  - replace (n / d * 1000000000 + n mod d * G / d) with (n * 1000000000 / d); [apply whole_floor, Hd|].
    rewrite (Z.div_mod n d) at 1 by lia. replace ((d * (n / d) + n mod d) * 1000000000) with ((n mod d * G) + (n / d * 1000000000) * d) by (unfold G; lia).
    rewrite Z.div_add by lia. lia.
Qed.
Lemma usec_fields y mon day h mi s un ud : MIN_YEAR < y < MAX_YEAR -> in_month mon day h mi -> 0 <= s <= 60 -> 0 < ud -> 0 <= un < 1000000 * ud ->
  exists w, from_args y mon day h mi (SRat s 1) (Some (un, ud)) = Ok w /\
    fields_of (fst w) = after (seconds day h mi s) (midnight y mon 1) /\ whole_ns un (1000000 * ud) (snd w).
Proof.
  intros Hy Hf Hs Hd Hu. pose proof Hf as (Hm & Hdd & Hh & Hi). eexists. split.
  - apply (args_ok y mon day h mi s 1 (Some (un, ud)) (un * 1000 / ud) Hy Hf); [lia|rewrite Z.div_1_r; lia|]. repeat split; try lia.
  - cbn [fst snd]. rewrite Z.div_1_r. split.
    + unfold seconds. rewrite <- first_fields by exact Hm. rewrite <- many_ticks, Z2Nat.id by lia. reflexivity.
    + unfold whole_ns. pose proof (Z.mul_div_le (un * 1000) ud Hd). pose proof (Z.mul_succ_div_gt (un * 1000) ud Hd). nia.
Qed.
(** What is outside the ranges is refused, and nothing panics. *)
Lemma bind_ok {A B} (o : option A) (f : A -> res B) w : bind (or_raise o) f = Ok w -> exists a, o = Some a /\ f a = Ok w.
Proof. destruct o as [a|]; cbn; [intros H; exists a; auto|discriminate]. Qed.
Lemma u32_of_some z a : u32_of z = Some a -> a = z /\ 0 <= z.
Proof. unfold u32_of. destruct (Z.leb_spec 0 z); [|discriminate]. cbn [andb]. destruct (z <? 2 ^ 32); [|discriminate]. intros [= ->]. auto. Qed.
Lemma build_range y mon day h mi s n w : build_naive y mon day h mi s n = Ok w -> 0 <= h -> 0 <= mi -> 0 <= s -> in_month mon day h mi /\ 0 <= s <= 60.
Proof.
  unfold build_naive. intros H Hh Hm Hs.
  destruct (Z.leb_spec 1 mon); destruct (Z.leb_spec mon 12); cbn [andb negb] in H; try discriminate.
  destruct (Z.leb_spec 1 day); destruct (Z.leb_spec day 31); cbn [andb negb] in H; try discriminate.
  destruct (Z.ltb_spec 23 h); destruct (Z.ltb_spec 59 mi); destruct (Z.ltb_spec 60 s); cbn [orb] in H; try discriminate.
  unfold in_month. lia.
Qed.
Lemma args_refused y mon day h mi s us w : from_args y mon day h mi (SRat s 1) us = Ok w -> i64_fits s = true ->
  in_month mon day h mi /\ 0 <= s <= 60.
Proof.
  unfold from_args. cbn [sec_split]. rewrite (Z.div_1_r s). intros H Hf. rewrite Hf in H.
  apply bind_ok in H. destruct H as (y' & _ & H). apply bind_ok in H. destruct H as (mon' & E1 & H). apply bind_ok in H. destruct H as (day' & E2 & H).
  apply bind_ok in H. destruct H as (h' & E3 & H). apply bind_ok in H. destruct H as (mi' & E4 & H).
  apply bind_ok in H. destruct H as (n' & _ & H). apply bind_ok in H. destruct H as (s' & E5 & H).
  apply u32_of_some in E1, E2, E3, E4, E5. destruct E1 as [-> _], E2 as [-> _], E3 as [-> H3], E4 as [-> H4], E5 as [-> H5].
  exact (build_range _ _ _ _ _ _ _ _ H H3 H4 H5).
Qed.
Lemma or_raise_panic {A B} (o : option A) (f : A -> res B) : (forall a, f a <> Panic) -> bind (or_raise o) f <> Panic.
Proof. intros H. destruct o as [a|]; cbn; [apply H|discriminate]. Qed.
Lemma args_no_panic y mon day h mi s us : from_args y mon day h mi s us <> Panic.
Proof.
  unfold from_args. repeat (apply or_raise_panic; intros ?). destruct (sec_split s) as [sec frac]. repeat (apply or_raise_panic; intros ?).
  unfold build_naive. repeat match goal with |- (if ?b then _ else _) <> _ => destruct b; [discriminate|] end. cbv zeta.
  destruct (from_ymd _ _ _) as [dd|].
  - cbn [bind]. apply or_raise_panic. intros t. destruct (_ =? 60); [destruct (sec_ok _)|]; discriminate.
  - destruct (_ <=? _); [discriminate|]. match goal with |- context [or_raise ?o] => destruct o end; cbn [or_raise bind]; [|discriminate].
    apply or_raise_panic. intros t. destruct (_ =? 60); [destruct (sec_ok _)|]; discriminate.
Qed.

(** * Arithmetic *)
Lemma total_split t : 0 <= ns t < G -> total t / G = ts t /\ total t mod G = ns t.
Proof.
  intros H. unfold total. split; symmetry; [apply (Z.div_unique _ G _ (ns t))|apply (Z.mod_unique _ G (ts t))]; unfold G in *; lia.
Qed.
Lemma shift_ok t v : MIN_SEC <= (total t + v) / G <= MAX_SEC ->
  exists u, shift_ns t v = Ok u /\ same_place t u /\ instant u = instant t + v /\ good u.
Proof.
  intros H. unfold shift_ns. cbv zeta. replace (sec_ok ((total t + v) / G)) with true by (symmetry; unfold sec_ok; rewrite andb_true_iff, !Z.leb_le; lia).
  eexists. split; [reflexivity|]. split; [split; reflexivity|].
  pose proof (Z.mod_pos_bound (total t + v) G ltac:(unfold G; lia)) as B. pose proof (Z.div_mod (total t + v) G ltac:(unfold G; lia)) as D.
  unfold instant, good. cbn [ts ns]. split; [|split; [unfold G in *; lia|exact H]]. unfold total in D. unfold total. fold G. lia.
Qed.
Lemma add_ok t n d v : 0 < d -> whole_ns n d v -> i64_fits v = true -> MIN_SEC <= (instant t + v) / 1000000000 <= MAX_SEC ->
  exists u, add t n d = Ok u /\ same_place t u /\ instant u = instant t + v /\ good u.
Proof.
  intros Hd Hw Hf Hr. assert (E : n * G / d = v).
  { symmetry. apply (Z.div_unique _ d _ (n * G - v * d)); unfold whole_ns, G in *; lia. }
  unfold add, exact_nanos. cbv zeta. rewrite E, Hf. cbn [bind]. apply shift_ok. exact Hr.
Qed.
Lemma sub_ok t n d v : 0 < d -> whole_ns n d v -> i64_fits v = true -> MIN_SEC <= (instant t - v) / 1000000000 <= MAX_SEC ->
  exists u, sub_num t n d = Ok u /\ same_place t u /\ instant u = instant t - v /\ good u.
Proof.
  intros Hd Hw Hf Hr. assert (E : n * G / d = v).
  { symmetry. apply (Z.div_unique _ d _ (n * G - v * d)); unfold whole_ns, G in *; lia. }
  unfold sub_num, exact_nanos. cbv zeta. rewrite E, Hf. cbn [bind]. replace (instant t - v) with (total t + - v) in * by (unfold total, instant, G; lia).
  destruct (shift_ok t (- v) Hr) as (u & H1 & H2 & H3 & H4). exists u. split; [exact H1|]. split; [exact H2|]. split; [|exact H4]. rewrite H3. unfold total, instant, G. lia.
Qed.
Lemma diff_ok t u : i64_fits (instant t - instant u) = true -> sub_time t u = Ok (instant t - instant u).
Proof. intros H. unfold sub_time. cbv zeta. change (total t) with (instant t). change (total u) with (instant u). rewrite H. reflexivity. Qed.
Lemma cmp_ok t u : good t -> good u -> cmp t u = Z.sgn (instant t - instant u).
Proof.
  intros [H1 _] [H2 _]. unfold cmp, instant.
  destruct (Z.compare_spec (ts t) (ts u)) as [E|E|E].
  - destruct (Z.compare_spec (ns t) (ns u)) as [E'|E'|E']; symmetry; rewrite E; [rewrite E'; rewrite Z.sub_diag; reflexivity|apply Z.sgn_neg; lia|apply Z.sgn_pos; lia].
  - symmetry. apply Z.sgn_neg. lia.
  - symmetry. apply Z.sgn_pos. lia.
Qed.
Lemma hash_ok t u : good t -> good u -> (cmp t u = 0 <-> hash_of t = hash_of u).
Proof.
  intros [H1 _] [H2 _]. unfold cmp, hash_of. destruct (Z.compare_spec (ts t) (ts u)) as [E|E|E]; [|split; [discriminate|intros [= F G]; lia]..].
  destruct (Z.compare_spec (ns t) (ns u)) as [E'|E'|E']; [|split; [discriminate|intros [= F G]; lia]..]. rewrite E, E'. tauto.
Qed.
Lemma at_ok n d o v : 0 < d -> whole_ns n d v -> MIN_SEC <= v / 1000000000 <= MAX_SEC -> i64_fits (v / 1000000000) = true ->
  exists u, time_at n d None 1000 o = Ok u /\ instant u = v /\ good u /\ off u = o.
Proof.
  intros Hd Hw Hr Hf. assert (E : n * G / d = v) by (symmetry; apply (Z.div_unique _ d _ (n * G - v * d)); unfold whole_ns, G in *; lia).
  assert (Es : n / d * G + n mod d * G / d = v).
  { rewrite <- E. pose proof (Z.div_mod n d ltac:(lia)) as DM. assert (N : n * G = n mod d * G + (n / d * G) * d) by (rewrite DM at 1; ring).
    rewrite N, Z.div_add by lia. lia. }
  pose proof (frac_ns n d Hd) as Bf. assert (Ev : v / 1000000000 = n / d).
  { symmetry. apply (Z.div_unique _ 1000000000 _ (n mod d * G / d)); unfold G in *; lia. }
  unfold time_at. cbv zeta. replace (i64_fits (n / d)) with true by (rewrite <- Ev; symmetry; exact Hf).
  replace (clamp_ns (n mod d * G / d)) with (n mod d * G / d) by (unfold clamp_ns, G in *; lia).
  change ((-(2 ^ 127) <=? 0) && (0 <? 2 ^ 127)) with true. cbv iota. rewrite Z.add_0_r, Es. change G with 1000000000. rewrite Hf.
  replace (sec_ok (v / 1000000000)) with true by (symmetry; unfold sec_ok; rewrite andb_true_iff, !Z.leb_le; lia).
  eexists. split; [reflexivity|]. pose proof (Z.mod_pos_bound v 1000000000 ltac:(lia)). pose proof (Z.div_mod v 1000000000 ltac:(lia)).
  unfold instant, good. cbn [ts ns off]. lia.
Qed.

(** * Rounding *)
Lemma rescale_cases n p mode : 0 <= p <= 9 -> 0 <= n < G -> mode = -1 \/ mode = 0 \/ mode = 1 ->
  exists q, rescale n p mode = q * 10 ^ (9 - p) /\ 0 <= q * 10 ^ (9 - p) <= G /\
    match mode with
    | Zneg _ => q * 10 ^ (9 - p) <= n < (q + 1) * 10 ^ (9 - p)
    | Zpos _ => (q - 1) * 10 ^ (9 - p) < n <= q * 10 ^ (9 - p)
    | Z0 => (2 * q - 1) * 10 ^ (9 - p) <= 2 * n < (2 * q + 1) * 10 ^ (9 - p)
    end.
Proof.
  intros Hp Hn Hm. unfold rescale. destruct (Z.leb_spec 9 p) as [L|L].
  { assert (p = 9) as -> by lia. exists n. change (10 ^ (9 - 9)) with 1. destruct Hm as [-> | [-> | ->]]; lia. }
  set (div := 10 ^ (9 - p)). assert (Hdv : exists k, G = k * div /\ 0 < div).
  { exists (10 ^ p). split; [|apply Z.pow_pos_nonneg; lia]. unfold div. rewrite <- Z.pow_add_r by lia. replace (p + (9 - p)) with 9 by lia. reflexivity. }
  destruct Hdv as (k & Hg & Hd). clearbody div. cbv zeta.
  pose proof (Z.div_mod n div ltac:(lia)) as D. pose proof (Z.mod_pos_bound n div Hd) as B. set (q := n / div) in *. set (r := n mod div) in *. clearbody q r.
  assert (Hq : 0 <= q < k) by nia. destruct Hm as [-> | [-> | ->]].
  - change (-1 =? -1) with true. cbv iota. exists q. split; [reflexivity|]. split; nia.
  - change (0 =? -1) with false. change (0 =? 1) with false. cbv iota. destruct (Z.leb_spec div (r * 2)).
    + exists (q + 1). split; [reflexivity|]. split; nia.
    + exists q. split; [reflexivity|]. split; nia.
  - change (1 =? -1) with false. change (1 =? 1) with true. cbv iota. destruct (Z.eqb_spec r 0).
    + exists q. split; [reflexivity|]. split; nia.
    + exists (q + 1). split; [reflexivity|]. split; nia.
Qed.
Lemma round_ok t mode p : good t -> ts t < MAX_SEC -> 0 <= p <= 9 -> mode = -1 \/ mode = 0 \/ mode = 1 ->
  exists u k, apply_subsec t mode p = Ok u /\ same_place t u /\ good u /\ instant u = k * 10 ^ (9 - p) /\
    match mode with
    | Zneg _ => instant u <= instant t < instant u + 10 ^ (9 - p)
    | Zpos _ => instant u - 10 ^ (9 - p) < instant t <= instant u
    | Z0 => 2 * instant u - 10 ^ (9 - p) <= 2 * instant t < 2 * instant u + 10 ^ (9 - p)
    end.
Proof.
  intros [Hn Hr] Hx Hp Hm. destruct (rescale_cases (ns t) p mode Hp Hn Hm) as (q & E & B & C).
  assert (Hk : G = 10 ^ p * 10 ^ (9 - p)) by (rewrite <- Z.pow_add_r by lia; replace (p + (9 - p)) with 9 by lia; reflexivity).
  unfold apply_subsec. replace ((0 <=? p) && (p <=? 9)) with true by (symmetry; rewrite andb_true_iff, !Z.leb_le; lia). cbv zeta. rewrite E.
  set (w := 10 ^ (9 - p)) in *. set (k := 10 ^ p) in *. clearbody w k. destruct (Z.leb_spec G (q * w)) as [L|L].
  - replace (sec_ok (ts t + 1)) with true by (symmetry; unfold sec_ok; rewrite andb_true_iff, !Z.leb_le; lia).
    exists (mkT (utc t) (ts t + 1) 0 (off t)), ((ts t + 1) * k). split; [reflexivity|]. unfold same_place, good, instant. cbn [utc ts ns off].
    assert (Eq : q * w = G) by lia. split; [auto|]. split; [lia|]. fold G. split; [rewrite Hk; ring|].
    destruct mode; unfold G in *; nia.
  - exists (mkT (utc t) (ts t) (q * w) (off t)), (ts t * k + q). split; [reflexivity|]. unfold same_place, good, instant. cbn [utc ts ns off].
    split; [auto|]. split; [unfold G in L; lia|]. fold G. split; [rewrite Hk; ring|]. destruct mode; unfold G in *; nia.
Qed.
