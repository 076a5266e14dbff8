From Coq Require Import List Bool ZArith Lia.
From Verif Require Import TimeModel TimeSpec TimeCalProofs TimeProofs.
Import ListNotations.
Open Scope Z_scope.

Lemma le32_back w : 0 <= w < 4294967296 -> un32 (le32 w) = w.
Proof.
  intros H. unfold le32, un32. pose proof (Z.div_mod w 256 ltac:(lia)). pose proof (Z.div_mod (w / 256) 256 ltac:(lia)).
  pose proof (Z.div_mod (w / 65536) 256 ltac:(lia)). assert (w / 65536 = w / 256 / 256) by (rewrite Z.div_div by lia; reflexivity).
  assert (w / 16777216 = w / 65536 / 256) by (rewrite Z.div_div by lia; reflexivity).
  assert (w / 16777216 mod 256 = w / 16777216). { apply Z.mod_small. split; [apply Z.div_pos; lia|apply Z.div_lt_upper_bound; lia]. }
  lia.
Qed.
Lemma word_high u Y M D h : 0 <= u <= 1 -> 0 <= Y < 65536 -> 0 <= M < 16 -> 0 <= D < 32 -> 0 <= h < 32 ->
  let w := 2147483648 + u * 1073741824 + Y * 16384 + M * 1024 + D * 32 + h in
  0 <= w < 4294967296 /\ (w / 2147483648) mod 2 = 1 /\ (w / 1073741824) mod 2 = u /\ (w / 16384) mod 65536 = Y /\ (w / 1024) mod 16 = M /\ (w / 32) mod 32 = D /\ w mod 32 = h.
Proof.
  intros. unfold w. split; [lia|].
  replace ((2147483648 + u * 1073741824 + Y * 16384 + M * 1024 + D * 32 + h) / 2147483648) with 1
    by (apply (Z.div_unique _ 2147483648 _ (u * 1073741824 + Y * 16384 + M * 1024 + D * 32 + h)); lia).
  replace ((2147483648 + u * 1073741824 + Y * 16384 + M * 1024 + D * 32 + h) / 1073741824) with (2 + u)
    by (apply (Z.div_unique _ 1073741824 _ (Y * 16384 + M * 1024 + D * 32 + h)); lia).
  replace ((2147483648 + u * 1073741824 + Y * 16384 + M * 1024 + D * 32 + h) / 16384) with ((2 + u) * 65536 + Y)
    by (apply (Z.div_unique _ 16384 _ (M * 1024 + D * 32 + h)); lia).
  replace ((2147483648 + u * 1073741824 + Y * 16384 + M * 1024 + D * 32 + h) / 1024) with (((2 + u) * 65536 + Y) * 16 + M)
    by (apply (Z.div_unique _ 1024 _ (D * 32 + h)); lia).
  replace ((2147483648 + u * 1073741824 + Y * 16384 + M * 1024 + D * 32 + h) / 32) with ((((2 + u) * 65536 + Y) * 16 + M) * 32 + D)
    by (apply (Z.div_unique _ 32 _ h); lia).
  split; [reflexivity|]. repeat split; symmetry.
  - apply (Z.mod_unique _ 2 1); lia.
  - apply (Z.mod_unique _ 65536 (2 + u)); lia.
  - apply (Z.mod_unique _ 16 ((2 + u) * 65536 + Y)); lia.
  - apply (Z.mod_unique _ 32 (((2 + u) * 65536 + Y) * 16 + M)); lia.
  - apply (Z.mod_unique _ 32 ((((2 + u) * 65536 + Y) * 16 + M) * 32 + D)); lia.
Qed.
Lemma word_low mi s us : 0 <= mi < 64 -> 0 <= s < 64 -> 0 <= us < 1048576 ->
  let w := mi * 67108864 + s * 1048576 + us in
  0 <= w < 4294967296 /\ (w / 67108864) mod 64 = mi /\ (w / 1048576) mod 64 = s /\ w mod 1048576 = us.
Proof.
  intros. unfold w. split; [lia|].
  replace ((mi * 67108864 + s * 1048576 + us) / 67108864) with mi by (apply (Z.div_unique _ 67108864 _ (s * 1048576 + us)); lia).
  replace ((mi * 67108864 + s * 1048576 + us) / 1048576) with (mi * 64 + s) by (apply (Z.div_unique _ 1048576 _ us); lia).
  repeat split; [apply Z.mod_small; lia|symmetry; apply (Z.mod_unique _ 64 mi); lia|symmetry; apply (Z.mod_unique _ 1048576 (mi * 64 + s)); lia].
Qed.
Lemma load_dump z cands t : good t -> 1900 <= year_of t <= 67435 ->
  load z cands (dump t) =
    if utc t then Ok (mkT true (ts t + off t) (ns t / 1000 * 1000) 0)
    else match from_local z cands (ts t + off t) with
         | Single o | Ambiguous o _ => Ok (mkT false (ts t + off t - o) (ns t / 1000 * 1000) o)
         | Nowhere => Raise
         end.
Proof.
  intros [Hn _] Hy. unfold year_of in Hy. unfold dump. destruct (split_sec (ts t + off t)) as (n & h & mi & s & Ew & Hh & Hm & Hs).
  rewrite Ew in *. rewrite fields_at in * by assumption. destruct (day_facts n) as (En & Hv & _).
  destruct (civil n) as [[y m] d]. cbn [number] in En. pose proof Hv as Hv'. cbn [valid_day] in Hv'. rewrite !andb_true_iff, !Z.leb_le in Hv'.
  pose proof (month_len_range y m) as Hl.
  change (2 ^ 31) with 2147483648. change (2 ^ 30) with 1073741824. change (2 ^ 16) with 65536. change (2 ^ 14) with 16384. change (2 ^ 10) with 1024.
  change (2 ^ 5) with 32. change (2 ^ 26) with 67108864. change (2 ^ 20) with 1048576. cbv zeta.
  rewrite (Z.mod_small (y - 1900)) by lia.
  assert (Hus : 0 <= ns t / 1000 < 1000000) by (split; [apply Z.div_pos; lia|apply Z.div_lt_upper_bound; lia]).
  rewrite (Z.mod_small (ns t / 1000)) by lia.
  replace (if utc t then 1073741824 else 0) with ((if utc t then 1 else 0) * 1073741824) by (destruct (utc t); reflexivity).
  destruct (word_high (if utc t then 1 else 0) (y - 1900) (m - 1) d h ltac:(destruct (utc t); lia) ltac:(lia) ltac:(lia) ltac:(lia) ltac:(lia)) as (W0 & W1 & W2 & W3 & W4 & W5 & W6).
  destruct (word_low mi s (ns t / 1000) ltac:(lia) ltac:(lia) ltac:(lia)) as (L0 & L1 & L2 & L3). cbv zeta in *.
  set (hi := 2147483648 + (if utc t then 1 else 0) * 1073741824 + (y - 1900) * 16384 + (m - 1) * 1024 + d * 32 + h) in *.
  set (lo := mi * 67108864 + s * 1048576 + ns t / 1000) in *. clearbody hi lo.
  unfold load. change (Z.of_nat (length (le32 hi ++ le32 lo)) =? 8) with true. cbv iota.
  change (firstn 4 (le32 hi ++ le32 lo)) with (le32 hi). change (skipn 4 (le32 hi ++ le32 lo)) with (le32 lo).
  rewrite (le32_back hi W0), (le32_back lo L0). cbv zeta.
  change (2 ^ 31) with 2147483648. change (2 ^ 30) with 1073741824. change (2 ^ 16) with 65536. change (2 ^ 14) with 16384. change (2 ^ 10) with 1024.
  change (2 ^ 5) with 32. change (2 ^ 26) with 67108864. change (2 ^ 20) with 1048576. change (2 ^ 4) with 16. change (2 ^ 6) with 64.
  rewrite W1, W2, W3, W4, W5, W6, L1, L2, L3. change (1 =? 0) with false. cbv iota.
  replace (m - 1 + 1) with m by lia. replace (y - 1900 + 1900) with y by lia. unfold from_ymd.
  replace (date_ok y m d) with true by (symmetry; apply date_ok_iff; split; [unfold MIN_YEAR, MAX_YEAR; lia|exact Hv]). cbn [or_raise bind].
  unfold from_hms. replace ((0 <=? h) && (h <? 24) && (0 <=? mi) && (mi <? 60) && (0 <=? s) && (s <? 60) && (0 <=? ns t / 1000 * 1000) && (ns t / 1000 * 1000 <? G)) with true
    by (symmetry; rewrite !andb_true_iff, !Z.leb_le, !Z.ltb_lt; unfold G; lia).
  cbn [or_raise bind]. unfold at_day. cbn [fst snd]. rewrite En. replace (n * 86400 + (h * 3600 + mi * 60 + s)) with (n * 86400 + h * 3600 + mi * 60 + s) by lia.
  destruct (utc t); reflexivity.
Qed.
Lemma add_back b x n o : MIN_SEC <= x <= MAX_SEC -> 0 <= n < G ->
  match (if n mod 1000 =? 0 then None else Some (n mod 1000)) with
  | Some v => if v =? 0 then Ok (mkT b x (n / 1000 * 1000) o) else shift_ns (mkT b x (n / 1000 * 1000) o) v
  | None => Ok (mkT b x (n / 1000 * 1000) o)
  end = Ok (mkT b x n o).
Proof.
  intros Hx Hn. pose proof (Z.div_mod n 1000 ltac:(lia)) as D. destruct (Z.eqb_spec (n mod 1000) 0) as [E|E].
  - repeat f_equal. lia.
  - destruct (Z.eqb_spec (n mod 1000) 0); [lia|]. unfold shift_ns, total. cbn [ts ns utc off]. cbv zeta.
    replace (x * G + n / 1000 * 1000 + n mod 1000) with (x * G + n) by lia.
    replace ((x * G + n) / G) with x by (apply (Z.div_unique _ G _ n); lia). replace ((x * G + n) mod G) with n by (apply (Z.mod_unique _ G x); lia).
    replace (sec_ok x) with true by (symmetry; unfold sec_ok; rewrite andb_true_iff, !Z.leb_le; lia). reflexivity.
Qed.
Lemma marshal_ok z cands t : good t -> 1900 <= year_of t <= 67435 -> -86400 < off t < 86400 -> (utc t = true -> off t = 0) ->
  (utc t = false -> from_local z cands (ts t + off t) <> Nowhere) -> marshal_load z cands (marshal_dump t) = Ok t.
Proof.
  intros Hg Hy Ho Hu Hl. unfold marshal_load, marshal_dump. cbn [payload offset nano]. rewrite load_dump by assumption.
  destruct Hg as [Hn Hr]. destruct t as [u x n o]. cbn [utc ts ns off] in *. destruct u.
  - rewrite (Hu eq_refl) in *. rewrite Z.add_0_r. cbn [bind]. apply add_back; [exact Hr|exact Hn].
  - specialize (Hl eq_refl). assert (R : forall o', reinterpret (mkT false (x + o - o') (n / 1000 * 1000) o') o = mkT false x (n / 1000 * 1000) o).
    { intros o'. unfold reinterpret. cbn [ts ns off]. cbv zeta. replace ((-86400 <? o) && (o <? 86400)) with true by (symmetry; rewrite andb_true_iff, !Z.ltb_lt; lia).
      replace (x + o - o' + o' - o) with x by lia. replace (sec_ok x) with true by (symmetry; unfold sec_ok; rewrite andb_true_iff, !Z.leb_le; lia). reflexivity. }
    destruct (from_local z cands (x + o)) as [o1|o1 o2|]; [..|congruence]; cbn [bind]; rewrite R; apply add_back; assumption.
Qed.
Lemma le32_word w r : 0 <= w < 4294967296 -> word (firstn 4 (le32 w ++ r)) = w.
Proof. intros H. rewrite <- (le32_back w H) at 2. unfold le32, un32. cbn [app firstn word]. lia. Qed.
Lemma le32_bytes w b : In b (le32 w) -> 0 <= b <= 255.
Proof.
  unfold le32. cbn [In]. intros H.
  repeat (destruct H as [<- | H]; [match goal with |- context [?x mod 256] => pose proof (Z.mod_pos_bound x 256 ltac:(lia)); lia end|]). contradiction.
Qed.
Lemma payload_ok t : good t -> 1900 <= year_of t <= 67435 -> off t = 0 -> ruby_payload t (payload (marshal_dump t)).
Proof.
  intros [Hn _] Hy Ho. unfold year_of in Hy. unfold ruby_payload, marshal_dump, dump. cbn [payload]. rewrite Ho, Z.add_0_r in *.
  destruct (split_sec (ts t)) as (n & h & mi & s & Ew & Hh & Hm & Hs).
  rewrite Ew in *. rewrite fields_at in * by assumption. destruct (day_facts n) as (_ & Hv & _).
  destruct (civil n) as [[y m] d]. cbn [valid_day] in Hv. rewrite !andb_true_iff, !Z.leb_le in Hv. pose proof (month_len_range y m) as Hl.
  change (2 ^ 31) with 2147483648. change (2 ^ 30) with 1073741824. change (2 ^ 16) with 65536. change (2 ^ 14) with 16384. change (2 ^ 10) with 1024.
  change (2 ^ 5) with 32. change (2 ^ 26) with 67108864. change (2 ^ 20) with 1048576. cbv zeta.
  rewrite (Z.mod_small (y - 1900)) by lia.
  assert (Hus : 0 <= ns t / 1000 < 1000000) by (split; [apply Z.div_pos; lia|apply Z.div_lt_upper_bound; lia]).
  rewrite (Z.mod_small (ns t / 1000)) by lia.
  split; [reflexivity|]. split; [intros b Hb; apply in_app_iff in Hb; destruct Hb as [Hb|Hb]; exact (le32_bytes _ b Hb)|].
  split; [apply le32_word; destruct (utc t); lia|].
  match goal with |- word (skipn 4 (le32 ?a ++ le32 ?b)) = _ => change (skipn 4 (le32 a ++ le32 b)) with (le32 b); rewrite <- (le32_word b []) at 2 by lia end.
  rewrite app_nil_r. reflexivity.
Qed.
