From Coq Require Import List Bool ZArith Lia.
From Verif Require Import TimeModel TimeSpec TimeCalProofs TimeProofs TimeTextProofs.
Import ListNotations.
Open Scope Z_scope.

Lemma digits_stop l c r : forallb is_digit l = true -> is_digit c = false -> digits (l ++ c :: r) = (l, c :: r).
Proof.
  intros Hl Hc. induction l as [|x l IH]; cbn [app digits]; [rewrite Hc; reflexivity|]. cbn [forallb] in Hl. apply andb_true_iff in Hl. destruct Hl as [H1 H2].
  rewrite H1, (IH H2). reflexivity.
Qed.
Lemma two_scan n c r : 0 <= n < 100 -> is_digit c = false -> two_digits (two n ++ c :: r) = Some (n, c :: r).
Proof.
  intros Hn Hc. rewrite two_eq by exact Hn. destruct (two_facts n Hn) as (a & b & E & Ha & Hb & Hv). rewrite E. unfold two_digits.
  rewrite digits_stop; [rewrite Hv; reflexivity| |exact Hc]. cbn [forallb]. rewrite (proj1 (digit_ok a Ha)), (proj1 (digit_ok b Hb)). reflexivity.
Qed.
Lemma no_blanks n r : 0 <= n < 100 -> skip_blanks (two n ++ r) = two n ++ r.
Proof.
  intros Hn. rewrite two_eq by exact Hn. destruct (two_facts n Hn) as (a & b & E & Ha & _). rewrite E. cbn [app skip_blanks].
  destruct (digit_ok a Ha) as (_ & _ & _ & _ & -> & _). reflexivity.
Qed.
Lemma first9_id l : forall k, length l = k -> first9 k l = l.
Proof. induction l as [|c l IH]; intros [|k] E; try discriminate; [reflexivity|]. cbn. f_equal. apply IH. injection E as E. exact E. Qed.
Lemma fraction_ok n c r : 0 <= n < G -> is_digit c = false -> fraction (46 :: pad 9 (dec n) ++ c :: r) = Some (n, c :: r).
Proof.
  intros Hn Hc. unfold fraction. change (46 =? 46) with true. cbv iota. change 9 with (Z.of_nat 9) at 1. rewrite (pad_fixed 8 n) by (try lia; exact Hn).
  rewrite digits_stop by (try exact Hc; apply fixed_digits). pose proof (fixed_len 9 n) as L. destruct (fixed 9 n) as [|a l] eqn:E; [discriminate|].
  rewrite <- E in *. rewrite first9_id by exact L. rewrite fixed_num by exact Hn. reflexivity.
Qed.
Lemma trim_none l : existsb is_space l = false -> trim l = l.
Proof.
  assert (T : forall l, existsb is_space l = false -> trim_start l = l).
  { intros [|c m] H; [reflexivity|]. cbn [existsb] in H. apply orb_false_iff in H. cbn [trim_start]. rewrite (proj1 H). reflexivity. }
  intros H. unfold trim. rewrite (T l H). rewrite T; [apply rev_involutive|].
  destruct (existsb is_space (rev l)) eqn:E; [|reflexivity]. apply existsb_exists in E. destruct E as (x & Hx & E). apply in_rev in Hx.
  assert (existsb is_space l = true) by (apply existsb_exists; exists x; auto). congruence.
Qed.
Lemma two_no_space n r : 0 <= n < 100 -> existsb is_space (ruby_two n ++ r) = existsb is_space r.
Proof.
  intros Hn. destruct (two_facts n Hn) as (a & b & E & Ha & Hb & _). rewrite E. cbn [app existsb].
  destruct (digit_ok a Ha) as (_ & _ & _ & -> & _), (digit_ok b Hb) as (_ & _ & _ & -> & _). reflexivity.
Qed.
(** The end of the text *)
Definition suffix (t : tm) : list Z := if utc t then [90] else format_offset (off t) 1 false false 0.
Lemma suffix_ok t : -86400 < off t < 86400 -> off t mod 60 = 0 -> (utc t = true -> off t = 0) ->
  exists c r, suffix t = c :: r /\ is_digit c = false /\ (c =? 46) = false /\ existsb is_space (suffix t) = false /\ parse_offset (suffix t) = Ok (off t).
Proof.
  intros Ho Hm Hu. unfold suffix. destruct (utc t).
  { exists 90, []. rewrite (Hu eq_refl). repeat split; reflexivity. }
  assert (Hh : 0 <= Z.abs (off t) / 3600 < 100) by (split; [apply Z.div_pos; lia|apply Z.div_lt_upper_bound; lia]).
  pose proof (Z.mod_pos_bound (Z.abs (off t) / 60) 60 ltac:(lia)) as B1.
  destruct (format_parse (off t) false false Ho) as (_ & _ & P). rewrite P. rewrite format_eq by exact Ho. change (1 =? 0) with false. change (1 =? 1) with true. cbv iota.
  unfold offset_text. eexists _, _. split; [reflexivity|].
  assert (Q : Z.quot (off t) 60 * 60 = off t).
  { apply Z.mod_divide in Hm; [|lia]. destruct Hm as [k ->]. rewrite Z.quot_mul by lia. reflexivity. }
  rewrite Q. cbn [existsb]. rewrite two_no_space by lia. cbn [existsb].
  replace (existsb is_space (ruby_two (Z.abs (off t) / 60 mod 60))) with false by (symmetry; rewrite <- (app_nil_r (ruby_two _)); rewrite two_no_space by lia; reflexivity).
  destruct (_ || _); repeat split; reflexivity.
Qed.
Lemma scan_ok y mo d h mi s n c r : 0 <= y < 10 ^ 18 -> 0 <= mo < 100 -> 0 <= d < 100 -> 0 <= h < 100 -> 0 <= mi < 100 -> 0 <= s < 100 -> 0 <= n < G ->
  is_digit c = false ->
  scan_time (year_text y ++ 45 :: two mo ++ 45 :: two d ++ 84 :: two h ++ 58 :: two mi ++ 58 :: two s ++ 46 :: pad 9 (dec n) ++ c :: r)
  = Some (y, mo, d, (h, mi, s), n, c :: r).
Proof.
  intros Hy Hmo Hd Hh Hmi Hs Hn Hc. unfold scan_time, year_text. destruct (Z.ltb_spec y 0); [lia|].
  destruct (dec_num 4 y ltac:(lia)) as (E1 & E2 & E3). rewrite digits_stop by (try exact E2; reflexivity).
  destruct (Z.ltb_spec (Z.of_nat (length (pad 4 (dec y)))) 4); [lia|]. unfold i64_text. rewrite E1. cbv zeta.
  replace (y <? 2 ^ 63) with true by (symmetry; apply Z.ltb_lt; change (2 ^ 63) with 9223372036854775808; lia).
  cbn [obind expect]. change (45 =? 45) with true. cbv iota. cbn [obind]. rewrite two_scan by (try lia; reflexivity). cbn [obind expect]. change (45 =? 45) with true. cbv iota.
  cbn [obind]. rewrite two_scan by (try lia; reflexivity). cbn [obind]. change ((84 =? 32) || (84 =? 84)) with true. cbv iota. cbn [obind].
  rewrite no_blanks by lia. rewrite two_scan by (try lia; reflexivity). cbn [obind expect]. change (58 =? 58) with true. cbv iota. cbn [obind].
  rewrite two_scan by (try lia; reflexivity). cbn [obind expect]. change (58 =? 58) with true. cbv iota. cbn [obind].
  rewrite two_scan by (try lia; reflexivity). cbn [obind]. rewrite fraction_ok by assumption. reflexivity.
Qed.
Lemma wrap_small y : 0 <= y <= MAX_YEAR -> wrap32 y = y.
Proof. unfold wrap32, MAX_YEAR. intros H. rewrite Z.mod_small by (change (2 ^ 31) with 2147483648; change (2 ^ 32) with 4294967296; lia). lia. Qed.
Lemma text_ok z cands t given : good t -> 0 <= year_of t <= MAX_YEAR -> -86400 < off t < 86400 -> off t mod 60 = 0 -> (utc t = true -> off t = 0) ->
  time_text z cands (iso8601 t 9) given None = Ok (mkT false (ts t) (ns t) (off t)).
Proof.
  intros [Hn Hr] Hy Ho Hm Hu. destruct (suffix_ok t Ho Hm Hu) as (c & r & Es & Hc & _ & Hsp & Hp).
  unfold year_of in Hy. unfold iso8601. destruct (split_sec (ts t + off t)) as (nd & h & mi & s & Ew & Hh & Hmi & Hs).
  rewrite Ew in *. rewrite fields_at in * by assumption. destruct (day_facts nd) as (En & Hv & _).
  destruct (civil nd) as [[y m] d]. cbn [number] in En. pose proof Hv as Hv'. cbn [valid_day] in Hv'. rewrite !andb_true_iff, !Z.leb_le in Hv'.
  pose proof (month_len_range y m) as Hl. change (0 <? 9) with true. cbv iota. change (10 ^ (9 - 9)) with 1. rewrite Z.div_1_r.
  fold (suffix t). unfold MAX_YEAR in Hy. rewrite Es in *. cbn [app].
  match goal with |- time_text _ _ ?l _ _ = _ => set (txt := l) end.
  assert (Sc : scan_time txt = Some (y, m, d, (h, mi, s), ns t, c :: r)).
  { unfold txt. apply scan_ok; try lia; try exact Hn. exact Hc. }
  unfold time_text. assert (Dg : exists a q x p, digits txt = (a :: q, x :: p)).
  { unfold txt, year_text. destruct (Z.ltb_spec y 0); [lia|]. destruct (dec_num 4 y ltac:(lia)) as (_ & E2 & E3). rewrite digits_stop by (try exact E2; reflexivity).
    destruct (pad 4 (dec y)) as [|a q]; [cbn in E3; lia|]. eauto. }
  destruct Dg as (a & q & x & p & ->). rewrite Sc. cbn [or_raise bind]. cbv zeta. rewrite trim_none by exact Hsp. rewrite Hsp.
  unfold build_text. rewrite wrap_small by (unfold MAX_YEAR; lia). unfold from_ymd.
  replace (date_ok y m d) with true by (symmetry; apply date_ok_iff; split; [unfold MIN_YEAR, MAX_YEAR; lia|exact Hv]). cbn [or_raise bind].
  unfold from_hms. replace ((0 <=? h) && (h <? 24) && (0 <=? mi) && (mi <? 60) && (0 <=? s) && (s <? 60) && (0 <=? 0) && (0 <? G)) with true
    by (symmetry; rewrite !andb_true_iff, !Z.leb_le, !Z.ltb_lt; unfold G; lia).
  cbn [or_raise bind]. unfold at_day. cbn [fst snd]. rewrite En, Hp. cbn [bind truncate_subsec].
  replace (nd * 86400 + (h * 3600 + mi * 60 + s) - off t) with (ts t) by lia.
  replace (sec_ok (ts t)) with true by (symmetry; unfold sec_ok; rewrite andb_true_iff, !Z.leb_le; lia). reflexivity.
Qed.
