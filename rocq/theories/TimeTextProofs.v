From Coq Require Import List Bool ZArith Lia.
From Verif Require Import TimeModel TimeSpec TimeCalProofs TimeProofs.
Import ListNotations.
Open Scope Z_scope.

(** * Numbers as texts *)
Fixpoint fixed (k : nat) (v : Z) : list Z := match k with O => [] | S k => fixed k (v / 10) ++ [48 + v mod 10] end.
Lemma fixed_len k : forall v, length (fixed k v) = k.
Proof. induction k as [|k IH]; intros v; [reflexivity|]. cbn [fixed]. rewrite app_length, IH. cbn. lia. Qed.
Lemma fixed_zero k : fixed k 0 = repeat 48 k.
Proof.
  induction k as [|k IH]; [reflexivity|]. cbn [fixed]. change (0 / 10) with 0. change (48 + 0 mod 10) with 48. rewrite IH.
  change [48] with (repeat 48 1). rewrite <- repeat_app. f_equal. lia.
Qed.
Lemma num_of_app a l m : num_of a (l ++ m) = num_of (num_of a l) m.
Proof. revert a. induction l as [|c l IH]; intros a; [reflexivity|]. cbn. apply IH. Qed.
Lemma fixed_num k : forall a v, 0 <= v < 10 ^ Z.of_nat k -> num_of a (fixed k v) = a * 10 ^ Z.of_nat k + v.
Proof.
  induction k as [|k IH]; intros a v Hv; [cbn in *; lia|]. cbn [fixed]. rewrite num_of_app.
  rewrite Nat2Z.inj_succ, Z.pow_succ_r in * by lia. set (p := 10 ^ Z.of_nat k) in *.
  assert (0 <= v / 10 < p) by (split; [apply Z.div_pos; lia|apply Z.div_lt_upper_bound; lia]). rewrite IH by assumption. cbn [num_of].
  pose proof (Z.div_mod v 10 ltac:(lia)). lia.
Qed.
Lemma fixed_digits k : forall v, forallb is_digit (fixed k v) = true.
Proof.
  induction k as [|k IH]; intros v; [reflexivity|]. cbn [fixed]. rewrite forallb_app, IH. cbn [forallb andb]. pose proof (Z.mod_pos_bound v 10 ltac:(lia)).
  unfold is_digit. rewrite andb_true_r, andb_true_iff, !Z.leb_le. lia.
Qed.
Lemma dec_fixed k : forall fuel v acc, (k < fuel)%nat -> 0 <= v < 10 ^ Z.of_nat (S k) ->
  (length acc < length (dec_loop fuel v acc) <= S k + length acc)%nat /\
  repeat 48 (S k + length acc - length (dec_loop fuel v acc)) ++ dec_loop fuel v acc = fixed (S k) v ++ acc.
Proof.
  induction k as [|k IH]; intros fuel v acc Hf Hv; destruct fuel as [|fuel]; try lia.
  - cbn [dec_loop]. change (10 ^ Z.of_nat 1) with 10 in Hv. destruct (Z.ltb_spec v 10); [|lia]. cbn [length]. split; [lia|].
    replace (1 + length acc - S (length acc))%nat with O by lia. cbn. rewrite Z.mod_small by lia. reflexivity.
  - cbn [dec_loop]. destruct (Z.ltb_spec v 10) as [L|L].
    + cbn [length]. split; [lia|]. replace (S (S k) + length acc - S (length acc))%nat with (S k) by lia. cbn [fixed].
      change (fixed k (v / 10 / 10) ++ [48 + (v / 10) mod 10]) with (fixed (S k) (v / 10)).
      rewrite (Z.div_small v 10), (Z.mod_small v 10) by lia. rewrite fixed_zero, <- app_assoc. reflexivity.
    + rewrite Nat2Z.inj_succ, Z.pow_succ_r in Hv by lia. set (p := 10 ^ Z.of_nat (S k)) in *.
      assert (Hq : 0 <= v / 10 < p) by (split; [apply Z.div_pos; lia|apply Z.div_lt_upper_bound; lia]).
      destruct (IH fuel (v / 10) ((48 + v mod 10) :: acc) ltac:(lia) Hq) as [H1 H2]. cbn [length] in *. split; [lia|].
      set (L' := length (dec_loop fuel (v / 10) ((48 + v mod 10) :: acc))) in *.
      replace (S (S k) + length acc - L')%nat with (S k + S (length acc) - L')%nat by lia.
      rewrite H2. cbn [fixed]. rewrite <- !app_assoc. reflexivity.
Qed.
Lemma dec_facts k v : (k < 20)%nat -> 0 <= v < 10 ^ Z.of_nat (S k) -> (1 <= length (dec v) <= S k)%nat /\ repeat 48 (S k - length (dec v)) ++ dec v = fixed (S k) v.
Proof.
  intros Hk Hv. destruct (dec_fixed k 20 v [] Hk Hv) as [H1 H2]. cbn [length] in *. rewrite Nat.add_0_r, app_nil_r in *. unfold dec. split; [lia|exact H2].
Qed.
Lemma pad_fixed k v : (k < 20)%nat -> 0 <= v < 10 ^ Z.of_nat (S k) -> pad (Z.of_nat (S k)) (dec v) = fixed (S k) v.
Proof.
  intros Hk Hv. destruct (dec_facts k v Hk Hv) as [H1 H2]. unfold pad. rewrite <- H2. f_equal. f_equal. lia.
Qed.
Lemma num_zeros j l : num_of 0 (repeat 48 j ++ l) = num_of 0 l.
Proof. rewrite num_of_app. f_equal. induction j as [|j IH]; [reflexivity|]. cbn. exact IH. Qed.
Lemma dec_num w v : 0 <= v < 10 ^ 19 -> num_of 0 (pad w (dec v)) = v /\ forallb is_digit (pad w (dec v)) = true /\ w <= Z.of_nat (length (pad w (dec v))).
Proof.
  intros Hv. destruct (dec_facts 18 v ltac:(lia) Hv) as [H1 H2]. unfold pad. rewrite num_zeros. split; [|split].
  - pose proof (fixed_num 19 0 v Hv) as F. rewrite <- H2, num_zeros in F. rewrite F. lia.
  - pose proof (fixed_digits 19 v) as F. rewrite <- H2, forallb_app in F. apply andb_true_iff in F. destruct F as [_ F]. rewrite forallb_app, F, andb_true_r.
    apply forallb_forall. intros x Hx. apply repeat_spec in Hx. subst x. reflexivity.
  - rewrite app_length, repeat_length. lia.
Qed.
Lemma two_eq n : 0 <= n < 100 -> two n = ruby_two n.
Proof.
  intros H. unfold two. change 2 with (Z.of_nat 2). rewrite pad_fixed by (cbn; lia). cbn [fixed]. unfold ruby_two, ruby_digit. cbn [app].
  rewrite (Z.mod_small (n / 10)); [reflexivity|]. split; [apply Z.div_pos; lia|apply Z.div_lt_upper_bound; lia].
Qed.

(** * Offsets *)
Lemma two_facts n : 0 <= n < 100 -> exists a b, ruby_two n = [a; b] /\ 48 <= a <= 57 /\ 48 <= b <= 57 /\ num_of 0 [a; b] = n.
Proof.
  intros H. exists (ruby_digit (n / 10)), (ruby_digit (n mod 10)). split; [reflexivity|]. unfold ruby_digit. pose proof (Z.div_mod n 10 ltac:(lia)). pose proof (Z.mod_pos_bound n 10 ltac:(lia)).
  assert (0 <= n / 10 <= 9) by lia. cbn [num_of]. lia.
Qed.
Lemma digit_ok c : 48 <= c <= 57 -> is_digit c = true /\ (c =? 58) = false /\ (c <? 128) = true /\ is_space c = false /\ (c =? 32) = false /\ (c =? 46) = false.
Proof.
  intros H. unfold is_digit, is_space. destruct (Z.leb_spec 48 c); [|lia]. destruct (Z.leb_spec c 57); [|lia]. destruct (Z.eqb_spec c 58); [lia|].
  destruct (Z.ltb_spec c 128); [|lia]. destruct (Z.leb_spec 9 c); [|lia]. destruct (Z.leb_spec c 13); [lia|]. destruct (Z.eqb_spec c 32); [lia|].
  destruct (Z.eqb_spec c 46); [lia|]. cbn. auto 10.
Qed.
Lemma east_ok o : -86400 < o < 86400 -> east o = Ok o.
Proof. intros H. unfold east. replace ((-86400 <? o) && (o <? 86400)) with true; [reflexivity|]. symmetry. rewrite andb_true_iff, !Z.ltb_lt. lia. Qed.
Lemma offset_ok neg h m s f : 0 <= h <= 23 -> 0 <= m <= 59 -> 0 <= s <= 59 -> parse_offset (offset_text neg h m s f) = Ok (offset_value neg h m s f).
Proof.
  intros Hh Hm Hs. unfold offset_text, offset_value.
  destruct (two_facts h ltac:(lia)) as (h1 & h2 & -> & H1 & H2 & H3). destruct (two_facts m ltac:(lia)) as (m1 & m2 & -> & M1 & M2 & M3).
  destruct (two_facts s ltac:(lia)) as (s1 & s2 & -> & S1 & S2 & S3).
  destruct (digit_ok h1 H1) as (A1 & A2 & A3 & _), (digit_ok h2 H2) as (B1 & B2 & B3 & _), (digit_ok m1 M1) as (C1 & C2 & C3 & _), (digit_ok m2 M2) as (D1 & D2 & D3 & _),
    (digit_ok s1 S1) as (E1 & E2 & E3 & _), (digit_ok s2 S2) as (F1 & F2 & F3 & _).
  assert (K : forall x y, 0 <= x <= 59 -> 0 <= y <= 59 ->
    (if 23 <? h then Raise else if (59 <? x) || (59 <? y) then Raise else east ((if neg then -1 else 1) * (h * 3600 + x * 60 + y))) = Ok ((if neg then -1 else 1) * (h * 3600 + x * 60 + y))).
  { intros x y Hx Hy. destruct (Z.ltb_spec 23 h); [lia|]. destruct (Z.ltb_spec 59 x); [lia|]. destruct (Z.ltb_spec 59 y); [lia|]. cbn [orb]. apply east_ok. destruct neg; lia. }
  unfold parse_offset.
  destruct neg, f; cbn [app forallb Z.ltb Z.compare Pos.compare Pos.compare_cont andb]; rewrite ?A3, ?B3, ?C3, ?D3, ?E3, ?F3;
  cbn [andb negb Z.ltb Z.compare Pos.compare Pos.compare_cont is_utc_text Z.eqb Pos.eqb orb filter]; rewrite ?A2, ?B2, ?C2, ?D2, ?E2, ?F2;
  cbn [negb filter Z.eqb Pos.eqb]; rewrite ?A2, ?B2, ?C2, ?D2, ?E2, ?F2;
  cbn [negb filter Z.eqb Pos.eqb forallb]; rewrite ?A1, ?B1, ?C1, ?D1, ?E1, ?F1; cbn [andb negb hms_of bind]; rewrite ?H3, ?M3, ?S3;
  rewrite K by lia; f_equal; lia.
Qed.
Lemma index_none c l i : index_of c l i = None <-> ~ In c l.
Proof.
  revert i. induction l as [|x l IH]; intros i; cbn; [tauto|]. destruct (Z.eqb_spec x c) as [->|N]; [split; [discriminate|tauto]|]. rewrite IH. tauto.
Qed.
Lemma letters_ok c : parse_offset [c] = match letter_hours c with Some h => Ok (h * 3600) | None => Raise end.
Proof.
  destruct (Z_lt_ge_dec c 65) as [L|L]; [|destruct (Z_lt_ge_dec 90 c) as [U|U]].
  1,2: assert (E : letter_hours c = None) by (unfold letter_hours; rewrite !(proj2 (index_none c _ _)) by (cbn [In]; lia); destruct (Z.eqb_spec c 90); [lia|reflexivity]);
    rewrite E; unfold parse_offset, zone_letter; destruct (forallb _ _); cbn [negb is_utc_text]; [|reflexivity];
    replace ((65 <=? c) && (c <=? 73)) with false by (symmetry; rewrite andb_false_iff, !Z.leb_gt; lia);
    replace ((75 <=? c) && (c <=? 77)) with false by (symmetry; rewrite andb_false_iff, !Z.leb_gt; lia);
    replace ((78 <=? c) && (c <=? 89)) with false by (symmetry; rewrite andb_false_iff, !Z.leb_gt; lia);
    destruct (Z.eqb_spec c 90); [lia|reflexivity].
  assert (H : exists k, c = 65 + Z.of_nat k /\ (k <= 25)%nat) by (exists (Z.to_nat (c - 65)); lia). destruct H as (k & -> & Hk). clear L U.
  do 26 (destruct k as [|k]; [vm_compute; reflexivity|]). lia.
Qed.
Lemma filter_idem l : forallb is_digit l = true -> no_colons l = l.
Proof.
  induction l as [|c l IH]; [reflexivity|]. cbn [forallb no_colons filter]. intros H. apply andb_true_iff in H. destruct H as [H1 H2].
  unfold is_digit in H1. apply andb_true_iff in H1. rewrite !Z.leb_le in H1. destruct (Z.eqb_spec c 58); [lia|]. cbn [negb]. f_equal. apply IH, H2.
Qed.
Lemma num_two a b : is_digit a = true -> is_digit b = true -> ruby_two (num_of 0 [a; b]) = [a; b] /\ 0 <= num_of 0 [a; b].
Proof.
  unfold is_digit. rewrite !andb_true_iff, !Z.leb_le. intros Ha Hb. cbn [num_of]. unfold ruby_two, ruby_digit.
  replace ((10 * (10 * 0 + (a - 48)) + (b - 48)) / 10) with (a - 48) by (apply (Z.div_unique _ 10 _ (b - 48)); lia).
  replace ((10 * (10 * 0 + (a - 48)) + (b - 48)) mod 10) with (b - 48) by (apply (Z.mod_unique _ 10 (a - 48)); lia). split; [f_equal; [|f_equal]; lia|lia].
Qed.
Lemma offset_only sg rest o : rest <> [] -> parse_offset (sg :: rest) = Ok o -> (sg :: rest = [85; 84; 67] /\ o = 0) \/
  exists neg h m s f, 0 <= h <= 23 /\ 0 <= m <= 59 /\ 0 <= s <= 59 /\ no_colons (sg :: rest) = no_colons (offset_text neg h m s f) /\ o = offset_value neg h m s f.
Proof.
  intros Hne. unfold parse_offset. destruct (negb (forallb _ _)); [discriminate|]. destruct (is_utc_text (sg :: rest)) eqn:Eu.
  { intros [= <-]. left. destruct rest as [|b [|c [|e rest]]]; try discriminate. cbn in Eu. rewrite !andb_true_iff, !Z.eqb_eq in Eu. destruct Eu as [[-> ->] ->]. auto. }
  destruct rest as [|r0 rest0]; [congruence|]. set (rest := r0 :: rest0) in *. clearbody rest. cbv zeta.
  destruct ((sg =? 43) || (sg =? 45)) eqn:Es; [|discriminate]. fold (no_colons rest). destruct (forallb is_digit (no_colons rest)) eqn:Ed; [|discriminate].
  cbn [negb]. intros H. right.
  assert (Esg : exists neg, sg = (if neg : bool then 45 else 43) /\ (if sg =? 43 then 1 else -1) = (if neg then -1 else 1)).
  { apply orb_true_iff in Es. rewrite !Z.eqb_eq in Es. destruct Es as [->| ->]; [exists false|exists true]; auto. }
  destruct Esg as (neg & -> & Eg). rewrite Eg in H. clear Es Eg Eu.
  assert (Ec : no_colons ((if neg then 45 else 43) :: rest) = (if neg then 45 else 43) :: no_colons rest) by (destruct neg; reflexivity).
  assert (Et : forall f h m s, no_colons (offset_text neg h m s f) = (if neg then 45 else 43) :: no_colons (tl (offset_text neg h m s f))) by (intros f h m s; destruct neg; reflexivity).
  exists neg. rewrite Ec. clear Ec. destruct (no_colons rest) as [|a [|b [|c [|d [|e [|g [|? ?]]]]]]]; cbn [hms_of bind] in H; try discriminate;
  cbn [forallb] in Ed; rewrite !andb_true_iff in Ed.
  - destruct Ed as (Da & Db & _). destruct (num_two a b Da Db) as [Ea Pa]. set (h := num_of 0 [a; b]) in *. clearbody h.
    destruct (Z.ltb_spec 23 h); [discriminate|]. cbn in H. exists h, 0, 0, HH. rewrite Et. cbn [offset_text tl]. rewrite Ea, filter_idem by (cbn [forallb]; rewrite Da, Db; reflexivity).
    unfold east in H. destruct (_ && _); [|discriminate]. injection H as <-. unfold offset_value. repeat split; try lia.
  - destruct Ed as (Da & Db & Dc & Dd & _). destruct (num_two a b Da Db) as [Ea Pa], (num_two c d Dc Dd) as [Ee Pc]. set (h := num_of 0 [a; b]) in *. set (m := num_of 0 [c; d]) in *. clearbody h m.
    destruct (Z.ltb_spec 23 h); [discriminate|]. destruct (Z.ltb_spec 59 m); [discriminate|]. cbn in H. exists h, m, 0, HHMM. rewrite Et. cbn [offset_text tl].
    rewrite Ea, Ee. cbn [app]. rewrite filter_idem by (cbn [forallb]; rewrite Da, Db, Dc, Dd; reflexivity).
    unfold east in H. destruct (_ && _); [|discriminate]. injection H as <-. unfold offset_value. repeat split; try lia.
  - destruct Ed as (Da & Db & Dc & Dd & De & Dg & _). destruct (num_two a b Da Db) as [Ea Pa], (num_two c d Dc Dd) as [Ee Pc], (num_two e g De Dg) as [Ef Pe].
    set (h := num_of 0 [a; b]) in *. set (m := num_of 0 [c; d]) in *. set (s := num_of 0 [e; g]) in *. clearbody h m s.
    destruct (Z.ltb_spec 23 h); [discriminate|]. destruct (Z.ltb_spec 59 m); [discriminate|]. destruct (Z.ltb_spec 59 s); [discriminate|]. cbn [orb] in H.
    exists h, m, s, HHMMSS. rewrite Et. cbn [offset_text tl].
    rewrite Ea, Ee, Ef. cbn [app]. rewrite filter_idem by (cbn [forallb]; rewrite Da, Db, Dc, Dd, De, Dg; reflexivity).
    unfold east in H. destruct (_ && _); [|discriminate]. injection H as <-. unfold offset_value. repeat split; try lia.
Qed.
Lemma format_eq o c minus space : -86400 < o < 86400 ->
  format_offset o c minus space 0 =
  offset_text ((minus && (o =? 0)) || (o <? 0)) (Z.abs o / 3600) (Z.abs o / 60 mod 60) (Z.abs o mod 60) (if c =? 0 then HHMM else if c =? 1 then HHcMM else HHcMMcSS).
Proof.
  intros H. unfold format_offset. cbv zeta.
  assert (0 <= Z.abs o / 3600 < 100) by (split; [apply Z.div_pos; lia|apply Z.div_lt_upper_bound; lia]).
  pose proof (Z.mod_pos_bound (Z.abs o / 60) 60 ltac:(lia)). pose proof (Z.mod_pos_bound (Z.abs o) 60 ltac:(lia)).
  rewrite !two_eq by lia. unfold offset_text. destruct (c =? 0); [|destruct (c =? 1)]; destruct space; reflexivity.
Qed.
Lemma format_parse o minus space : -86400 < o < 86400 ->
  parse_offset (format_offset o 2 minus space 0) = Ok o /\
  parse_offset (format_offset o 0 minus space 0) = Ok (Z.quot o 60 * 60) /\ parse_offset (format_offset o 1 minus space 0) = Ok (Z.quot o 60 * 60).
Proof.
  intros H. assert (Hh : 0 <= Z.abs o / 3600 <= 23) by (split; [apply Z.div_pos; lia|apply Z.lt_succ_r, Z.div_lt_upper_bound; lia]).
  pose proof (Z.mod_pos_bound (Z.abs o / 60) 60 ltac:(lia)) as B1. pose proof (Z.mod_pos_bound (Z.abs o) 60 ltac:(lia)) as B2.
  pose proof (Z.div_mod (Z.abs o) 60 ltac:(lia)) as D1. pose proof (Z.div_mod (Z.abs o / 60) 60 ltac:(lia)) as D2.
  rewrite Z.div_div in D2 by lia. change (60 * 60) with 3600 in D2.
  assert (Eq : Z.quot o 60 = Z.sgn o * (Z.abs o / 60)) by (rewrite Z.quot_div by lia; change (Z.abs 60) with 60; change (Z.sgn 60) with 1; lia).
  rewrite !format_eq by exact H. rewrite !offset_ok by lia. change (2 =? 0) with false. change (2 =? 1) with false. change (0 =? 0) with true. change (1 =? 0) with false. change (1 =? 1) with true.
  cbv iota. unfold offset_value. rewrite Eq.
  assert (En : (if (minus && (o =? 0)) || (o <? 0) then -1 else 1) * Z.abs o = o).
  { destruct (Z.ltb_spec o 0); rewrite ?orb_true_r, ?orb_false_r; [lia|]. destruct minus; cbn [andb]; [|lia]. destruct (Z.eqb_spec o 0); lia. }
  assert (Es : (if (minus && (o =? 0)) || (o <? 0) then -1 else 1) * (Z.abs o / 60) = Z.sgn o * (Z.abs o / 60)).
  { destruct (Z.eq_dec o 0) as [->|N]; [change (Z.abs 0 / 60) with 0; lia|]. f_equal. destruct (Z.ltb_spec o 0); rewrite ?orb_true_r, ?orb_false_r; [rewrite Z.sgn_neg by lia; reflexivity|].
    destruct (Z.eqb_spec o 0); [lia|]. rewrite andb_false_r. rewrite Z.sgn_pos by lia. reflexivity. }
  set (sg := if (minus && (o =? 0)) || (o <? 0) then -1 else 1) in *. clearbody sg.
  set (a := Z.abs o / 60) in *. set (hh := Z.abs o / 3600) in *. set (mm := a mod 60) in *. set (ss := Z.abs o mod 60) in *.
  split; [|split]; f_equal.
  - rewrite <- En at 1. f_equal. lia.
  - rewrite <- Es. rewrite <- Z.mul_assoc. f_equal. lia.
  - rewrite <- Es. rewrite <- Z.mul_assoc. f_equal. lia.
Qed.
Lemma format_len o c minus space w : -86400 < o < 86400 -> 0 <= w ->
  Z.of_nat (length (format_offset o c minus space w)) = Z.max w (Z.of_nat (length (format_offset o c minus space 0))).
Proof.
  intros H Hw. unfold format_offset. cbv zeta.
  set (body := if c =? 0 then _ else _). clearbody body. destruct space; cbn [length]; rewrite ?app_length, ?repeat_length; cbn [length]; rewrite ?app_length, ?repeat_length; lia.
Qed.

(** * Fractions of a second *)
Lemma fixed_head k : forall v, 0 <= v < 10 ^ Z.of_nat (S k) -> fixed (S k) v = (48 + v / 10 ^ Z.of_nat k) :: fixed k (v mod 10 ^ Z.of_nat k).
Proof.
  induction k as [|k IH]; intros v Hv.
  { change (10 ^ Z.of_nat 1) with 10 in Hv. change (10 ^ Z.of_nat 0) with 1. cbn [fixed app]. rewrite Z.div_1_r, Z.mod_small by lia. reflexivity. }
  change (fixed (S (S k)) v) with (fixed (S k) (v / 10) ++ [48 + v mod 10]). rewrite Nat2Z.inj_succ, Z.pow_succ_r in Hv by lia.
  set (p1 := 10 ^ Z.of_nat (S k)) in *. assert (Hq : 0 <= v / 10 < p1) by (split; [apply Z.div_pos; lia|apply Z.div_lt_upper_bound; lia]).
  rewrite IH by exact Hq. assert (Ep : p1 = 10 * 10 ^ Z.of_nat k) by (unfold p1; rewrite Nat2Z.inj_succ, Z.pow_succ_r by lia; reflexivity).
  assert (Pp : 0 < 10 ^ Z.of_nat k) by (apply Z.pow_pos_nonneg; lia). set (p := 10 ^ Z.of_nat k) in *. clearbody p p1. subst p1.
  rewrite Z.div_div by lia. cbn [app]. f_equal. change (fixed (S k) (v mod (10 * p))) with (fixed k (v mod (10 * p) / 10) ++ [48 + (v mod (10 * p)) mod 10]).
  assert (E1 : v mod (10 * p) = 10 * (v / 10 mod p) + v mod 10) by (rewrite Z.rem_mul_r by lia; lia).
  pose proof (Z.mod_pos_bound v 10 ltac:(lia)) as B. f_equal.
  - f_equal. rewrite E1. apply (Z.div_unique _ 10 _ (v mod 10)); lia.
  - f_equal. f_equal. rewrite E1. apply (Z.mod_unique _ 10 (v / 10 mod p)); lia.
Qed.
Lemma decimals_fixed k : forall n, 0 <= n < G -> decimals k n = fixed k (n * 10 ^ Z.of_nat k / G).
Proof.
  induction k as [|k IH]; intros n Hn; [reflexivity|]. rewrite Nat2Z.inj_succ, Z.pow_succ_r by lia.
  assert (Pp : 0 < 10 ^ Z.of_nat k) by (apply Z.pow_pos_nonneg; lia).
  assert (HG : 0 < G) by (unfold G; lia).
  rewrite fixed_head.
  2:{ rewrite Nat2Z.inj_succ, Z.pow_succ_r by lia. split; [apply Z.div_pos; nia|]. apply Z.div_lt_upper_bound; [exact HG|]. nia. }
  cbn [decimals]. change 1000000000 with G. rewrite IH by (apply Z.mod_pos_bound, HG).
  pose proof (Z.div_mod (n * 10) G ltac:(lia)) as D. pose proof (Z.mod_pos_bound (n * 10) G HG) as B.
  set (a := n * 10 / G) in *. set (r := (n * 10) mod G) in *. clearbody a r.
  set (p := 10 ^ Z.of_nat k) in *. clearbody p.
  assert (E : n * (10 * p) / G = a * p + r * p / G). { replace (n * (10 * p)) with (r * p + (a * p) * G) by nia. rewrite Z.div_add by lia. lia. }
  assert (Br : 0 <= r * p / G < p) by (split; [apply Z.div_pos; nia|apply Z.div_lt_upper_bound; nia]).
  rewrite E. f_equal; [|f_equal].
  - f_equal. apply (Z.div_unique _ p _ (r * p / G)); lia.
  - apply (Z.mod_unique _ p a); lia.
Qed.
Lemma decimals_zero j : decimals j 0 = repeat 48 j.
Proof. induction j as [|j IH]; [reflexivity|]. cbn [decimals repeat]. change (48 + 0 * 10 / 1000000000) with 48. change ((0 * 10) mod 1000000000) with 0. rewrite IH. reflexivity. Qed.
Lemma decimals_app k j : forall n, 0 <= n < G -> decimals (k + j) n = decimals k n ++ decimals j ((n * 10 ^ Z.of_nat k) mod G).
Proof.
  induction k as [|k IH]; intros n Hn.
  { cbn [plus decimals app]. change (10 ^ Z.of_nat 0) with 1. rewrite Z.mul_1_r, Z.mod_small by exact Hn. reflexivity. }
  cbn [plus decimals app]. f_equal. change 1000000000 with G. rewrite IH by (apply Z.mod_pos_bound; unfold G; lia). f_equal. f_equal.
  rewrite Z.mul_mod_idemp_l by (unfold G; lia). rewrite Nat2Z.inj_succ, Z.pow_succ_r by lia. f_equal. lia.
Qed.
Lemma subsec_ok n w : 0 <= n < G -> (1 <= w)%nat -> format_subsec n (Z.of_nat w) = decimals w n.
Proof.
  intros Hn Hw. unfold format_subsec. destruct (Z.leb_spec 9 (Z.of_nat w)) as [L|L].
  - replace w with (9 + (w - 9))%nat at 2 by lia. rewrite decimals_app by exact Hn. rewrite decimals_fixed by exact Hn. change (10 ^ Z.of_nat 9) with G.
    rewrite Z.div_mul, Z.mod_mul by (unfold G; lia). rewrite decimals_zero. change 9 with (Z.of_nat 9) at 1.
    rewrite (pad_fixed 8 n) by (try lia; exact Hn). repeat f_equal. lia.
  - destruct w as [|k]; [lia|]. rewrite decimals_fixed by exact Hn.
    assert (Ek : G = 10 ^ Z.of_nat (S k) * 10 ^ (9 - Z.of_nat (S k))) by (rewrite <- Z.pow_add_r by lia; replace (Z.of_nat (S k) + (9 - Z.of_nat (S k))) with 9 by lia; reflexivity).
    assert (P1 : 0 < 10 ^ Z.of_nat (S k)) by (apply Z.pow_pos_nonneg; lia). assert (P2 : 0 < 10 ^ (9 - Z.of_nat (S k))) by (apply Z.pow_pos_nonneg; lia).
    assert (Ev : n * 10 ^ Z.of_nat (S k) / G = n / 10 ^ (9 - Z.of_nat (S k))).
    { rewrite Ek. rewrite (Z.mul_comm n). apply Z.div_mul_cancel_l; lia. }
    rewrite Ev. apply pad_fixed; [lia|]. split; [apply Z.div_pos; lia|]. apply Z.div_lt_upper_bound; [exact P2|]. rewrite Z.mul_comm, <- Ek. lia.
Qed.
