(** Floats in base 16. *)
From Coq Require Import List Bool ZArith Lia.
From Verif Require Import FormatModel FormatSpec FormatProofs FormatHexModel FormatHexSpec.
Import ListNotations.
Open Scope Z_scope.

Lemma pow52 : 2 ^ 52 = 16 ^ 13. Proof. reflexivity. Qed.
Lemma normal_ok : forall raw m, finite raw m ->
  let '(e, r) := normal raw m in 0 <= r < 2 ^ 52 /\ -1074 <= e <= 1023 /\ (2 ^ 52 + r) * 2 ^ (e + 1074) = scaled raw m * 2 ^ 52.
Proof.
  intros raw m (R & M & NZ). unfold normal, scaled. destruct (Z.eqb_spec raw 0) as [E|E].
  - assert (0 < m) as P by lia. unfold leading_zeros. destruct (Z.leb_spec m 0); [lia|]. destruct (Z.log2_spec m P) as [L1 L2]. set (L := Z.log2 m) in *.
    assert (0 <= L) as L0 by apply Z.log2_nonneg. assert (L < 52) as L51 by (apply (Z.pow_lt_mono_r_iff 2); lia).
    replace (63 - L - 12 + 1) with (52 - L) by lia. rewrite Z.pow_succ_r in L2 by exact L0.
    assert (2 ^ 52 = 2 ^ L * 2 ^ (52 - L)) as Q by (rewrite <- Z.pow_add_r by lia; f_equal; lia).
    assert (m * 2 ^ (52 - L) = 1 * 2 ^ 52 + (m * 2 ^ (52 - L) - 2 ^ 52)) as S by lia.
    assert (0 < 2 ^ (52 - L)) as P2 by (apply Z.pow_pos_nonneg; lia).
    assert ((m * 2 ^ (52 - L)) mod 2 ^ 52 = m * 2 ^ (52 - L) - 2 ^ 52) as ->.
    { symmetry. apply (Z.mod_unique_pos _ _ 1); [|lia]. rewrite Q. clear - L1 L2 P2. nia. }
    split; [rewrite Q; clear - L1 L2 P2; nia|]. split; [lia|]. replace (-1022 - (63 - L - 12) - 1 + 1074) with L by lia.
    replace (2 ^ 52 + (m * 2 ^ (52 - L) - 2 ^ 52)) with (m * 2 ^ (52 - L)) by lia. rewrite Q. ring.
  - split; [exact M|]. split; [lia|]. replace (raw - 1023 + 1074) with (raw - 1 + 52) by lia. rewrite (Z.pow_add_r 2 (raw - 1) 52) by lia. ring.
Qed.
Lemma fixed_len : forall n m, length (fixed n m) = n.
Proof. induction n; intros m; cbn; [reflexivity|]. rewrite IHn. reflexivity. Qed.
Lemma fixed_digits : forall n m, is_digits 16 (fixed n m).
Proof. induction n; intros m; cbn [fixed]; constructor; [apply Z.mod_pos_bound; lia|apply IHn]. Qed.
Lemma fixed_worth : forall n m, 0 <= m -> worth 16 (fixed n m) = m mod 16 ^ Z.of_nat n.
Proof.
  induction n as [|n IH]; intros m M; [cbn [fixed]; change (16 ^ Z.of_nat 0) with 1; rewrite Z.mod_1_r; reflexivity|].
  cbn [fixed]. rewrite worth_cons, IH by exact M. unfold len. rewrite fixed_len. rewrite Nat2Z.inj_succ, Z.pow_succ_r by lia. assert (0 < 16 ^ Z.of_nat n) as P by (apply Z.pow_pos_nonneg; lia).
  set (b := 16 ^ Z.of_nat n) in *. clearbody b. rewrite (Z.mul_comm 16 b). rewrite Z.rem_mul_r by lia. ring.
Qed.
Lemma fixed_all : forall m, 0 <= m < 2 ^ 52 -> worth 16 (fixed 13 m) = m.
Proof. intros m M. rewrite fixed_worth by lia. change (16 ^ Z.of_nat 13) with (2 ^ 52). apply Z.mod_small. exact M. Qed.
Lemma worth_app : forall base a b, worth base (a ++ b) = worth base a * base ^ len b + worth base b.
Proof. intros base a b. unfold worth at 1. rewrite fold_left_app. rewrite worth_gen. reflexivity. Qed.
Lemma worth_zeros : forall n, worth 16 (repeat 0 n) = 0.
Proof. induction n; [reflexivity|]. cbn [repeat]. rewrite worth_cons, IHn. reflexivity. Qed.
Lemma off_lead : forall ds m, off 1 ds (2 ^ 52 + m) = worth 16 ds * 2 ^ 52 - m * 16 ^ len ds.
Proof. intros ds m. unfold off. rewrite worth_cons. ring. Qed.
Lemma trim_worth : forall l, worth 16 (trim_end l) * 16 ^ len l = worth 16 l * 16 ^ len (trim_end l).
Proof.
  induction l as [|d l IH]; [reflexivity|]. cbn [trim_end]. assert (len (d :: l) = 1 + len l) as -> by apply len_cons. rewrite Z.pow_add_r by (try lia; apply len_nonneg). rewrite Z.pow_1_r.
  destruct (trim_end l) as [|x r] eqn:E.
  - change (worth 16 []) with 0 in IH. change (len (@nil Z)) with 0 in IH. rewrite Z.pow_0_r in IH. destruct (Z.eqb_spec d 0) as [->|N].
    + rewrite worth_cons. change (worth 16 []) with 0. change (len (@nil Z)) with 0. rewrite Z.pow_0_r. lia.
    + rewrite !worth_cons. change (worth 16 []) with 0. change (len (@nil Z)) with 0. rewrite len_cons. change (len (@nil Z)) with 0. rewrite Z.pow_0_r. change (16 ^ (1 + 0)) with 16. nia.
  - rewrite (worth_cons 16 d (x :: r)), (worth_cons 16 d l), (len_cons _ d (x :: r)). rewrite Z.pow_add_r by (try lia; apply len_nonneg). rewrite Z.pow_1_r.
    revert IH. generalize (16 ^ len (x :: r)) (worth 16 (x :: r)) (worth 16 l) (16 ^ len l). intros p a b q IH. nia.
Qed.
Lemma trim_last : forall l, trim_end l <> [] -> last (trim_end l) 0 <> 0.
Proof.
  induction l as [|d l IH]; intros N; [contradiction|]. cbn [trim_end] in *. destruct (trim_end l) as [|x r] eqn:E.
  - destruct (Z.eqb_spec d 0); [contradiction|]. cbn. exact n.
  - change (last (d :: x :: r) 0) with (last (x :: r) 0). apply IH. discriminate.
Qed.
Lemma plus_carry : forall l, is_digits 16 l -> snd (plus_one 16 l) = if forallb (Z.eqb 15) l then 1 else 0.
Proof.
  intros l D. induction D as [|d l H D IH]; [reflexivity|]. cbn [plus_one forallb]. destruct (plus_one 16 l) as [r c]. cbn [snd] in *. rewrite IH.
  destruct (Z.eqb_spec 15 d) as [<-|N]; cbn [andb]; destruct (forallb (Z.eqb 15) l); try reflexivity; apply Z.div_small; lia.
Qed.
Lemma parts_exact : forall m prec, 0 <= m < 2 ^ 52 -> match prec with Some p => 13 <= p | None => True end ->
  match parts m prec with
  | Some (lead, ds) => off lead ds (2 ^ 52 + m) = 0 /\ lead = 1 /\ match prec with Some p => len ds = p | None => ds <> [] -> last ds 0 <> 0 end
  | None => match prec with Some p => 65535 < p | None => False end
  end.
Proof.
  intros m prec M P. unfold parts. destruct prec as [p|].
  - destruct (Z.eqb_spec p 0); [lia|]. destruct (Z.leb_spec 13 p); [|lia]. destruct (Z.ltb_spec 65535 p) as [L|L]; [exact L|].
    assert (len (fixed 13 m) = 13) as L13 by (unfold len; rewrite fixed_len; reflexivity).
    split; [|split; [reflexivity|rewrite len_app, len_pad, L13; lia]]. rewrite off_lead, worth_app, len_app, L13, len_pad. unfold pad. rewrite worth_zeros, fixed_all by exact M.
    rewrite Z.pow_add_r by lia. rewrite pow52. ring.
  - split; [|split; [reflexivity|apply trim_last]]. rewrite off_lead. pose proof (trim_worth (fixed 13 m)) as T. rewrite fixed_all in T by exact M.
    assert (len (fixed 13 m) = 13) as L13 by (unfold len; rewrite fixed_len; reflexivity). rewrite L13 in T. rewrite pow52. lia.
Qed.
Lemma parts_near : forall m p, 0 <= m < 2 ^ 52 -> 0 <= p < 13 -> runs_out m (Some p) = false ->
  exists lead ds, parts m (Some p) = Some (lead, ds) /\ Z.abs (off lead ds (2 ^ 52 + m)) <= 2 ^ 51 /\ len ds = p.
Proof.
  intros m p M P RO. unfold parts. destruct (Z.eqb_spec p 0) as [->|NZ].
  - exists (if 2 ^ 51 <=? m then 2 else 1), []. split; [reflexivity|]. split; [|reflexivity]. unfold off. rewrite worth_cons. change (worth 16 []) with 0. change (len (@nil Z)) with 0. rewrite Z.pow_0_r.
    destruct (Z.leb_spec (2 ^ 51) m); change (2 ^ 52) with (2 * 2 ^ 51) in *; generalize dependent (2 ^ 51); intros; lia.
  - destruct (Z.leb_spec 13 p); [lia|]. exists 1, (round_hex (fixed 13 m) (Z.to_nat p)). split; [reflexivity|].
    set (k := Z.to_nat p) in *. assert (Z.of_nat k = p) as KP by (unfold k; lia). assert (k < 13)%nat as K13 by lia.
    pose proof (fixed_all m M) as W. pose proof (fixed_digits 13 m) as D. pose proof (fixed_len 13 m) as L. unfold runs_out in RO. fold k in RO.
    assert ((0 <? p) = true) as Q1 by (apply Z.ltb_lt; lia). assert ((p <? 13) = true) as Q2 by (apply Z.ltb_lt; lia). rewrite Q1, Q2 in RO. cbn [andb] in RO.
    unfold round_hex. set (l := fixed 13 m) in *. clearbody l.
    pose proof (firstn_skipn k l) as FS. assert (length (firstn k l) = k) as LF by (apply firstn_length_le; lia).
    assert (skipn k l = nth k l 0 :: skipn (S k) l) as SK.
    { clear - K13 L. revert l L. assert (forall l : list Z, (k < length l)%nat -> skipn k l = nth k l 0 :: skipn (S k) l) as G.
      { clear. induction k as [|k IH]; intros [|x l] H; cbn in H; try lia; [reflexivity|]. cbn [skipn nth]. rewrite IH by lia. reflexivity. }
      intros l L. apply G. lia. }
    rewrite SK in FS. set (A := firstn k l) in *. set (d := nth k l 0) in *. set (R := skipn (S k) l) in *. assert (length R = 12 - k)%nat as LR by (unfold R; rewrite skipn_length; lia).
    rewrite <- FS in D, W. clearbody A d R. clear FS SK L. apply Forall_app in D. destruct D as [DA DR]. apply Forall_cons_iff in DR. destruct DR as [Dd DR].
    rewrite worth_app, worth_cons in W. pose proof (worth_range 16 R ltac:(lia) DR) as BR. assert (len A = p) as LA by (unfold len; lia). assert (len R = 12 - p) as LRZ by (unfold len; lia).
    rewrite len_cons in W. rewrite LRZ in *. rewrite Z.pow_add_r, Z.pow_1_r in W by lia.
    assert (16 ^ p * 16 ^ (12 - p) = 2 ^ 48) as PP by (rewrite <- Z.pow_add_r by lia; replace (p + (12 - p)) with 12 by lia; reflexivity).
    assert (0 < 16 ^ p) as P1 by (apply Z.pow_pos_nonneg; lia). assert (0 < 16 ^ (12 - p)) as P2 by (apply Z.pow_pos_nonneg; lia).
    change (2 ^ 52) with (16 * 2 ^ 48) in *. change (2 ^ 51) with (8 * 2 ^ 48). rewrite <- PP in *.
    destruct (Z.leb_spec 8 d) as [U|U].
    + rewrite andb_true_r in RO. destruct (plus_one_ok 16 A ltac:(lia) DA) as (PW & PD & PL & _). rewrite (plus_carry A DA), RO in PW.
      assert (len (fst (plus_one 16 A)) = p) as LL by (unfold len; lia). split; [|exact LL].
      assert (forall ds x, off 1 ds (16 * (16 ^ p * 16 ^ (12 - p)) + x) = worth 16 ds * (16 * (16 ^ p * 16 ^ (12 - p))) - x * 16 ^ len ds) as OL by (intros ds x; pose proof (off_lead ds x) as O; change (2 ^ 52) with (16 * 2 ^ 48) in O; rewrite <- PP in O; exact O).
      rewrite OL, LL, <- W. assert (worth 16 (fst (plus_one 16 A)) = worth 16 A + 1) as -> by lia. revert BR P1 P2 U Dd. clear. generalize (worth 16 A) (worth 16 R) (16 ^ p) (16 ^ (12 - p)).
      intros a r x y BR P1 P2 U Dd. replace ((a + 1) * (16 * (x * y)) - (a * (16 * y) + (d * y + r)) * x) with (x * (16 * y - d * y - r)) by ring.
      assert (0 <= 16 * y - d * y - r <= 8 * y) as B by nia. rewrite Z.abs_eq by nia. nia.
    + split; [|exact LA].
      assert (forall ds x, off 1 ds (16 * (16 ^ p * 16 ^ (12 - p)) + x) = worth 16 ds * (16 * (16 ^ p * 16 ^ (12 - p))) - x * 16 ^ len ds) as OL by (intros ds x; pose proof (off_lead ds x) as O; change (2 ^ 52) with (16 * 2 ^ 48) in O; rewrite <- PP in O; exact O).
      rewrite OL, LA, <- W. revert BR P1 P2 U Dd. clear. generalize (worth 16 A) (worth 16 R) (16 ^ p) (16 ^ (12 - p)).
      intros a r x y BR P1 P2 U Dd. replace (a * (16 * (x * y)) - (a * (16 * y) + (d * y + r)) * x) with (- (x * (d * y + r))) by ring.
      assert (0 <= d * y + r <= 8 * y) as B by nia. rewrite Z.abs_neq by nia. nia.
Qed.
(** The text. *)
Lemma dchar_cases : forall u d, 0 <= d < 16 -> dchar u d = 48 + d /\ d < 10 \/ dchar u d = (if u then 55 else 87) + d /\ 10 <= d.
Proof. intros u d H. unfold dchar. destruct (Z.ltb_spec d 10); [left; split; [reflexivity|lia]|right; split; [destruct u; lia|lia]]. Qed.
Ltac lebs := repeat match goal with |- context [?a <=? ?b] => destruct (Z.leb_spec a b); try lia end.
Lemma unhex_dchar : forall u d, 0 <= d < 16 -> unhex (dchar u d) = d.
Proof. intros u d H. destruct (dchar_cases u d H) as [[-> L]|[-> L]]; unfold unhex; destruct u; lebs. Qed.
Lemma is_hex_dchar : forall u d, 0 <= d < 16 -> is_hex (dchar u d) = true.
Proof. intros u d H. destruct (dchar_cases u d H) as [[-> L]|[-> L]]; unfold is_hex; destruct u; lebs; reflexivity. Qed.
Definition wrong (u : bool) (c : Z) : bool := if u then (97 <=? c) && (c <=? 122) else (65 <=? c) && (c <=? 90).
Lemma wrong_dchar : forall u d, 0 <= d < 16 -> wrong u (dchar u d) = false.
Proof. intros u d H. destruct (dchar_cases u d H) as [[-> L]|[-> L]]; unfold wrong; destruct u; lebs; reflexivity. Qed.
Lemma wrong_digits : forall u l, is_digits 16 l -> existsb (wrong u) (map (dchar u) l) = false.
Proof. intros u l D. induction D as [|d l H D IH]; [reflexivity|]. cbn [map existsb]. rewrite wrong_dchar, IH by exact H. reflexivity. Qed.
Lemma wrong_decimal : forall u l, is_digits 10 l -> existsb (wrong u) (map (dchar false) l) = false.
Proof.
  intros u l D. induction D as [|d l H D IH]; [reflexivity|]. cbn [map existsb]. rewrite IH. unfold dchar, wrong. destruct (Z.ltb_spec d 10); [|lia]. destruct u; lebs; reflexivity.
Qed.
Lemma unhex_map : forall u l, is_digits 16 l -> map unhex (map (dchar u) l) = l.
Proof. intros u l D. induction D as [|d l H D IH]; [reflexivity|]. cbn [map]. rewrite IH, unhex_dchar by exact H. reflexivity. Qed.
Lemma hex_span_ok : forall u l c r, is_digits 16 l -> is_hex c = false -> hex_span (map (dchar u) l ++ c :: r) = (map (dchar u) l, c :: r).
Proof.
  intros u l c r D C. induction D as [|d l H D IH]; [cbn [map app hex_span]; rewrite C; reflexivity|]. cbn [map app hex_span]. rewrite is_hex_dchar, IH by exact H. reflexivity.
Qed.
Lemma read_back : forall u lead ds e, 0 <= lead < 16 -> is_digits 16 ds -> read_hex u (hex_text u lead ds e) = Some (lead, ds, e).
Proof.
  intros u lead ds e L D. destruct (digs_ok 10 (Z.abs e) ltac:(lia) ltac:(lia)) as (WE & DE & _).
  assert (existsb (wrong u) (hex_text u lead ds e) = false) as NW.
  { unfold hex_text. rewrite !existsb_app. cbn [existsb]. rewrite wrong_dchar by exact L. unfold numeral. rewrite wrong_decimal by exact DE.
    assert (existsb (wrong u) (match ds with [] => [] | _ => 46 :: map (dchar u) ds end) = false) as ->.
    { destruct ds as [|d ds]; [reflexivity|]. change (existsb (wrong u) (46 :: map (dchar u) (d :: ds))) with (wrong u 46 || existsb (wrong u) (map (dchar u) (d :: ds))). rewrite wrong_digits by exact D. destruct u; reflexivity. }
    destruct (0 <=? e); destruct u; reflexivity. }
  fold (wrong u) in *. unfold read_hex. change (fun c => if u then (97 <=? c) && (c <=? 122) else (65 <=? c) && (c <=? 90)) with (wrong u).
  set (t := hex_text u lead ds e) in *. assert (t = hex_text u lead ds e) as ET by reflexivity. unfold hex_text in ET. cbn [app] in ET. rewrite ET at 1.
  rewrite NW. rewrite Z.eqb_refl. cbn [negb orb]. rewrite (unhex_dchar u lead L).
  assert (forall q, Some (lead, ds, (if (if 0 <=? e then 43 else 45) =? 45 then -1 else 1) * worth 10 (map unhex (numeral 10 false (Z.abs e)))) = q -> Some (lead, ds, e) = q) as FIN.
  { intros q <-. unfold numeral. rewrite unhex_map; [|eapply Forall_impl; [|exact DE]; intros a HA; cbn in HA; lia]. rewrite WE. destruct (Z.leb_spec 0 e); f_equal; f_equal; [change (43 =? 45) with false|change (45 =? 45) with true]; cbv iota; lia. }
  destruct ds as [|d ds].
  - cbn [app map]. destruct (0 <=? e) eqn:E0; destruct u; cbn [app]; rewrite Z.eqb_refl; symmetry; apply FIN; reflexivity.
  - set (x := d :: ds) in *. cbn [app]. rewrite hex_span_ok; [|exact D|destruct u; reflexivity]. rewrite (unhex_map u x D).
    destruct (0 <=? e) eqn:E0; cbn [app]; rewrite Z.eqb_refl; symmetry; apply FIN; reflexivity.
Qed.
Lemma trim_digits : forall l, is_digits 16 l -> is_digits 16 (trim_end l).
Proof.
  intros l D. induction D as [|d l H D IH]; [constructor|]. cbn [trim_end]. destruct (trim_end l) as [|x r]; [|constructor; assumption]. destruct (d =? 0); [constructor|constructor; [exact H|constructor]].
Qed.
Lemma parts_digits : forall m prec lead ds, parts m prec = Some (lead, ds) -> 0 <= lead < 16 /\ is_digits 16 ds.
Proof.
  intros m prec lead ds E. unfold parts in E. pose proof (fixed_digits 13 m) as D. set (l := fixed 13 m) in *. clearbody l. destruct prec as [p|].
  - destruct (p =? 0); [destruct (2 ^ 51 <=? m); injection E as <- <-; (split; [lia|constructor])|]. destruct (13 <=? p).
    + destruct (65535 <? p); [discriminate|]. injection E as <- <-. split; [lia|]. apply Forall_app. split; [exact D|]. unfold pad. apply Forall_forall. intros x I. apply repeat_spec in I. subst x. lia.
    + injection E as <- <-. split; [lia|]. assert (is_digits 16 (firstn (Z.to_nat p) l)) as DF.
      { rewrite <- (firstn_skipn (Z.to_nat p) l) in D. apply Forall_app in D. apply D. }
      unfold round_hex. destruct (8 <=? _); [|exact DF]. apply (plus_one_ok 16); [lia|exact DF].
  - injection E as <- <-. split; [lia|apply trim_digits; exact D].
Qed.
Theorem hex_exact : forall raw m prec upper, finite raw m -> match prec with Some p => 13 <= p <= 65535 | None => True end ->
  exists t ds e r, hex_float raw m prec upper = Ok t /\ read_hex upper t = Some (1, ds, e) /\ worth 16 (1 :: ds) * 2 ^ 52 = r * 16 ^ len ds
    /\ 2 ^ 52 <= r < 2 ^ 53 /\ -1074 <= e <= 1023 /\ r * 2 ^ (e + 1074) = scaled raw m * 2 ^ 52
    /\ match prec with Some p => len ds = p | None => ds <> [] -> last ds 0 <> 0 end.
Proof.
  intros raw m prec upper F P. pose proof (normal_ok raw m F) as N. unfold hex_float. destruct (normal raw m) as [e r]. destruct N as (N1 & N2 & N3).
  pose proof (parts_exact r prec N1 ltac:(destruct prec; [lia|exact I])) as PE. destruct (parts r prec) as [[lead ds]|] eqn:EP; [|destruct prec; [lia|contradiction]].
  destruct (parts_digits r prec lead ds EP) as [DL DD].
  destruct PE as (E & -> & LL). exists (hex_text upper 1 ds e), ds, e, (2 ^ 52 + r). split; [reflexivity|]. split; [apply read_back; assumption|]. split; [unfold off in E; lia|]. split; [change (2 ^ 53) with (2 ^ 52 + 2 ^ 52); lia|]. split; [exact N2|]. split; [exact N3|exact LL].
Qed.
Theorem hex_near : forall raw m p upper, finite raw m -> 0 <= p < 13 -> runs_out (snd (normal raw m)) (Some p) = false ->
  exists t lead ds e r, hex_float raw m (Some p) upper = Ok t /\ read_hex upper t = Some (lead, ds, e) /\ Z.abs (worth 16 (lead :: ds) * 2 ^ 52 - r * 16 ^ len ds) <= 2 ^ 51
    /\ 2 ^ 52 <= r < 2 ^ 53 /\ -1074 <= e <= 1023 /\ r * 2 ^ (e + 1074) = scaled raw m * 2 ^ 52 /\ len ds = p.
Proof.
  intros raw m p upper F P RO. pose proof (normal_ok raw m F) as N. unfold hex_float. destruct (normal raw m) as [e r]. destruct N as (N1 & N2 & N3). cbn [snd] in RO.
  destruct (parts_near r p N1 P RO) as (lead & ds & E & O & LL). rewrite E. destruct (parts_digits r (Some p) lead ds E) as [DL DD].
  exists (hex_text upper lead ds e), lead, ds, e, (2 ^ 52 + r). split; [reflexivity|]. split; [apply read_back; assumption|]. split; [exact O|].
  split; [change (2 ^ 53) with (2 ^ 52 + 2 ^ 52); lia|]. split; [exact N2|]. split; [exact N3|exact LL].
Qed.
(** 1.984375, that is 0x1.fcp+0, with one digit: 0x1.0p+0. *)
Lemma hex_bad : finite 1023 (0xfc00000000000) /\ hex_float 1023 (0xfc00000000000) (Some 1) false = Ok [48; 120; 49; 46; 48; 112; 43; 48] /\ read_hex false [48; 120; 49; 46; 48; 112; 43; 48] = Some (1, [0], 0)
  /\ 2 ^ 51 < Z.abs (off 1 [0] (2 ^ 52 + 0xfc00000000000)).
Proof. split; [|split; [vm_compute; reflexivity|split; [reflexivity|reflexivity]]]. split; [lia|]. split; [split; [discriminate|reflexivity]|left; discriminate]. Qed.
