(** The Marshal text of a Float writes the number the dtoa text writes. *)
From Coq Require Import String Ascii ZArith List Bool Lia.
From Verif Require Import IdModel FtextModel MarshalModel MarshalSpec FtextSpec.
From Verif Require ValueModel.
Import List ListNotations.
Open Scope Z_scope.
Local Notation len l := (Z.of_nat (length l)).
Ltac Zify.zify_post_hook ::= Z.to_euclidean_division_equations.

(** * Digits *)
Lemma num_acc l : forall a, fold_left (fun a c => 10 * a + (c - 48)) l a = a * 10 ^ len l + num l.
Proof.
  unfold num. induction l as [|c l IH]; intros a; cbn [fold_left length]; [rewrite Z.mul_1_r; lia|].
  rewrite IH, (IH (10 * 0 + (c - 48))), Nat2Z.inj_succ, Z.pow_succ_r by lia. ring.
Qed.
Lemma num_app l r : num (l ++ r) = num l * 10 ^ len r + num r.
Proof. unfold num at 1. rewrite fold_left_app. apply num_acc. Qed.
Lemma num_one c : num [c] = c - 48. Proof. reflexivity. Qed.
Lemma num_zeros k : num (repeat 48 k) = 0.
Proof. induction k as [|k IH]; [reflexivity|]. change (repeat 48 (S k)) with ([48] ++ repeat 48 k). rewrite num_app, IH, num_one. lia. Qed.
Lemma ltrim_spec l : exists k, l = repeat 48 k ++ ltrim l /\ match ltrim l with c :: _ => c <> 48 | [] => True end.
Proof.
  induction l as [|c l (k & e & h)]; [exists O; now split|].
  destruct (Z.eq_dec c 48) as [->|n].
  - exists (S k). cbn [ltrim repeat app]. now rewrite <- e.
  - exists O. assert (ltrim (c :: l) = c :: l) as ->; [|now split].
    destruct c as [|p|p]; try reflexivity. cbn [ltrim]. do 6 (destruct p; try reflexivity). congruence.
Qed.
Lemma rtrim_spec l : exists k, l = rtrim l ++ repeat 48 k /\ (rtrim l = [] \/ last (rtrim l) 48 <> 48).
Proof.
  unfold rtrim. destruct (ltrim_spec (rev l)) as (k & e & h). exists k. split.
  - apply (f_equal (@rev _)) in e. rewrite rev_involutive, rev_app_distr in e. rewrite e at 1. f_equal.
    clear. induction k as [|k IH]; [reflexivity|]. cbn [repeat rev]. rewrite IH. clear. induction k; cbn; congruence.
  - destruct (ltrim (rev l)) as [|c r]; [now left|]. right. cbn [rev]. now rewrite last_last.
Qed.
Lemma find_none c l : ~ In c l -> find_split c l = None.
Proof.
  induction l as [|x l IH]; cbn; [auto|]. intros h. destruct (Z.eqb_spec x c); [tauto|]. rewrite IH; tauto.
Qed.
Lemma find_some c l r : ~ In c l -> find_split c (l ++ c :: r) = Some (l, r).
Proof.
  induction l as [|x l IH]; cbn; [now rewrite Z.eqb_refl|]. intros h. destruct (Z.eqb_spec x c); [tauto|]. rewrite IH; tauto.
Qed.
Lemma digits_no c l : digits l -> c < 48 \/ 57 < c -> ~ In c l.
Proof. intros h hc hi. unfold digits in h. rewrite Forall_forall in h. apply h in hi. lia. Qed.
Lemma digits_app l r : digits (l ++ r) <-> digits l /\ digits r. Proof. apply Forall_app. Qed.
Lemma digits_zeros k : digits (repeat 48 k).
Proof. apply Forall_forall. intros c h. apply repeat_spec in h. lia. Qed.
Lemma num_pos l : digits l -> 0 <= num l.
Proof.
  induction l as [|c l IH]; [cbn; lia|]. intros h. inversion h; subst. change (c :: l) with ([c] ++ l). rewrite num_app, num_one.
  pose proof (IH ltac:(assumption)). assert (0 <= 10 ^ len l) by (apply Z.pow_nonneg; lia). nia.
Qed.
(** A list with a non-zero first digit is positive. *)
Lemma num_head c l : digits (c :: l) -> c <> 48 -> 0 < num (c :: l).
Proof.
  intros h n. inversion h; subst. change (c :: l) with ([c] ++ l). rewrite num_app, num_one.
  pose proof (num_pos l ltac:(assumption)). assert (0 < 10 ^ len l) by (apply Z.pow_pos_nonneg; lia). nia.
Qed.

(** * Printed numbers *)
Lemma dig_digits k n : 0 <= n -> digits (dig k n).
Proof.
  revert n. induction k as [|k IH]; intros n h; cbn [dig]; [constructor|]. apply digits_app. split.
  - destruct (n <? 10); [constructor|]. apply IH. lia.
  - constructor; [lia|constructor].
Qed.
Lemma dig_num k n : 0 <= n < 10 ^ Z.of_nat k -> num (dig k n) = n.
Proof.
  revert n. induction k as [|k IH]; intros n h; [cbn in *; lia|]. rewrite Nat2Z.inj_succ, Z.pow_succ_r in h by lia.
  cbn [dig]. rewrite num_app, num_one. cbn [length]. change (10 ^ Z.of_nat 1) with 10.
  destruct (Z.ltb_spec n 10); [cbn [num fold_left]; lia|]. rewrite IH; [lia|]. lia.
Qed.
Lemma dig_ne k n : dig (S k) n <> []. Proof. cbn [dig]. destruct (if n <? 10 then [] else dig k (n / 10)); discriminate. Qed.
Lemma parse_show z : -100000 <= z <= 100000 -> parse_i32 (show z) = Some z.
Proof.
  intros h. unfold show, parse_i32.
  assert (K : forall sg n, 0 <= n <= 100000 -> (sg = 1 \/ sg = -1) ->
    (if match dig 20 n with [] => false | _ => forallb digit (dig 20 n) end then
       let z := sg * num (dig 20 n) in if (- 2 ^ 31 <=? z) && (z <? 2 ^ 31) then Some z else None else None) = Some (sg * n)).
  { intros sg n hn hs. pose proof (dig_ne 19 n) as ne. pose proof (dig_digits 20 n ltac:(lia)) as dd.
    rewrite dig_num by (change (10 ^ Z.of_nat 20) with 100000000000000000000; lia).
    destruct (dig 20 n) as [|c r]; [congruence|]. replace (forallb digit (c :: r)) with true.
    - cbv zeta. change (2 ^ 31) with 2147483648. replace ((- (2147483648) <=? sg * n) && (sg * n <? 2147483648)) with true; [reflexivity|].
      symmetry. apply andb_true_iff. split; [apply Z.leb_le | apply Z.ltb_lt]; lia.
    - symmetry. apply forallb_forall. intros x hx. unfold digits in dd. rewrite Forall_forall in dd. apply dd in hx. unfold digit.
      apply andb_true_iff. split; apply Z.leb_le; lia. }
  destruct (Z.ltb_spec z 0).
  - cbv iota beta. rewrite K by lia. f_equal. lia.
  - specialize (K 1 z ltac:(lia) ltac:(auto)). pose proof (dig_ne 19 z) as ne. pose proof (dig_digits 20 z ltac:(lia)) as dd.
    destruct (dig 20 z) as [|c r]; [congruence|]. inversion dd; subst.
    assert (E : (match c :: r with 45 :: r0 => (-1, r0) | 43 :: r0 => (1, r0) | _ => (1, c :: r) end) = (1, c :: r)).
    { destruct c as [|p|p]; try reflexivity. do 6 (destruct p; try reflexivity); lia. }
    rewrite E. transitivity (Some (1 * z)); [exact K|f_equal; lia].
Qed.
Lemma show_chars z : -100000 <= z <= 100000 -> Forall (fun c => 0 < c < 128) (show z).
Proof.
  intros h. unfold show. assert (K : forall n, 0 <= n -> Forall (fun c => 0 < c < 128) (dig 20 n)).
  { intros n hn. eapply Forall_impl; [|apply dig_digits; exact hn]. cbn. lia. }
  destruct (Z.ltb_spec z 0); [constructor; [lia|]|]; apply K; lia.
Qed.

(** * Reading the dtoa text *)
(** [value D E]: the digits have value 0.D * 10^E. *)
Definition denotes (D : list Z) (E : Z) (d : dec) : Prop :=
  exists k, 0 <= E - len D + k /\ 0 <= scale d + k /\ num D * 10 ^ (E - len D + k) = mantissa d * 10 ^ (scale d + k).
Definition sig (D : list Z) : Prop := digits D /\ exists c r, D = c :: r /\ c <> 48.

Lemma list_eqb_spec a b : list_eqb a b = true <-> a = b.
Proof. unfold list_eqb. destruct (list_eq_dec _ _ _); split; congruence. Qed.
Lemma zeros_len k : len (repeat 48 k) = Z.of_nat k. Proof. now rewrite repeat_length. Qed.
Lemma no_lead i f : match i ++ f with c :: _ => c <> 48 | [] => True end -> ltrim (i ++ f) = i ++ f.
Proof. intros h. destruct (ltrim_spec (i ++ f)) as ([|k] & e & _); [now cbn in e|]. cbn in e. rewrite e in h. congruence. Qed.
Lemma strip_ltrim l : ltrim (48 :: l) = ltrim l. Proof. reflexivity. Qed.
Lemma zeros_app a b : repeat 48 a ++ repeat 48 b = repeat 48 (a + b). Proof. symmetry. apply repeat_app. Qed.
Lemma zeros_end l k c : l ++ [c] = repeat 48 k -> c = 48.
Proof.
  intros e. assert (In c (repeat 48 k)) by (rewrite <- e; apply in_or_app; right; now left). now apply repeat_spec in H.
Qed.
(** Trimming the end after the start. *)
Lemma trim_both l : digits l -> 0 < num l ->
  exists a D z, l = repeat 48 a ++ D ++ repeat 48 z /\ rtrim l = repeat 48 a ++ D /\ ltrim (rtrim l) = D /\ sig D.
Proof.
  intros dl nl. destruct (rtrim_spec l) as (z & e & he). destruct (ltrim_spec (rtrim l)) as (a & e2 & h2).
  exists a, (ltrim (rtrim l)), z. rewrite app_assoc, <- e2. repeat split; auto.
  - rewrite e, e2, !digits_app in dl. tauto.
  - destruct (ltrim (rtrim l)) as [|c r]; [|eauto]. rewrite app_nil_r in e2. rewrite e, e2, zeros_app, num_zeros in nl. lia.
Qed.
Lemma parse_decimal_spec i f : i <> [] -> digits i -> digits (match f with Some x => x | None => [] end) -> f <> Some [] ->
  let F := match f with Some x => x | None => [] end in
  0 < num (i ++ F) -> ((exists c r, i = c :: r /\ c <> 48) \/ (i = [48] /\ f <> None)) ->
  exists D E, parse_decimal (i ++ match f with Some x => [46] ++ x | None => [] end) = (D, E) /\ sig D /\
    (exists z, num (i ++ F) = num D * 10 ^ Z.of_nat z /\ E - len D = Z.of_nat z - len F) /\
    - len F <= E <= len i /\ len D <= len i + len F.
Proof.
  intros hi di df hf F hn hl. assert (dl : digits (i ++ F)) by (now apply digits_app).
  destruct (trim_both _ dl hn) as (a & D & z & e & e1 & e2 & hD).
  assert (L : Z.of_nat a + len D + Z.of_nat z = len i + len F).
  { apply (f_equal (@length _)) in e. rewrite !app_length, !repeat_length in e. lia. }
  assert (NM : num (i ++ F) = num D * 10 ^ Z.of_nat z).
  { rewrite e, !num_app, !num_zeros, zeros_len. lia. }
  assert (NE : forall x, num x = 0 -> list_eqb (rtrim (i ++ F)) x = false).
  { intros x hx. destruct (list_eqb (rtrim (i ++ F)) x) eqn:q; [|reflexivity]. apply list_eqb_spec in q.
    rewrite e1 in q. rewrite <- q, num_app, num_zeros in hx. destruct hD as (dd & c & r & -> & hc).
    pose proof (num_head c r dd hc). lia. }
  assert (NE1 : list_eqb (rtrim (i ++ F)) [] = false) by (apply NE; reflexivity).
  assert (NE2 : list_eqb (rtrim (i ++ F)) [48] = false) by (apply NE; reflexivity).
  (* the leading zeros *)
  assert (A0 : forall c r, i = c :: r -> c <> 48 -> a = O).
  { intros c r q hc. destruct a; [reflexivity|]. rewrite q in e. cbn in e. congruence. }
  unfold parse_decimal. destruct f as [x|].
  - cbn [app]. rewrite find_some by (apply digits_no; [auto|lia]). cbv zeta. subst F. rewrite NE1, NE2. cbn [orb].
    rewrite e2. exists D. destruct hl as [(c & r & q & hc)|[q _]].
    + replace (list_eqb i [48]) with false. 2: { symmetry. destruct (list_eqb i [48]) eqn:E; [|reflexivity]. apply list_eqb_spec in E. congruence. }
      eexists. split; [reflexivity|]. split; [auto|]. pose proof (A0 _ _ q hc). subst a. split; [exists z; split; [exact NM|lia]|]. lia.
    + rewrite q. cbn [list_eqb]. replace (list_eqb [48] [48]) with true by reflexivity.
      eexists. split; [reflexivity|]. split; [auto|].
      (* a = 1 + leading zeros of x *)
      destruct (ltrim_spec x) as (b & ex & hx). assert (hb : len x = Z.of_nat b + len (ltrim x)).
      { rewrite ex at 1. rewrite app_length, repeat_length. lia. }
      assert (a = S b).
      { rewrite q in e. rewrite ex in e. change ([48] ++ repeat 48 b ++ ltrim x) with (repeat 48 (S b) ++ ltrim x) in e.
        destruct hD as (dd & c & r & -> & hc). clear - e hc hx. set (y := ltrim x) in *. clearbody y.
        destruct y as [|d y]; [exfalso; rewrite app_nil_r in e; assert (In c (repeat 48 (S b))) by (rewrite e; apply in_or_app; right; now left); apply repeat_spec in H; congruence|].
        revert e. generalize (S b). intros m. revert m. induction a as [|a IH]; intros [|m] e; cbn in e; try congruence.
        injection e as e. f_equal. now apply IH. }
      subst a. rewrite q in L. cbn [length] in L. split; [exists z; split; [rewrite <- q; exact NM|lia]|]. cbn [length]. lia.
  - cbn [app]. subst F. rewrite ?app_nil_r in *.
    destruct hl as [(c & r & q & hc)|[_ q]]; [|congruence]. pose proof (A0 _ _ q hc). subst a. cbn [repeat app] in *.
    rewrite find_none by (apply digits_no; [auto|lia]). cbv zeta. rewrite NE1, e1. exists D. eexists. split; [reflexivity|].
    cbn [length] in L. split; [auto|]. split; [exists z; split; [exact NM|cbn [length]; lia]|]. cbn [length] in *. lia.
Qed.
Lemma parse_dtoa_spec d : proper d -> normal d ->
  exists D E, parse_dtoa (text d) = Some (D, E) /\ sig D /\ denotes D E d /\ -3000 <= E <= 3000 /\ len D <= 3000.
Proof.
  intros (h1 & h2 & h3 & h4 & h5 & _) (hn & b1 & b2).
  destruct (parse_decimal_spec (dint d) (dfrac d) h1 h2 h3 h4 h5 hn) as (D & E & q & hs & (z & e1 & e2) & r1 & r2).
  fold (fracs d) in *.
  assert (ND : ~ In 101 (dint d ++ match dfrac d with Some x => [46] ++ x | None => [] end)).
  { intros hi. apply in_app_or in hi as [hi|hi]; [revert hi; apply digits_no; [auto|lia]|].
    unfold fracs in h3. destruct (dfrac d) as [x|]; [|destruct hi]. destruct hi as [hi|hi]; [lia|]. revert hi. apply digits_no; [auto|lia]. }
  unfold parse_dtoa, text. rewrite app_assoc.
  set (T := dint d ++ match dfrac d with Some x => [46] ++ x | None => [] end) in *. destruct (dexp d) as [x|] eqn:ex.
  - cbn [app]. rewrite find_some by auto. rewrite parse_show by lia. cbn [option_map]. rewrite q. cbn [fst snd].
    exists D, (E + x). split; [reflexivity|]. split; [auto|]. split; [|lia].
    exists (len (fracs d) - x). unfold scale, mantissa. rewrite ex. split; [lia|]. split; [lia|].
    replace (E + x - len D + (len (fracs d) - x)) with (Z.of_nat z) by lia.
    replace (x - len (fracs d) + (len (fracs d) - x)) with 0 by lia. rewrite <- e1. lia.
  - rewrite app_nil_r. rewrite find_none by auto. rewrite q. exists D, E. split; [reflexivity|]. split; [auto|]. split; [|lia].
    exists (len (fracs d)). unfold scale, mantissa. rewrite ex. split; [lia|]. split; [lia|].
    replace (E - len D + len (fracs d)) with (Z.of_nat z) by lia.
    replace (0 - len (fracs d) + len (fracs d)) with 0 by lia. rewrite <- e1. lia.
Qed.

(** * Writing it *)
Lemma layout_spec D E : sig D -> -3000 <= E <= 3000 -> len D <= 3000 ->
  exists o, layout D E = text o /\ proper o /\ mantissa o = num D /\ scale o = E - len D.
Proof.
  intros (dd & c & r & -> & hc) hE hL. inversion dd as [|? ? d1 d2]; subst.
  pose proof (num_head c r dd hc) as np. unfold layout. cbv zeta. set (D := c :: r) in *.
  destruct ((E <=? -4) || ((len D <? E) && (1 <? E)) || ((1 <=? E) && (len D <? E))) eqn:Q.
  - destruct (Z.eqb_spec (len D) 1) as [q|q].
    + destruct r; [|unfold D in q; cbn [length] in q; lia].
      exists (mkd [c] None (Some (E - 1))). unfold text, proper, mantissa, scale, fracs. cbn [dint dfrac dexp app length].
      split; [reflexivity|]. split; [|split; [reflexivity|unfold D; cbn [length]; lia]].
      split; [discriminate|]. split; [exact dd|]. split; [constructor|]. split; [discriminate|]. split; [exact np|]. lia.
    + exists (mkd [c] (Some r) (Some (E - 1))). unfold text, proper, mantissa, scale, fracs. cbn [dint dfrac dexp app length].
      split; [reflexivity|]. split; [|split; [reflexivity|unfold D; cbn [length]; lia]].
      split; [discriminate|]. split; [repeat constructor; lia|]. split; [exact d2|]. split; [|split; [exact np|]].
      * intros z. injection z as ->. now apply q.
      * unfold D in hL. cbn [length] in hL. lia.
  - apply orb_false_iff in Q as [Q Q3]. apply orb_false_iff in Q as [Q1 Q2].
    destruct (Z.leb_spec E 0) as [q|q].
    + exists (mkd [48] (Some (repeat 48 (Z.to_nat (- E)) ++ D)) None). unfold text, proper, mantissa, scale, fracs.
      cbn [dint dfrac dexp app]. rewrite app_nil_r. split; [reflexivity|].
      assert (M : num (48 :: repeat 48 (Z.to_nat (- E)) ++ D) = num D).
      { change (48 :: repeat 48 (Z.to_nat (- E)) ++ D) with (repeat 48 (S (Z.to_nat (- E))) ++ D). rewrite num_app, num_zeros. lia. }
      rewrite app_length, repeat_length. split; [|split; [exact M|lia]].
      split; [discriminate|]. split; [repeat constructor; lia|]. split; [apply digits_app; split; [apply digits_zeros|exact dd]|].
      split; [destruct (repeat 48 (Z.to_nat (- E))); discriminate|]. rewrite M. split; [exact np|]. cbn [length]. split; [lia|exact I].
    + destruct (Z.leb_spec (len D) E) as [q2|q2].
      * assert (E = len D).
        { destruct (Z.leb_spec 1 E); [|lia]. cbn [andb] in Q3. apply Z.ltb_ge in Q3. lia. }
        exists (mkd D None None). unfold text, proper, mantissa, scale, fracs. cbn [dint dfrac dexp app]. rewrite !app_nil_r.
        split; [reflexivity|]. split; [|split; [reflexivity|cbn [length]; lia]].
        split; [discriminate|]. split; [exact dd|]. split; [constructor|]. split; [discriminate|]. split; [exact np|]. cbn [length]. lia.
      * set (k := Z.to_nat E). assert (hk : (0 < k < length D)%nat) by (unfold k; lia).
        pose proof (firstn_skipn k D) as FS. assert (LS : length (skipn k D) = (length D - k)%nat) by apply skipn_length.
        assert (LF : length (firstn k D) = k) by (rewrite firstn_length; lia).
        exists (mkd (firstn k D) (Some (skipn k D)) None). unfold text, proper, mantissa, scale, fracs. cbn [dint dfrac dexp].
        rewrite app_nil_r. rewrite FS, LS. split; [reflexivity|]. split; [|split; [reflexivity|lia]].
        rewrite <- FS in dd. apply digits_app in dd as [g1 g2].
        split; [intros z; apply (f_equal (@length _)) in z; rewrite LF in z; change (length (@nil Z)) with 0%nat in z; lia|]. split; [exact g1|]. split; [exact g2|].
        split; [intros z; injection z as z; apply (f_equal (@length _)) in z; rewrite LS in z; change (length (@nil Z)) with 0%nat in z; lia|].
        split; [exact np|]. rewrite LF. split; [lia|exact I].
Qed.

Lemma text_chars o : proper o -> Forall (fun c => 0 < c < 128) (text o) /\ exists c r, text o = c :: r /\ 48 <= c <= 57.
Proof.
  intros (h1 & h2 & h3 & _ & _ & _ & h4). unfold text. split.
  - apply Forall_app. split; [eapply Forall_impl; [|exact h2]; cbn; lia|]. apply Forall_app. split.
    + unfold fracs in h3. destruct (dfrac o); [|constructor]. constructor; [lia|]. eapply Forall_impl; [|exact h3]. cbn. lia.
    + destruct (dexp o); [|constructor]. constructor; [lia|]. apply show_chars. lia.
  - destruct (dint o) as [|c r]; [congruence|]. inversion h2; subst. eexists _, _. split; [reflexivity|auto].
Qed.
Lemma text_zero o : proper o -> text o <> [48].
Proof.
  intros (h1 & _ & _ & h4 & h5 & _) e. unfold text in e. destruct (dint o) as [|c r] eqn:q; [congruence|]. cbn [app] in e. injection e as -> e.
  apply app_eq_nil in e as [-> e]. apply app_eq_nil in e as [e _]. unfold mantissa, fracs in h5.
  destruct (dfrac o); [discriminate|]. rewrite q in h5. cbn in h5. lia.
Qed.

Section Main.
Variables (dtoa : Z -> list Z) (prs : list Z -> option Z).
Hypotheses (HD : dtoa_ok dtoa prs) (HP : parse_ok prs).
Theorem marshal_text_ok : text_ok (marshal_text dtoa) prs.
Proof.
  intros b hb hz hi hn. set (u := Z.land b 0x7fffffffffffffff).
  assert (U : 0 <= u < 2 ^ 63 /\ b = (if Z.testbit b 63 then u + 2 ^ 63 else u) /\ finite u).
  { assert (EU : u = b mod 2 ^ 63) by (unfold u; change 0x7fffffffffffffff with (Z.ones 63); apply Z.land_ones; lia).
    unfold float_word in hb. rewrite Z.testbit_odd, Z.shiftr_div_pow2 by lia.
    assert (D : b / 2 ^ 63 = 0 \/ b / 2 ^ 63 = 1).
    { change (2 ^ 63) with 9223372036854775808. change (2 ^ 64) with 18446744073709551616 in hb. lia. }
    pose proof (Z.div_mod b (2 ^ 63) ltac:(lia)) as DM. pose proof (Z.mod_pos_bound b (2 ^ 63) ltac:(lia)) as MB. rewrite <- EU in DM, MB.
    assert (UU : Z.land u 0x7fffffffffffffff = u) by (unfold u; rewrite <- Z.land_assoc; reflexivity).
    split; [lia|]. split; [destruct D as [D|D]; rewrite D in *; cbn [Z.odd]; lia|].
    split; [unfold float_word; change (2 ^ 63) with 9223372036854775808 in *; change (2 ^ 64) with 18446744073709551616; lia|].
    unfold f_inf, f_nan in *. fold u in hi, hn. rewrite UU. split; [|auto].
    destruct (ValueModel.f64_eq_zero u) eqn:Z0; [|reflexivity]. exfalso. revert Z0 hz. unfold ValueModel.f64_eq_zero.
    intros Z0 hz. apply orb_true_iff in Z0. apply orb_false_iff in hz as [z1 z2]. apply Z.eqb_neq in z1, z2.
    destruct Z0 as [Z0|Z0]; apply Z.eqb_eq in Z0; destruct D as [D|D]; rewrite D in DM; lia. }
  destruct U as (u1 & u2 & uf). destruct (HD u uf ltac:(lia)) as (pu & d & e & hp & hd).
  destruct (parse_dtoa_spec d hp hd) as (D & E & q & hs & (k & k1 & k2 & k3) & hE & hL).
  destruct (layout_spec D E hs hE hL) as (o & lo & po & mo & so).
  assert (SV : same_value o d). { exists k. rewrite so, mo. auto. }
  assert (PO : prs (text o) = Some u). { rewrite (proj1 HP o d po hp SV), <- e. exact pu. }
  unfold marshal_text. fold u. rewrite e, q, lo. destruct (text_chars o po) as (tc & c & r & ct & cr).
  destruct (Z.testbit b 63) eqn:sb.
  - cbn [app]. split; [rewrite u2; now apply (proj2 HP)|]. split; [constructor; [lia|auto]|].
    intros hin. pose proof (text_zero o po) as tz. rewrite ct in *. cbn in hin. unfold bs in hin. cbn in hin.
    destruct hin as [w|[w|[w|[w|[w|[]]]]]]; try discriminate; injection w as <- w; try lia. subst r. congruence.
  - cbn [app]. split; [rewrite u2; exact PO|]. split; [auto|].
    intros hin. pose proof (text_zero o po) as tz. rewrite ct in *. cbn in hin.
    destruct hin as [w|[w|[w|[w|[w|[]]]]]]; try (injection w as <- w; lia). congruence.
Qed.
End Main.
