(** The native parser reads every JSON text. *)
From Coq Require Import ZArith List Bool Lia.
From Verif Require Import IstrModel Utf8Model Utf8Spec Utf8Proofs JsonModel JsonSpec.
Import ListNotations.
Open Scope Z_scope.

(** * Blanks *)
Lemma space_iff c : is_space c = true <-> (c = 32 \/ c = 9 \/ c = 10 \/ c = 13).
Proof. unfold is_space. rewrite !orb_true_iff, !Z.eqb_eq. tauto. Qed.
Lemma skip_blank w s : blank w -> skip_ws (w ++ s) = skip_ws s.
Proof.
  induction 1 as [|c w h hw IH]; cbn; auto. apply space_iff in h. rewrite h. exact IH.
Qed.
Lemma skip_stop c s : is_space c = false -> skip_ws (c :: s) = c :: s.
Proof. intro h. cbn. rewrite h. reflexivity. Qed.
Lemma skip_skip s : skip_ws (skip_ws s) = skip_ws s.
Proof. induction s as [|c r IH]; cbn; auto. destruct (is_space c) eqn:h; auto. cbn. rewrite h. reflexivity. Qed.
Lemma skip_len s : (length (skip_ws s) <= length s)%nat.
Proof. induction s as [|c r IH]; cbn; auto. destruct (is_space c); cbn; lia. Qed.
Lemma blank_app a b : blank a -> blank b -> blank (a ++ b).
Proof. apply Forall_app_2 || (intros; apply Forall_app; auto). Qed.

(** * Strings *)
Lemma hexd_digit c x : hex_digit c x -> hexd c = Some x /\ 0 <= x <= 15 /\ c <> 43.
Proof.
  intro h; unfold hexd; destruct h as [c h|c h|c h]; repeat split; try lia.
  - replace (48 <=? c) with true by (symmetry; apply Z.leb_le; lia). replace (c <=? 57) with true by (symmetry; apply Z.leb_le; lia). reflexivity.
  - replace (c <=? 57) with false by (symmetry; apply Z.leb_gt; lia). rewrite andb_false_r.
    replace (97 <=? c) with true by (symmetry; apply Z.leb_le; lia). replace (c <=? 102) with true by (symmetry; apply Z.leb_le; lia). reflexivity.
  - replace (c <=? 57) with false by (symmetry; apply Z.leb_gt; lia). rewrite andb_false_r.
    replace (97 <=? c) with false by (symmetry; apply Z.leb_gt; lia). cbn [andb].
    replace (65 <=? c) with true by (symmetry; apply Z.leb_le; lia). replace (c <=? 70) with true by (symmetry; apply Z.leb_le; lia). reflexivity.
Qed.
Lemma hex4_unit t u r : code_unit t u -> hex4 (t ++ r) = Some (u, r) /\ 0 <= u < 65536.
Proof.
  intros (a & b & c & d & x & y & z & w & -> & ha & hb & hc & hd & ->).
  destruct (hexd_digit _ _ ha) as (ea & ra & na). destruct (hexd_digit _ _ hb) as (eb & rb & nb).
  destruct (hexd_digit _ _ hc) as (ec & rc & nc). destruct (hexd_digit _ _ hd) as (ed & rd & nd).
  split; [|lia]. cbn [app hex4].
  replace (a =? 43) with false by (symmetry; apply Z.eqb_neq; exact na).
  cbn [hexs]. rewrite ea, eb, ec, ed. cbn [option_map]. do 3 f_equal. lia.
Qed.
Lemma push_scalar c : scalar c -> push_char c = Some (enc_utf8 c).
Proof.
  intro h. unfold push_char.
  replace (((0 <=? c) && (c <? 55296)) || ((57344 <=? c) && (c <=? 1114111))) with true; auto.
  symmetry. rewrite orb_true_iff, !andb_true_iff, !Z.leb_le, Z.ltb_lt. unfold scalar in h. lia.
Qed.
Lemma enc_head c : scalar c -> exists x r, enc_utf8 c = x :: r /\ ((c < 128 /\ x = c /\ r = []) \/ (128 <= c /\ 128 <= x)).
Proof.
  intro h. unfold enc_utf8. destruct (Z.ltb_spec c 128); [exists c, []; auto|].
  assert (0 <= c / 64 /\ 0 <= c / 4096 /\ 0 <= c / 262144) by (repeat split; apply Z.div_pos; lia).
  destruct (c <? 2048); [|destruct (c <? 65536)]; eexists _, _; (split; [reflexivity|right; lia]).
Qed.
Lemma skipn_app_exact {A} (a b : list A) : skipn (length a) (a ++ b) = b.
Proof. induction a; cbn; auto. Qed.
Lemma firstn_app_exact {A} (a b : list A) : firstn (length a) (a ++ b) = a.
Proof. induction a; cbn; f_equal; auto. Qed.
Lemma enc_len_length c : length (enc_utf8 c) = enc_len c.
Proof. reflexivity. Qed.

(** Reading the text of one character. *)
Lemma pstr_char t c : jchar t c -> forall f r acc, pstr (S f) (t ++ r) acc = pstr f r (acc ++ enc_utf8 c).
Proof.
  intros h f r acc. destruct h as [c hs h32 h34 h92|e c h|t u ht hu|t1 u1 t2 u2 h1 h2 hi lo].
  - destruct (enc_head c hs) as (x & q & E & [(hc & -> & ->)|(hc & hx)]).
    + rewrite E. cbn [app pstr].
      replace (c =? 34) with false by (symmetry; apply Z.eqb_neq; exact h34).
      replace (c =? 92) with false by (symmetry; apply Z.eqb_neq; exact h92).
      replace (128 <=? c) with false by (symmetry; apply Z.leb_gt; exact hc). reflexivity.
    + pose proof (step_enc c r hs) as st. rewrite E in *. cbn [app] in *. cbn [pstr].
      replace (x =? 34) with false by (symmetry; apply Z.eqb_neq; lia).
      replace (x =? 92) with false by (symmetry; apply Z.eqb_neq; lia).
      replace (128 <=? x) with true by (symmetry; apply Z.leb_le; exact hx).
      rewrite st, <- (enc_len_length c), E.
      change (x :: q ++ r) with ((x :: q) ++ r). rewrite skipn_app_exact, firstn_app_exact. reflexivity.
  - cbn [In] in h.
    repeat match goal with H : _ \/ _ |- _ => destruct H as [H|H] end; try contradiction; injection h as <- <-; reflexivity.
  - destruct (hex4_unit t u r ht) as (e & b). cbn [app pstr]. cbn [Z.eqb Pos.eqb]. unfold unescape. cbn [Z.eqb Pos.eqb].
    unfold unescape_u. rewrite e.
    replace ((55296 <=? u) && (u <=? 56319)) with false
      by (symmetry; apply andb_false_iff; rewrite !Z.leb_gt; unfold scalar in hu; lia).
    rewrite (push_scalar u hu). reflexivity.
  - rewrite <- !app_assoc. cbn [app pstr]. cbn [Z.eqb Pos.eqb]. unfold unescape. cbn [Z.eqb Pos.eqb].
    destruct (hex4_unit t1 u1 (92 :: 117 :: t2 ++ r) h1) as (e & b). destruct (hex4_unit t2 u2 r h2) as (e2 & b2).
    unfold unescape_u. rewrite e.
    replace ((55296 <=? u1) && (u1 <=? 56319)) with true
      by (symmetry; apply andb_true_iff; rewrite !Z.leb_le; lia).
    rewrite e2.
    replace ((56320 <=? u2) && (u2 <=? 57343)) with true
      by (symmetry; apply andb_true_iff; rewrite !Z.leb_le; lia).
    rewrite Z.shiftl_mul_pow2 by lia. change (2 ^ 10) with 1024.
    rewrite push_scalar by (unfold scalar; lia). reflexivity.
Qed.
Lemma jchar_pos t c : jchar t c -> (0 < length t)%nat.
Proof.
  intros []; cbn [length app]; try lia. rewrite enc_len_length. apply enc_len_pos.
Qed.
Lemma pstr_chars t b : jchars t b -> forall f r acc, (length t < f)%nat -> pstr f (t ++ 34 :: r) acc = POk (acc ++ b) r.
Proof.
  induction 1 as [|t c q b hc hq IH]; intros f r acc hf; (destruct f as [|f]; [lia|]).
  - cbn. rewrite app_nil_r. reflexivity.
  - rewrite <- app_assoc, (pstr_char t c hc), IH; [rewrite <- app_assoc; reflexivity|].
    pose proof (jchar_pos t c hc). rewrite app_length in hf. lia.
Qed.
Lemma pstring_ok t b r : jstring t b -> exists t', t = 34 :: t' /\ pstring (t' ++ r) = POk b r.
Proof.
  intros (t' & -> & h). exists (t' ++ [34]). split; [reflexivity|]. rewrite <- app_assoc.
  unfold pstring. cbn [app]. rewrite (pstr_chars t' b h); [reflexivity|]. rewrite app_length. lia.
Qed.

(** * Numbers *)
Lemma isdig_iff c : isdig c = true <-> 48 <= c <= 57.
Proof. unfold isdig. rewrite andb_true_iff, !Z.leb_le. tauto. Qed.
(** What may follow a number. *)
Definition stops (r : list Z) : Prop :=
  match r with [] => True | c :: _ => isdig c = false /\ c <> 46 /\ c <> 101 /\ c <> 69 end.
Lemma span_digits d r : Forall (fun c => 48 <= c <= 57) d ->
  (match r with [] => True | c :: _ => isdig c = false end) -> span isdig (d ++ r) = (d, r).
Proof.
  intros h hr. induction h as [|c d hc hd IH]; cbn [app].
  - destruct r as [|c r]; cbn; auto. rewrite hr. reflexivity.
  - cbn [span]. apply isdig_iff in hc. rewrite hc, IH. reflexivity.
Qed.
Definition nodig (r : list Z) : Prop := match r with [] => True | c :: _ => isdig c = false end.
Lemma p_int_ok i r : jint i -> nodig r -> p_int (i ++ r) = Some (i, r).
Proof.
  intros [->|((hn & hdd) & h0)] hr; [reflexivity|]. destruct i as [|c i]; [contradiction|]. inversion hdd; subst.
  cbn [hd] in h0. cbn [app p_int].
  replace (c =? 48) with false by (symmetry; apply Z.eqb_neq; exact h0).
  replace ((49 <=? c) && (c <=? 57)) with true by (symmetry; apply andb_true_iff; rewrite !Z.leb_le; lia).
  rewrite (span_digits i r) by auto. reflexivity.
Qed.
Lemma p_frac_none s : match s with [] => True | c :: _ => c <> 46 end -> p_frac s = Some ([], s).
Proof.
  destruct s as [|c s]; auto. intro h. cbn. replace (c =? 46) with false by (symmetry; apply Z.eqb_neq; exact h). reflexivity.
Qed.
Lemma p_frac_ok f r : jfrac f -> nodig r -> p_frac (f ++ r) = Some (f, r).
Proof.
  intros (d & -> & hn & hd) hr. cbn [app p_frac]. cbn [Z.eqb Pos.eqb]. rewrite (span_digits d r hd hr).
  destruct d; [contradiction|reflexivity].
Qed.
Lemma p_exp_none s : match s with [] => True | c :: _ => c <> 101 /\ c <> 69 end -> p_exp s = Some ([], s).
Proof.
  destruct s as [|c s]; auto. intros (h1 & h2). cbn.
  replace (c =? 101) with false by (symmetry; apply Z.eqb_neq; exact h1).
  replace (c =? 69) with false by (symmetry; apply Z.eqb_neq; exact h2). reflexivity.
Qed.
Lemma p_exp_ok e r : jexp e -> nodig r -> p_exp (e ++ r) = Some (e, r).
Proof.
  intros (x & g & d & -> & hx & hg & hn & hd) hr. cbn [app p_exp].
  replace ((x =? 101) || (x =? 69)) with true by (destruct hx as [-> | ->]; reflexivity).
  destruct d as [|c d]; [contradiction|]. rewrite <- app_assoc.
  destruct hg as [->|[->| ->]]; cbn [app].
  - inversion hd; subst.
    replace ((c =? 43) || (c =? 45)) with false by (symmetry; apply orb_false_iff; rewrite !Z.eqb_neq; lia).
    change (c :: d ++ r) with ((c :: d) ++ r). rewrite (span_digits (c :: d) r hd hr). reflexivity.
  - cbn [Z.eqb Pos.eqb orb]. change (c :: d ++ r) with ((c :: d) ++ r). rewrite (span_digits (c :: d) r hd hr). reflexivity.
  - cbn [Z.eqb Pos.eqb orb]. change (c :: d ++ r) with ((c :: d) ++ r). rewrite (span_digits (c :: d) r hd hr). reflexivity.
Qed.
Lemma decimal_fold l : forall a, fold_left (fun a d => a * 10 + d) (map (fun c => c - 48) l) a = decimal a l.
Proof. induction l as [|c l IH]; intro a; cbn [map fold_left decimal]; auto. rewrite IH. f_equal. lia. Qed.
Lemma dnum_decimal l : dnum l = decimal 0 l.
Proof. apply decimal_fold. Qed.
Lemma stops_nodig r : stops r -> nodig r.
Proof. destruct r; cbn; tauto. Qed.
Lemma jint_head i : jint i -> exists c q, i = c :: q /\ 48 <= c <= 57.
Proof.
  intros [->|((hn & hd) & h0)]; [exists 48, []; split; [reflexivity|lia]|].
  destruct i as [|c q]; [contradiction|]. inversion hd; subst. eauto.
Qed.

Section Parse.
Variable rd : list Z -> option Z.

Lemma pnum_int t z r : jinteger t z -> i64 z -> stops r -> pnum rd (t ++ r) = POk (JInt z) r.
Proof.
  intros h hz hr. pose proof (stops_nodig r hr) as hn.
  assert (hf : p_frac r = Some ([], r)) by (apply p_frac_none; destruct r; cbn in *; tauto).
  assert (he : p_exp r = Some ([], r)) by (apply p_exp_none; destruct r; cbn in *; tauto).
  assert (B : is_i64 z = true) by (unfold is_i64; apply andb_true_iff; rewrite Z.leb_le, Z.ltb_lt; exact hz).
  destruct h as [t ht|t ht].
  - destruct (jint_head t ht) as (c & q & -> & hc). unfold pnum. cbn [app].
    replace (c =? 45) with false by (symmetry; apply Z.eqb_neq; lia).
    change (c :: q ++ r) with ((c :: q) ++ r). rewrite (p_int_ok _ r ht hn), hf, he. cbn [app].
    rewrite dnum_decimal, B. reflexivity.
  - unfold pnum. cbn [app]. cbn [Z.eqb Pos.eqb]. rewrite (p_int_ok _ r ht hn), hf, he. cbn [app].
    rewrite dnum_decimal, B. reflexivity.
Qed.
Lemma pnum_flo t b r : jdecimal t -> rd t = Some b -> stops r -> pnum rd (t ++ r) = POk (JFlo b) r.
Proof.
  intros (g & i & f & e & -> & hg & hi & hf & he & hne) hb hr. pose proof (stops_nodig r hr) as hn.
  assert (he' : p_exp (e ++ r) = Some (e, r)).
  { destruct he as [->|he]; [|apply p_exp_ok; auto]. apply p_exp_none. cbn [app]. destruct r; cbn in *; tauto. }
  assert (ne : nodig (e ++ r)).
  { destruct he as [->|(x & y & d & -> & [-> | ->] & _)]; cbn; auto. }
  assert (hf' : p_frac (f ++ e ++ r) = Some (f, e ++ r)).
  { destruct hf as [->|hf]; [|apply p_frac_ok; auto]. apply p_frac_none. cbn [app].
    destruct he as [->|(x & y & d & -> & [-> | ->] & _)]; cbn; try lia. destruct r; cbn in *; tauto. }
  assert (nf : nodig (f ++ e ++ r)).
  { destruct hf as [->|(d & -> & _)]; cbn; auto. }
  assert (hi' : p_int (i ++ f ++ e ++ r) = Some (i, f ++ e ++ r)) by (apply p_int_ok; auto).
  unfold pnum. destruct (jint_head i hi) as (c & q & E & hc).
  replace ((g ++ i ++ f ++ e) ++ r) with (g ++ i ++ f ++ e ++ r) by (rewrite <- !app_assoc; reflexivity).
  replace (match g ++ i ++ f ++ e ++ r with c0 :: r0 => if c0 =? 45 then ([45], r0) else ([], g ++ i ++ f ++ e ++ r) | [] => ([], g ++ i ++ f ++ e ++ r) end)
    with (g, i ++ f ++ e ++ r).
  2:{ destruct hg as [-> | ->]; [|reflexivity]. rewrite E. cbn [app].
      replace (c =? 45) with false by (symmetry; apply Z.eqb_neq; lia). reflexivity. }
  cbv iota beta. rewrite hi', hf', he', hb. destruct (f ++ e); [contradiction|reflexivity].
Qed.

(** * Values *)
Lemma strip_app t r : strip t (t ++ r) = Some r.
Proof. induction t as [|c t IH]; cbn; auto. rewrite Z.eqb_refl. exact IH. Qed.

Local Notation jvalue := (jvalue rd i64).
Local Notation jelems := (jelems rd i64).
Local Notation jmembers := (jmembers rd i64).

Scheme jvalue_m := Minimality for JsonSpec.jvalue Sort Prop
  with jelems_m := Minimality for JsonSpec.jelems Sort Prop
  with jmembers_m := Minimality for JsonSpec.jmembers Sort Prop.
Combined Scheme jvalue_mut from jvalue_m, jelems_m, jmembers_m.

(** A value text starts with one of these. *)
Definition starts (c : Z) : Prop :=
  c = 34 \/ c = 45 \/ 48 <= c <= 57 \/ c = 91 \/ c = 102 \/ c = 110 \/ c = 116 \/ c = 123.
Lemma value_head ok t v : JsonSpec.jvalue rd ok t v -> exists c q, t = c :: q /\ starts c.
Proof.
  unfold starts. intros [| | |t' z h hz|t' b h hb|t' b h|w h|t' l h|w h|t' l h]; cbn [app];
    try (eexists _, _; split; [reflexivity|]; cbn; lia).
  - destruct h as [u h|u h]; [destruct (jint_head u h) as (c & q & -> & hc)|]; eexists _, _; (split; [reflexivity|]); cbn; lia.
  - destruct h as (g & i & f & e & -> & hg & hi & _). destruct (jint_head i hi) as (c & q & -> & hc).
    destruct hg as [-> | ->]; eexists _, _; (split; [reflexivity|]); cbn; lia.
  - destruct h as (u & -> & _). eexists _, _; split; [reflexivity|]; cbn; lia.
Qed.
Lemma starts_nospace c : starts c -> is_space c = false.
Proof. unfold starts, is_space. intro h. rewrite !orb_false_iff, !Z.eqb_neq. lia. Qed.
Lemma skip_value ok w t v r : blank w -> JsonSpec.jvalue rd ok t v -> skip_ws (w ++ t ++ r) = t ++ r.
Proof.
  intros hw h. rewrite skip_blank by auto. destruct (value_head ok t v h) as (c & q & -> & hc).
  cbn [app]. apply skip_stop, starts_nospace, hc.
Qed.
Lemma skip_string w t b r : blank w -> jstring t b -> skip_ws (w ++ t ++ r) = t ++ r.
Proof. intros hw (t' & -> & _). rewrite skip_blank by auto. reflexivity. Qed.
Lemma blank_stops w c r : blank w -> isdig c = false /\ c <> 46 /\ c <> 101 /\ c <> 69 -> stops (w ++ c :: r).
Proof.
  intros hw hc. destruct hw as [|x w hx hw]; cbn; auto. destruct hx as [->|[->|[->| ->]]]; cbn; lia.
Qed.
Lemma skip_to w c r : blank w -> is_space c = false -> skip_ws (w ++ c :: r) = c :: r.
Proof. intros hw hc. rewrite skip_blank by auto. apply skip_stop, hc. Qed.

Lemma parr_S f s acc : parr rd (S f) s acc =
  match pval rd f s with
  | POk v r => match skip_ws r with
               | 44 :: r1 => parr rd f r1 (acc ++ [v])
               | 93 :: r1 => POk (JArr (acc ++ [v])) r1
               | _ => PErr
               end
  | PErr => PErr
  | PFuel => PFuel
  end.
Proof. reflexivity. Qed.
Lemma pobj_S f s acc : pobj rd (S f) s acc =
  match skip_ws s with
  | 34 :: r =>
      match pstring r with
      | POk k r1 =>
          match skip_ws r1 with
          | 58 :: r2 =>
              match pval rd f r2 with
              | POk v r3 => match skip_ws r3 with
                            | 44 :: r4 => pobj rd f r4 (hput k v acc)
                            | 125 :: r4 => POk (JObj (hput k v acc)) r4
                            | _ => PErr
                            end
              | PErr => PErr
              | PFuel => PFuel
              end
          | _ => PErr
          end
      | PErr => PErr
      | PFuel => PFuel
      end
  | _ => PErr
  end.
Proof. reflexivity. Qed.
Lemma pval_S f s : pval rd (S f) s =
  match skip_ws s with
  | [] => PErr
  | c :: r =>
      if c =? 34 then match pstring r with POk b r1 => POk (JStr b) r1 | PErr => PErr | PFuel => PFuel end
      else if c =? 123 then match skip_ws r with 125 :: r1 => POk (JObj []) r1 | r1 => pobj rd f r1 [] end
      else if c =? 91 then match skip_ws r with 93 :: r1 => POk (JArr []) r1 | r1 => parr rd f r1 [] end
      else if c =? 116 then plit t_true JTrue (c :: r)
      else if c =? 102 then plit t_false JFalse (c :: r)
      else if c =? 110 then plit t_null JNull (c :: r)
      else if (c =? 45) || isdig c then pnum rd (c :: r)
      else PErr
  end.
Proof. reflexivity. Qed.

Lemma parse_mut :
  (forall t v, jvalue t v -> forall f r w, (2 * length t < f)%nat -> stops r -> blank w -> pval rd f (w ++ t ++ r) = POk v r) /\
  (forall t l, jelems t l -> forall f r acc, (2 * length t + 1 < f)%nat -> parr rd f (t ++ 93 :: r) acc = POk (JArr (acc ++ l)) r) /\
  (forall t l, jmembers t l -> forall f r acc, (2 * length t + 1 < f)%nat ->
     pobj rd f (t ++ 125 :: r) acc = POk (JObj (fold_left (fun m p => hput (fst p) (snd p) m) l acc)) r).
Proof.
  apply (jvalue_mut rd i64).
  - intros f r w hf hr hw. destruct f as [|f]; [lia|]. rewrite pval_S.
    rewrite (skip_value i64 w _ _ r hw (VNull rd i64)). reflexivity.
  - intros f r w hf hr hw. destruct f as [|f]; [lia|]. rewrite pval_S.
    rewrite (skip_value i64 w _ _ r hw (VTrue rd i64)). reflexivity.
  - intros f r w hf hr hw. destruct f as [|f]; [lia|]. rewrite pval_S.
    rewrite (skip_value i64 w _ _ r hw (VFalse rd i64)). reflexivity.
  - intros t z h hz f r w hf hr hw. destruct f as [|f]; [lia|]. rewrite pval_S.
    rewrite (skip_value i64 w _ _ r hw (VInt rd i64 t z h hz)), <- (pnum_int t z r h hz hr).
    assert (hh : exists c q, t = c :: q /\ (c = 45 \/ 48 <= c <= 57)).
    { destruct h as [t h|t h]; [destruct (jint_head t h) as (c & q & -> & hc)|]; eexists _, _; (split; [reflexivity|]); cbn; lia. }
    destruct hh as (c & q & -> & hc). cbn [app].
    repeat match goal with |- context [c =? ?n] => lazymatch n with 45 => fail | _ =>
      replace (c =? n) with false by (symmetry; apply Z.eqb_neq; lia) end end.
    replace ((c =? 45) || isdig c) with true; [reflexivity|].
    symmetry. apply orb_true_iff. rewrite Z.eqb_eq, isdig_iff. exact hc.
  - intros t b h hb f r w hf hr hw. destruct f as [|f]; [lia|]. rewrite pval_S.
    rewrite (skip_value i64 w _ _ r hw (VFlo rd i64 t b h hb)), <- (pnum_flo t b r h hb hr).
    assert (hh : exists c q, t = c :: q /\ (c = 45 \/ 48 <= c <= 57)).
    { destruct h as (g & i & ff & e & -> & hg & hi & _). destruct (jint_head i hi) as (c & q & -> & hc).
      destruct hg as [-> | ->]; eexists _, _; (split; [reflexivity|]); cbn; lia. }
    destruct hh as (c & q & -> & hc). cbn [app].
    repeat match goal with |- context [c =? ?n] => lazymatch n with 45 => fail | _ =>
      replace (c =? n) with false by (symmetry; apply Z.eqb_neq; lia) end end.
    replace ((c =? 45) || isdig c) with true; [reflexivity|].
    symmetry. apply orb_true_iff. rewrite Z.eqb_eq, isdig_iff. exact hc.
  - intros t b h f r w hf hr hw. destruct f as [|f]; [lia|]. rewrite pval_S.
    rewrite (skip_string w t b r hw h). destruct (pstring_ok t b r h) as (t' & -> & e). cbn [app]. cbn [Z.eqb Pos.eqb].
    rewrite e. reflexivity.
  - intros w' hw' f r w hf hr hw. destruct f as [|f]; [lia|]. rewrite pval_S. rewrite skip_blank by auto.
    cbn [app]. cbn [skip_ws]. cbn [is_space Z.eqb Pos.eqb orb]. rewrite <- app_assoc. cbn [app]. rewrite (skip_to w' 93 r hw') by reflexivity.
    reflexivity.
  - intros t l h IH f r w hf hr hw. destruct f as [|f]; [lia|]. rewrite pval_S. rewrite skip_blank by auto.
    cbn [app]. cbn [skip_ws]. cbn [is_space Z.eqb Pos.eqb orb]. rewrite <- app_assoc. cbn [app].
    cbn [app length] in hf. rewrite app_length in hf. cbn [length] in hf.
    pose proof (IH f r [] ltac:(lia)) as E. cbn [app] in E.
    assert (S : exists c q, skip_ws (t ++ 93 :: r) = c :: q /\ c <> 93 /\ parr rd f (c :: q) [] = parr rd f (t ++ 93 :: r) []).
    { assert (D : exists w1 u v q, t = w1 ++ u ++ q /\ blank w1 /\ jvalue u v)
        by (destruct h as [w1 u w2 v h1 h2 hv|w1 u w2 v q l h1 h2 hv hl]; eauto 8).
      destruct D as (w1 & u & v & q & -> & h1 & hv).
      replace ((w1 ++ u ++ q) ++ 93 :: r) with (w1 ++ u ++ q ++ 93 :: r) by (rewrite <- !app_assoc; reflexivity).
      rewrite (skip_value i64 w1 u v _ h1 hv). destruct (value_head i64 u v hv) as (c & p & -> & hc).
      exists c, (p ++ q ++ 93 :: r). split; [reflexivity|]. split; [unfold starts in hc; lia|].
      destruct f as [|f]; [reflexivity|]. rewrite !parr_S. destruct f as [|f]; [reflexivity|]. rewrite !pval_S.
      rewrite (skip_blank w1) by auto. reflexivity. }
    destruct S as (c & q & e & hc & e2). rewrite e.
    transitivity (parr rd f (c :: q) []); [|rewrite e2; exact E].
    destruct c as [|p|p]; try reflexivity.
    repeat (destruct p as [p|p|]; try reflexivity). contradiction.
  - intros w' hw' f r w hf hr hw. destruct f as [|f]; [lia|]. rewrite pval_S. rewrite skip_blank by auto.
    cbn [app]. cbn [skip_ws]. cbn [is_space Z.eqb Pos.eqb orb]. rewrite <- app_assoc. cbn [app]. rewrite (skip_to w' 125 r hw') by reflexivity.
    reflexivity.
  - intros t l h IH f r w hf hr hw. destruct f as [|f]; [lia|]. rewrite pval_S. rewrite skip_blank by auto.
    cbn [app]. cbn [skip_ws]. cbn [is_space Z.eqb Pos.eqb orb]. rewrite <- app_assoc. cbn [app].
    cbn [app length] in hf. rewrite app_length in hf. cbn [length] in hf.
    pose proof (IH f r [] ltac:(lia)) as E. rewrite <- E.
    assert (S : exists q, skip_ws (t ++ 125 :: r) = 34 :: q).
    { assert (D : exists w1 u b q, t = w1 ++ u ++ q /\ blank w1 /\ jstring u b)
        by (destruct h; eauto 8).
      destruct D as (w1 & u & b & q & -> & h1 & hv).
      replace ((w1 ++ u ++ q) ++ 125 :: r) with (w1 ++ u ++ q ++ 125 :: r) by (rewrite <- !app_assoc; reflexivity).
      rewrite (skip_string w1 u b _ h1 hv). destruct hv as (u' & -> & _). eexists. reflexivity. }
    destruct S as (q & e). rewrite e.
    destruct f as [|f]; [reflexivity|]. rewrite !pobj_S. rewrite e.
    rewrite (skip_stop 34 q) by reflexivity. reflexivity.
  - intros w1 t w2 v h1 h2 hv IH f r acc hf. destruct f as [|f]; [lia|]. rewrite parr_S.
    rewrite <- !app_assoc. rewrite !app_length in hf.
    rewrite (IH f (w2 ++ 93 :: r) w1) by (auto; try lia; apply blank_stops; auto; cbn; repeat split; lia).
    rewrite (skip_to w2 93 r h2) by reflexivity. reflexivity.
  - intros w1 t w2 v q l h1 h2 hv IH hl IHl f r acc hf. destruct f as [|f]; [lia|]. rewrite parr_S.
    rewrite <- !app_assoc. cbn [app]. repeat (rewrite !app_length in hf; cbn [length] in hf).
    rewrite (IH f (w2 ++ 44 :: q ++ 93 :: r) w1) by (auto; try lia; apply blank_stops; auto; cbn; repeat split; lia).
    rewrite (skip_to w2 44 _ h2) by reflexivity. rewrite IHl by lia. rewrite <- app_assoc. reflexivity.
  - intros w1 k b w2 w3 t w4 v h1 h2 h3 h4 hk hv IH f r acc hf. destruct f as [|f]; [lia|]. rewrite pobj_S.
    rewrite <- !app_assoc. cbn [app]. repeat (rewrite !app_length in hf; cbn [length] in hf).
    rewrite (skip_string w1 k b _ h1 hk).
    destruct (pstring_ok k b (w2 ++ 58 :: w3 ++ t ++ w4 ++ 125 :: r) hk) as (k' & -> & e). cbn [app].
    rewrite e, (skip_to w2 58 _ h2) by reflexivity. cbn [length] in hf.
    rewrite (IH f (w4 ++ 125 :: r) w3) by (auto; try lia; apply blank_stops; auto; cbn; repeat split; lia).
    rewrite (skip_to w4 125 r h4) by reflexivity. reflexivity.
  - intros w1 k b w2 w3 t w4 v q l h1 h2 h3 h4 hk hv IH hl IHl f r acc hf. destruct f as [|f]; [lia|]. rewrite pobj_S.
    rewrite <- !app_assoc. cbn [app]. repeat (rewrite !app_length in hf; cbn [length] in hf).
    repeat (rewrite !app_length in hf; cbn [length] in hf).
    rewrite (skip_string w1 k b _ h1 hk).
    destruct (pstring_ok k b (w2 ++ 58 :: w3 ++ t ++ w4 ++ 44 :: q ++ 125 :: r) hk) as (k' & -> & e). cbn [app].
    rewrite e, (skip_to w2 58 _ h2) by reflexivity. cbn [length] in hf.
    rewrite (IH f (w4 ++ 44 :: q ++ 125 :: r) w3) by (auto; try lia; apply blank_stops; auto; cbn; repeat split; lia).
    rewrite (skip_to w4 44 _ h4) by reflexivity. rewrite IHl by lia. reflexivity.
Qed.

(** Every JSON text is read as what it says. *)
Theorem parse_text t v : jtext rd i64 t v -> exists w, blank w /\ json_parse rd t = POk v w.
Proof.
  intros (w1 & w2 & u & -> & h1 & h2 & h). exists w2. split; [exact h2|].
  destruct parse_mut as (P & _ & _). unfold json_parse. rewrite (P u v h); auto.
  - rewrite !app_length. lia.
  - destruct h2 as [|x w hx hw]; cbn; auto. destruct hx as [->|[->|[->| ->]]]; cbn; lia.
Qed.
End Parse.
