(** The carried classification is right, through every history of plain operations. *)
From Coq Require Import ZArith List Bool Lia Arith.
From Verif Require Import Utf8Model Utf8Spec Utf8Proofs IdModel StrModel StrSpec StrProofs StrSafeProofs.
Import ListNotations.
Open Scope Z_scope.

Section S.
Variable jis : list Z -> option nat.

Definition nj (e : encoding) : Prop := e <> Iso2022Jp.
Definition wellb (e : encoding) (b : list Z) : bool :=
  match e with
  | UsAscii => ascii_b b
  | Utf8 => utf8_ok b
  | EucJp => wok euc_w b
  | Sjis _ => wok sjis_w b
  | Utf16Le | Utf16Be => Nat.even (length b)
  | Utf32Le | Utf32Be => (length b mod 4 =? 0)%nat
  | _ => true
  end.
Definition c7b (e : encoding) (b : list Z) : bool :=
  match b with [] => true | _ => ascii_compatible e && ascii_b b end.

Lemma cls e b : nj e -> classify jis e b = if c7b e b then C7 else if wellb e b then CValid else CBroken.
Proof.
  intro h. unfold classify, c7b. destruct b as [|x l] eqn:eb; [reflexivity|]. rewrite <- eb.
  destruct (ascii_compatible e && ascii_b b) eqn:q; [reflexivity|].
  destruct e; cbn [wellb]; try reflexivity; try (now elim h).
  cbn [ascii_compatible andb] in q. rewrite q. reflexivity.
Qed.
Lemma well_ascii e b : ascii_compatible e = true -> ascii_b b = true -> wellb e b = true.
Proof.
  intros he hb. destruct e; cbn [wellb]; try reflexivity; try discriminate he; try exact hb.
  - apply ascii_utf8; exact hb.
  - apply (wok_ascii _ euc_stable euc_ascii); exact hb.
  - apply (wok_ascii _ sjis_stable sjis_ascii); exact hb.
Qed.
Lemma well_nil e : wellb e [] = true. Proof. destruct e; reflexivity. Qed.
Lemma c7_well e b : c7b e b = true -> wellb e b = true.
Proof.
  unfold c7b. destruct b; [intros _; apply well_nil|]. intro h. apply andb_true_iff in h. apply well_ascii; apply h.
Qed.
Lemma well_app e a b : wellb e a = true -> wellb e b = true -> wellb e (a ++ b) = true.
Proof.
  destruct e; cbn [wellb]; intros ha hb; try reflexivity.
  - apply utf8_app; assumption.
  - rewrite ascii_app, ha, hb. reflexivity.
  - rewrite app_length, Nat.even_add, ha, hb. reflexivity.
  - rewrite app_length, Nat.even_add, ha, hb. reflexivity.
  - apply Nat.eqb_eq in ha, hb. apply Nat.eqb_eq. rewrite app_length, Nat.add_mod, ha, hb by lia. reflexivity.
  - apply Nat.eqb_eq in ha, hb. apply Nat.eqb_eq. rewrite app_length, Nat.add_mod, ha, hb by lia. reflexivity.
  - apply (wok_app_t _ euc_stable); assumption.
  - apply (wok_app_t _ sjis_stable); assumption.
Qed.
Lemma c7_app e a b : c7b e (a ++ b) = c7b e a && c7b e b.
Proof.
  unfold c7b. destruct a as [|x l]; [reflexivity|]. change ((x :: l) ++ b) with (x :: (l ++ b)).
  destruct b as [|y m]; [rewrite app_nil_r, andb_true_r; reflexivity|].
  change (x :: l ++ y :: m) with ((x :: l) ++ (y :: m)). rewrite ascii_app.
  destruct (ascii_compatible e), (ascii_b (x :: l)), (ascii_b (y :: m)); reflexivity.
Qed.

(** A classification [c] of the bytes [b] in the encoding [e] that is right. *)
Definition G (x : bool) (e : encoding) (b : list Z) (c : crange) : Prop :=
  match c with
  | CUnknown => True
  | C7 => c7b e b = true
  | CValid => wellb e b = true /\ (x = true -> c7b e b = false)
  | CBroken => wellb e b = false
  end.
Definition good (x : bool) (s : str) : Prop := nj (se s) /\ G x (se s) (sb s) (sc s).

Lemma faithful_iff x s : nj (se s) -> (faithful jis x s <-> G x (se s) (sb s) (sc s)).
Proof.
  intro h. unfold faithful, G. rewrite (cls _ _ h). assert (hc := c7_well (se s) (sb s)).
  destruct (sc s); try tauto.
  - destruct (c7b _ _), (wellb _ _); split; intro; congruence.
  - destruct (c7b (se s) (sb s)); [rewrite hc by reflexivity|destruct (wellb (se s) (sb s))]; destruct x; cbn;
      (split; [intro g; split; [|intro g2]|intros [g1 g2]]); try specialize (g2 eq_refl); try discriminate; reflexivity.
  - destruct (c7b (se s) (sb s)); [rewrite hc by reflexivity|destruct (wellb (se s) (sb s))]; split; intro g; try discriminate; reflexivity.
Qed.

Variable x : bool.

Lemma G_cls e b : nj e -> G x e b (classify jis e b).
Proof.
  intro h. rewrite (cls _ _ h). destruct (c7b e b) eqn:q; [exact q|]. destruct (wellb e b) eqn:w; cbn; auto.
Qed.
Lemma G_nil e e' c : G x e [] c -> G x e' [] c.
Proof. destruct c; cbn; rewrite ?well_nil; auto. Qed.
Lemma G_7 e e' b : c7b e b = true -> ascii_compatible e' = true -> G x e' b C7.
Proof. unfold G, c7b. destruct b; [reflexivity|]. intros h ->. cbn [andb]. apply andb_true_iff in h. apply h. Qed.
Lemma G_ascii e b : ascii_compatible e = true -> ascii_b b = true -> G x e b C7.
Proof. unfold G, c7b. destruct b; [reflexivity|]. intros -> ->. reflexivity. Qed.
Lemma fold_G e a b c1 c2 : G x e a c1 -> G x e b c2 -> G x e (a ++ b) (fold_cr c1 c2).
Proof.
  destruct c1, c2; cbn [G fold_cr]; auto; intros h1 h2; rewrite ?c7_app.
  - rewrite h1, h2. reflexivity.
  - destruct h2 as [h2 h3]. split; [apply well_app; auto using c7_well|]. intro q. rewrite (h3 q). apply andb_false_r.
  - destruct h1 as [h1 h3]. split; [apply well_app; auto using c7_well|]. intro q. rewrite (h3 q). reflexivity.
  - destruct h1 as [h1 h3], h2 as [h2 h4]. split; [apply well_app; auto|]. intro q. rewrite (h3 q). reflexivity.
Qed.

Lemma touch_good s : good x s -> good x (touch jis s).
Proof. intros [h1 h2]. unfold touch. destruct (sc s) eqn:q; try (split; [exact h1|rewrite q; exact h2]). split; [exact h1|]. apply G_cls; exact h1. Qed.
Lemma good_cr s : good x s -> G x (se s) (sb s) (code_range jis s).
Proof. intro h. unfold code_range. destruct (touch_good s h) as [_ q]. rewrite touch_sb, touch_se in q. exact q. Qed.

Lemma compat_G s o e s1 o1 : compat jis s o = (Some e, s1, o1) -> good x s -> good x o ->
  nj e /\ G x e (sb s) (code_range jis s) /\ G x e (sb o) (code_range jis o).
Proof.
  intros h hs ho. assert (gs := good_cr s hs). assert (go := good_cr o ho). destruct hs as [ns _], ho as [no _].
  unfold compat in h. destruct (enc_eqb (se s) (se o)) eqn:q.
  { apply enc_eqb_t in q. injection h as <- _ _. rewrite <- q in go. auto. }
  destruct (sb s) as [|y l] eqn:bs, (sb o) as [|z m] eqn:bo.
  - injection h as <- _ _. split; [exact ns|]. split; [exact gs|]. eapply G_nil; exact go.
  - destruct (ascii_compatible (se s)) eqn:ca.
    + destruct (is7 (code_range jis o)) eqn:h7; injection h as <- _ _.
      * split; [exact ns|]. split; [exact gs|]. apply is7_t in h7. rewrite h7 in *. eapply G_7; [exact go|exact ca].
      * split; [exact no|]. split; [eapply G_nil; exact gs|exact go].
    + injection h as <- _ _. split; [exact no|]. split; [eapply G_nil; exact gs|exact go].
  - injection h as <- _ _. split; [exact ns|]. split; [exact gs|]. eapply G_nil; exact go.
  - injection h as h _ _. unfold compatible in h. rewrite q in h.
    destruct (ascii_compatible (se s) && ascii_compatible (se o)) eqn:ca; [|discriminate h].
    apply andb_true_iff in ca. destruct ca as [ca cb].
    destruct (is7 (code_range jis s)) eqn:c1, (is7 (code_range jis o)) eqn:c2; cbn [andb] in h; try discriminate h;
      injection h as <-; (split; [assumption|]); split; try assumption;
      match goal with c : is7 ?k = true |- G _ _ ?b ?k => apply is7_t in c; rewrite c in *; eapply G_7; [|assumption]; eassumption end.
Qed.
Lemma G_fold_weak s e a c1 : G x e (sb s) (code_range jis s) -> (c1 = sc s \/ c1 = code_range jis s) ->
  forall c2, G x e a c2 -> G x e (sb s ++ a) (fold_cr c1 c2).
Proof.
  intros h hc c2 h2. destruct hc as [->| ->]; [|apply fold_G; assumption].
  unfold code_range, touch in h. destruct (sc s) eqn:q; [exact I| | |]; rewrite ?q in h; apply fold_G; assumption.
Qed.
Lemma shape_sc s s1 : s1 = s \/ s1 = touch jis s -> sc s1 = sc s \/ sc s1 = code_range jis s.
Proof. intros [->| ->]; auto. Qed.
Lemma compat_good s o r s1 o1 : compat jis s o = (r, s1, o1) -> good x s -> good x o -> good x s1 /\ good x o1.
Proof. intros h hs ho. destruct (compat_shape _ _ _ _ _ _ h) as [[->| ->] [->| ->]]; auto using touch_good. Qed.
Lemma touch_cr' s s1 : s1 = s \/ s1 = touch jis s -> code_range jis s1 = code_range jis s.
Proof. intros [->| ->]; [reflexivity|apply touch_cr]. Qed.

Lemma extend_good s o r s1 o1 : extend jis s o = (r, s1, o1) -> good x s -> good x o ->
  good x s1 /\ good x o1 /\ (forall y, r = inl y -> good x y).
Proof.
  unfold extend. intros h hs ho. destruct (sb o) eqn:bo.
  { injection h as <- <- <-. split; [exact hs|]. split; [exact ho|]. intros y hy. injection hy as <-. exact hs. }
  destruct (compat jis s o) as [[r' s1'] o1'] eqn:hc.
  destruct (compat_good _ _ _ _ _ hc hs ho) as [q1 q2].
  destruct r' as [e|].
  - injection h as <- <- <-. split; [exact q1|]. split; [apply touch_good; exact q2|].
    intros y hy. injection hy as <-. destruct (compat_bytes _ _ _ _ _ _ hc) as (b1 & b2 & _ & _).
    destruct (compat_shape _ _ _ _ _ _ hc) as [z1 z2].
    destruct (compat_G _ _ _ _ _ hc hs ho) as (n & g1 & g2).
    split; [exact n|]. cbn [sb se sc]. rewrite touch_sb, b1, b2.
    apply G_fold_weak; [exact g1|apply shape_sc; exact z1|].
    change (sc (touch jis o1')) with (code_range jis o1'). rewrite (touch_cr' o o1' z2). exact g2.
  - injection h as <- <- <-. split; [exact q1|]. split; [exact q2|]. discriminate.
Qed.

Lemma enc_utf8_ok c : is_scalar c = true -> utf8_ok (enc_utf8 c) = true.
Proof.
  intro h. rewrite utf8_ok_wok. unfold is_scalar in h. apply orb_true_iff in h.
  assert (hs : scalar c).
  { unfold scalar. destruct h as [h|h]; apply andb_true_iff in h; destruct h as [h1 h2];
      rewrite ?Z.leb_le, ?Z.ltb_lt in *; lia. }
  assert (hh := step_enc c [] hs). rewrite app_nil_r in hh.
  assert (hw : uw (enc_utf8 c) = Some (length (enc_utf8 c))) by (apply uw_some; exact hh).
  rewrite <- (firstn_all (enc_utf8 c)). apply (wok_first uw uw_stable). exact hw.
Qed.
Lemma enc_utf8_big c : 128 <= c -> is_scalar c = true -> ascii_b (enc_utf8 c) = false.
Proof.
  intros hc h. unfold enc_utf8. rewrite (proj2 (Z.ltb_ge c 128)) by lia.
  assert (hr : 0 <= c <= 1114111).
  { unfold is_scalar in h. apply orb_true_iff in h. destruct h as [h|h]; apply andb_true_iff in h; destruct h as [h1 h2];
      rewrite ?Z.leb_le, ?Z.ltb_lt in *; lia. }
  destruct (c <? 2048) eqn:e1; [|destruct (c <? 65536) eqn:e2]; cbn [ascii_b forallb];
    rewrite ?Z.ltb_lt, ?Z.ltb_ge in *.
  - rewrite (proj2 (Z.ltb_ge (192 + c / 64) 128)); [reflexivity|]. assert (0 <= c / 64) by (apply Z.div_pos; lia). lia.
  - rewrite (proj2 (Z.ltb_ge (224 + c / 4096) 128)); [reflexivity|]. assert (0 <= c / 4096) by (apply Z.div_pos; lia). lia.
  - rewrite (proj2 (Z.ltb_ge (240 + c / 262144) 128)); [reflexivity|]. assert (0 <= c / 262144) by (apply Z.div_pos; lia). lia.
Qed.
Lemma shl_int_good s c r : shl_int s c = inl r -> plain_int s c = true -> good x s -> good x r.
Proof.
  unfold shl_int, plain_int. destruct ((c <? 0) || (2 ^ 32 <=? c)) eqn:e0; [discriminate|].
  apply orb_false_iff in e0. destruct e0 as [e0 _]. apply Z.ltb_ge in e0. intros h hp [n g].
  apply andb_true_iff in hp. destruct hp as [p1 p2].
  assert (key : forall l cl, G x (se s) l cl -> good x (mkS (sb s ++ l) (se s) (fold_cr (sc s) cl))).
  { intros l cl q. split; [exact n|]. cbn. apply fold_G; assumption. }
  destruct (utf8_compat (se s)) eqn:uc.
  - destruct (is_scalar c) eqn:hs; [|discriminate]. unfold extend_slice in h. rewrite uc, enc_utf8_ok in h by exact hs.
    cbn [andb negb] in h. injection h as <-. apply key.
    destruct (ascii_b (enc_utf8 c)) eqn:ha.
    + apply G_ascii; [destruct (se s); try discriminate uc; reflexivity|exact ha].
    + destruct (se s) eqn:es; try discriminate uc.
      * split; [apply enc_utf8_ok; exact hs|]. intros _. unfold c7b. destruct (enc_utf8 c) eqn:q; [discriminate ha|]. rewrite ha. reflexivity.
      * rewrite enc_eqb_refl in p2. cbn [andb] in p2. apply negb_true_iff, Z.leb_gt in p2.
        unfold enc_utf8 in ha. rewrite (proj2 (Z.ltb_lt c 128)) in ha by lia. cbn in ha. rewrite (proj2 (Z.ltb_lt c 128)) in ha by lia. discriminate.
  - destruct (c <? 256); [|discriminate]. unfold extend_slice in h. rewrite uc in h. cbn [andb] in h. injection h as <-. apply key.
    rewrite andb_true_r. destruct (Z.ltb_spec c 128) as [ha|ha]; [|exact I].
    apply G_ascii; [|cbn; rewrite (proj2 (Z.ltb_lt c 128)) by lia; reflexivity].
    apply orb_true_iff in p1. destruct p1 as [p1|p1]; [exact p1|]. apply Z.leb_le in p1. lia.
Qed.
Lemma jit_shl_int_good s c room r : jit_shl_int s c room = Some r -> plain_int s c = true ->
  is_broken (sc s) && sjis (se s) = false -> good x s -> good x r.
Proof.
  unfold jit_shl_int, plain_int.
  destruct ((0 <=? c) && (c <=? 255) && ((c <=? 127) || enc_eqb (se s) Ascii8) && room) eqn:g; [|discriminate].
  intros h hp hb [n q]. injection h as <-. split; [exact n|]. cbn [sb se sc].
  destruct (Z.leb_spec c 127) as [hc|hc]; [|exact I].
  apply andb_true_iff in hp. destruct hp as [p1 _].
  assert (ca : ascii_compatible (se s) = true).
  { apply orb_true_iff in p1. destruct p1 as [p1|p1]; [exact p1|]. apply Z.leb_le in p1. lia. }
  assert (ha : ascii_b [c] = true) by (cbn; rewrite (proj2 (Z.ltb_lt c 128)) by lia; reflexivity).
  assert (h7 : c7b (se s) [c] = true) by (unfold c7b; rewrite ca, ha; reflexivity).
  destruct (sc s) eqn:k; cbn [G] in *; auto.
  - rewrite c7_app, q, h7. reflexivity.
  - destruct q as [q1 q2]. split; [apply well_app; auto using c7_well|]. intro e. rewrite c7_app, (q2 e). reflexivity.
  - destruct (se s) eqn:es; cbn [wellb] in *; try discriminate; cbn [is_broken sjis andb] in hb; try discriminate hb.
    + destruct (utf8_ok (sb s ++ [c])) eqn:w; [|reflexivity]. rewrite utf8_ok_wok in w, q.
      assert (hn : cont c = false). { destruct (cont c) eqn:cc; [|reflexivity]. apply cont_iff in cc. lia. }
      rewrite (wok_pre uw c [] uw_stable (uw_notrail c hn) _ w) in q. discriminate.
    + rewrite ascii_app, q. reflexivity.
    + destruct (wok euc_w (sb s ++ [c])) eqn:w; [|reflexivity].
      rewrite (wok_pre euc_w c [] euc_stable (euc_notrail c ltac:(lia)) _ w) in q. discriminate.
Qed.
Lemma jit_shl_str_good s o room r : jit_shl_str s o room = Some r -> good x s -> good x o -> good x r.
Proof.
  unfold jit_shl_str.
  set (go := match enc_small (se s) with Some _ => _ | None => _ end).
  destruct (go && room) eqn:g; [|discriminate]. apply andb_true_iff in g. destruct g as [g _]. subst go.
  intros h [ns gs] [no go]. injection h as <-. split; [exact ns|]. cbn [sb se sc].
  destruct (enc_small (se s)) as [k1|] eqn:k1e; [|discriminate g]. destruct (enc_small (se o)) as [k2|] eqn:k2e; [|discriminate g].
  destruct (k1 =? k2) eqn:ek.
  - apply Z.eqb_eq in ek. subst k2. assert (se s = se o).
    { destruct (se s); cbn in k1e; try discriminate k1e; injection k1e as <-; destruct (se o); cbn in k2e; congruence. }
    rewrite H in *. apply fold_G; assumption.
  - rewrite !andb_true_iff in g. destruct g as (((g1 & g2) & g3) & g4). apply is7_t in g3. rewrite g3 in *.
    apply fold_G; [exact gs|]. eapply G_7; [exact go|]. apply Z.leb_le in g1. destruct (se s); cbn in k1e; try discriminate; try reflexivity; injection k1e as <-; lia.
Qed.
Lemma append_merge_good s l : good x s -> good x (append_merge jis s l).
Proof.
  intros [n g]. unfold append_merge. destruct l as [|y m] eqn:el; [split; assumption|]. rewrite <- el. split; [exact n|]. cbn [sb se sc].
  apply fold_G; [exact g|]. destruct (ascii_compatible (se s) && ascii_b l) eqn:h; [|apply G_cls; exact n].
  apply andb_true_iff in h. apply G_ascii; apply h.
Qed.
Lemma rep_well e n b : wellb e b = true -> wellb e (rep n b) = true.
Proof. intro h. induction n; [apply well_nil|]. cbn [rep]. apply well_app; assumption. Qed.
Lemma rep_c7 e n b : c7b e (rep (S n) b) = c7b e b.
Proof.
  induction n as [|n IH]; [cbn [rep]; rewrite app_nil_r; reflexivity|].
  change (rep (S (S n)) b) with (b ++ rep (S n) b). rewrite c7_app, IH. apply andb_diag.
Qed.
Lemma rep_ascii n b : ascii_b (rep (S n) b) = ascii_b b.
Proof.
  induction n as [|n IH]; [cbn [rep]; rewrite app_nil_r; reflexivity|].
  change (rep (S (S n)) b) with (b ++ rep (S n) b). rewrite ascii_app, IH. apply andb_diag.
Qed.
Lemma mul_good s n r : mul s n = inl r -> negb (is_broken (sc s)) || utf8_compat (se s) = true -> good x s -> good x r.
Proof.
  unfold mul. destruct (n <? 0); [discriminate|].
  destruct ((0 <? Z.of_nat (length (sb s))) && _); [discriminate|]. intros h hp [nn g]. injection h as <-.
  destruct (sb s) as [|y l] eqn:bs.
  - destruct (n =? 0); split; auto. reflexivity.
  - unfold repeat_. rewrite bs. rewrite <- bs in *. generalize (Z.to_nat n) as k. intro k. split; [exact nn|]. destruct k as [|k]; [reflexivity|].
    cbn [sb se sc]. destruct (sc s) eqn:q; cbn [G] in *; auto.
    + rewrite rep_c7. exact g.
    + destruct g as [g1 g2]. split; [apply rep_well; exact g1|]. rewrite rep_c7. exact g2.
    + cbn in hp. destruct (se s); try discriminate hp; cbn [wellb] in *; [apply utf8_rep_broken; exact g|]. rewrite rep_ascii. exact g.
Qed.
Lemma set_byte_good s i v : good x s -> good x (set_byte s i v).
Proof.
  intros [n g]. split; [exact n|]. unfold set_byte. cbn [sb se sc]. destruct (sc s) eqn:q; try exact I.
  destruct (Z.ltb_spec v 128); [|exact I]. cbn [G] in *. unfold c7b in *. destruct (sb s) as [|y l] eqn:bs; [destruct i; reflexivity|].
  apply andb_true_iff in g. destruct g as [g1 g2].
  assert (ha : ascii_b (upd_nth i v (y :: l)) = true) by (apply ascii_upd; assumption).
  rewrite g1, ha. destruct (upd_nth i v (y :: l)); reflexivity.
Qed.
Lemma setbyte_good s i v r : setbyte s i v = inl r -> good x s -> good x r.
Proof.
  unfold setbyte. destruct ((_ <? 0) || _) eqn:q; [discriminate|]. intros h hs. injection h as <-. apply set_byte_good; exact hs.
Qed.
Lemma jit_setbyte_good s i v r : jit_setbyte s i v = Some r -> good x s -> good x r.
Proof.
  unfold jit_setbyte. destruct ((_ <? 0) || _) eqn:q; [discriminate|]. intros h hs. injection h as <-.
  destruct (is7 (sc s) && (Z.land v 128 =? 0)) eqn:g; [|split; [apply hs|exact I]].
  apply andb_true_iff in g. destruct g as [g1 g2]. apply is7_t in g1. apply Z.eqb_eq in g2.
  assert (hz := set_byte_good s (Z.to_nat (if i <? 0 then i + Z.of_nat (length (sb s)) else i)) (v mod 256) hs).
  unfold set_byte in hz. rewrite g1 in hz. rewrite (proj2 (Z.ltb_lt (v mod 256) 128)) in hz by (apply land_128; exact g2). exact hz.
Qed.

Lemma concat_rev_len {A} (l : list (list A)) : length (concat (List.rev l)) = length (concat l).
Proof. induction l as [|a l IH]; [reflexivity|]. cbn. rewrite concat_app, !app_length, IH. cbn. rewrite app_nil_r. lia. Qed.
Lemma concat_rev_ascii l : ascii_b (concat (List.rev l)) = ascii_b (concat l).
Proof. induction l as [|a l IH]; [reflexivity|]. cbn. rewrite concat_app, !ascii_app, IH. cbn. rewrite app_nil_r. apply andb_comm. Qed.
Lemma c7_same e a b : length a = length b -> ascii_b a = ascii_b b -> c7b e a = c7b e b.
Proof. intros hl h. unfold c7b. destruct a, b; try discriminate hl; [reflexivity|]. rewrite h. reflexivity. Qed.
Lemma reverse_good s : good x s ->
  is_broken (code_range jis s) && match se s with Utf8 | EucJp | Sjis _ => true | _ => false end = false -> good x (reverse jis s).
Proof.
  intros hs hp. assert (g := good_cr s hs). destruct hs as [n _]. split; [exact n|]. unfold reverse. cbn [sb se sc].
  set (byte := is7 _ || _). set (b' := if byte then _ else _).
  assert (hl : length b' = length (sb s)).
  { unfold b'. destruct byte; [apply rev_length|]. rewrite concat_rev_len, chars_all. reflexivity. }
  assert (ha : ascii_b b' = ascii_b (sb s)).
  { unfold b'. destruct byte; [apply ascii_rev|]. rewrite concat_rev_ascii, chars_all. reflexivity. }
  assert (h7 := c7_same (se s) _ _ hl ha).
  destruct (code_range jis s) eqn:k; cbn [G] in *; auto.
  - rewrite h7. exact g.
  - destruct g as [g1 g2]. split; [|rewrite h7; exact g2].
    unfold b', byte, chars. destruct (se s) eqn:es; cbn [wellb is7 orb] in *; auto.
    + apply (utf8_reverse (sb s)); exact g1.
    + rewrite ascii_rev. exact g1.
    + unfold b', byte, chars in hl. cbn [is7 orb] in hl. rewrite es in hl. rewrite hl; exact g1.
    + unfold b', byte, chars in hl. cbn [is7 orb] in hl. rewrite es in hl. rewrite hl; exact g1.
    + unfold b', byte, chars in hl. cbn [is7 orb] in hl. rewrite es in hl. rewrite hl; exact g1.
    + unfold b', byte, chars in hl. cbn [is7 orb] in hl. rewrite es in hl. rewrite hl; exact g1.
    + apply (wok_reverse EucJp euc_w euc_stable char_w_euc (sb s)); exact g1.
    + apply (wok_reverse (Sjis n0) sjis_w sjis_stable (char_w_sjis n0) (sb s)); exact g1.
  - destruct (se s) eqn:es; cbn [is_broken andb] in hp; try discriminate hp; cbn [wellb] in *; try discriminate g.
    + rewrite ha. exact g.
    + rewrite hl. exact g.
    + rewrite hl. exact g.
    + rewrite hl. exact g.
    + rewrite hl. exact g.
Qed.

Lemma slice_len b a z : (a <= z <= length b)%nat -> length (slice b a z) = (z - a)%nat.
Proof. intro h. unfold slice. rewrite firstn_length, skipn_length. lia. Qed.
Lemma substring_good s a z : good x s -> (a <= z <= length (sb s))%nat ->
  negb x || (a =? z)%nat || is7 (code_range jis s) || negb (is7 (classify jis (se s) (slice (sb s) a z))) = true ->
  good x (substring jis s a z).
Proof.
  intros hs hr hp. assert (g := good_cr s hs). destruct hs as [n _]. split; [exact n|]. unfold substring. cbn [sb se sc].
  unfold propagated. destruct (Nat.eqb_spec a z) as [->|hne].
  { unfold slice. rewrite Nat.sub_diag. reflexivity. }
  destruct (code_range jis s) eqn:k; cbn [G] in g; try exact I.
  - unfold c7b in g. destruct (sb s) as [|y l] eqn:bs; [cbn in hr; lia|]. rewrite <- bs in *.
    apply andb_true_iff in g. destruct g as [g1 g2]. apply G_ascii; [exact g1|apply slice_ascii; exact g2].
  - destruct g as [g1 g2]. assert (h7 : x = true -> c7b (se s) (slice (sb s) a z) = false).
    { intro hx. rewrite hx in hp. cbn [negb orb is7] in hp. rewrite (cls _ _ n) in hp.
      destruct (c7b (se s) (slice (sb s) a z)); [discriminate hp|reflexivity]. }
    destruct (se s) eqn:es; try exact I; try (split; [reflexivity|exact h7]).
    + destruct (boundary (sb s) a && boundary (sb s) z) eqn:hb; [|exact I]. apply andb_true_iff in hb.
      split; [|exact h7]. cbn [wellb]. apply utf8_slice; auto; apply hb.
    + destruct (Nat.even a && Nat.even z) eqn:hb; [|exact I]. apply andb_true_iff in hb. split; [|exact h7].
      cbn [wellb]. rewrite slice_len by exact hr. rewrite Nat.even_sub, (proj1 hb), (proj2 hb) by lia. reflexivity.
    + destruct (Nat.even a && Nat.even z) eqn:hb; [|exact I]. apply andb_true_iff in hb. split; [|exact h7].
      cbn [wellb]. rewrite slice_len by exact hr. rewrite Nat.even_sub, (proj1 hb), (proj2 hb) by lia. reflexivity.
    + destruct ((a mod 4 =? 0)%nat && (z mod 4 =? 0)%nat) eqn:hb; [|exact I]. apply andb_true_iff in hb. destruct hb as [b1 b2]. split; [|exact h7].
      cbn [wellb]. rewrite slice_len by exact hr. apply Nat.eqb_eq in b1, b2. apply Nat.eqb_eq.
      apply Nat.mod_divide in b1; [|lia]. apply Nat.mod_divide in b2; [|lia]. apply Nat.mod_divide; [lia|]. apply Nat.divide_sub_r; assumption.
    + destruct ((a mod 4 =? 0)%nat && (z mod 4 =? 0)%nat) eqn:hb; [|exact I]. apply andb_true_iff in hb. destruct hb as [b1 b2]. split; [|exact h7].
      cbn [wellb]. rewrite slice_len by exact hr. apply Nat.eqb_eq in b1, b2. apply Nat.eqb_eq.
      apply Nat.mod_divide in b1; [|lia]. apply Nat.mod_divide in b2; [|lia]. apply Nat.mod_divide; [lia|]. apply Nat.divide_sub_r; assumption.
Qed.

(** [bytesplice]. *)
Lemma known_cr s : sc s <> CUnknown -> code_range jis s = sc s.
Proof. intro h. unfold code_range, touch. destruct (sc s) eqn:q; auto. congruence. Qed.
Lemma firstn_skipn_ascii st en b : ascii_b b = true -> forall m, ascii_b m = true -> ascii_b (firstn st b ++ m ++ skipn en b) = true.
Proof. intros h m hm. rewrite !ascii_app, (ascii_firstn _ _ h), (ascii_skipn _ _ h), hm. reflexivity. Qed.
Lemma bytesplice_good s r st ln y s1 : bytesplice jis s r st ln = (y, s1) -> good x s -> good x r ->
  (sb r = [] -> se r = se s) -> (st + ln <= length (sb s))%nat ->
  negb x || ascii_b (sb s) || negb (ascii_b (firstn st (sb s) ++ sb r ++ skipn (st + ln) (sb s))) = true ->
  good x s1 /\ forall z, y = inl z -> good x z.
Proof.
  unfold bytesplice. destruct (compat jis s r) as [[e s1'] r1] eqn:hc. intros h hs hr hre hl hp.
  destruct (compat_good _ _ _ _ _ hc hs hr) as [q1 q2].
  destruct (compat_bytes _ _ _ _ _ _ hc) as (b1 & b2 & e1 & e2).
  destruct (compat_shape _ _ _ _ _ _ hc) as [z1 z2].
  destruct e as [e|]; injection h as <- <-; [|split; [exact q1|discriminate]].
  split; [exact q1|]. intros z hz. injection hz as <-.
  destruct (compat_G _ _ _ _ _ hc hs hr) as (n & g1 & g2).
  rewrite (touch_cr' r r1 z2), b1, b2, e1. set (b := firstn st (sb s) ++ sb r ++ skipn (st + ln) (sb s)) in *.
  assert (hk : sc s1' <> CUnknown -> sc s1' = code_range jis s).
  { intro hk. rewrite <- (touch_cr' s s1' z1). symmetry. apply known_cr. exact hk. }
  destruct (is7 (sc s1') && is7 (code_range jis r) && ascii_compatible e) eqn:f1.
  { rewrite !andb_true_iff in f1. destruct f1 as ((f1 & f2) & f3). apply is7_t in f1, f2.
    rewrite hk in f1 by congruence. rewrite f1 in g1. rewrite f2 in g2. split; [exact n|]. cbn [sb se sc].
    assert (aa : forall m, c7b e m = true -> ascii_b m = true).
    { intros m hm. unfold c7b in hm. destruct m; [reflexivity|]. apply andb_true_iff in hm. apply hm. }
    apply G_ascii; [exact f3|]. apply firstn_skipn_ascii; apply aa; assumption. }
  destruct (enc_eqb (se s) Utf8 && is_well (sc s1') && boundary (sb s) st && boundary (sb s) (st + ln) && is_well (code_range jis r)) eqn:f2.
  { rewrite !andb_true_iff in f2. destruct f2 as ((((g3 & g4) & g5) & g6) & g7). apply enc_eqb_t in g3.
    assert (hkk : sc s1' = code_range jis s) by (apply hk; intro q; rewrite q in g4; discriminate g4).
    rewrite hkk in *. split; [exact n|]. cbn [sb se sc]. cbn [G].
    assert (wr : wellb e (sb r) = true).
    { destruct (code_range jis r); try discriminate g7; cbn [G] in g2; [apply c7_well; exact g2|apply g2]. }
    assert (ws : wellb e (firstn st (sb s)) = true /\ wellb e (skipn (st + ln) (sb s)) = true).
    { assert (gs := good_cr s hs). destruct (enc_dec e Utf8) as [->|ne].
      - assert (hu : utf8_ok (sb s) = true).
        { rewrite g3 in gs. destruct (code_range jis s); try discriminate g4; [apply (c7_well Utf8 (sb s)); exact gs|apply gs]. }
        split; [apply (utf8_cut _ hu st); [lia|exact g5]|apply (utf8_cut _ hu (st + ln)%nat); [lia|exact g6]].
      - assert (hq : sb s = [] \/ (ascii_compatible e = true /\ ascii_b (sb s) = true)).
        { destruct (sb s) as [|u v] eqn:bs; [left; reflexivity|right]. rewrite <- bs in *.
          destruct (code_range jis s) eqn:k; try discriminate g4.
          - cbn [G] in g1. unfold c7b in g1. rewrite bs in g1. rewrite <- bs in g1. apply andb_true_iff in g1. exact g1.
          - exfalso. unfold compat in hc. rewrite g3 in hc.
            destruct (enc_eqb Utf8 (se r)) eqn:er; [injection hc as hc _ _; congruence|].
            rewrite bs in hc. destruct (sb r) as [|u2 v2] eqn:br; [injection hc as hc _ _; congruence|].
            unfold compatible in hc. rewrite er, k in hc. cbn [is7 andb] in hc.
            destruct (ascii_compatible Utf8 && ascii_compatible (se r)); [|discriminate hc].
            destruct (is7 (code_range jis r)); [injection hc as hc _ _; congruence|discriminate hc]. }
        destruct hq as [hq|[hq1 hq2]].
        + rewrite hq. rewrite firstn_nil, skipn_nil. split; apply well_nil.
        + split; apply well_ascii; auto using ascii_firstn, ascii_skipn. }
    split; [unfold b; apply well_app; [apply ws|apply well_app; [exact wr|apply ws]]|].
    intro hx. rewrite hx in hp. cbn [negb orb] in hp.
    destruct (c7b e b) eqn:h7; [|reflexivity]. exfalso.
    assert (gs := good_cr s hs). assert (gr := good_cr r hr).
    destruct (ascii_b (sb s)) eqn:as_.
    - (* the receiver is ASCII: the replacement is not *)
      assert (ks : code_range jis s = C7).
      { destruct (code_range jis s) eqn:k; try discriminate g4; [reflexivity|]. destruct gs as [_ gs]. rewrite g3 in gs. specialize (gs hx).
        unfold c7b in gs. destruct (sb s); [discriminate gs|]. cbn [ascii_compatible] in gs. rewrite as_ in gs. discriminate gs. }
      rewrite ks in f1. cbn [is7 andb] in f1.
      destruct (code_range jis r) eqn:kr; try discriminate g7; cbn [is7 andb] in f1.
      + (* r is 7 bit, so its encoding or emptiness decides *)
        assert (hce : ascii_compatible e = true).
        { unfold compat in hc. destruct (enc_eqb (se s) (se r)) eqn:er; [injection hc as <- _ _; rewrite g3; reflexivity|].
          destruct (sb s) as [|u v] eqn:bs, (sb r) as [|u2 v2] eqn:br.
          - injection hc as <- _ _. rewrite g3. reflexivity.
          - rewrite g3 in hc. cbn [ascii_compatible] in hc. rewrite kr in hc. cbn [is7] in hc. injection hc as <- _ _. reflexivity.
          - injection hc as <- _ _. rewrite g3. reflexivity.
          - injection hc as hc _ _. unfold compatible in hc. rewrite er, ks, kr, g3 in hc. cbn [is7 andb ascii_compatible] in hc.
            destruct (ascii_compatible (se r)); [injection hc as <-; reflexivity|discriminate hc]. }
        rewrite hce in f1. discriminate f1.
      + destruct g2 as [_ g2]. specialize (g2 hx). unfold b in h7. rewrite !c7_app in h7. rewrite g2 in h7.
        rewrite andb_false_r in h7. discriminate h7.
    - assert (hb0 : ascii_b b = true). { unfold c7b in h7. destruct b; [reflexivity|]. apply andb_true_iff in h7. apply h7. }
      rewrite hb0 in hp. discriminate hp. }
  destruct (classify jis e b) eqn:cl.
  - split; [exact n|exact I].
  - split; [exact n|]. cbn [sb se sc]. rewrite <- cl. apply G_cls; exact n.
  - split; [exact n|]. cbn [sb se sc]. rewrite <- cl. apply G_cls; exact n.
  - destruct (utf8_compat e) eqn:uc.
    + split; [discriminate|]. cbn [sb se sc]. split; [reflexivity|]. intros _. rewrite (cls _ _ n) in cl.
      destruct (c7b e b) eqn:h7; [discriminate cl|]. unfold c7b in *. destruct b; [discriminate h7|].
      destruct e; try discriminate uc; cbn [ascii_compatible andb] in *; exact h7.
    + split; [exact n|]. cbn [sb se sc]. rewrite <- cl. apply G_cls; exact n.
Qed.

(** Interpolation. *)
Definition accG (b : list Z) (e : option encoding) (c : crange) : Prop :=
  match e with Some e => nj e /\ G x e b c /\ c <> CBroken | None => b = [] /\ c = C7 end.
Lemma fold_nb a b : fold_cr a b <> CBroken. Proof. destruct a, b; discriminate. Qed.
Lemma interp_str b e c s b' e' c' : interp_step jis b e c (inl s) = Some (b', e', c') -> accG b e c -> good x s ->
  accG b' e' c' /\ (ascii_compatible (se s) = true -> match e with Some e => ascii_compatible e = true | None => True end ->
                    match e' with Some e => ascii_compatible e = true | None => True end).
Proof.
  unfold interp_step. intros h ha hs. assert (gs := good_cr s hs). destruct hs as [ns _].
  destruct e as [prev|].
  2:{ injection h as <- <- <-. destruct ha as [-> ->]. split; [|auto]. split; [exact ns|]. split; [|apply fold_nb].
      apply (fold_G (se s) []); [reflexivity|exact gs]. }
  destruct ha as (np & ga & nb). unfold interp_enc in h. destruct (enc_eqb prev (se s)) eqn:q.
  { apply enc_eqb_t in q. injection h as <- <- <-. split; [|auto]. split; [exact np|]. split; [|apply fold_nb]. rewrite <- q in gs. apply fold_G; assumption. }
  destruct b as [|u v] eqn:eb.
  { destruct (sb s) as [|y m] eqn:bs.
    - injection h as <- <- <-. split; [|auto]. split; [exact np|]. split; [|apply fold_nb]. apply (fold_G prev [] []); [exact ga|]. eapply G_nil; exact gs.
    - injection h as <- <- <-. rewrite <- bs in *. destruct (ascii_compatible prev && is7 (code_range jis s)) eqn:g.
      + apply andb_true_iff in g. destruct g as [g1 g2]. apply is7_t in g2. split; [|auto]. split; [exact np|]. split; [|apply fold_nb].
        apply (fold_G prev []); [exact ga|]. rewrite g2 in *. eapply G_7; [exact gs|exact g1].
      + split; [|auto]. split; [exact ns|]. split; [|apply fold_nb]. apply (fold_G (se s) []); [eapply G_nil; exact ga|exact gs]. }
  rewrite <- eb in *. destruct (sb s) as [|y m] eqn:bs.
  { injection h as <- <- <-. split; [|auto]. split; [exact np|]. split; [|apply fold_nb]. apply fold_G; [exact ga|]. eapply G_nil; exact gs. }
  set (c1 := match c with CUnknown => classify jis prev b | _ => c end) in *.
  destruct (compatible prev c1 (se s) (code_range jis s)) as [e1|] eqn:hc; [|discriminate h].
  injection h as <- <- <-. rewrite <- bs in *.
  assert (g1 : G x prev b c1) by (unfold c1; destruct c; try exact ga; apply G_cls; exact np).
  unfold compatible in hc. rewrite q in hc. destruct (ascii_compatible prev && ascii_compatible (se s)) eqn:ca; [|discriminate hc].
  apply andb_true_iff in ca. destruct ca as [ca cb].
  destruct (is7 c1) eqn:k1, (is7 (code_range jis s)) eqn:k2; cbn [andb] in hc; try discriminate hc; injection hc as <-; (split; [|auto]);
    (split; [assumption|]); (split; [|apply fold_nb]); apply fold_G; try assumption.
  - apply is7_t in k2. rewrite k2 in *. eapply G_7; eassumption.
  - apply is7_t in k1. rewrite k1 in *. eapply G_7; eassumption.
  - apply is7_t in k2. rewrite k2 in *. eapply G_7; eassumption.
Qed.
Lemma interp_go_good ps : forall b e c r, interp_go jis b e c ps = inl r -> accG b e c ->
  Forall (fun p => match p with inl s => good x s | inr t => ascii_b t = true end) ps ->
  (Forall (fun p => match p with inl _ => True | inr _ => False end) ps \/
   (Forall (fun p => match p with inl s => ascii_compatible (se s) = true | inr _ => True end) ps /\
    match e with Some e => ascii_compatible e = true | None => True end)) -> good x r.
Proof.
  induction ps as [|p ps IH]; intros b e c r h ha hp hc; cbn [interp_go] in h.
  - injection h as <-. destruct e as [e|]; [split; apply ha|]. destruct ha as [-> ->]. split; [discriminate|reflexivity].
  - inversion hp; subst. destruct (interp_step jis b e c p) as [[[b' e'] c']|] eqn:hs; [|discriminate h].
    destruct p as [s|t].
    + destruct (interp_str _ _ _ _ _ _ _ hs ha H1) as [q1 q2]. apply (IH _ _ _ _ h q1 H2).
      destruct hc as [hc|[hc1 hc2]]; [left; inversion hc; assumption|right]. inversion hc1; subst. split; [assumption|exact (q2 H3 hc2)].
    + destruct hc as [hc|[hc1 hc2]]; [inversion hc; subst; contradiction|]. inversion hc1; subst.
      cbn [interp_step] in hs. injection hs as <- <- <-.
      assert (q : ascii_compatible (match e with None => Utf8 | Some p => p end) = true) by (destruct e; [exact hc2|reflexivity]).
      apply (IH _ _ _ _ h); [|assumption|right; split; assumption].
      destruct e as [e|]; [|destruct ha as [-> ->]; split; [discriminate|split; [apply G_ascii; [reflexivity|exact H1]|discriminate]]].
      destruct ha as (n & g & nb). split; [exact n|]. split; [|exact nb]. assert (h7 : c7b e t = true) by (apply G_ascii; assumption).
      assert (hf := fold_G e b t c C7 g h7). destruct c; try exact hf; try exact I.
      congruence.
Qed.
Lemma pad_good s p h t : good x s -> good x p -> sb p <> [] -> ascii_compatible (se s) || enc_eqb (se s) (se p) = true ->
  good x (pad jis s p h t).
Proof.
  intros hs hp hne hc. assert (g1 := good_cr s hs). assert (g2 := good_cr p hp). destruct hs as [n _]. split; [exact n|].
  unfold pad. cbn [sb se sc]. destruct (ascii_only jis s && ascii_only jis p) eqn:g; [|exact I].
  apply andb_true_iff in g. destruct g as [k1 k2]. unfold ascii_only in *. apply is7_t in k1, k2. rewrite k1 in g1. rewrite k2 in g2.
  assert (sp : safeb (mkS (sb p) (se p) C7)).
  { split; cbn; [|discriminate]. intros _. cbn [G] in g2. unfold c7b in g2. destruct (sb p); [reflexivity|]. apply andb_true_iff in g2. apply g2. }
  assert (ss : safeb (mkS (sb s) (se s) C7)).
  { split; cbn; [|discriminate]. intros _. cbn [G] in g1. unfold c7b in g1. destruct (sb s); [reflexivity|]. apply andb_true_iff in g1. apply g1. }
  assert (hz := pad_safe jis (mkS (sb s) (se s) C7) (mkS (sb p) (se p) C7) h t ss sp). destruct hz as [hz _].
  unfold pad in hz. cbn [sb se sc ascii_only code_range touch is7 andb] in hz. specialize (hz eq_refl).
  change (pad_bytes {| sb := sb p; se := se p; sc := C7 |}) with (pad_bytes p) in hz.
  apply G_ascii; [|exact hz]. apply orb_true_iff in hc. destruct hc as [hc|hc]; [exact hc|]. apply enc_eqb_t in hc. rewrite hc.
  cbn [G] in g2. unfold c7b in g2. destruct (sb p); [congruence|]. apply andb_true_iff in g2. apply g2.
Qed.

(** ** Histories. *)
Lemma at_good st i : Forall (good x) st -> good x (at_ st i).
Proof. intro h. unfold at_. revert i. induction h; intros [|i]; cbn; auto; split; (discriminate || reflexivity). Qed.
Lemma put_good st i s : Forall (good x) st -> good x s -> Forall (good x) (put st i s).
Proof. intros h hs. unfold put. revert i. induction h; intros [|i]; cbn; constructor; auto. Qed.
Lemma snoc_good st s : Forall (good x) st -> good x s -> Forall (good x) (st ++ [s]).
Proof. intros h hs. apply Forall_app. auto. Qed.
Lemma put_res_good st i r st' e : put_res st i r = (st', e) -> Forall (good x) st -> (forall y, r = inl y -> good x y) -> Forall (good x) st'.
Proof. destruct r; cbn; intros h hs hr; injection h as <- <-; auto using put_good. Qed.
Lemma new_res_good st r st' e : new_res st r = (st', e) -> Forall (good x) st -> (forall y, r = inl y -> good x y) -> Forall (good x) st'.
Proof. destruct r; cbn; intros h hs hr; injection h as <- <-; auto using snoc_good. Qed.
Lemma shl_good st i j st' e : shl jis st i j = (st', e) -> Forall (good x) st -> Forall (good x) st'.
Proof.
  unfold shl. destruct (extend jis (at_ st i) (at_ st j)) as [[r s1] o1] eqn:he. intros h hs.
  destruct (extend_good _ _ _ _ _ he (at_good st i hs) (at_good st j hs)) as (q1 & q2 & q3).
  eapply put_res_good; [exact h| |exact q3]. auto using put_good.
Qed.
Lemma good_new b e : nj e -> good x (mkS b e (classify jis e b)).
Proof. intro h. split; [exact h|]. apply G_cls; exact h. Qed.
Lemma good_unknown b e : nj e -> good x (mkS b e CUnknown). Proof. intro h. split; [exact h|exact I]. Qed.
Lemma nj_of e : negb (enc_eqb e Iso2022Jp) = true -> nj e.
Proof. intros h ->. rewrite enc_eqb_refl in h. discriminate. Qed.

Ltac ok1 h := match type of h with (if ?c then _ else _) = _ => let q := fresh "ok" in destruct c eqn:q; [|discriminate h] end.
Lemma run1_good st o st' e : run1 jis st o = Some (st', e) -> plain jis x st o = true -> Forall (good x) st -> Forall (good x) st'.
Proof.
  intros h ho hs. destruct o; cbn [run1] in h; cbn [plain] in ho.
  - injection h as <- <-. apply nj_of in ho. apply snoc_good; auto. destruct scan; [apply good_new|apply good_unknown]; exact ho.
  - injection h as <- <-. apply snoc_good; auto. destruct (ascii_b b) eqn:q; [split; [discriminate|apply G_ascii; [reflexivity|exact q]]|].
    assert (h7 : forall e, c7b e b = false) by (intro e; unfold c7b; destruct b; [discriminate q|]; rewrite q; apply andb_false_r).
    destruct (utf8_ok b) eqn:q2; (split; [discriminate|]); (split; [first [exact q2|reflexivity]|auto]).
  - ok1 h. injection h as <- <-. auto using snoc_good, at_good.
  - ok1 h. injection h as <- <-. auto using put_good, at_good.
  - ok1 h. injection h as <- <-. apply put_good; auto. apply good_unknown, nj_of, ho.
  - ok1 h. injection h as <- <-. auto using put_good, at_good, touch_good.
  - ok1 h. destruct (extend jis (at_ st i) (at_ st j)) as [[r s1] o1] eqn:he. injection h as h.
    destruct (extend_good _ _ _ _ _ he (at_good st i hs) (at_good st j hs)) as (q1 & q2 & q3).
    eapply new_res_good; [exact h| |exact q3]. auto using put_good.
  - ok1 h. injection h as h. eapply shl_good; eauto.
  - ok1 h. injection h as h. eapply put_res_good; [exact h|exact hs|]. intros y hy. eapply shl_int_good; eauto using at_good.
  - ok1 h. destruct (jit_shl_str (at_ st i) (at_ st j) room) eqn:q; injection h as h.
    + subst. apply put_good; auto. eapply jit_shl_str_good; eauto using at_good.
    + eapply shl_good; eauto.
  - ok1 h. apply andb_true_iff in ho. destruct ho as [ho1 ho2]. apply negb_true_iff in ho2.
    destruct (jit_shl_int (at_ st i) c room) eqn:q; injection h as h.
    + subst. apply put_good; auto. eapply jit_shl_int_good; eauto using at_good.
    + eapply put_res_good; [exact h|exact hs|]. intros y hy. eapply shl_int_good; eauto using at_good.
  - ok1 h. injection h as h. eapply put_res_good; [exact h|exact hs|]. intros y hy. eapply setbyte_good; eauto using at_good.
  - ok1 h. destruct (jit_setbyte (at_ st i) k v) eqn:q; injection h as h.
    + subst. apply put_good; auto. eapply jit_setbyte_good; eauto using at_good.
    + eapply put_res_good; [exact h|exact hs|]. intros y hy. eapply setbyte_good; eauto using at_good.
  - ok1 h. injection h as <- <-. apply put_good; auto. apply good_unknown. apply (at_good st i hs).
  - ok1 h. injection h as <- <-. apply put_good; auto. apply append_merge_good, at_good; auto.
  - ok1 h. injection h as h. eapply new_res_good; [exact h|exact hs|]. intros y hy. eapply mul_good; eauto using at_good.
  - ok1 h. injection h as <- <-. apply snoc_good; [apply put_good; auto using touch_good, at_good|].
    apply reverse_good; [auto using touch_good, at_good|]. rewrite touch_cr, touch_se. apply negb_true_iff, ho.
  - ok1 h. injection h as <- <-. apply andb_true_iff in ok. destruct ok as [ok z1]. apply andb_true_iff in ok. destruct ok as [_ z2].
    apply Nat.leb_le in z1, z2. apply snoc_good; [apply put_good; auto; destruct (a =? z)%nat; auto using touch_good, at_good|].
    apply substring_good; auto using at_good.
  - ok1 h. apply andb_true_iff in ok. destruct ok as [_ z1]. apply Nat.leb_le in z1.
    set (r := mkS (sb (at_ st j)) _ _) in h. destruct (bytesplice jis (at_ st i) r st0 ln) as [y s1] eqn:hb. injection h as h.
    assert (hr : good x r).
    { apply good_new. destruct (sb (at_ st j)); [apply (at_good st i hs)|apply (at_good st j hs)]. }
    assert (hre : sb r = [] -> se r = se (at_ st i)).
    { unfold r. cbn [sb se]. intro q. rewrite q. reflexivity. }
    destruct (bytesplice_good _ _ _ _ _ _ hb (at_good st i hs) hr hre z1 ho) as [q1 q2].
    eapply put_res_good; [exact h| |exact q2]. auto using put_good.
  - ok1 h. injection h as <- <-. apply Forall_app. split; auto. apply Forall_map. apply Forall_forall. intros c _. apply good_new. apply (at_good st i hs).
  - ok1 h. injection h as h. eapply new_res_good; [exact h|exact hs|]. intros y hy.
    apply andb_true_iff in ho. destruct ho as [ho1 ho2]. rewrite forallb_forall in ho1.
    apply (interp_go_good _ _ _ _ _ hy).
    + split; reflexivity.
    + apply Forall_map, Forall_forall. intros p hp. specialize (ho1 p hp). destruct p; auto using at_good.
    + apply orb_true_iff in ho2. destruct ho2 as [ho2|ho2]; rewrite forallb_forall in ho2; [left|right; split; [|exact I]];
        apply Forall_map, Forall_forall; intros p hp; specialize (ho2 p hp); destruct p; auto; discriminate.
  - ok1 h. destruct (sb (at_ st j)) eqn:bj; [injection h as <- <-; exact hs|].
    destruct (fst (fst (compat jis (at_ st i) (at_ st j)))); injection h as <- <-; auto.
    apply snoc_good; auto. apply pad_good; auto using at_good. congruence.
Qed.
Lemma run_good l : forall st st', run jis st l = Some st' -> plain_run jis x st l = true -> Forall (good x) st -> Forall (good x) st'.
Proof.
  induction l as [|o l IH]; intros st st' h ho hs; cbn [run] in h; cbn [plain_run] in ho; [congruence|].
  apply andb_true_iff in ho. destruct ho as [ho1 ho2].
  destruct (run1 jis st o) as [[st1 e]|] eqn:h1; [|discriminate h].
  apply (IH _ _ h); auto. eapply run1_good; eauto.
Qed.
End S.

Lemma answers_right jis l st' : run jis [] l = Some st' -> plain_run jis false [] l = true ->
  Forall (fun s => valid_encoding jis s = is_well (classify jis (se s) (sb s))) st'.
Proof.
  intros h hp. assert (hg := run_good jis false l [] st' h hp (Forall_nil _)). revert hg. apply Forall_impl.
  intros s [n g]. unfold valid_encoding, code_range, touch. destruct (sc s) eqn:q; cbn [sc]; rewrite ?q; [reflexivity| | |]; rewrite (cls _ _ _ n); cbn [G] in g.
  - rewrite g. reflexivity.
  - destruct (c7b _ _); [reflexivity|]. destruct g as [g _]. rewrite g. reflexivity.
  - destruct (c7b (se s) (sb s)) eqn:q2; [apply c7_well in q2; congruence|]. rewrite g. reflexivity.
Qed.
Lemma answers_exact jis l st' : run jis [] l = Some st' -> plain_run jis true [] l = true ->
  Forall (fun s => code_range jis s = classify jis (se s) (sb s)) st'.
Proof.
  intros h hp. assert (hg := run_good jis true l [] st' h hp (Forall_nil _)). revert hg. apply Forall_impl.
  intros s [n g]. unfold code_range, touch. destruct (sc s) eqn:q; cbn [sc]; rewrite ?q; [reflexivity| | |]; rewrite (cls _ _ _ n); cbn [G] in g.
  - rewrite g. reflexivity.
  - destruct g as [g g2]. rewrite g2, g by reflexivity. reflexivity.
  - destruct (c7b (se s) (sb s)) eqn:q2; [apply c7_well in q2; congruence|]. rewrite g. reflexivity.
Qed.
