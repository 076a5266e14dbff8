(** No string is ever taken for ASCII or for UTF-8 wrongly, through every history. *)
From Coq Require Import ZArith List Bool Lia Arith.
From Verif Require Import Utf8Model Utf8Spec Utf8Proofs IdModel StrModel StrSpec StrProofs.
Import ListNotations.
Open Scope Z_scope.

Section S.
Variable jis : list Z -> option nat.

Definition safeb (s : str) : Prop :=
  (sc s = C7 -> ascii_b (sb s) = true) /\ (se s = Utf8 -> sc s = CValid -> utf8_ok (sb s) = true).

Lemma enc_eqb_t a b : enc_eqb a b = true -> a = b.
Proof. unfold enc_eqb. destruct (enc_dec a b); congruence. Qed.
Lemma enc_eqb_refl a : enc_eqb a a = true.
Proof. unfold enc_eqb. destruct (enc_dec a a); congruence. Qed.
Lemma enc_eqb_f a b : enc_eqb a b = false -> a <> b.
Proof. unfold enc_eqb. destruct (enc_dec a b); congruence. Qed.
Lemma is7_t c : is7 c = true -> c = C7. Proof. destruct c; cbn; congruence. Qed.

Lemma classify_7 e b : classify jis e b = C7 -> ascii_b b = true.
Proof.
  unfold classify. destruct b as [|x l] eqn:eb; [reflexivity|]. rewrite <- eb.
  destruct (ascii_compatible e && ascii_b b) eqn:h.
  - intros _. apply andb_true_iff in h. exact (proj2 h).
  - destruct e; intro h1; try discriminate h1.
    all: repeat match type of h1 with (if ?c then _ else _) = _ => destruct c | match ?c with _ => _ end = _ => destruct c end; discriminate h1.
Qed.
Lemma classify_utf8 b : is_well (classify jis Utf8 b) = true -> utf8_ok b = true.
Proof.
  unfold classify. destruct b as [|x l] eqn:eb; [reflexivity|]. rewrite <- eb. cbn [ascii_compatible andb].
  destruct (ascii_b b) eqn:h; [intros _; apply ascii_utf8; exact h|].
  destruct (utf8_ok b); [reflexivity|discriminate].
Qed.
Lemma safe_new b e : safeb (mkS b e (classify jis e b)).
Proof.
  split; cbn.
  - apply classify_7.
  - intros -> h. apply classify_utf8. rewrite h. reflexivity.
Qed.
Lemma safe_unknown b e : safeb (mkS b e CUnknown). Proof. split; cbn; intros; solve [assumption | discriminate]. Qed.
Lemma safe_7 b e : ascii_b b = true -> safeb (mkS b e C7). Proof. split; cbn; intros; solve [assumption | discriminate]. Qed.
Lemma safe_valid b e : (e = Utf8 -> utf8_ok b = true) -> safeb (mkS b e CValid).
Proof. split; cbn; [congruence|auto]. Qed.
Lemma safe_broken b e : safeb (mkS b e CBroken). Proof. split; cbn; intros; solve [assumption | discriminate]. Qed.

Lemma touch_sb s : sb (touch jis s) = sb s. Proof. unfold touch. destruct (sc s); reflexivity. Qed.
Lemma touch_se s : se (touch jis s) = se s. Proof. unfold touch. destruct (sc s); reflexivity. Qed.
Lemma touch_safe s : safeb s -> safeb (touch jis s).
Proof. intro h. unfold touch. destruct (sc s) eqn:e; try exact h. apply safe_new. Qed.
Lemma touch_known s : sc (touch jis s) <> CUnknown.
Proof.
  unfold touch. destruct (sc s) eqn:e; try congruence. cbn. unfold classify. destruct (sb s); [discriminate|].
  destruct (ascii_compatible _ && _); [discriminate|].
  destruct (se s); repeat match goal with |- context [if ?c then _ else _] => destruct c | |- context [match ?c with Some _ => _ | None => _ end] => destruct c end; discriminate.
Qed.

Lemma safe_ascii s : safeb s -> is7 (code_range jis s) = true -> ascii_b (sb s) = true.
Proof.
  intros h h7. apply is7_t in h7. unfold code_range in h7. destruct (touch_safe s h) as [h1 _].
  rewrite touch_sb in h1. auto.
Qed.
Lemma safe_utf8 s : safeb s -> se s = Utf8 -> is_well (sc s) = true -> utf8_ok (sb s) = true.
Proof.
  intros [h1 h2] he hw. destruct (sc s); try discriminate hw; [apply ascii_utf8|]; auto.
Qed.
Lemma safe_utf8t s : safeb s -> se s = Utf8 -> is_well (code_range jis s) = true -> utf8_ok (sb s) = true.
Proof.
  intros h he hw. rewrite <- (touch_sb s). apply safe_utf8; [apply touch_safe; exact h|rewrite touch_se; exact he|exact hw].
Qed.

(** The test of [check_utf8] never lets ill-formed bytes through. *)
Lemma unchecked_ok s : safeb s -> unchecked jis s = true -> utf8_ok (sb s) = true.
Proof.
  intros h hu. unfold unchecked in hu. apply orb_true_iff in hu. destruct hu as [hu|hu].
  - apply ascii_utf8. apply safe_ascii; assumption.
  - apply andb_true_iff in hu. destruct hu as [he hv]. apply enc_eqb_t in he.
    apply safe_utf8t; auto. destruct (code_range jis s); try discriminate hv; reflexivity.
Qed.

Lemma fold_7 a b : fold_cr a b = C7 -> a = C7 /\ b = C7.
Proof. destruct a, b; cbn; intro h; try discriminate h; auto. Qed.
Lemma fold_well a b : is_well (fold_cr a b) = true -> is_well a = true /\ is_well b = true.
Proof. destruct a, b; cbn; intro h; try discriminate h; auto. Qed.

(** Which strings a comparison of encodings can leave behind. *)
Lemma compat_shape s o r s1 o1 : compat jis s o = (r, s1, o1) ->
  (s1 = s \/ s1 = touch jis s) /\ (o1 = o \/ o1 = touch jis o).
Proof.
  unfold compat. destruct (enc_eqb _ _); [intro h; injection h as <- <- <-; auto|].
  destruct (sb s), (sb o); intro h.
  - injection h as <- <- <-; auto.
  - destruct (ascii_compatible _); injection h as <- <- <-; auto.
  - destruct (ascii_compatible _); injection h as <- <- <-; auto.
  - injection h as <- <- <-; auto.
Qed.
Lemma compat_bytes s o r s1 o1 : compat jis s o = (r, s1, o1) -> sb s1 = sb s /\ sb o1 = sb o /\ se s1 = se s /\ se o1 = se o.
Proof.
  intro h. destruct (compat_shape _ _ _ _ _ h) as [[->| ->] [->| ->]]; rewrite ?touch_sb, ?touch_se; auto.
Qed.
Lemma compat_safe s o r s1 o1 : compat jis s o = (r, s1, o1) -> safeb s -> safeb o -> safeb s1 /\ safeb o1.
Proof.
  intros h hs ho. destruct (compat_shape _ _ _ _ _ h) as [[->| ->] [->| ->]]; auto using touch_safe.
Qed.
Lemma touch_cr s : code_range jis (touch jis s) = code_range jis s.
Proof. unfold code_range, touch. destruct (sc s) eqn:e; rewrite ?e; try reflexivity. cbn. destruct (classify jis (se s) (sb s)); reflexivity. Qed.

(** When UTF-8 wins and both classifications are good, both sides are UTF-8. *)
Lemma compat_utf8 s o s1 o1 : compat jis s o = (Some Utf8, s1, o1) -> safeb s -> safeb o ->
  (is_well (code_range jis s) = true -> utf8_ok (sb s) = true) /\
  (is_well (code_range jis o) = true -> utf8_ok (sb o) = true).
Proof.
  intros h hs ho. unfold compat in h. destruct (enc_eqb (se s) (se o)) eqn:e.
  { apply enc_eqb_t in e. injection h as h _ _. split; apply safe_utf8t; congruence. }
  destruct (sb s) as [|x l] eqn:bs, (sb o) as [|y m] eqn:bo.
  - split; reflexivity.
  - split; [reflexivity|]. intro hw. rewrite <- bo. destruct (ascii_compatible (se s)).
    + destruct (is7 (code_range jis o)) eqn:h7.
      * apply ascii_utf8, safe_ascii; assumption.
      * injection h as h _ _. apply safe_utf8t; congruence.
    + injection h as h _ _. apply safe_utf8t; congruence.
  - split; [|reflexivity]. intro hw. rewrite <- bs. injection h as h _ _. apply safe_utf8t; congruence.
  - injection h as h _ _. rewrite <- bs, <- bo. unfold compatible in h. rewrite e in h.
    destruct (ascii_compatible (se s) && ascii_compatible (se o)); [|discriminate h].
    destruct (is7 (code_range jis s)) eqn:c1, (is7 (code_range jis o)) eqn:c2; cbn [andb] in h; try discriminate h;
      injection h as h; split; intro hw;
      first [apply ascii_utf8, safe_ascii; assumption | apply safe_utf8t; congruence].
Qed.
Lemma fold_app_safe s o e c1 c2 : safeb s -> safeb o ->
  (c1 = sc s \/ c1 = code_range jis s) -> (c2 = sc o \/ c2 = code_range jis o) ->
  (e = Utf8 -> (is_well (code_range jis s) = true -> utf8_ok (sb s) = true) /\
               (is_well (code_range jis o) = true -> utf8_ok (sb o) = true)) ->
  safeb (mkS (sb s ++ sb o) e (fold_cr c1 c2)).
Proof.
  intros hs ho h1 h2 hu.
  assert (w1 : is_well c1 = true -> is_well (code_range jis s) = true).
  { destruct h1 as [->| ->]; auto. unfold code_range, touch. destruct (sc s) eqn:q; cbn; rewrite ?q; auto; discriminate. }
  assert (w2 : is_well c2 = true -> is_well (code_range jis o) = true).
  { destruct h2 as [->| ->]; auto. unfold code_range, touch. destruct (sc o) eqn:q; cbn; rewrite ?q; auto; discriminate. }
  assert (a1 : c1 = C7 -> ascii_b (sb s) = true).
  { intro q. apply safe_ascii; auto. destruct h1 as [h1|h1]; rewrite <- ?h1, ?q; auto.
    unfold code_range, touch. rewrite <- h1, q. rewrite <- h1, q. reflexivity. }
  assert (a2 : c2 = C7 -> ascii_b (sb o) = true).
  { intro q. apply safe_ascii; auto. destruct h2 as [h2|h2]; rewrite <- ?h2, ?q; auto.
    unfold code_range, touch. rewrite <- h2, q. rewrite <- h2, q. reflexivity. }
  split; cbn [sc sb se].
  - intro h. apply fold_7 in h. destruct h. rewrite ascii_app, a1, a2 by assumption. reflexivity.
  - intros he h. destruct (fold_well c1 c2) as [g1 g2]; [rewrite h; reflexivity|].
    destruct (hu he). apply utf8_app; auto.
Qed.

Lemma extend_safe s o r s1 o1 : extend jis s o = (r, s1, o1) -> safeb s -> safeb o ->
  safeb s1 /\ safeb o1 /\ (forall x, r = inl x -> safeb x).
Proof.
  unfold extend. intros h hs ho. destruct (sb o) eqn:bo.
  { injection h as <- <- <-. repeat split; try apply hs; try apply ho. all: injection H as <-; apply hs. }
  destruct (compat jis s o) as [[r' s1'] o1'] eqn:hc.
  destruct (compat_safe _ _ _ _ _ hc hs ho) as [q1 q2].
  destruct r' as [e|].
  - injection h as <- <- <-. split; [exact q1|]. split; [apply touch_safe; exact q2|].
    intros x hx. injection hx as <-. destruct (compat_bytes _ _ _ _ _ hc) as (b1 & b2 & _ & _).
    rewrite touch_sb, b1, b2. apply fold_app_safe; auto.
    + destruct (compat_shape _ _ _ _ _ hc) as [[->| ->] _]; auto.
    + right. destruct (compat_shape _ _ _ _ _ hc) as [_ [->| ->]]; [reflexivity|]. apply touch_cr.
    + intros ->. exact (compat_utf8 _ _ _ _ hc hs ho).
  - injection h as <- <- <-. split; [exact q1|]. split; [exact q2|]. discriminate.
Qed.

Lemma extend_slice_safe s l r : extend_slice s l = inl r -> safeb s -> safeb r.
Proof.
  unfold extend_slice. destruct (utf8_compat (se s) && negb (utf8_ok l)) eqn:h; [discriminate|].
  intros q hs. injection q as <-. destruct hs as [h1 h2]. split; cbn [sc sb se].
  - intro q. apply fold_7 in q. destruct q as [q1 q2]. rewrite ascii_app, (h1 q1). cbn.
    destruct (ascii_b l); [reflexivity|]. destruct (utf8_compat _); discriminate q2.
  - intros he q. destruct (fold_well (sc s) (if ascii_b l then C7 else if utf8_compat (se s) then CValid else CUnknown)) as [g1 g2]; [rewrite q; reflexivity|].
    apply utf8_app.
    + destruct (sc s) eqn:qs; try discriminate g1; [apply ascii_utf8; auto|auto].
    + rewrite he in h. cbn in h. destruct (utf8_ok l); [reflexivity|discriminate h].
Qed.
Lemma shl_int_safe s c r : shl_int s c = inl r -> safeb s -> safeb r.
Proof.
  unfold shl_int. destruct ((c <? 0) || _); [discriminate|].
  destruct (utf8_compat (se s)).
  - destruct (is_scalar c); [apply extend_slice_safe|discriminate].
  - destruct (c <? 256); [apply extend_slice_safe|discriminate].
Qed.
Lemma append_merge_safe s l : safeb s -> safeb (append_merge jis s l).
Proof.
  intro hs. unfold append_merge. destruct l as [|x m] eqn:el; [exact hs|]. rewrite <- el.
  assert (hl : safeb (mkS l (se s) (if ascii_compatible (se s) && ascii_b l then C7 else classify jis (se s) l))).
  { destruct (ascii_compatible (se s) && ascii_b l) eqn:h; [|apply safe_new]. apply safe_7. apply andb_true_iff in h. exact (proj2 h). }
  apply (fold_app_safe s (mkS l (se s) (if ascii_compatible (se s) && ascii_b l then C7 else classify jis (se s) l)) (se s)); auto.
  intro he. split; apply safe_utf8t; auto.
Qed.
Lemma mul_safe s n r : mul s n = inl r -> safeb s -> safeb r.
Proof.
  unfold mul. destruct (n <? 0); [discriminate|].
  destruct ((0 <? Z.of_nat (length (sb s))) && _); [discriminate|]. intros h hs. injection h as <-.
  destruct (sb s) as [|x l] eqn:bs.
  - destruct (n =? 0); split; reflexivity.
  - unfold repeat_. generalize (Z.to_nat n) as k. intro k. destruct hs as [h1 h2]. destruct k as [|k].
    + apply safe_7. reflexivity.
    + split; cbn [sc sb se]; [intro q; apply ascii_rep; auto|intros; apply utf8_rep; auto].
Qed.
Lemma set_byte_safe s i x : safeb s -> safeb (set_byte s i x).
Proof.
  intros [h1 h2]. unfold set_byte. destruct (sc s) eqn:q; try apply safe_unknown.
  destruct (Z.ltb_spec x 128); [|apply safe_unknown]. apply safe_7, ascii_upd; auto.
Qed.
Lemma setbyte_safe s i v r : setbyte s i v = inl r -> safeb s -> safeb r.
Proof.
  unfold setbyte. destruct ((_ <? 0) || _) eqn:q; [discriminate|]. intros h hs. injection h as <-. apply set_byte_safe; exact hs.
Qed.
Lemma land_128 v : Z.land v 128 = 0 -> v mod 256 < 128.
Proof.
  intro h. assert (hb : Z.testbit v 7 = false).
  { assert (q : Z.testbit (Z.land v 128) 7 = false) by (rewrite h; apply Z.bits_0).
    rewrite Z.land_spec in q. change (Z.testbit 128 7) with true in q. rewrite andb_true_r in q. exact q. }
  assert (h7 : (v / 128) mod 2 = 0).
  { change 128 with (2 ^ 7). rewrite <- Z.testbit_spec' by lia. rewrite hb. reflexivity. }
  assert (hd : v = 128 * (v / 128) + v mod 128) by (apply Z_div_mod_eq_full).
  assert (hm := Z.mod_pos_bound v 128 ltac:(lia)).
  assert (hq : v / 128 = 2 * (v / 128 / 2)) by (generalize (Z_div_mod_eq_full (v / 128) 2); lia).
  replace (v mod 256) with (v mod 128); [lia|].
  apply (Z.mod_unique_pos v 256 (v / 128 / 2)); lia.
Qed.
Lemma jit_setbyte_safe s i v r : jit_setbyte s i v = Some r -> safeb s -> safeb r.
Proof.
  unfold jit_setbyte. destruct ((_ <? 0) || _) eqn:q; [discriminate|]. intros h [h1 h2]. injection h as <-.
  destruct (is7 (sc s) && (Z.land v 128 =? 0)) eqn:g; [|apply safe_unknown].
  apply andb_true_iff in g. destruct g as [g1 g2]. apply is7_t in g1. apply Z.eqb_eq in g2.
  apply safe_7, ascii_upd; auto. apply land_128; exact g2.
Qed.
Lemma jit_shl_int_safe s c room r : jit_shl_int s c room = Some r -> safeb s -> safeb r.
Proof.
  unfold jit_shl_int. destruct ((0 <=? c) && (c <=? 255) && ((c <=? 127) || enc_eqb (se s) Ascii8) && room) eqn:g; [|discriminate].
  intros h [h1 h2]. injection h as <-. apply andb_true_iff in g. destruct g as [g _].
  destruct (Z.leb_spec c 127); [|apply safe_unknown].
  assert (ha : ascii_b [c] = true) by (cbn; rewrite (proj2 (Z.ltb_lt c 128)) by lia; reflexivity).
  split; cbn [sc sb se].
  - intro q. rewrite ascii_app, ha, h1; auto.
  - intros. apply utf8_app; [auto|]. apply ascii_utf8; exact ha.
Qed.
Lemma jit_shl_str_safe s o room r : jit_shl_str s o room = Some r -> safeb s -> safeb o -> safeb r.
Proof.
  unfold jit_shl_str.
  set (go := match enc_small (se s) with Some _ => _ | None => _ end).
  destruct (go && room) eqn:g; [|discriminate]. apply andb_true_iff in g. destruct g as [g _]. subst go.
  intros h hs ho. injection h as <-. apply (fold_app_safe s o); auto. intro he.
  split; [apply safe_utf8t; auto|]. intro hw. rewrite he in g. cbn [enc_small] in g.
  destruct (enc_small (se o)) as [k|] eqn:ko; [|discriminate g].
  destruct (1 =? k) eqn:ek.
  - apply Z.eqb_eq in ek. subst k. apply safe_utf8t; auto. destruct (se o); cbn in ko; congruence.
  - apply andb_true_iff in g. destruct g as [g _]. apply andb_true_iff in g. destruct g as [_ g].
    apply is7_t in g. apply ascii_utf8. apply ho. exact g.
Qed.

Lemma reverse_safe s : safeb s -> safeb (reverse jis s).
Proof.
  intro hs. unfold reverse. set (byte := is7 _ || _). split; cbn [sc sb se].
  - intro q. unfold byte. rewrite q. cbn [is7 orb]. rewrite ascii_rev. apply safe_ascii; auto. rewrite q. reflexivity.
  - intros he q. unfold byte. rewrite q, he. cbn [is7 orb]. unfold chars. rewrite he.
    apply (utf8_reverse (sb s)). apply safe_utf8t; auto. rewrite q. reflexivity.
Qed.
Lemma slice_ascii b a z : ascii_b b = true -> ascii_b (slice b a z) = true.
Proof. intro h. unfold slice. apply ascii_firstn, ascii_skipn, h. Qed.
Lemma substring_safe s a z : safeb s -> (a <= z <= length (sb s))%nat -> safeb (substring jis s a z).
Proof.
  intros hs hr. unfold substring, propagated. destruct (Nat.eqb_spec a z) as [->|n].
  { apply safe_7. unfold slice. rewrite Nat.sub_diag. reflexivity. }
  destruct (code_range jis s) eqn:q; try apply safe_unknown.
  - apply safe_7, slice_ascii, safe_ascii; auto. rewrite q. reflexivity.
  - destruct (se s) eqn:es; try apply safe_unknown; try (apply safe_valid; discriminate).
    2,3: destruct (Nat.even a && Nat.even z); [apply safe_valid; discriminate|apply safe_unknown].
    2,3: destruct ((a mod 4 =? 0)%nat && (z mod 4 =? 0)%nat); [apply safe_valid; discriminate|apply safe_unknown].
    destruct (boundary (sb s) a && boundary (sb s) z) eqn:hb; [|apply safe_unknown].
    apply andb_true_iff in hb. destruct hb. apply safe_valid. intros _. apply utf8_slice; auto.
    apply safe_utf8t; auto. rewrite q. reflexivity.
Qed.

Lemma bytesplice_safe s r st ln x s1 : bytesplice jis s r st ln = (x, s1) -> safeb s -> safeb r ->
  (st + ln <= length (sb s))%nat -> safeb s1 /\ forall y, x = inl y -> safeb y.
Proof.
  unfold bytesplice. destruct (compat jis s r) as [[e s1'] r1] eqn:hc. intros h hs hr hl.
  destruct (compat_safe _ _ _ _ _ hc hs hr) as [q1 q2].
  destruct (compat_bytes _ _ _ _ _ hc) as (b1 & b2 & e1 & e2).
  destruct e as [e|]; injection h as <- <-; [|split; [exact q1|discriminate]].
  split; [exact q1|]. intros y hy. injection hy as <-.
  set (b := firstn st (sb s1') ++ sb r1 ++ skipn (st + ln) (sb s1')).
  destruct (is7 (sc s1') && is7 (code_range jis r1) && ascii_compatible e) eqn:f1.
  { apply andb_true_iff in f1. destruct f1 as [f1 _]. apply andb_true_iff in f1. destruct f1 as [f1 f2].
    apply is7_t in f1. assert (ha := proj1 q1 f1). apply safe_7. unfold b.
    rewrite !ascii_app, (ascii_firstn _ _ ha), (ascii_skipn _ _ ha), (safe_ascii r1 q2 f2). reflexivity. }
  destruct (enc_eqb (se s1') Utf8 && is_well (sc s1') && boundary (sb s1') st && boundary (sb s1') (st + ln) && is_well (code_range jis r1)) eqn:f2.
  { rewrite !andb_true_iff in f2. destruct f2 as ((((g1 & g2) & g3) & g4) & g5). apply enc_eqb_t in g1.
    apply safe_valid. intros ->. assert (hu := safe_utf8 s1' q1 g1 g2).
    assert (hr8 : utf8_ok (sb r1) = true).
    { rewrite b2. apply (proj2 (compat_utf8 _ _ _ _ hc hs hr)).
      destruct (compat_shape _ _ _ _ _ hc) as [_ [q|q]]; rewrite q in g5; [exact g5|rewrite touch_cr in g5; exact g5]. }
    unfold b. apply utf8_app; [apply (utf8_cut _ hu st); [rewrite b1; lia|exact g3]|].
    apply utf8_app; [exact hr8|]. apply (utf8_cut _ hu (st + ln)%nat); [rewrite b1; lia|exact g4]. }
  destruct (classify jis e b) eqn:cl.
  - apply safe_unknown.
  - apply safe_7, (classify_7 e), cl.
  - apply safe_valid. intros ->. apply classify_utf8. rewrite cl. reflexivity.
  - destruct (utf8_compat e); [apply safe_valid; discriminate|apply safe_broken].
Qed.

(** Interpolation. *)
Definition acc_safe (b : list Z) (e : option encoding) (c : crange) : Prop :=
  (c = C7 -> ascii_b b = true) /\ (e = Some Utf8 -> is_well c = true -> utf8_ok b = true) /\ (e = None -> b = []).
Definition text_ok (p : str + list Z) : Prop := match p with inl s => safeb s | inr t => ascii_b t = true end.

Lemma acc_step b e c s e' c' : acc_safe b e c -> safeb s ->
  (c' = C7 -> ascii_b b = true) ->
  (e' = Utf8 -> (is_well c' = true -> utf8_ok b = true) /\ (is_well (code_range jis s) = true -> utf8_ok (sb s) = true)) ->
  acc_safe (b ++ sb s) (Some e') (fold_cr c' (code_range jis s)).
Proof.
  intros ha hs h7 hu. split; [|split; [|discriminate]].
  - intro q. apply fold_7 in q. destruct q as [q1 q2]. rewrite ascii_app, (h7 q1). apply safe_ascii; auto. rewrite q2. reflexivity.
  - intros q w. injection q as ->. apply fold_well in w. destruct w as [w1 w2]. destruct (hu eq_refl). apply utf8_app; auto.
Qed.
Lemma interp_step_safe b e c p b' e' c' : interp_step jis b e c p = Some (b', e', c') ->
  acc_safe b e c -> text_ok p -> acc_safe b' e' c'.
Proof.
  unfold interp_step. destruct p as [s|t]; cbn [text_ok].
  2:{ intros h (a1 & a2 & a3) ht. injection h as <- <- <-. split; [|split; [|discriminate]].
      - intro q. rewrite ascii_app, (a1 q). exact ht.
      - intros q w. apply utf8_app; [|apply ascii_utf8; exact ht]. destruct e as [e|]; [injection q as ->; auto|rewrite a3; reflexivity]. }
  intros h ha hs. destruct e as [prev|].
  2:{ injection h as <- <- <-. apply (acc_step b None c); auto; [apply ha|]. intros he. split; [|apply safe_utf8t; auto].
      intro. destruct ha as (_ & _ & a3). rewrite a3; reflexivity. }
  unfold interp_enc in h. destruct (enc_eqb prev (se s)) eqn:q.
  { apply enc_eqb_t in q. injection h as <- <- <-. apply (acc_step b (Some prev) c); auto; [apply ha|].
    intro he. split; [intro; apply ha; congruence|apply safe_utf8t; congruence]. }
  destruct b as [|x l] eqn:eb.
  { assert (hb : acc_safe [] (Some prev) c) by exact ha. destruct (sb s) as [|y m] eqn:bs.
    - injection h as <- <- <-. rewrite <- bs. apply (acc_step [] (Some prev) c); auto. intros _. split; [reflexivity|]. rewrite bs. reflexivity.
    - injection h as <- <- <-. rewrite <- bs. change (sb s) with ([] ++ sb s).
      apply (acc_step [] (Some prev) c); auto. intro he. split; [reflexivity|]. intro hw.
      destruct (ascii_compatible prev && is7 (code_range jis s)) eqn:g.
      + apply andb_true_iff in g. destruct g as [_ g]. apply ascii_utf8, safe_ascii; assumption.
      + apply safe_utf8t; auto. }
  rewrite <- eb in *. destruct (sb s) as [|y m] eqn:bs.
  { injection h as <- <- <-. rewrite <- bs. apply (acc_step b (Some prev) c); auto; [apply ha|].
    intro he. split; [intro; apply ha; congruence|rewrite bs; reflexivity]. }
  set (c1 := match c with CUnknown => classify jis prev b | _ => c end) in *.
  destruct (compatible prev c1 (se s) (code_range jis s)) as [e1|] eqn:hc; [|discriminate h].
  injection h as <- <- <-. rewrite <- bs.
  assert (h7 : c1 = C7 -> ascii_b b = true).
  { unfold c1. destruct c; try discriminate; [apply classify_7|intros _; apply ha; reflexivity]. }
  assert (hp : prev = Utf8 -> is_well c1 = true -> utf8_ok b = true).
  { intros -> w. unfold c1 in w. destruct ha as (_ & a2 & _). destruct c; try (apply a2; auto; fail); [apply classify_utf8; exact w]. }
  apply (acc_step b (Some prev) c); auto. intros ->.
  unfold compatible in hc. rewrite q in hc. destruct (ascii_compatible prev && _); [|discriminate hc].
  destruct (is7 c1) eqn:g1, (is7 (code_range jis s)) eqn:g2; cbn [andb] in hc; try discriminate hc; injection hc as hc.
  - split; [intro; apply hp; auto|intro; apply ascii_utf8, safe_ascii; assumption].
  - apply is7_t in g1. split; [intro; apply ascii_utf8; auto|apply safe_utf8t; auto].
  - split; [auto|intro; apply ascii_utf8, safe_ascii; assumption].
Qed.
Lemma interp_go_safe ps : forall b e c r, interp_go jis b e c ps = inl r -> acc_safe b e c -> Forall text_ok ps -> safeb r.
Proof.
  induction ps as [|p ps IH]; intros b e c r h ha hp; cbn [interp_go] in h.
  - injection h as <-. destruct ha as (a1 & a2 & a3). split; cbn [sc sb se]; auto. intros he q.
    destruct e as [e|]; [apply a2; [congruence|rewrite q; reflexivity]|rewrite a3; reflexivity].
  - inversion hp; subst. destruct (interp_step jis b e c p) as [[[b' e'] c']|] eqn:hs; [|discriminate h].
    apply (IH _ _ _ _ h); auto. exact (interp_step_safe _ _ _ _ _ _ _ hs ha H1).
Qed.
Lemma pad_safe s p h t : safeb s -> safeb p -> safeb (pad jis s p h t).
Proof.
  intros hs hp. unfold pad. destruct (ascii_only jis s && ascii_only jis p) eqn:g; [|apply safe_unknown].
  apply andb_true_iff in g. destruct g as [g1 g2]. apply safe_ascii in g1; [|exact hs]. apply safe_ascii in g2; [|exact hp].
  assert (hpad : forall n, ascii_b (pad_bytes p n) = true).
  { intro n. unfold pad_bytes. destruct (length (chars p)) eqn:k; [reflexivity|]. rewrite ascii_app, ascii_rep by exact g2.
    cbn [andb]. assert (q : ascii_b (concat (chars p)) = true) by (rewrite chars_all; exact g2).
    revert q. generalize (chars p) as cs. generalize (n mod S n0)%nat as m. intros m cs. revert m.
    induction cs as [|c cs IH]; intros m q; [destruct m; reflexivity|]. destruct m; [reflexivity|]. cbn in *.
    rewrite ascii_app in *. apply andb_true_iff in q. destruct q as [q1 q2]. rewrite q1, IH by exact q2. reflexivity. }
  apply safe_7. rewrite !ascii_app, !hpad, g1. reflexivity.
Qed.

(** ** Histories. *)
Notation op_ok := ascii_names.

Lemma at_safe st i : Forall safeb st -> safeb (at_ st i).
Proof.
  intro h. unfold at_. revert i. induction h; intros [|i]; cbn; auto; split; reflexivity.
Qed.
Lemma put_safe st i s : Forall safeb st -> safeb s -> Forall safeb (put st i s).
Proof.
  intros h hs. unfold put. revert i. induction h; intros [|i]; cbn; constructor; auto.
Qed.
Lemma snoc_safe st s : Forall safeb st -> safeb s -> Forall safeb (st ++ [s]).
Proof. intros h hs. apply Forall_app. auto. Qed.
Lemma put_res_safe st i r st' e : put_res st i r = (st', e) -> Forall safeb st -> (forall x, r = inl x -> safeb x) -> Forall safeb st'.
Proof. destruct r; cbn; intros h hs hr; injection h as <- <-; auto using put_safe. Qed.
Lemma new_res_safe st r st' e : new_res st r = (st', e) -> Forall safeb st -> (forall x, r = inl x -> safeb x) -> Forall safeb st'.
Proof. destruct r; cbn; intros h hs hr; injection h as <- <-; auto using snoc_safe. Qed.
Lemma shl_safe st i j st' e : shl jis st i j = (st', e) -> Forall safeb st -> Forall safeb st'.
Proof.
  unfold shl. destruct (extend jis (at_ st i) (at_ st j)) as [[r s1] o1] eqn:he. intros h hs.
  destruct (extend_safe _ _ _ _ _ he (at_safe st i hs) (at_safe st j hs)) as (q1 & q2 & q3).
  eapply put_res_safe; [exact h| |exact q3]. auto using put_safe.
Qed.

Ltac ok1 h := match type of h with (if ?c then _ else _) = _ => let q := fresh "ok" in destruct c eqn:q; [|discriminate h] end.
Lemma run1_safe st o st' e : run1 jis st o = Some (st', e) -> op_ok o -> Forall safeb st -> Forall safeb st'.
Proof.
  intros h ho hs. destruct o; cbn [run1] in h.
  - injection h as <- <-. apply snoc_safe; auto. destruct scan; [apply safe_new|apply safe_unknown].
  - injection h as <- <-. apply snoc_safe; auto. destruct (ascii_b b) eqn:q; [apply safe_7; exact q|].
    destruct (utf8_ok b) eqn:q2; apply safe_valid; [intros _; exact q2|discriminate].
  - ok1 h. injection h as <- <-. auto using snoc_safe, at_safe.
  - ok1 h. injection h as <- <-. auto using put_safe, at_safe.
  - ok1 h. injection h as <- <-. apply put_safe; auto. apply safe_unknown.
  - ok1 h. injection h as <- <-. auto using put_safe, at_safe, touch_safe.
  - ok1 h. destruct (extend jis (at_ st i) (at_ st j)) as [[r s1] o1] eqn:he. injection h as h.
    destruct (extend_safe _ _ _ _ _ he (at_safe st i hs) (at_safe st j hs)) as (q1 & q2 & q3).
    eapply new_res_safe; [exact h| |exact q3]. auto using put_safe.
  - ok1 h. injection h as h. eapply shl_safe; eauto.
  - ok1 h. injection h as h. eapply put_res_safe; [exact h|exact hs|]. intros x hx. eapply shl_int_safe; eauto using at_safe.
  - ok1 h. destruct (jit_shl_str (at_ st i) (at_ st j) room) eqn:q; injection h as h.
    + subst. apply put_safe; auto. eapply jit_shl_str_safe; eauto using at_safe.
    + eapply shl_safe; eauto.
  - ok1 h. destruct (jit_shl_int (at_ st i) c room) eqn:q; injection h as h.
    + subst. apply put_safe; auto. eapply jit_shl_int_safe; eauto using at_safe.
    + eapply put_res_safe; [exact h|exact hs|]. intros x hx. eapply shl_int_safe; eauto using at_safe.
  - ok1 h. injection h as h. eapply put_res_safe; [exact h|exact hs|]. intros x hx. eapply setbyte_safe; eauto using at_safe.
  - ok1 h. destruct (jit_setbyte (at_ st i) k v) eqn:q; injection h as h.
    + subst. apply put_safe; auto. eapply jit_setbyte_safe; eauto using at_safe.
    + eapply put_res_safe; [exact h|exact hs|]. intros x hx. eapply setbyte_safe; eauto using at_safe.
  - ok1 h. injection h as <- <-. apply put_safe; auto. apply safe_unknown.
  - ok1 h. injection h as <- <-. apply put_safe; auto. apply append_merge_safe, at_safe; auto.
  - ok1 h. injection h as h. eapply new_res_safe; [exact h|exact hs|]. intros x hx. eapply mul_safe; eauto using at_safe.
  - ok1 h. injection h as <- <-. apply snoc_safe; [apply put_safe|apply reverse_safe]; auto using touch_safe, at_safe.
  - ok1 h. injection h as <- <-. apply andb_true_iff in ok. destruct ok as [ok z1]. apply andb_true_iff in ok. destruct ok as [_ z2].
    apply Nat.leb_le in z1, z2. apply snoc_safe; [apply put_safe; auto; destruct (a =? z)%nat; auto using touch_safe, at_safe|].
    apply substring_safe; auto using at_safe.
  - ok1 h. apply andb_true_iff in ok. destruct ok as [_ z1]. apply Nat.leb_le in z1.
    set (r := mkS (sb (at_ st j)) _ _) in h. destruct (bytesplice jis (at_ st i) r st0 ln) as [x s1] eqn:hb. injection h as h.
    assert (hr : safeb r) by apply safe_new.
    destruct (bytesplice_safe _ _ _ _ _ _ hb (at_safe st i hs) hr z1) as [q1 q2].
    eapply put_res_safe; [exact h| |exact q2]. auto using put_safe.
  - ok1 h. injection h as <- <-. apply Forall_app. split; auto. apply Forall_map. apply Forall_forall. intros c _. apply safe_new.
  - ok1 h. injection h as h. eapply new_res_safe; [exact h|exact hs|]. intros x hx.
    apply (interp_go_safe _ _ _ _ _ hx).
    + split; [reflexivity|]. split; [reflexivity|reflexivity].
    + apply Forall_map. cbn [ascii_names] in ho. rewrite Forall_forall in ho |- *. intros p hp. specialize (ho p hp).
      destruct p; cbn; auto using at_safe.
  - ok1 h. destruct (sb (at_ st j)); [injection h as <- <-; exact hs|].
    destruct (fst (fst (compat jis (at_ st i) (at_ st j)))); injection h as <- <-; auto.
    apply snoc_safe; auto. apply pad_safe; auto using at_safe.
Qed.
Lemma run_safe l : forall st st', run jis st l = Some st' -> Forall op_ok l -> Forall safeb st -> Forall safeb st'.
Proof.
  induction l as [|o l IH]; intros st st' h ho hs; cbn [run] in h; [congruence|].
  inversion ho; subst. destruct (run1 jis st o) as [[st1 e]|] eqn:h1; [|discriminate h].
  apply (IH _ _ h); auto. eapply run1_safe; eauto.
Qed.
Lemma safe_iff s : safe s <-> safeb s.
Proof.
  unfold safe, safeb, ascii_b. rewrite forallb_forall, Forall_forall.
  split; intros [h1 h2]; split; auto; intros q x hx; apply Z.ltb_lt; apply h1; auto.
Qed.
Lemma histories_safe l st st' : run jis st l = Some st' -> Forall ascii_names l -> Forall safe st ->
  Forall (fun s => safe s /\ (unchecked jis s = true -> utf8_ok (sb s) = true)) st'.
Proof.
  intros h ho hs. assert (hq : Forall safeb st') by (apply (run_safe l st st' h ho); revert hs; apply Forall_impl; intro; apply safe_iff).
  revert hq. apply Forall_impl. intros s q. split; [apply safe_iff; exact q|apply unchecked_ok; exact q].
Qed.
End S.
