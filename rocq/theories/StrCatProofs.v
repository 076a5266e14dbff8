(** Concatenation, interpolation and comparison against [StrCatSpec]; compiled appends
    against interpreted ones. *)
From Coq Require Import ZArith List Bool Lia Arith.
From Verif Require Import Utf8Model Utf8Spec Utf8Proofs IdModel StrModel StrSpec StrProofs StrSafeProofs StrRightProofs StrCatModel StrCatSpec.
Import ListNotations.
Open Scope Z_scope.

Section S.
Variable jis : list Z -> option nat.
Definition text_of (s : str) : text := (se s, sb s).
Definition exact_ (s : str) : Prop := code_range jis s = classify jis (se s) (sb s).
Definition view (r : str + err) : option text := match r with inl s => Some (text_of s) | inr _ => None end.

Lemma classify_7b e b : is7 (classify jis e b) = text7 e b.
Proof.
  unfold classify, text7, ascii_b. destruct b as [|y l]; [reflexivity|].
  destruct (ascii_compatible e && forallb (fun x => x <? 128) (y :: l)); [reflexivity|].
  destruct e; try reflexivity; repeat match goal with |- context [if ?c then _ else _] => destruct c end; try reflexivity.
Qed.
Lemma exact_7 s : exact_ s -> is7 (code_range jis s) = text7 (se s) (sb s).
Proof. intros ->. apply classify_7b. Qed.

Lemma enc_eqb_dec a b : enc_eqb a b = if enc_dec a b then true else false. Proof. reflexivity. Qed.
Lemma compat_joint s o : exact_ s -> exact_ o -> fst (fst (compat jis s o)) = joint (text_of s) (text_of o).
Proof.
  intros hs ho. unfold compat, joint, text_of. rewrite enc_eqb_dec. destruct (enc_dec (se s) (se o)) as [e|ne]; [reflexivity|].
  apply exact_7 in hs, ho. destruct (sb s) as [|y l] eqn:bs, (sb o) as [|z m] eqn:bo; try reflexivity.
  - rewrite ho. destruct (ascii_compatible (se s)); reflexivity.
  - cbn [fst]. unfold compatible. rewrite enc_eqb_dec. destruct (enc_dec (se s) (se o)); [contradiction|].
    rewrite hs, ho. destruct (ascii_compatible (se s) && ascii_compatible (se o)); [|reflexivity].
    destruct (text7 (se s) _), (text7 (se o) _); reflexivity.
Qed.
Lemma joint_nil a e : joint a (e, []) = Some (fst a).
Proof. destruct a as [ea x]. unfold joint. cbn [fst]. destruct (enc_dec ea e); [reflexivity|]. destruct x; reflexivity. Qed.
Lemma extend_join s o r s1 o1 : extend jis s o = (r, s1, o1) -> exact_ s -> exact_ o ->
  view r = join (text_of s) (text_of o) /\ text_of s1 = text_of s /\ text_of o1 = text_of o.
Proof.
  intros h hs ho. unfold extend in h. destruct (sb o) as [|y l] eqn:bo.
  { injection h as <- <- <-. split; [|auto]. unfold join. assert (e : text_of o = (se o, [])) by (unfold text_of; rewrite bo; reflexivity). rewrite e, joint_nil. cbn [view fst snd]. rewrite app_nil_r. reflexivity. }
  assert (hc := compat_joint s o hs ho).
  destruct (compat jis s o) as [[e s'] o'] eqn:hcc. cbn [fst] in hc.
  destruct (compat_bytes _ _ _ _ _ _ hcc) as (b1 & b2 & b3 & b4). unfold join. rewrite <- hc.
  destruct e as [e|]; injection h as <- <- <-; cbn [view]; unfold text_of; cbn [sb se snd];
    rewrite ?touch_sb, ?touch_se, ?b1, ?b2, ?b3, ?b4; auto.
Qed.

(** ** Interpolation. *)
Definition piece (p : str + list Z) : text := match p with inl s => text_of s | inr t => (Utf8, t) end.
Definition acc7 (b : list Z) (e : encoding) (c : crange) : Prop := c <> CUnknown -> is7 c = text7 e b.
Lemma text7_app e a b : text7 e (a ++ b) = text7 e a && text7 e b.
Proof.
  unfold text7. destruct a as [|x a]; [reflexivity|]. cbn [app]. destruct b as [|y b]; [rewrite app_nil_r, andb_true_r; reflexivity|].
  rewrite app_comm_cons, forallb_app. destruct (ascii_compatible e); [|reflexivity]. cbn [andb]. reflexivity.
Qed.
Lemma text7_nil e : text7 e [] = true. Proof. reflexivity. Qed.
Lemma joint_7 ea a eb b e : joint (ea, a) (eb, b) = Some e -> text7 e (a ++ b) = text7 ea a && text7 eb b.
Proof.
  unfold joint. intro h. destruct (enc_dec ea eb) as [->|ne]; [injection h as <-; apply text7_app|].
  destruct b as [|y b]; [rewrite app_nil_r, text7_nil, andb_true_r; destruct a; injection h as <-; reflexivity|].
  destruct a as [|x a].
  { destruct (ascii_compatible ea && text7 eb (y :: b)) eqn:q; injection h as <-; cbn [app]; rewrite text7_nil; cbn [andb]; [|reflexivity].
    apply andb_true_iff in q. destruct q as [q1 q2]. rewrite q2. unfold text7 in q2 |- *. rewrite q1. apply andb_true_iff in q2. apply q2. }
  destruct (ascii_compatible ea && ascii_compatible eb) eqn:ca; [|discriminate]. apply andb_true_iff in ca. destruct ca as [ca cb].
  assert (hw : forall k l, l <> [] -> ascii_compatible k = true -> text7 k l = forallb (fun x => x <? 128) l).
  { intros k l hl hk. unfold text7. destruct l; [congruence|]. rewrite hk. reflexivity. }
  assert (he : ascii_compatible e = true) by (destruct (text7 eb (y :: b)); [injection h as <-; exact ca|destruct (text7 ea (x :: a)); [injection h as <-; exact cb|discriminate]]).
  rewrite !hw by (assumption || discriminate). apply forallb_app.
Qed.
Lemma interp_enc_joint b prev c s e c' : exact_ s -> acc7 b prev c -> interp_enc jis b prev c s = (e, c') ->
  e = joint (prev, b) (text_of s) /\ acc7 b prev c' /\ (c' = CUnknown -> c = CUnknown).
Proof.
  intros hs ha h. unfold interp_enc in h. unfold joint, text_of. rewrite enc_eqb_dec in h. apply exact_7 in hs.
  destruct (enc_dec prev (se s)) as [q|nq]; [injection h as <- <-; auto|].
  destruct b as [|y l] eqn:eb.
  { destruct (sb s) as [|z m] eqn:bs; [injection h as <- <-; auto|]. injection h as <- <-. rewrite hs. auto. }
  rewrite <- eb in *. destruct (sb s) as [|z m] eqn:bs; [injection h as <- <-; split; [reflexivity|auto]|].
  injection h as <- <-. set (c1 := match c with CUnknown => classify jis prev b | _ => c end).
  assert (h1 : is7 c1 = text7 prev b) by (unfold c1; destruct c; [apply classify_7b| | |]; apply ha; discriminate).
  split; [|split].
  - unfold compatible. rewrite enc_eqb_dec. destruct (enc_dec prev (se s)); [contradiction|]. rewrite hs, h1.
    destruct (ascii_compatible prev && ascii_compatible (se s)); [|reflexivity].
    destruct (text7 prev _), (text7 (se s) _); reflexivity.
  - intros _. exact h1.
  - unfold c1. destruct c; auto.
Qed.
Lemma text_piece prev b t : ascii_b t = true -> ascii_compatible prev = true -> joint (prev, b) (Utf8, t) = Some prev.
Proof.
  intros ht hp. unfold joint. destruct (enc_dec prev Utf8) as [->|ne]; [reflexivity|]. destruct t as [|y t]; [destruct b; reflexivity|].
  assert (h7 : text7 Utf8 (y :: t) = true) by exact ht. rewrite h7, hp. destruct b; reflexivity.
Qed.
Lemma interp_go_joined ps : forall b prev c, acc7 b prev c ->
  Forall (fun p => match p with inl s => exact_ s | inr t => ascii_b t = true end) ps ->
  (Forall (fun p => match p with inl _ => True | inr _ => False end) ps \/
   (Forall (fun p => match p with inl s => ascii_compatible (se s) = true | inr _ => True end) ps /\ ascii_compatible prev = true)) ->
  view (interp_go jis b (Some prev) c ps) = join_all (prev, b) (map piece ps).
Proof.
  induction ps as [|p ps IH]; intros b prev c ha hp hc; [reflexivity|]. cbn [interp_go map join_all].
  inversion hp as [|? ? h1 h2]; subst. destruct p as [s|t].
  - cbn [interp_step piece]. destruct (interp_enc jis b prev c s) as [e' c'] eqn:he.
    destruct (interp_enc_joint _ _ _ _ _ _ h1 ha he) as (q1 & q2 & q3). unfold join. rewrite <- q1.
    destruct e' as [e'|]; [|reflexivity]. cbn [snd]. change (snd (text_of s)) with (sb s). apply IH.
    + assert (q7 := joint_7 _ _ _ _ _ (eq_sym q1)). intro hk. rewrite q7, <- (exact_7 s h1).
      destruct c'; try (rewrite <- q2 by discriminate); destruct (code_range jis s); cbn in *; congruence.
    + exact h2.
    + destruct hc as [hc|[hc1 hc2]]; [left; inversion hc; assumption|right]. inversion hc1 as [|? ? k1 k2]; subst. split; [exact k2|].
      unfold joint, text_of in q1. destruct (enc_dec prev (se s)); [congruence|].
      destruct b, (sb s); repeat match type of q1 with context [if ?c then _ else _] => destruct c end; congruence.
  - destruct hc as [hc|[hc1 hc2]]; [inversion hc; contradiction|]. inversion hc1 as [|? ? k1 k2]; subst.
    cbn [interp_step piece]. unfold join. rewrite (text_piece prev b t h1 hc2). cbn [snd]. apply IH; [|exact h2|right; auto].
    intro hk. rewrite (joint_7 _ _ _ _ _ (text_piece prev b t h1 hc2)), <- (ha hk).
    assert (h7 : text7 Utf8 t = true) by (destruct t; [reflexivity|exact h1]). rewrite h7. destruct (is7 c); reflexivity.
Qed.
Lemma interp_joined ps :
  Forall (fun p => match p with inl s => exact_ s | inr t => ascii_b t = true end) ps ->
  (Forall (fun p => match p with inl _ => True | inr _ => False end) ps \/
   Forall (fun p => match p with inl s => ascii_compatible (se s) = true | inr _ => True end) ps) ->
  view (interp jis ps) = joined (map piece ps).
Proof.
  intros hp hc. destruct ps as [|p ps]; [reflexivity|]. unfold interp. cbn [interp_go map joined]. inversion hp as [|? ? h1 h2]; subst.
  destruct p as [s|t]; cbn [interp_step piece app].
  - apply interp_go_joined; [|exact h2|].
    + intro hk. rewrite <- (exact_7 s h1). destruct (code_range jis s); cbn in *; congruence.
    + destruct hc as [hc|hc]; inversion hc; subst; [left|right]; auto.
  - apply interp_go_joined; [|exact h2|].
    + intros _. symmetry. destruct t; [reflexivity|exact h1].
    + destruct hc as [hc|hc]; inversion hc; subst; [contradiction|right]; auto.
Qed.

(** ** Compiled appends. *)
Lemma enc_small_inj a b k : enc_small a = Some k -> enc_small b = Some k -> a = b.
Proof. destruct a, b; cbn; congruence. Qed.
Lemma jit_shl_same s o room r : jit_shl_str s o room = Some r -> view (fst (fst (extend jis s o))) = Some (text_of r).
Proof.
  intro h. unfold jit_shl_str in h.
  destruct (enc_small (se s)) as [a|] eqn:ea; [|discriminate h]. destruct (enc_small (se o)) as [b|] eqn:eb; [|discriminate h].
  unfold extend. destruct (a =? b) eqn:q.
  - apply Z.eqb_eq in q. subst b. assert (he := enc_small_inj _ _ _ ea eb). destruct room; [|discriminate h]. injection h as <-.
    destruct (sb o) eqn:bo; [unfold view, text_of; cbn; rewrite app_nil_r; reflexivity|].
    unfold compat. rewrite he, enc_eqb_refl. cbn. unfold text_of. cbn. rewrite touch_sb, bo. reflexivity.
  - destruct ((a <=? 2) && (b <=? 2) && is7 (sc o) && is_well (sc s)) eqn:g; [|discriminate h].
    apply andb_true_iff in g. destruct g as [g _]. apply andb_true_iff in g. destruct g as [g h7]. apply andb_true_iff in g. destruct g as [ga gb].
    destruct room; [|discriminate h]. injection h as <-. apply is7_t in h7.
    assert (ht : touch jis o = o) by (unfold touch; rewrite h7; reflexivity).
    assert (hcr : code_range jis o = C7) by (unfold code_range; rewrite ht; exact h7).
    assert (ca : ascii_compatible (se s) = true) by (destruct (se s); cbn in ea; try discriminate; try reflexivity; injection ea as <-; discriminate ga).
    assert (cb : ascii_compatible (se o) = true) by (destruct (se o); cbn in eb; try discriminate; try reflexivity; injection eb as <-; discriminate gb).
    assert (hne : enc_eqb (se s) (se o) = false) by (destruct (enc_eqb (se s) (se o)) eqn:k; [apply enc_eqb_t in k; rewrite k in ea; rewrite ea in eb; injection eb as ->; rewrite Z.eqb_refl in q; discriminate|reflexivity]).
    destruct (sb o) as [|y l] eqn:bo; [unfold view, text_of; cbn; rewrite app_nil_r; reflexivity|].
    unfold compat. rewrite hne, bo. destruct (sb s) as [|z m] eqn:bs.
    + rewrite ca, hcr. cbn. unfold text_of. cbn. rewrite !touch_sb, bs, bo. reflexivity.
    + unfold compatible. rewrite hne, ca, cb, hcr. cbn [andb is7].
      destruct (is7 (code_range jis s)); cbn; unfold text_of; cbn; rewrite !touch_sb, bs, bo; reflexivity.
Qed.
Lemma jit_shl_int_same s c room r : jit_shl_int s c room = Some r -> view (shl_int s c) = Some (text_of r).
Proof.
  unfold jit_shl_int. intro h. destruct ((0 <=? c) && (c <=? 255) && ((c <=? 127) || enc_eqb (se s) Ascii8) && room) eqn:g; [|discriminate h].
  injection h as <-. rewrite !andb_true_iff, orb_true_iff in g. destruct g as (((g1 & g2) & g3) & _). apply Z.leb_le in g1, g2.
  unfold shl_int. rewrite (proj2 (Z.ltb_ge c 0)) by lia. rewrite (proj2 (Z.leb_gt (2 ^ 32) c)) by lia. cbn [orb].
  destruct (utf8_compat (se s)) eqn:u.
  - assert (h7 : c <= 127). { destruct g3 as [g3|g3]; [apply Z.leb_le; exact g3|]. apply enc_eqb_t in g3. rewrite g3 in u. discriminate. }
    assert (hs : is_scalar c = true) by (unfold is_scalar; apply orb_true_iff; left; rewrite andb_true_iff, Z.leb_le, Z.ltb_lt; lia).
    assert (he : enc_utf8 c = [c]) by (unfold enc_utf8; rewrite (proj2 (Z.ltb_lt c 128)) by lia; reflexivity).
    rewrite hs, he. unfold extend_slice. rewrite u. cbn [andb].
    assert (ho : utf8_ok [c] = true) by (rewrite <- he; apply enc_utf8_ok; exact hs).
    rewrite ho. reflexivity.
  - rewrite (proj2 (Z.ltb_lt c 256)) by lia. unfold extend_slice. rewrite u. reflexivity.
Qed.
Lemma jit_setbyte_same s i v r : jit_setbyte s i v = Some r -> setbyte s i v = inl r.
Proof.
  unfold jit_setbyte, setbyte. set (i' := if i <? 0 then i + Z.of_nat (length (sb s)) else i).
  destruct ((i' <? 0) || (Z.of_nat (length (sb s)) <=? i')); [discriminate|]. intro h. injection h as <-. f_equal. unfold set_byte. f_equal.
  assert (hl : (v mod 256 <? 128) = (Z.land v 128 =? 0)).
  { destruct (Z.land v 128 =? 0) eqn:q.
    - apply Z.eqb_eq, land_128 in q. apply Z.ltb_lt. exact q.
    - apply Z.ltb_ge. apply Z.eqb_neq in q. destruct (Z_lt_dec (v mod 256) 128) as [k|k]; [|lia]. exfalso. apply q.
      apply Z.bits_inj'. intros n hn. rewrite Z.land_spec, Z.bits_0. change 128 with (2 ^ 7).
      destruct (Z.eq_dec n 7) as [->|ne]; [|rewrite (Z.pow2_bits_false 7 n) by congruence; apply andb_false_r].
      rewrite Z.pow2_bits_true by lia. rewrite andb_true_r.
      assert (hm : Z.testbit (v mod 2 ^ 8) 7 = Z.testbit v 7) by (apply Z.mod_pow2_bits_low; lia).
      rewrite <- hm. change (2 ^ 8) with 256. rewrite Z.testbit_eqb by lia. change (2 ^ 7) with 128.
      rewrite Z.div_small; [reflexivity|]. assert (hv := Z.mod_pos_bound v 256 ltac:(lia)). lia. }
  destruct (sc s); cbn [is7 andb]; try reflexivity. rewrite hl. reflexivity.
Qed.

(** ** Comparison. *)
Lemma zip_lex a : forall b,
  match zip_cmp a b with
  | Eq => exists p x y, a = p ++ x /\ b = p ++ y /\ (x = [] \/ y = [])
  | c => exists p x y a' b', a = p ++ x :: a' /\ b = p ++ y :: b' /\ x <> y /\ c = Z.compare x y
  end.
Proof.
  induction a as [|x a IH]; intros b; cbn [zip_cmp]; [exists [], [], b; auto|].
  destruct b as [|y b]; [exists [], (x :: a), []; auto|].
  destruct (Z.compare x y) eqn:q.
  - apply Z.compare_eq in q. subst y. specialize (IH b). destruct (zip_cmp a b).
    + destruct IH as (p & u & v & -> & -> & h). exists (x :: p), u, v. auto.
    + destruct IH as (p & u & v & a' & b' & -> & -> & h). exists (x :: p), u, v, a', b'. auto.
    + destruct IH as (p & u & v & a' & b' & -> & -> & h). exists (x :: p), u, v, a', b'. auto.
  - exists [], x, y, a, b. repeat split; auto. intros ->. rewrite Z.compare_refl in q. discriminate.
  - exists [], x, y, a, b. repeat split; auto. intros ->. rewrite Z.compare_refl in q. discriminate.
Qed.
Lemma byte_cmp_lex a b : lex a b (byte_cmp a b).
Proof.
  unfold byte_cmp. assert (h := zip_lex a b). destruct (zip_cmp a b).
  - destruct h as (p & x & y & -> & -> & h). rewrite !app_length. destruct h as [-> | ->].
    + cbn [length]. rewrite app_nil_r. destruct y as [|y l]; [rewrite app_nil_r; cbn [length]; rewrite (proj2 (Nat.leb_le _ _)), Nat.eqb_refl by lia; constructor|].
      cbn [length]. rewrite (proj2 (Nat.leb_gt _ _)) by lia. constructor.
    + cbn [length]. rewrite app_nil_r. rewrite (proj2 (Nat.leb_le _ _)) by lia. destruct x as [|x l]; [rewrite app_nil_r; cbn [length]; rewrite Nat.eqb_refl; constructor|].
      cbn [length]. rewrite (proj2 (Nat.eqb_neq _ _)) by lia. constructor.
  - destruct h as (p & x & y & a' & b' & -> & -> & h & e). rewrite e. destruct (_ <=? _)%nat; apply lex_d; exact h.
  - destruct h as (p & x & y & a' & b' & -> & -> & h & e). rewrite e. destruct (_ <=? _)%nat; apply lex_d; exact h.
Qed.
Lemma lex_eq_iff a b c : lex a b c -> (c = Eq <-> a = b).
Proof.
  intro h. destruct h; split; intro q; try reflexivity; try discriminate.
  - exfalso. apply (f_equal (@length Z)) in q. rewrite app_length in q. cbn in q. lia.
  - exfalso. apply (f_equal (@length Z)) in q. rewrite app_length in q. cbn in q. lia.
  - apply Z.compare_eq in q. contradiction.
  - apply app_inv_head in q. congruence.
Qed.
Lemma lex_sym a b c : lex a b c -> lex b a (CompOpp c).
Proof. intro h. destruct h; cbn; try constructor. rewrite <- Z.compare_antisym. constructor. congruence. Qed.
Lemma lex_det a b c : lex a b c -> forall d, lex a b d -> c = d.
Proof.
  assert (H : forall p q : list Z, forall x y u v, p ++ x :: u = q ++ y :: v -> length p = length q -> p = q /\ x = y).
  { induction p as [|k p IH]; intros [|k' q] x y u v h hl; try discriminate hl; cbn in h.
    - injection h as -> _. auto.
    - injection h as -> h. injection hl as hl. destruct (IH q x y u v h hl) as [-> ->]. auto. }
  (* both are the value of one function *)
  assert (F : forall a b c, lex a b c -> c = byte_cmp a b).
  { clear. intros a b c h. unfold byte_cmp.
    assert (zp : forall p x y, zip_cmp (p ++ x) (p ++ y) = zip_cmp x y) by (induction p as [|k p IH]; intros; [reflexivity|cbn; rewrite Z.compare_refl; apply IH]).
    destruct h as [a|p y b|p y b|p x y a b hn].
    - rewrite Nat.leb_refl, Nat.eqb_refl. rewrite <- (app_nil_r a), zp. reflexivity.
    - assert (z0 := zp p [] (y :: b)). rewrite app_nil_r in z0. rewrite z0, app_length. cbn [length zip_cmp]. rewrite (proj2 (Nat.leb_gt _ _)) by lia. reflexivity.
    - assert (z0 := zp p (y :: b) []). rewrite app_nil_r in z0. rewrite z0, app_length. cbn [length zip_cmp]. rewrite (proj2 (Nat.leb_le _ _)) by lia. rewrite (proj2 (Nat.eqb_neq _ _)) by lia. reflexivity.
    - rewrite zp. cbn [zip_cmp]. destruct (Z.compare x y) eqn:q; [apply Z.compare_eq in q; contradiction| |]; destruct (_ <=? _)%nat; reflexivity. }
  intros h d h'. rewrite (F _ _ _ h), (F _ _ _ h'). reflexivity.
Qed.

Lemma str_eq_right s o : exact_ s -> exact_ o -> (str_eq jis s o = true <-> same (text_of s) (text_of o)).
Proof.
  intros hs ho. unfold str_eq, same. rewrite (compat_joint s o hs ho). cbn [text_of snd].
  destruct (bytes_dec (sb s) (sb o)); [|split; [discriminate|intros [h _]; contradiction]].
  destruct (joint (text_of s) (text_of o)); [split; [split; [assumption|discriminate]|reflexivity]|].
  split; [discriminate|intros [_ h]; congruence].
Qed.
Lemma enc_ord_inj a b : real_enc a -> real_enc b -> apart a b -> enc_ord a = enc_ord b -> a = b.
Proof. destruct a, b; cbn [real_enc apart enc_ord]; intros; try congruence; try lia; f_equal; lia. Qed.
Lemma str_cmp_eq s o : exact_ s -> exact_ o -> real_enc (se s) -> real_enc (se o) -> apart (se s) (se o) ->
  (str_cmp jis s o = Eq <-> same (text_of s) (text_of o)).
Proof.
  intros hs ho r1 r2 ap. assert (hinj := enc_ord_inj _ _ r1 r2 ap). unfold str_cmp, same. cbn [text_of snd]. assert (hl := lex_eq_iff _ _ _ (byte_cmp_lex (sb s) (sb o))).
  destruct (byte_cmp (sb s) (sb o)); try (split; [discriminate|intros [h _]; apply hl in h; discriminate]).
  assert (hb : sb s = sb o) by (apply hl; reflexivity). clear hl.
  rewrite (exact_7 s hs), (exact_7 o ho), enc_eqb_dec. unfold joint, text_of. destruct (enc_dec (se s) (se o)) as [e|ne].
  { split; [intros _; split; [exact hb|discriminate]|reflexivity]. }
  assert (hne : Z.compare (enc_ord (se s)) (enc_ord (se o)) = Eq <-> False).
  { split; [|contradiction]. intro q. apply Z.compare_eq in q. auto. }
  rewrite <- hb. destruct (sb s) as [|y l] eqn:bs.
  { cbn [text7 andb]. split; [intros _; split; [reflexivity|discriminate]|reflexivity]. }
  cbn [text7]. set (f := forallb (fun x => x <? 128) (y :: l)).
  destruct (ascii_compatible (se s)), (ascii_compatible (se o)), f; cbn [andb];
    (split; [intro h; first [apply hne in h; contradiction | split; [reflexivity|discriminate]]|intros [_ h]; first [reflexivity | congruence]]).
Qed.
Lemma str_cmp_anti s o : str_cmp jis o s = CompOpp (str_cmp jis s o).
Proof.
  unfold str_cmp. rewrite (lex_det _ _ _ (byte_cmp_lex (sb o) (sb s)) _ (lex_sym _ _ _ (byte_cmp_lex (sb s) (sb o)))).
  destruct (byte_cmp (sb s) (sb o)); try reflexivity. cbn [CompOpp].
  assert (he : enc_eqb (se o) (se s) = enc_eqb (se s) (se o)).
  { unfold enc_eqb. destruct (enc_dec (se o) (se s)), (enc_dec (se s) (se o)); congruence. }
  rewrite he. destruct (enc_eqb (se s) (se o)); [reflexivity|]. rewrite andb_comm.
  destruct (is7 (code_range jis s) && is7 (code_range jis o)); [reflexivity|]. apply Z.compare_antisym.
Qed.
Lemma str_cmp_lex s o : sb s <> sb o -> lex (sb s) (sb o) (str_cmp jis s o).
Proof.
  intro h. unfold str_cmp. assert (hl := byte_cmp_lex (sb s) (sb o)). assert (he := lex_eq_iff _ _ _ hl).
  destruct (byte_cmp (sb s) (sb o)); [exfalso; apply h, he; reflexivity|exact hl|exact hl].
Qed.
End S.
