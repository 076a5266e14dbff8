(** The characters the runtime finds are the characters of the encoding, and its idea of
    validity is the encoding's. *)
From Coq Require Import ZArith List Bool Lia Arith.
From Verif Require Import Utf8Model Utf8Spec Utf8Proofs IdModel StrModel StrSpec StrProofs StrSafeProofs StrRightProofs StrCharModel StrCharProofs StrPartProofs.
From Verif Require Import StrCharSpec.
Import ListNotations.
Open Scope Z_scope.

Definition whole (w : list Z -> option nat) (c : list Z) : Prop := w c = Some (length c).
Lemma wok_iff w : stable w -> forall b, wok w b = true <-> exists cs, b = concat cs /\ Forall (whole w) cs.
Proof.
  intros hw b. split.
  - induction b as [b IH] using (well_founded_induction (well_founded_ltof _ (@length Z))).
    intro h. destruct b as [|y l] eqn:eb; [exists []; split; [reflexivity|constructor]|]. rewrite <- eb in *. assert (hn : b <> []) by congruence.
    rewrite (wok_step w hw) in h by exact hn. destruct (w b) as [n|] eqn:e; [|discriminate]. destruct (hw _ _ e) as [hl hs].
    destruct (IH (skipn n b)) as (cs & h1 & h2); [unfold ltof; rewrite skipn_length; lia|exact h|].
    exists (firstn n b :: cs). split; [cbn; rewrite <- h1; symmetry; apply firstn_skipn|]. constructor; [|exact h2].
    unfold whole. rewrite firstn_length, Nat.min_l by lia. specialize (hs []). rewrite app_nil_r in hs. exact hs.
  - intros (cs & -> & h). apply (wok_concat w hw). revert h. apply Forall_impl. intros c hc. unfold whole in hc.
    rewrite <- (firstn_all c). apply (wok_first w hw). exact hc.
Qed.

Ltac bt := unfold Utf8Model.between in *; rewrite ?andb_true_iff, ?orb_true_iff, ?Z.leb_le, ?Z.ltb_lt in *.
Lemma euc_char c : is_char EucJp c <-> whole euc_w c.
Proof.
  split.
  - intro h. inversion h; subst; try contradiction; unfold whole; cbn [euc_w length].
    + rewrite (proj2 (Z.ltb_lt x 128)) by assumption. reflexivity.
    + rewrite (proj2 (Z.ltb_ge a 128)) by lia. rewrite (proj2 (Z.eqb_neq a 142)) by lia. rewrite (proj2 (Z.eqb_neq a 143)) by lia.
      rewrite (proj2 (between_iff 161 254 a)) by lia. rewrite (proj2 (between_iff 161 254 b)) by lia. reflexivity.
    + cbn. rewrite (proj2 (between_iff 161 223 b)) by lia. reflexivity.
    + cbn. rewrite (proj2 (between_iff 161 254 a)) by lia. rewrite (proj2 (between_iff 161 254 b)) by lia. reflexivity.
  - unfold whole. intro h. destruct c as [|x r]; [discriminate|]. cbn [euc_w] in h.
    destruct (Z.ltb_spec x 128).
    { injection h as h. destruct r; [|discriminate h]. apply ch_ascii; [exact I|assumption]. }
    destruct (Z.eqb_spec x 142).
    { destruct r as [|y r]; [discriminate|]. destruct (Utf8Model.between 161 223 y) eqn:q; [|discriminate]. apply between_iff in q. injection h as h.
      destruct r; [|discriminate h]. subst x. apply ch_euc_kana; exact q. }
    destruct (Z.eqb_spec x 143).
    { destruct r as [|y [|z r]]; try discriminate. destruct (Utf8Model.between 161 254 y) eqn:q; [|discriminate].
      destruct (Utf8Model.between 161 254 z) eqn:q2; [|discriminate]. apply between_iff in q, q2. injection h as h. destruct r; [|discriminate h].
      subst x. apply ch_euc3; assumption. }
    destruct (Utf8Model.between 161 254 x) eqn:q; [|discriminate]. destruct r as [|y r]; [discriminate|].
    destruct (Utf8Model.between 161 254 y) eqn:q2; [|discriminate]. apply between_iff in q, q2. injection h as h. destruct r; [|discriminate h].
    apply ch_euc2; assumption.
Qed.
Lemma sjis_char n c : is_char (Sjis n) c <-> whole sjis_w c.
Proof.
  split.
  - intro h. inversion h; subst; try contradiction; unfold whole; cbn [sjis_w length].
    + rewrite (proj2 (Z.ltb_lt x 128)) by assumption. reflexivity.
    + rewrite (proj2 (between_iff 161 223 x)) by lia. rewrite orb_true_r. reflexivity.
    + assert (hna : (a <? 128) || Utf8Model.between 161 223 a = false).
      { apply orb_false_iff. split; [apply Z.ltb_ge; lia|apply between_f; lia]. }
      rewrite hna.
      assert (hl : Utf8Model.between 129 159 a || Utf8Model.between 224 252 a = true) by (apply orb_true_iff; rewrite !between_iff; lia).
      assert (ht : Utf8Model.between 64 126 b || Utf8Model.between 128 252 b = true) by (apply orb_true_iff; rewrite !between_iff; lia).
      rewrite hl, ht. reflexivity.
  - unfold whole. intro h. destruct c as [|x r]; [discriminate|]. cbn [sjis_w] in h.
    destruct ((x <? 128) || Utf8Model.between 161 223 x) eqn:e0.
    { injection h as h. destruct r; [|discriminate h]. apply orb_true_iff in e0. destruct e0 as [e0|e0].
      - apply Z.ltb_lt in e0. apply ch_ascii; [exact I|exact e0].
      - apply between_iff in e0. apply ch_sjis_kana; exact e0. }
    destruct (Utf8Model.between 129 159 x || Utf8Model.between 224 252 x) eqn:e1; [|discriminate].
    destruct r as [|y r]; [discriminate|]. destruct (Utf8Model.between 64 126 y || Utf8Model.between 128 252 y) eqn:e2; [|discriminate].
    injection h as h. destruct r; [|discriminate h]. apply orb_true_iff in e1, e2. rewrite !between_iff in e1, e2. apply ch_sjis2; assumption.
Qed.
Lemma enc_len_length u : enc_len u = length (enc_utf8 u).
Proof. unfold enc_len. reflexivity. Qed.
Lemma utf8_char c : Forall (fun x => 0 <= x) c -> (is_char Utf8 c <-> whole uw c).
Proof.
  intro hb. split.
  - intro h. inversion h; subst; try contradiction. unfold whole. apply uw_some.
    assert (q := step_enc u [] H). rewrite app_nil_r in q. rewrite q, enc_len_length. reflexivity.
  - unfold whole. intro h. apply uw_some in h. destruct (step_dec c _ hb h) as (u & h1 & h2 & _). rewrite firstn_all in h2. rewrite h2. apply ch_utf8; exact h1.
Qed.

Lemma concat_ascii cs : Forall (is_char UsAscii) cs -> ascii_b (concat cs) = true.
Proof.
  intro h. induction h as [|c l hc _ IH]; [reflexivity|]. cbn. rewrite ascii_app, IH. inversion hc; subst; try contradiction.
  cbn. rewrite (proj2 (Z.ltb_lt x 128)) by assumption. reflexivity.
Qed.
Definition plain_enc (e : encoding) : Prop :=
  match e with Utf16Le | Utf16Be | Utf32Le | Utf32Be | Iso2022Jp => False | _ => True end.
Lemma Forall_concat {A} (P : A -> Prop) l : Forall P (concat l) <-> Forall (Forall P) l.
Proof. induction l as [|a l IH]; [split; constructor|]. cbn. rewrite Forall_app, IH. split; [intros [h1 h2]; constructor; assumption|intro h; inversion h; auto]. Qed.

Lemma well_valid e b : plain_enc e -> Forall (fun x => 0 <= x) b -> (wellb e b = true <-> valid_in e b).
Proof.
  intros he hb. assert (bytes_ : match e with Ascii8 | Iso8859 _ | Other _ | NamedByte _ => True | _ => False end -> valid_in e b).
  { intro h. exists (bytes_of b). split; [symmetry; apply concat_bytes|]. apply Forall_map, Forall_forall. intros x _. apply ch_byte. exact h. }
  destruct e; try contradiction; cbn [wellb]; try (split; [intros _; apply bytes_; exact I|reflexivity]).
  - rewrite utf8_ok_wok, (wok_iff uw uw_stable). split; intros (cs & h1 & h2); exists cs; (split; [exact h1|]);
      rewrite h1, Forall_concat in hb; rewrite Forall_forall in *; intros c hc; apply utf8_char; auto.
  - split.
    + intro h. exists (bytes_of b). split; [symmetry; apply concat_bytes|]. apply Forall_map, Forall_forall. intros x hx.
      unfold ascii_b in h. rewrite forallb_forall in h. apply ch_ascii; [exact I|]. apply Z.ltb_lt. apply h. exact hx.
    + intros (cs & -> & h). apply concat_ascii. exact h.
  - rewrite (wok_iff euc_w euc_stable). split; intros (cs & h1 & h2); exists cs; (split; [exact h1|]); revert h2; apply Forall_impl; intros c; apply euc_char.
  - rewrite (wok_iff sjis_w sjis_stable). split; intros (cs & h1 & h2); exists cs; (split; [exact h1|]); revert h2; apply Forall_impl; intros c; apply sjis_char.
Qed.
Lemma classify_valid jis e b : plain_enc e -> Forall (fun x => 0 <= x) b -> (is_well (classify jis e b) = true <-> valid_in e b).
Proof.
  intros he hb. rewrite <- (well_valid e b he hb). assert (n : nj e) by (intro; subst; exact he). rewrite (cls jis e b n).
  assert (hc := c7_well e b). destruct (c7b e b); [rewrite hc by reflexivity; cbn; tauto|]. destruct (wellb e b); cbn; intuition discriminate.
Qed.
Lemma classify_wide jis e b : wide e = true -> valid_in e b -> is_well (classify jis e b) = true.
Proof.
  intros he (cs & -> & h). assert (n : nj e) by (intro; subst; discriminate). rewrite (cls jis e _ n).
  assert (hw : wellb e (concat cs) = true).
  { induction h as [|c l hc _ IH]; [apply well_nil|]. cbn [concat]. assert (hcw : wellb e c = true); [|apply well_app; assumption].
    clear IH. destruct hc; try (destruct e; try discriminate he; try contradiction; reflexivity); discriminate he. }
  rewrite hw. destruct (c7b e _); reflexivity.
Qed.
Lemma classify_ascii jis e b : ascii_compatible e = true -> (classify jis e b = C7 <-> Forall (fun x => x < 128) b).
Proof.
  intro he. assert (n : nj e) by (intro; subst; discriminate). rewrite (cls jis e b n).
  assert (hq : c7b e b = ascii_b b) by (unfold c7b; destruct b; [reflexivity|]; rewrite he; reflexivity). rewrite hq.
  unfold ascii_b. rewrite Forall_forall. split.
  - destruct (forallb _ b) eqn:q; [|destruct (wellb e b); discriminate]. intros _ x hx. rewrite forallb_forall in q. apply Z.ltb_lt, q, hx.
  - intro h. assert (q : forallb (fun x => x <? 128) b = true) by (apply forallb_forall; intros x hx; apply Z.ltb_lt, h, hx). rewrite q. reflexivity.
Qed.

(** ** The characters. *)
Lemma split_by e (P : list Z -> Prop) :
  (forall b, P b -> b <> [] ->
     P (skipn (char_w e b) b) /\
     (is_char e (firstn (char_w e b) b) \/ (char_w e b = min_len e /\ forall c r, b = c ++ r -> ~ is_char e c))) ->
  forall b, P b -> split e b (cs_of e b).
Proof.
  intros hw b. induction b as [b IH] using (well_founded_induction (well_founded_ltof _ (@length Z))).
  intro hp. destruct b as [|y l] eqn:eb; [constructor|]. rewrite <- eb in *. assert (hn : b <> []) by congruence.
  rewrite cs_step by exact hn. destruct (hw b hp hn) as [h1 h2]. assert (hpos := char_w_pos e b).
  assert (hr : split e (skipn (char_w e b) b) (cs_of e (skipn (char_w e b) b))).
  { apply IH; [|exact h1]. unfold ltof. rewrite skipn_length. rewrite eb in *. cbn [length] in *. lia. }
  destruct h2 as [h2|[h2 h3]].
  - rewrite <- (firstn_skipn (char_w e b) b) at 1. apply sp_char; assumption.
  - rewrite h2 in *. apply sp_bad; assumption.
Qed.
Lemma split_w e w b : stable w -> (forall b n, w b = Some n -> char_w e b = n) ->
  (forall c, whole w c -> is_char e c) -> wok w b = true -> split e b (cs_of e b).
Proof.
  intros hw hc hi h. apply (split_by e (fun b => wok w b = true)); [|exact h]. clear b h. intros b h hn.
  rewrite (wok_step w hw) in h by exact hn. destruct (w b) as [n|] eqn:q; [|discriminate]. rewrite (hc b n q). split; [exact h|]. left.
  apply hi. destruct (hw b n q) as [hl hs]. unfold whole. rewrite firstn_length, Nat.min_l by lia. specialize (hs []). rewrite app_nil_r in hs. exact hs.
Qed.
Lemma char_w_utf8_all b : b <> [] -> char_w Utf8 b = match uw b with Some n => n | None => 1%nat end.
Proof.
  intro hn. destruct (uw b) as [n|] eqn:q; [apply char_w_utf8; exact q|].
  destruct b as [|c r]; [congruence|]. unfold char_w. destruct (c <? 128); [reflexivity|]. destruct (c <? 192) eqn:c2; [reflexivity|].
  set (needed := if c <? 224 then 2%nat else if c <? 240 then 3%nat else 4%nat).
  assert (hnd : (1 <= needed)%nat) by (unfold needed; destruct (c <? 224); [lia|destruct (c <? 240); lia]).
  destruct ((needed <=? length (c :: r))%nat && utf8_ok (firstn needed (c :: r))) eqn:g; [|reflexivity]. exfalso.
  apply andb_true_iff in g. destruct g as [g1 g2]. rewrite utf8_ok_wok in g2. rewrite (wok_step uw uw_stable) in g2.
  - destruct (uw (firstn needed (c :: r))) as [k|] eqn:e; [|discriminate].
    assert (h := stable_app uw uw_stable _ k (skipn needed (c :: r)) e). rewrite firstn_skipn in h. congruence.
  - clearbody needed. destruct needed; [lia|discriminate].
Qed.
Lemma Forall_firstn {A} (P : A -> Prop) n l : Forall P l -> Forall P (firstn n l).
Proof. intro h. revert n. induction h; intros [|n]; cbn; constructor; auto. Qed.
Lemma Forall_skipn {A} (P : A -> Prop) n l : Forall P l -> Forall P (skipn n l).
Proof. intro h. revert n. induction h; intros [|n]; cbn; auto. Qed.
Lemma split_utf8 b : Forall (fun x => 0 <= x) b -> split Utf8 b (cs_of Utf8 b).
Proof.
  intro hb. apply (split_by Utf8 (Forall (fun x => 0 <= x))); [|exact hb]. clear b hb. intros b hb hn. split; [apply Forall_skipn; exact hb|].
  rewrite (char_w_utf8_all b hn). destruct (uw b) as [n|] eqn:q.
  - left. apply utf8_char; [apply Forall_firstn; exact hb|]. destruct (uw_stable b n q) as [hl hs]. unfold whole.
    rewrite firstn_length, Nat.min_l by lia. specialize (hs []). rewrite app_nil_r in hs. exact hs.
  - right. split; [reflexivity|]. intros c r e hc. assert (hbc : Forall (fun x => 0 <= x) c) by (rewrite e in hb; apply Forall_app in hb; apply hb).
    apply (proj1 (utf8_char c hbc)) in hc. unfold whole in hc. apply (stable_app uw uw_stable _ _ r) in hc. rewrite <- e in hc. congruence.
Qed.
Lemma split_bytes e b : match e with Ascii8 | Iso8859 _ | Other _ | NamedByte _ => True | _ => False end -> split e b (cs_of e b).
Proof.
  intro he. apply (split_by e (fun _ => True)); [|exact I]. clear b. intros b _ hn. split; [exact I|]. left.
  destruct b as [|x r]; [congruence|]. destruct e; try contradiction; cbn [char_w firstn]; apply ch_byte; exact I.
Qed.
Lemma split_usascii b : split UsAscii b (cs_of UsAscii b).
Proof.
  apply (split_by UsAscii (fun _ => True)); [|exact I]. clear b. intros b _ hn. split; [exact I|].
  destruct b as [|x r]; [congruence|]. cbn [char_w firstn]. destruct (Z_lt_dec x 128) as [h|h].
  - left. apply ch_ascii; [exact I|exact h].
  - right. split; [reflexivity|]. intros c r' e hc. inversion hc; subst; try contradiction. cbn in e. congruence.
Qed.
Lemma split_32 e b : match e with Utf32Le | Utf32Be => True | _ => False end -> split e b (cs_of e b).
Proof.
  intro he. apply (split_by e (fun _ => True)); [|exact I]. clear b. intros b _ hn. split; [exact I|].
  assert (hw : char_w e b = 4%nat) by (destruct b; [congruence|]; destruct e; try contradiction; reflexivity).
  assert (hm : min_len e = 4%nat) by (destruct e; try contradiction; reflexivity). rewrite hw, hm.
  destruct b as [|a [|b1 [|c [|d r]]]]; [congruence| | | |].
  4:{ assert (hd : scalar (unit32 e a b1 c d) \/ ~ scalar (unit32 e a b1 c d)) by (unfold scalar; lia).
      destruct hd as [hd|hd]; [left; cbn [firstn]; apply ch_32; assumption|right]. split; [reflexivity|].
      intros k r' q hc. inversion hc; subst; cbn in q; try (destruct e; contradiction); try contradiction. injection q as -> -> -> -> _. contradiction. }
  all: right; split; [reflexivity|]; intros k r' q hc; inversion hc; subst; try (destruct e; contradiction); try contradiction; discriminate q.
Qed.
(** No high surrogate followed by a low one. *)
Definition no_pairs (e : encoding) (b : list Z) : Prop :=
  forall k a b1 c d r, skipn (2 * k) b = a :: b1 :: c :: d :: r ->
    ~ (55296 <= unit16 e a b1 < 56320 /\ 56320 <= unit16 e c d < 57344).
Lemma split_16 e b : match e with Utf16Le | Utf16Be => True | _ => False end -> Forall is_byte b -> no_pairs e b -> split e b (cs_of e b).
Proof.
  intros he hb hp. apply (split_by e (fun b => Forall is_byte b /\ no_pairs e b)); [|auto]. clear b hb hp. intros b [hb hp] hn.
  assert (hw : char_w e b = 2%nat) by (destruct b; [congruence|]; destruct e; try contradiction; reflexivity).
  assert (hm : min_len e = 2%nat) by (destruct e; try contradiction; reflexivity). rewrite hw, hm.
  split.
  { split; [apply Forall_skipn; exact hb|]. intros k a b1 c d r q. rewrite skipn_skipn_ in q. replace (2 + 2 * k)%nat with (2 * (S k))%nat in q by lia. exact (hp _ _ _ _ _ _ q). }
  destruct b as [|a [|b1 r]]; [congruence| |].
  - right; split; [reflexivity|]; intros k r' q hc; inversion hc; subst; try (destruct e; contradiction); try contradiction; discriminate q.
  - inversion hb as [|? ? ha hb2]; subst. inversion hb2 as [|? ? hb1 _]; subst. unfold is_byte in *.
    assert (hd : scalar (unit16 e a b1) \/ ~ scalar (unit16 e a b1)) by (unfold scalar; lia).
    destruct hd as [hd|hd]; [left; cbn [firstn]; apply ch_16; assumption|right]. split; [reflexivity|].
    intros k r' q hc. inversion hc; subst; try (destruct e; contradiction); try contradiction.
    + injection q as -> -> _. contradiction.
    + injection q as -> -> ->. exact (hp 0%nat _ _ _ _ _ eq_refl (conj H0 H1)).
Qed.

Lemma split_all s : Forall is_byte (sb s) ->
  match se s with
  | Iso2022Jp => False
  | Utf16Le | Utf16Be => no_pairs (se s) (sb s)
  | EucJp | Sjis _ => valid_in (se s) (sb s)
  | _ => True
  end -> split (se s) (sb s) (chars s).
Proof.
  intros hb h. change (chars s) with (cs_of (se s) (sb s)).
  assert (hb0 : Forall (fun x => 0 <= x) (sb s)) by (revert hb; apply Forall_impl; unfold is_byte; lia).
  destruct (se s) eqn:es; try contradiction; try (apply split_bytes; exact I); try (apply split_32; exact I).
  - apply split_utf8. exact hb0.
  - apply split_usascii.
  - apply split_16; auto.
  - apply split_16; auto.
  - apply (split_w EucJp euc_w); [apply euc_stable|apply char_w_euc|apply euc_char|]. apply (well_valid EucJp (sb s) I hb0). exact h.
  - apply (split_w (Sjis n) sjis_w); [apply sjis_stable|apply char_w_sjis|intros c; apply sjis_char|]. apply (well_valid (Sjis n) (sb s) I hb0). exact h.
Qed.

(** The specification itself has one answer. *)
Lemma char_prefix e b c1 r1 c2 r2 : b = c1 ++ r1 -> b = c2 ++ r2 -> Forall is_byte b -> is_char e c1 -> is_char e c2 -> c1 = c2.
Proof.
  intros e1 e2 hb h1 h2.
  assert (hb0 : Forall (fun x => 0 <= x) b) by (revert hb; apply Forall_impl; unfold is_byte; lia).
  assert (byw : forall w, stable w -> whole w c1 -> whole w c2 -> c1 = c2).
  { intros w hw q1 q2. unfold whole in *. apply (stable_app w hw _ _ r1) in q1. apply (stable_app w hw _ _ r2) in q2.
    rewrite <- e1 in q1. rewrite <- e2 in q2. assert (hl : length c1 = length c2) by congruence.
    assert (f1 : firstn (length c1) b = c1) by (rewrite e1, firstn_app, firstn_all, Nat.sub_diag, firstn_O, app_nil_r; reflexivity).
    assert (f2 : firstn (length c2) b = c2) by (rewrite e2, firstn_app, firstn_all, Nat.sub_diag, firstn_O, app_nil_r; reflexivity).
    congruence. }
  assert (hb1 : Forall (fun x => 0 <= x) c1) by (rewrite e1 in hb0; apply Forall_app in hb0; apply hb0).
  assert (hb2 : Forall (fun x => 0 <= x) c2) by (rewrite e2 in hb0; apply Forall_app in hb0; apply hb0).
  destruct e.
  2:{ apply (byw uw uw_stable); apply utf8_char; assumption. }
  8:{ apply (byw euc_w euc_stable); apply euc_char; assumption. }
  8:{ apply (byw sjis_w sjis_stable); apply (sjis_char n); assumption. }
  all: inversion h1; subst; try contradiction; inversion h2; subst; try contradiction; cbn in *; try congruence.
  all: match goal with q : _ :: _ = _ :: _ |- _ => injection q; intros; subst end; unfold scalar in *; exfalso; lia.
Qed.
Lemma split_det e b cs1 cs2 : Forall is_byte b -> split e b cs1 -> split e b cs2 -> cs1 = cs2.
Proof.
  intros hb h1. revert cs2 hb. induction h1 as [|c r cs hc h1 IH|b cs hn hno h1 IH]; intros cs2 hb h2.
  - inversion h2; subst; [reflexivity| |congruence]. exfalso.
    match goal with q : _ ++ _ = [] |- _ => apply app_eq_nil in q; destruct q as [q _]; subst end.
    match goal with q : is_char _ [] |- _ => inversion q end.
    match goal with q : enc_utf8 ?u = [] |- _ => unfold enc_utf8 in q; destruct (u <? 128); [discriminate|]; destruct (u <? 2048); [discriminate|]; destruct (u <? 65536); discriminate end.
  - inversion h2 as [q|c2 r2 cs' hc2 h2' q|b2 cs' hn2 hno2 h2' q]; subst.
    + exfalso. symmetry in q. apply app_eq_nil in q. destruct q as [q _]. subst. inversion hc.
      match goal with q : enc_utf8 ?u = [] |- _ => unfold enc_utf8 in q; destruct (u <? 128); [discriminate|]; destruct (u <? 2048); [discriminate|]; destruct (u <? 65536); discriminate end.
    + assert (c2 = c) by (eapply char_prefix; [symmetry; exact q|reflexivity|exact hb|exact hc2|exact hc]). subst c2.
      apply app_inv_head in q. subst r2. f_equal. apply IH; [|exact h2']. apply Forall_app in hb. apply hb.
    + exfalso. exact (hno2 c r eq_refl hc).
  - inversion h2 as [q|c2 r2 cs' hc2 h2' q|b2 cs' hn2 hno2 h2' q]; subst.
    + congruence.
    + exfalso. exact (hno c2 r2 eq_refl hc2).
    + f_equal. apply IH; [apply Forall_skipn; exact hb|exact h2'].
Qed.
