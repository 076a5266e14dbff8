From Coq Require Import ZArith List Bool Lia Zify.
From Verif Require Import Utf8Spec Utf8Model Utf8Proofs IdModel StrModel.
Import ListNotations.
Open Scope Z_scope.

(** ** Walking over widths. *)
Definition stable (w : list Z -> option nat) : Prop :=
  forall b n, w b = Some n -> (1 <= n <= length b)%nat /\ forall x, w (firstn n b ++ x) = Some n.
Definition wok (w : list Z -> option nat) (b : list Z) : bool := walk_ok w (length b) b.

Lemma walk_more w : stable w -> forall f b, (length b <= f)%nat -> walk_ok w f b = wok w b.
Proof.
  intros hw f. remember f as g eqn:eg. assert (hg : (f <= g)%nat) by lia. clear eg.
  revert f hg. intros f0 _. clear f0. unfold wok.
  induction g as [g IH] using lt_wf_ind. intros b hb.
  destruct b as [|x l]; [destruct g; reflexivity|].
  destruct g as [|g]; [cbn in hb; lia|]. cbn [length walk_ok].
  destruct (w (x :: l)) as [n|] eqn:ew; [|reflexivity].
  destruct (hw _ _ ew) as [hn _]. cbn [length] in hn.
  assert (hl : (length (skipn n (x :: l)) <= length l)%nat) by (rewrite skipn_length; cbn [length]; lia).
  cbn in hb. rewrite (IH g) by lia.
  destruct (Nat.eq_dec (length l) g) as [e|e]; [subst g; rewrite (IH (length l)) by lia; reflexivity|].
  rewrite (IH (length l)) by lia. reflexivity.
Qed.
Lemma wok_step w : stable w -> forall b, b <> [] ->
  wok w b = match w b with Some n => wok w (skipn n b) | None => false end.
Proof.
  intros hw b hb. destruct b as [|x l]; [congruence|]. unfold wok at 1. cbn [length walk_ok].
  destruct (w (x :: l)) as [n|] eqn:ew; [|reflexivity].
  apply (walk_more w hw). destruct (hw _ _ ew) as [hn _]. rewrite skipn_length. cbn [length] in *. lia.
Qed.
Lemma wok_nil w : wok w [] = true. Proof. reflexivity. Qed.

Lemma stable_app w : stable w -> forall b n x, w b = Some n -> w (b ++ x) = Some n.
Proof.
  intros hw b n x h. destruct (hw _ _ h) as [_ hs]. rewrite <- (firstn_skipn n b), <- app_assoc. apply hs.
Qed.
Lemma wok_app w : stable w -> forall a b, wok w a = true -> wok w (a ++ b) = wok w b.
Proof.
  intros hw a. induction a as [a IH] using (well_founded_induction (well_founded_ltof _ (@length Z))).
  intros b h. destruct a as [|x l] eqn:ea; [reflexivity|]. rewrite <- ea in *.
  assert (hn : a <> []) by (subst a; discriminate).
  rewrite (wok_step w hw) in h by exact hn.
  rewrite (wok_step w hw) by (subst a; discriminate).
  destruct (w a) as [n|] eqn:ew; [|discriminate]. rewrite (stable_app w hw a n b ew).
  destruct (hw _ _ ew) as [hl _]. rewrite skipn_app.
  replace (n - length a)%nat with O by lia. cbn [skipn].
  apply IH; [|exact h]. unfold ltof. rewrite skipn_length. lia.
Qed.
Lemma wok_app_t w : stable w -> forall a b, wok w a = true -> wok w b = true -> wok w (a ++ b) = true.
Proof. intros hw a b h1 h2. rewrite (wok_app w hw) by exact h1. exact h2. Qed.
Lemma wok_first w : stable w -> forall b n, w b = Some n -> wok w (firstn n b) = true.
Proof.
  intros hw b n h. destruct (hw _ _ h) as [hl hs].
  assert (h1 : w (firstn n b) = Some n) by (rewrite <- (app_nil_r (firstn n b)); apply hs).
  rewrite (wok_step w hw).
  - rewrite h1. rewrite skipn_all2; [reflexivity|]. rewrite firstn_length. lia.
  - intro e. rewrite e in h1. apply (f_equal (@length Z)) in e. rewrite firstn_length in e. cbn in e. lia.
Qed.
Lemma wok_ascii w : stable w -> (forall c r, c < 128 -> w (c :: r) = Some 1%nat) ->
  forall b, ascii_b b = true -> wok w b = true.
Proof.
  intros hw ha b. induction b as [|c r IH]; intro h; [reflexivity|].
  cbn in h. apply andb_true_iff in h. destruct h as [h1 h2]. apply Z.ltb_lt in h1.
  rewrite (wok_step w hw) by discriminate. rewrite ha by exact h1. cbn [skipn]. auto.
Qed.

Definition uw (b : list Z) : option nat := if fst (utf8_step b) then Some (snd (utf8_step b)) else None.

Ltac step_cases h :=
  repeat match type of h with
  | context [match ?r with _ => _ end] =>
      match r with
      | _ <? _ => destruct r eqn:?
      | _ => destruct r eqn:?
      end; cbn [fst snd firstn app] in h; try discriminate h
  end.

Lemma utf8_step_app b n x : utf8_step b = (true, n) -> (1 <= n <= length b)%nat /\ utf8_step (firstn n b ++ x) = (true, n).
Proof.
  intro h. destruct b as [|b0 r]; [discriminate h|]. cbn [utf8_step] in h.
  destruct (b0 <? 128) eqn:e0.
  { injection h as <-. cbn. rewrite e0. split; [lia|reflexivity]. }
  destruct (between 194 223 b0) eqn:e1.
  { destruct r as [|b1 r]; [discriminate|]. destruct (cont b1) eqn:e2; [|discriminate].
    injection h as <-. cbn. rewrite e0, e1, e2. split; [lia|reflexivity]. }
  destruct (between 224 239 b0) eqn:e2.
  { destruct r as [|b1 r]; [discriminate|]. destruct (second3 b0 b1) eqn:e3; [|discriminate].
    destruct r as [|b2 r]; [discriminate|]. destruct (cont b2) eqn:e4; [|discriminate].
    injection h as <-. cbn. rewrite e0, e1, e2, e3, e4. split; [lia|reflexivity]. }
  destruct (between 240 244 b0) eqn:e3; [|discriminate].
  destruct r as [|b1 r]; [discriminate|]. destruct (second4 b0 b1) eqn:e4; [|discriminate].
  destruct r as [|b2 r]; [discriminate|]. destruct (cont b2) eqn:e5; [|discriminate].
  destruct r as [|b3 r]; [discriminate|]. destruct (cont b3) eqn:e6; [|discriminate].
  injection h as <-. cbn. rewrite e0, e1, e2, e3, e4, e5, e6. split; [lia|reflexivity].
Qed.
Lemma uw_some b n : uw b = Some n <-> utf8_step b = (true, n).
Proof.
  unfold uw. destruct (utf8_step b) as [ok k]. cbn. destruct ok; split; intro h; congruence.
Qed.
Lemma uw_stable : stable uw.
Proof.
  intros b n h. apply uw_some in h. split.
  - exact (proj1 (utf8_step_app b n [] h)).
  - intro x. apply uw_some. exact (proj2 (utf8_step_app b n x h)).
Qed.
Lemma utf8_ok_wok b : utf8_ok b = wok uw b.
Proof.
  unfold utf8_ok, wok. generalize (length b) as f. intro f. revert b.
  induction f as [|f IH]; intro b; destruct b as [|x l]; try reflexivity.
  cbn [utf8_ok_fuel walk_ok]. unfold uw at 1. destruct (utf8_step (x :: l)) as [ok n].
  cbn [fst snd]. destruct ok; [cbn [andb]; apply IH|reflexivity].
Qed.
Lemma uw_ascii c r : c < 128 -> uw (c :: r) = Some 1%nat.
Proof. intro h. unfold uw. cbn [utf8_step]. rewrite ltb_t by exact h. reflexivity. Qed.

Lemma euc_stable : stable euc_w.
Proof.
  intros b n h. destruct b as [|c r]; [discriminate h|]. cbn [euc_w] in h.
  destruct (c <? 128) eqn:e0. { injection h as <-. cbn. rewrite e0. split; [lia|reflexivity]. }
  destruct (c =? 142) eqn:e1.
  { destruct r as [|x r]; [discriminate|]. destruct (between 161 223 x) eqn:e2; [|discriminate].
    injection h as <-. cbn. rewrite e0, e1, e2. split; [lia|reflexivity]. }
  destruct (c =? 143) eqn:e2.
  { destruct r as [|x [|y r]]; [discriminate|discriminate|].
    destruct (between 161 254 x && between 161 254 y) eqn:e3; [|discriminate].
    injection h as <-. cbn. rewrite e0, e1, e2, e3. split; [lia|reflexivity]. }
  destruct (between 161 254 c) eqn:e3; [|discriminate].
  destruct r as [|x r]; [discriminate|]. destruct (between 161 254 x) eqn:e4; [|discriminate].
  injection h as <-. cbn. rewrite e0, e1, e2, e3, e4. split; [lia|reflexivity].
Qed.
Lemma sjis_stable : stable sjis_w.
Proof.
  intros b n h. destruct b as [|c r]; [discriminate h|]. cbn [sjis_w] in h.
  destruct ((c <? 128) || between 161 223 c) eqn:e0.
  { injection h as <-. cbn. rewrite e0. split; [lia|reflexivity]. }
  destruct (between 129 159 c || between 224 252 c) eqn:e1; [|discriminate].
  destruct r as [|x r]; [discriminate|]. destruct (between 64 126 x || between 128 252 x) eqn:e2; [|discriminate].
  injection h as <-. cbn. rewrite e0, e1, e2. split; [lia|reflexivity].
Qed.
Lemma euc_ascii c r : c < 128 -> euc_w (c :: r) = Some 1%nat.
Proof. intro h. cbn [euc_w]. rewrite ltb_t by exact h. reflexivity. Qed.
Lemma sjis_ascii c r : c < 128 -> sjis_w (c :: r) = Some 1%nat.
Proof. intro h. cbn [sjis_w]. rewrite ltb_t by exact h. reflexivity. Qed.

(** ** Bytes below 128. *)
Lemma ascii_app a b : ascii_b (a ++ b) = ascii_b a && ascii_b b.
Proof. apply forallb_app. Qed.
Lemma ascii_rev a : ascii_b (List.rev a) = ascii_b a.
Proof.
  induction a as [|x l IH]; [reflexivity|]. cbn [List.rev]. rewrite ascii_app, IH. cbn. rewrite andb_true_r, andb_comm. reflexivity.
Qed.
Lemma ascii_firstn a n : ascii_b a = true -> ascii_b (firstn n a) = true.
Proof.
  intro h. rewrite <- (firstn_skipn n a), ascii_app in h. apply andb_true_iff in h. exact (proj1 h).
Qed.
Lemma ascii_skipn a n : ascii_b a = true -> ascii_b (skipn n a) = true.
Proof.
  intro h. rewrite <- (firstn_skipn n a), ascii_app in h. apply andb_true_iff in h. exact (proj2 h).
Qed.
Lemma ascii_rep n a : ascii_b a = true -> ascii_b (rep n a) = true.
Proof. intro h. induction n; [reflexivity|]. cbn. rewrite ascii_app, h, IHn. reflexivity. Qed.
Lemma ascii_upd i x a : x < 128 -> ascii_b a = true -> ascii_b (upd_nth i x a) = true.
Proof.
  intros hx. revert i. induction a as [|y l IH]; intros i h; [destruct i; reflexivity|].
  cbn in h. apply andb_true_iff in h. destruct h as [h1 h2]. destruct i; cbn.
  - rewrite ltb_t by exact hx. exact h2.
  - rewrite h1. apply IH. exact h2.
Qed.
Lemma ascii_utf8 b : ascii_b b = true -> utf8_ok b = true.
Proof. rewrite utf8_ok_wok. apply (wok_ascii uw uw_stable uw_ascii). Qed.

Lemma utf8_app a b : utf8_ok a = true -> utf8_ok b = true -> utf8_ok (a ++ b) = true.
Proof. rewrite !utf8_ok_wok. apply (wok_app_t uw uw_stable). Qed.
Lemma utf8_rep n a : utf8_ok a = true -> utf8_ok (rep n a) = true.
Proof. intro h. induction n; [reflexivity|]. cbn. apply utf8_app; auto. Qed.

(** ** Boundaries of UTF-8. *)
Lemma cont_not_lead x : cont x = true -> lead x = false.
Proof.
  intro h. apply cont_iff in h.
  assert (hi : In x (map Z.of_nat (seq 128 64))).
  { apply in_map_iff. exists (Z.to_nat x). split; [lia|]. apply in_seq. lia. }
  assert (hall : Forall (fun x => lead x = false) (map Z.of_nat (seq 128 64))).
  { apply Forall_forall. intros y hy. revert y hy. apply Forall_forall. cbn [seq map]. repeat (constructor; [vm_compute; reflexivity|]). constructor. }
  rewrite Forall_forall in hall. apply hall. exact hi.
Qed.
Lemma second3_cont a b : second3 a b = true -> cont b = true.
Proof. intro h. apply second3_iff in h. apply cont_iff. lia. Qed.
Lemma second4_cont a b : second4 a b = true -> cont b = true.
Proof. intro h. apply second4_iff in h. apply cont_iff. lia. Qed.
Lemma step_conts0 b n : utf8_step b = (true, n) -> forall i, (1 <= i < n)%nat -> cont (nth i b 0) = true.
Proof.
  intros h i hi. destruct b as [|b0 r]; [discriminate h|]. cbn [utf8_step] in h.
  destruct (b0 <? 128) eqn:e0; [injection h as <-; lia|].
  destruct (between 194 223 b0) eqn:e1.
  { destruct r as [|b1 r]; [discriminate|]. destruct (cont b1) eqn:e2; [|discriminate]. injection h as <-.
    replace i with 1%nat by lia. exact e2. }
  destruct (between 224 239 b0) eqn:e2.
  { destruct r as [|b1 r]; [discriminate|]. destruct (second3 b0 b1) eqn:e3; [|discriminate].
    destruct r as [|b2 r]; [discriminate|]. destruct (cont b2) eqn:e4; [|discriminate]. injection h as <-.
    destruct i as [|[|[|i]]]; try lia; [exact (second3_cont _ _ e3)|exact e4]. }
  destruct (between 240 244 b0) eqn:e3; [|discriminate].
  destruct r as [|b1 r]; [discriminate|]. destruct (second4 b0 b1) eqn:e4; [|discriminate].
  destruct r as [|b2 r]; [discriminate|]. destruct (cont b2) eqn:e5; [|discriminate].
  destruct r as [|b3 r]; [discriminate|]. destruct (cont b3) eqn:e6; [|discriminate]. injection h as <-.
  destruct i as [|[|[|[|i]]]]; try lia; [exact (second4_cont _ _ e4)|exact e5|exact e6].
Qed.
Lemma step_conts b n : utf8_step b = (true, n) -> forall i, (1 <= i < n)%nat -> lead (nth i b 0) = false.
Proof. intros h i hi. apply cont_not_lead. exact (step_conts0 b n h i hi). Qed.

(** A byte that never continues a character starts one. *)
Definition notrail (w : list Z -> option nat) (x : Z) : Prop :=
  forall c n i, w c = Some n -> (1 <= i < n)%nat -> nth i c 0 <> x.
Lemma wok_pre w x r : stable w -> notrail w x -> forall a, wok w (a ++ x :: r) = true -> wok w a = true.
Proof.
  intros hw hx a. induction a as [a IH] using (well_founded_induction (well_founded_ltof _ (@length Z))).
  intro h. destruct a as [|y l] eqn:ea; [reflexivity|]. rewrite <- ea in *.
  assert (hn : a <> []) by congruence. assert (hn2 : a ++ x :: r <> []) by (destruct a; discriminate).
  rewrite (wok_step w hw) in h by exact hn2. destruct (w (a ++ x :: r)) as [n|] eqn:e; [|discriminate].
  destruct (hw _ _ e) as [hl hs]. rewrite app_length in hl. cbn [length] in hl.
  destruct (Nat.leb_spec n (length a)) as [q|q].
  - rewrite (wok_step w hw) by exact hn.
    assert (e2 : w a = Some n).
    { specialize (hs (skipn n a)). rewrite firstn_app in hs. replace (n - length a)%nat with 0%nat in hs by lia.
      rewrite firstn_O, app_nil_r, firstn_skipn in hs. exact hs. }
    rewrite e2. rewrite skipn_app in h. replace (n - length a)%nat with 0%nat in h by lia. rewrite skipn_O in h.
    apply IH; [|exact h]. unfold ltof. rewrite skipn_length. destruct a; [congruence|cbn [length] in *; lia].
  - exfalso. apply (hx _ n (length a) e); [destruct a; [congruence|cbn [length] in *; lia]|].
    rewrite app_nth2, Nat.sub_diag by lia. reflexivity.
Qed.
Lemma uw_notrail x : cont x = false -> notrail uw x.
Proof. intros h c n i hc hi e. rewrite <- e in h. rewrite (step_conts0 c n) in h; [discriminate|apply uw_some; exact hc|exact hi]. Qed.
Lemma euc_notrail x : x < 128 -> notrail euc_w x.
Proof.
  intros h c n i hc hi e. destruct c as [|c0 r]; [discriminate|]. cbn [euc_w] in hc.
  destruct (c0 <? 128); [injection hc as <-; lia|].
  destruct (c0 =? 142).
  { destruct r as [|y r]; [discriminate|]. destruct (between 161 223 y) eqn:q; [|discriminate]. injection hc as <-.
    replace i with 1%nat in e by lia. cbn in e. subst y. apply andb_true_iff in q. destruct q as [q _]. apply Z.leb_le in q. lia. }
  destruct (c0 =? 143).
  { destruct r as [|y [|z r]]; try discriminate. destruct (between 161 254 y) eqn:q; [|discriminate].
    destruct (between 161 254 z) eqn:q2; [|discriminate]. injection hc as <-.
    apply andb_true_iff in q, q2. destruct q as [q _], q2 as [q2 _]. apply Z.leb_le in q, q2.
    destruct i as [|[|[|i]]]; try lia; cbn in e; lia. }
  destruct (between 161 254 c0); [|discriminate]. destruct r as [|y r]; [discriminate|].
  destruct (between 161 254 y) eqn:q; [|discriminate]. injection hc as <-.
  replace i with 1%nat in e by lia. cbn in e. subst y. apply andb_true_iff in q. destruct q as [q _]. apply Z.leb_le in q. lia.
Qed.
Lemma uw_cont x r : cont x = true -> uw (x :: r) = None.
Proof.
  intro h. apply cont_iff in h. unfold uw. cbn [utf8_step].
  rewrite (proj2 (Z.ltb_ge x 128)) by lia. unfold between.
  rewrite (proj2 (Z.leb_gt 194 x)) by lia. rewrite (proj2 (Z.leb_gt 224 x)) by lia. rewrite (proj2 (Z.leb_gt 240 x)) by lia.
  cbn [andb]. reflexivity.
Qed.
Lemma utf8_rep_broken n b : utf8_ok b = false -> utf8_ok (rep (S n) b) = false.
Proof.
  intro h. destruct n as [|n]; [cbn [rep]; rewrite app_nil_r; exact h|].
  change (rep (S (S n)) b) with (b ++ rep (S n) b). destruct b as [|x l]; [discriminate h|].
  destruct (utf8_ok ((x :: l) ++ rep (S n) (x :: l))) eqn:q; [|reflexivity]. exfalso.
  rewrite utf8_ok_wok in h, q. destruct (cont x) eqn:hx.
  - rewrite (wok_step uw uw_stable) in q by discriminate. cbn [app] in q. rewrite uw_cont in q by exact hx. discriminate.
  - change (rep (S n) (x :: l)) with (x :: (l ++ rep n (x :: l))) in q.
    rewrite (wok_pre uw x _ uw_stable (uw_notrail x hx) _ q) in h. discriminate.
Qed.

Lemma nth_skipn_ {A} (d : A) : forall n i l, nth i (skipn n l) d = nth (n + i) l d.
Proof. induction n; intros i l; [reflexivity|]. destruct l; [destruct i; reflexivity|]. cbn. apply IHn. Qed.

Lemma skipn_skipn_ {A} : forall n m (l : list A), skipn m (skipn n l) = skipn (n + m) l.
Proof. induction n; intros m l; [reflexivity|]. destruct l; [destruct m; reflexivity|]. cbn. apply IHn. Qed.

Lemma utf8_cut b : utf8_ok b = true -> forall p, (p <= length b)%nat -> boundary b p = true ->
  utf8_ok (firstn p b) = true /\ utf8_ok (skipn p b) = true.
Proof.
  rewrite utf8_ok_wok.
  induction b as [b IH] using (well_founded_induction (well_founded_ltof _ (@length Z))).
  intros h p hp hb. destruct (Nat.eq_dec p 0) as [->|hp0]; [split; [reflexivity|rewrite utf8_ok_wok; exact h]|].
  assert (hn : b <> []) by (intro; subst b; cbn in hp; lia).
  rewrite (wok_step uw uw_stable) in h by exact hn.
  destruct (uw b) as [n|] eqn:ew; [|discriminate].
  assert (es := proj1 (uw_some b n) ew). destruct (uw_stable _ _ ew) as [hl hst].
  destruct (Nat.ltb_spec p n) as [hlt|hge].
  { exfalso. unfold boundary in hb. rewrite (proj2 (Nat.eqb_neq p 0)) in hb by lia.
    rewrite (proj2 (Nat.eqb_neq p (length b))) in hb by lia. cbn [orb] in hb.
    rewrite (step_conts b n es p) in hb by lia. discriminate. }
  assert (hb' : boundary (skipn n b) (p - n) = true).
  { unfold boundary in *. rewrite skipn_length. rewrite nth_skipn_. replace (n + (p - n))%nat with p by lia.
    rewrite (proj2 (Nat.eqb_neq p 0)) in hb by lia. cbn [orb] in hb.
    apply orb_true_iff in hb. destruct hb as [hb|hb].
    - apply Nat.eqb_eq in hb. rewrite hb. rewrite Nat.eqb_refl. rewrite orb_true_r. reflexivity.
    - rewrite hb. rewrite orb_true_r. reflexivity. }
  assert (hlen : (length (skipn n b) < length b)%nat) by (rewrite skipn_length; lia).
  destruct (IH (skipn n b) hlen h (p - n)%nat) as [h1 h2].
  { rewrite skipn_length. lia. }
  { exact hb'. }
  split.
  - rewrite <- (firstn_skipn n b). rewrite firstn_app, firstn_firstn, firstn_length.
    replace (Nat.min p n) with n by lia. replace (p - Nat.min n (length b))%nat with (p - n)%nat by lia.
    rewrite utf8_ok_wok in *. apply (wok_app_t uw uw_stable); [|exact h1]. apply (wok_first uw uw_stable). exact ew.
  - rewrite skipn_skipn_ in h2. replace (n + (p - n))%nat with p in h2 by lia. exact h2.
Qed.
Lemma utf8_slice b a z : utf8_ok b = true -> (a <= z <= length b)%nat -> boundary b a = true -> boundary b z = true ->
  utf8_ok (slice b a z) = true.
Proof.
  intros h hr ha hz. unfold slice.
  destruct (utf8_cut b h z) as [h1 _]; [lia|exact hz|].
  destruct (utf8_cut (firstn z b) h1 a) as [_ h2].
  - rewrite firstn_length. lia.
  - unfold boundary in *. rewrite firstn_length. replace (Nat.min z (length b)) with z by lia.
    destruct (Nat.eqb_spec a 0); [reflexivity|]. destruct (Nat.eqb_spec a z); [reflexivity|].
    cbn [orb] in *. destruct (Nat.eqb_spec a (length b)) as [e|e]; [lia|]. cbn [orb] in ha.
    rewrite <- (firstn_skipn z b) in ha. rewrite app_nth1 in ha by (rewrite firstn_length; lia). exact ha.
  - rewrite firstn_skipn_comm. replace (a + (z - a))%nat with z by lia. exact h2.
Qed.

(** ** The characters of a valid UTF-8 string. *)
Lemma char_w_utf8 b n : uw b = Some n -> char_w Utf8 b = n.
Proof.
  intro h. assert (hok := wok_first uw uw_stable b n h). destruct (uw_stable b n h) as [hl _].
  rewrite <- utf8_ok_wok in hok.
  apply uw_some in h. destruct b as [|b0 r]; [discriminate h|]. unfold char_w.
  cbn [utf8_step] in h.
  destruct (b0 <? 128) eqn:e0; [injection h as <-; reflexivity|].
  destruct (between 194 223 b0) eqn:e1.
  { apply between_iff in e1. destruct r as [|b1 r]; [discriminate|]. destruct (cont b1); [|discriminate].
    injection h as <-. rewrite (ltb_f b0 192) by lia. rewrite (ltb_t b0 224) by lia.
    rewrite (proj2 (Nat.leb_le _ _)) by (cbn; lia). rewrite hok. reflexivity. }
  destruct (between 224 239 b0) eqn:e2.
  { apply between_iff in e2. destruct r as [|b1 r]; [discriminate|]. destruct (second3 b0 b1); [|discriminate].
    destruct r as [|b2 r]; [discriminate|]. destruct (cont b2); [|discriminate].
    injection h as <-. rewrite (ltb_f b0 192) by lia. rewrite (ltb_f b0 224) by lia. rewrite (ltb_t b0 240) by lia.
    rewrite (proj2 (Nat.leb_le _ _)) by (cbn; lia). rewrite hok. reflexivity. }
  destruct (between 240 244 b0) eqn:e3; [|discriminate]. apply between_iff in e3.
  destruct r as [|b1 r]; [discriminate|]. destruct (second4 b0 b1); [|discriminate].
  destruct r as [|b2 r]; [discriminate|]. destruct (cont b2); [|discriminate].
  destruct r as [|b3 r]; [discriminate|]. destruct (cont b3); [|discriminate].
  injection h as <-. rewrite (ltb_f b0 192) by lia. rewrite (ltb_f b0 224) by lia. rewrite (ltb_f b0 240) by lia.
  rewrite (proj2 (Nat.leb_le _ _)) by (cbn; lia). rewrite hok. reflexivity.
Qed.
Lemma char_w_euc b n : euc_w b = Some n -> char_w EucJp b = n.
Proof.
  intro h. destruct b as [|c r]; [discriminate h|]. unfold char_w. cbn [euc_w] in h.
  destruct (Z.ltb_spec c 128).
  { injection h as <-. destruct (Z.eqb_spec c 142); [lia|]. destruct (Z.eqb_spec c 143); [lia|].
    rewrite between_f by lia. reflexivity. }
  destruct (c =? 142). { destruct r as [|x r]; [discriminate|]. destruct (between 161 223 x); [|discriminate]. congruence. }
  destruct (c =? 143). { destruct r as [|x [|y r]]; [discriminate|discriminate|]. destruct (_ && _); [|discriminate]. congruence. }
  destruct (between 161 254 c); [|discriminate].
  destruct r as [|x r]; [discriminate|]. destruct (between 161 254 x); [|discriminate]. congruence.
Qed.
Lemma char_w_sjis k b n : sjis_w b = Some n -> char_w (Sjis k) b = n.
Proof.
  intro h. destruct b as [|c r]; [discriminate h|]. unfold char_w. cbn [sjis_w] in h.
  destruct ((c <? 128) || between 161 223 c) eqn:e.
  { injection h as <-. apply orb_true_iff in e. rewrite Z.ltb_lt, between_iff in e.
    rewrite !between_f by lia. reflexivity. }
  destruct (between 129 159 c || between 224 252 c); [|discriminate].
  destruct r as [|x r]; [discriminate|]. destruct (between 64 126 x || between 128 252 x); [|discriminate]. congruence.
Qed.

Lemma char_w_pos e b : (1 <= char_w e b)%nat.
Proof. unfold char_w. destruct b; [lia|]. destruct e; repeat destruct (_ : bool); lia. Qed.

Lemma chars_concat e : forall f b, (length b <= f)%nat -> concat (chars_f e f b) = b.
Proof.
  induction f as [|f IH]; intros b h; [destruct b; [reflexivity|cbn in h; lia]|].
  destruct b as [|x l] eqn:eb; [reflexivity|]. rewrite <- eb in *.
  assert (hc : chars_f e (S f) b = firstn (char_w e b) b :: chars_f e f (skipn (char_w e b) b)) by (rewrite eb; reflexivity).
  rewrite hc. cbn [concat]. rewrite IH; [apply firstn_skipn|].
  rewrite skipn_length. assert (hp := char_w_pos e b). assert (length b <> O) by (rewrite eb; discriminate). lia.
Qed.
(** The characters put together are the string. *)
Lemma chars_all s : concat (chars s) = sb s.
Proof. apply chars_concat. lia. Qed.

Lemma chars_f_more e : forall f b, (length b <= f)%nat -> chars_f e f b = chars_f e (length b) b.
Proof.
  intros f. induction f as [f IH] using lt_wf_ind. intros b h.
  destruct b as [|x l] eqn:eb; [destruct f; reflexivity|]. rewrite <- eb in *.
  destruct f as [|f]; [rewrite eb in h; cbn in h; lia|].
  assert (hp := char_w_pos e b).
  assert (hl : length b = S (length l)) by (rewrite eb; reflexivity).
  assert (hc : forall f, chars_f e (S f) b = firstn (char_w e b) b :: chars_f e f (skipn (char_w e b) b)) by (intro; rewrite eb; reflexivity).
  rewrite hl. rewrite !hc. f_equal.
  assert (hs : (length (skipn (char_w e b) b) <= length l)%nat) by (rewrite skipn_length; lia).
  rewrite (IH f) by lia. symmetry. destruct (Nat.eq_dec (length l) f) as [e0|e0].
  - rewrite e0 in *. rewrite (IH f) by lia. reflexivity.
  - rewrite (IH (length l)) by lia. reflexivity.
Qed.
Definition cs_of (e : encoding) (b : list Z) : list (list Z) := chars_f e (length b) b.
Lemma cs_step e b : b <> [] -> cs_of e b = firstn (char_w e b) b :: cs_of e (skipn (char_w e b) b).
Proof.
  intro h. unfold cs_of at 1. destruct b as [|x l] eqn:eb; [congruence|]. rewrite <- eb in *.
  assert (hl : length b = S (length l)) by (rewrite eb; reflexivity). rewrite hl.
  assert (hc : forall f, chars_f e (S f) b = firstn (char_w e b) b :: chars_f e f (skipn (char_w e b) b)) by (intro; rewrite eb; reflexivity).
  rewrite hc. f_equal. apply chars_f_more. rewrite skipn_length. assert (hp := char_w_pos e b). lia.
Qed.

Lemma wok_parts e w : stable w -> (forall b n, w b = Some n -> char_w e b = n) ->
  forall b, wok w b = true -> Forall (fun c => wok w c = true) (cs_of e b).
Proof.
  intros hw hc b. induction b as [b IH] using (well_founded_induction (well_founded_ltof _ (@length Z))).
  intro h. destruct b as [|x l] eqn:eb; [constructor|]. rewrite <- eb in *.
  assert (hn : b <> []) by (rewrite eb; discriminate). rewrite cs_step by exact hn.
  rewrite (wok_step w hw) in h by exact hn. destruct (w b) as [n|] eqn:ew; [|discriminate].
  rewrite (hc _ _ ew). constructor; [apply (wok_first w hw); exact ew|].
  apply IH; [|exact h]. unfold ltof. rewrite skipn_length. destruct (hw _ _ ew). lia.
Qed.
Lemma wok_concat w : stable w -> forall l, Forall (fun c => wok w c = true) l -> wok w (concat l) = true.
Proof. intros hw l h. induction h; [reflexivity|]. cbn. apply (wok_app_t w hw); auto. Qed.
Lemma wok_reverse e w : stable w -> (forall b n, w b = Some n -> char_w e b = n) ->
  forall b, wok w b = true -> wok w (concat (List.rev (cs_of e b))) = true.
Proof.
  intros hw hc b h. apply (wok_concat w hw). apply Forall_rev. apply (wok_parts e w hw hc). exact h.
Qed.
Lemma utf8_reverse b : utf8_ok b = true -> utf8_ok (concat (List.rev (cs_of Utf8 b))) = true.
Proof. rewrite !utf8_ok_wok. apply (wok_reverse Utf8 uw uw_stable char_w_utf8). Qed.
