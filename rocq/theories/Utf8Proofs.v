From Coq Require Import ZArith List Bool Lia Zify.
From Verif Require Import Utf8Spec Utf8Model.
Import ListNotations.
Open Scope Z_scope.
Ltac Zify.zify_post_hook ::= Z.to_euclidean_division_equations.

Lemma ltb_t a b : a < b -> (a <? b) = true. Proof. apply Z.ltb_lt. Qed.
Lemma ltb_f a b : b <= a -> (a <? b) = false. Proof. apply Z.ltb_ge. Qed.
Lemma cont_iff b : cont b = true <-> 128 <= b <= 191.
Proof. unfold cont. rewrite andb_true_iff, !Z.leb_le. tauto. Qed.
Lemma between_iff l h b : between l h b = true <-> l <= b <= h.
Proof. unfold between. rewrite andb_true_iff, !Z.leb_le. tauto. Qed.
Lemma between_f l h b : b < l \/ h < b -> between l h b = false.
Proof. intro h0. apply not_true_iff_false. rewrite between_iff. lia. Qed.
Lemma second3_iff b0 b1 : second3 b0 b1 = true <->
  128 <= b1 <= 191 /\ (b0 = 224 -> 160 <= b1) /\ (b0 = 237 -> b1 <= 159).
Proof.
  unfold second3. destruct (Z.eqb_spec b0 224); [rewrite between_iff; lia|].
  destruct (Z.eqb_spec b0 237); [rewrite between_iff; lia|]. rewrite cont_iff; lia.
Qed.
Lemma second4_iff b0 b1 : second4 b0 b1 = true <->
  128 <= b1 <= 191 /\ (b0 = 240 -> 144 <= b1) /\ (b0 = 244 -> b1 <= 143).
Proof.
  unfold second4. destruct (Z.eqb_spec b0 240); [rewrite between_iff; lia|].
  destruct (Z.eqb_spec b0 244); [rewrite between_iff; lia|]. rewrite cont_iff; lia.
Qed.

Definition enc_len (c : Z) : nat := length (enc_utf8 c).

Lemma enc_len_pos c : (0 < enc_len c)%nat.
Proof. unfold enc_len, enc_utf8. repeat destruct (_ <? _); cbn; lia. Qed.

Lemma step_enc c r : scalar c -> utf8_step (enc_utf8 c ++ r) = (true, enc_len c).
Proof.
  intro hs. unfold scalar in hs. unfold enc_len, enc_utf8.
  destruct (Z.ltb_spec c 128). { cbn [app utf8_step]. rewrite ltb_t by lia. reflexivity. }
  destruct (Z.ltb_spec c 2048).
  { cbn [app utf8_step]. rewrite ltb_f by lia.
    rewrite (proj2 (between_iff 194 223 _)) by lia.
    rewrite (proj2 (cont_iff _)) by lia. reflexivity. }
  destruct (Z.ltb_spec c 65536).
  { cbn [app utf8_step]. rewrite ltb_f by lia.
    rewrite (between_f 194 223) by lia. rewrite (proj2 (between_iff 224 239 _)) by lia.
    rewrite (proj2 (second3_iff _ _)) by lia.
    rewrite (proj2 (cont_iff _)) by lia. reflexivity. }
  cbn [app utf8_step]. rewrite ltb_f by lia.
  rewrite (between_f 194 223) by lia. rewrite (between_f 224 239) by lia.
  rewrite (proj2 (between_iff 240 244 _)) by lia.
  rewrite (proj2 (second4_iff _ _)) by lia.
  rewrite (proj2 (cont_iff _)) by lia. rewrite (proj2 (cont_iff _)) by lia. reflexivity.
Qed.

(** A successful step has read exactly one encoded scalar value. *)
Lemma step_dec b n : Forall (fun x => 0 <= x) b -> utf8_step b = (true, n) ->
  exists c, scalar c /\ firstn n b = enc_utf8 c /\ n = enc_len c.
Proof.
  intros hb h. destruct b as [|b0 r]; [discriminate|]. cbn [utf8_step] in h.
  inversion hb as [|? ? h0 hr]; subst.
  destruct (Z.ltb_spec b0 128).
  { assert (n = 1%nat) by congruence. subst n. exists b0. unfold scalar, enc_len, enc_utf8.
    rewrite ltb_t by lia. repeat split; auto; lia. }
  destruct (between 194 223 b0) eqn:e2.
  { apply between_iff in e2. destruct r as [|b1 r]; [discriminate|]. destruct (cont b1) eqn:ec; [|discriminate].
    apply cont_iff in ec. assert (n = 2%nat) by congruence. subst n.
    exists ((b0 - 192) * 64 + (b1 - 128)). unfold scalar, enc_len, enc_utf8.
    rewrite ltb_f by lia. rewrite ltb_t by lia. split; [lia|]. split; [|reflexivity].
    cbn [firstn]. repeat f_equal; lia. }
  destruct (between 224 239 b0) eqn:e3.
  { apply between_iff in e3. destruct r as [|b1 r]; [discriminate|]. destruct (second3 b0 b1) eqn:ec; [|discriminate].
    destruct r as [|b2 r]; [discriminate|]. destruct (cont b2) eqn:ec2; [|discriminate].
    apply second3_iff in ec. apply cont_iff in ec2. assert (n = 3%nat) by congruence. subst n.
    exists ((b0 - 224) * 4096 + (b1 - 128) * 64 + (b2 - 128)). unfold scalar, enc_len, enc_utf8.
    rewrite ltb_f by lia. rewrite ltb_f by lia. rewrite ltb_t by lia. split; [lia|]. split; [|reflexivity].
    cbn [firstn]. repeat f_equal; lia. }
  destruct (between 240 244 b0) eqn:e4; [|discriminate].
  apply between_iff in e4. destruct r as [|b1 r]; [discriminate|]. destruct (second4 b0 b1) eqn:ec; [|discriminate].
  destruct r as [|b2 r]; [discriminate|]. destruct (cont b2) eqn:ec2; [|discriminate].
  destruct r as [|b3 r]; [discriminate|]. destruct (cont b3) eqn:ec3; [|discriminate].
  apply second4_iff in ec. apply cont_iff in ec2. apply cont_iff in ec3. assert (n = 4%nat) by congruence. subst n.
  exists ((b0 - 240) * 262144 + (b1 - 128) * 4096 + (b2 - 128) * 64 + (b3 - 128)). unfold scalar, enc_len, enc_utf8.
  rewrite ltb_f by lia. rewrite ltb_f by lia. rewrite ltb_f by lia. split; [lia|]. split; [|reflexivity].
  cbn [firstn]. repeat f_equal; lia.
Qed.

Lemma enc_nonempty c : exists x r, enc_utf8 c = x :: r.
Proof. unfold enc_utf8. repeat destruct (_ <? _); eauto. Qed.

Lemma skipn_exact {A} (l r : list A) : skipn (length l) (l ++ r) = r.
Proof. induction l; cbn; auto. Qed.

Lemma ok_complete cs : Forall scalar cs -> forall f, (length (concat (map enc_utf8 cs)) <= f)%nat ->
  utf8_ok_fuel f (concat (map enc_utf8 cs)) = true.
Proof.
  induction 1 as [|c cs hc hcs IH]; intros f hf; [destruct f; reflexivity|].
  cbn [map concat] in *. destruct (enc_nonempty c) as (x & r & e).
  rewrite app_length in hf. destruct f as [|f]; [rewrite e in hf; cbn in hf; lia|].
  assert (hs := step_enc c (concat (map enc_utf8 cs)) hc).
  destruct (enc_utf8 c ++ concat (map enc_utf8 cs)) as [|y l] eqn:el; [rewrite e in el; discriminate|].
  cbn [utf8_ok_fuel]. rewrite hs. rewrite <- el. unfold enc_len. rewrite skipn_exact. cbn [andb].
  apply IH. rewrite e in hf. cbn in hf. lia.
Qed.

Lemma ok_sound f : forall b, Forall (fun x => 0 <= x) b -> utf8_ok_fuel f b = true -> utf8_valid b.
Proof.
  induction f as [|f IH]; intros b hb h.
  { destruct b; [|discriminate]. exists []. split; [constructor|reflexivity]. }
  destruct b as [|x l] eqn:eb. { exists []. split; [constructor|reflexivity]. }
  rewrite <- eb in *. assert (hh : utf8_ok_fuel (S f) b = let '(ok, n) := utf8_step b in ok && utf8_ok_fuel f (skipn n b)) by (rewrite eb; reflexivity).
  rewrite hh in h. destruct (utf8_step b) as [ok n] eqn:es. apply andb_true_iff in h. destruct h as [h1 h2]. subst ok.
  destruct (step_dec b n hb es) as (c & hc & e1 & e2).
  assert (hb2 : Forall (fun x => 0 <= x) (skipn n b)).
  { apply Forall_forall. intros z hz. rewrite Forall_forall in hb. apply hb.
    rewrite <- (firstn_skipn n b). apply in_or_app. auto. }
  destruct (IH _ hb2 h2) as (cs & hcs & ec). exists (c :: cs). split; [constructor; auto|].
  cbn [map concat]. rewrite <- e1, <- ec. rewrite firstn_skipn. reflexivity.
Qed.

(** [from_utf8] accepts exactly the valid byte strings. *)
Lemma utf8_ok_iff b : Forall (fun x => 0 <= x) b -> (utf8_ok b = true <-> utf8_valid b).
Proof.
  intro hb. split; [apply ok_sound; exact hb|]. intros (cs & hcs & e). unfold utf8_ok. rewrite e.
  apply ok_complete; auto.
Qed.

Lemma utf8_ok_ascii b : Forall (fun x => x < 128) b -> utf8_ok b = true.
Proof.
  unfold utf8_ok. induction 1 as [|x l hx hl IH]; [reflexivity|].
  cbn [length utf8_ok_fuel utf8_step]. rewrite ltb_t by exact hx. cbn [skipn andb]. exact IH.
Qed.

(** Lossy decoding changes nothing in a valid string. *)
Lemma lossy_fuel f : forall b, utf8_ok_fuel f b = true -> utf8_lossy_fuel f b = b.
Proof.
  induction f as [|f IH]; intros b h; [destruct b; [reflexivity|discriminate]|].
  destruct b as [|x l] eqn:eb; [reflexivity|]. rewrite <- eb in *.
  assert (h1 : utf8_ok_fuel (S f) b = let '(ok, n) := utf8_step b in ok && utf8_ok_fuel f (skipn n b)) by (rewrite eb; reflexivity).
  assert (h2 : utf8_lossy_fuel (S f) b = let '(ok, n) := utf8_step b in (if ok then firstn n b else [239; 191; 189]) ++ utf8_lossy_fuel f (skipn n b)) by (rewrite eb; reflexivity).
  rewrite h1 in h. rewrite h2. destruct (utf8_step b) as [ok n]. apply andb_true_iff in h. destruct h as [ho hk]. subst ok.
  rewrite (IH _ hk). apply firstn_skipn.
Qed.
Lemma lossy_valid b : utf8_ok b = true -> utf8_lossy b = b.
Proof. apply lossy_fuel. Qed.

(** The result of lossy decoding is always valid. *)
Lemma valid_app a b : utf8_valid a -> utf8_valid b -> utf8_valid (a ++ b).
Proof.
  intros (c1 & h1 & ->) (c2 & h2 & ->). exists (c1 ++ c2). split; [apply Forall_app; auto|].
  rewrite map_app, concat_app. reflexivity.
Qed.
Lemma valid_enc c : scalar c -> utf8_valid (enc_utf8 c).
Proof. intro h. exists [c]. split; [auto|]. cbn. rewrite app_nil_r. reflexivity. Qed.
Lemma lossy_fuel_valid f : forall b, Forall (fun x => 0 <= x) b -> utf8_valid (utf8_lossy_fuel f b).
Proof.
  assert (hn : utf8_valid []) by (exists []; split; [constructor|reflexivity]).
  induction f as [|f IH]; intros b hb; [destruct b; exact hn|].
  destruct b as [|x l] eqn:eb; [exact hn|]. rewrite <- eb in *.
  assert (h2 : utf8_lossy_fuel (S f) b = let '(ok, n) := utf8_step b in (if ok then firstn n b else [239; 191; 189]) ++ utf8_lossy_fuel f (skipn n b)) by (rewrite eb; reflexivity).
  rewrite h2. destruct (utf8_step b) as [ok n] eqn:es. apply valid_app.
  - destruct ok.
    + destruct (step_dec b n hb es) as (c & hc & e1 & _). rewrite e1. apply valid_enc. exact hc.
    + apply (valid_enc 65533). unfold scalar. lia.
  - apply IH. apply Forall_forall. intros z hz. rewrite Forall_forall in hb. apply hb.
    rewrite <- (firstn_skipn n b). apply in_or_app. auto.
Qed.
Lemma lossy_is_valid b : Forall (fun x => 0 <= x) b -> utf8_valid (utf8_lossy b).
Proof. apply lossy_fuel_valid. Qed.
Lemma valid_bytes b : utf8_valid b -> Forall (fun x => 0 <= x <= 255) b.
Proof.
  intros (cs & h & ->). induction h as [|c cs hc _ IH]; [constructor|]. cbn. apply Forall_app. split; [|exact IH].
  unfold scalar in hc. unfold enc_utf8. destruct (Z.ltb_spec c 128); [repeat constructor; lia|].
  destruct (Z.ltb_spec c 2048); [repeat constructor; lia|]. destruct (Z.ltb_spec c 65536); repeat constructor; lia.
Qed.
Lemma valid_ascii b : Forall (fun x => 0 <= x < 128) b -> utf8_valid b.
Proof.
  intro h. apply utf8_ok_iff; [|apply utf8_ok_ascii]; eapply Forall_impl; try exact h; cbn; lia.
Qed.
