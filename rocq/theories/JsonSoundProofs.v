(** On texts without backslashes and control characters the native parser accepts
    only JSON. *)
From Coq Require Import ZArith List Bool Lia.
From Verif Require Import IstrModel Utf8Model Utf8Spec Utf8Proofs JsonModel JsonSpec JsonProofs JsonTotalProofs.
Import ListNotations.
Open Scope Z_scope.

Lemma clean_cons c r : unescaped (c :: r) ->
  (c < 128 /\ 32 <= c /\ c <> 92 /\ unescaped r) \/
  (128 <= c /\ exists x r', scalar x /\ 32 <= x /\ x <> 92 /\ x <> 34 /\ c :: r = enc_utf8 x ++ r' /\ unescaped r').
Proof.
  intros (cs & h & e). destruct h as [|x cs (hx & h32 & h92) h]; [discriminate|]. cbn [map concat] in e.
  destruct (enc_head x hx) as (y & q & E & [(hc & -> & ->)|(hc & hy)]).
  - rewrite E in e. injection e as -> ->. left. repeat split; auto. exists cs. auto.
  - right. assert (c = y) by (rewrite E in e; injection e as -> _; reflexivity). subst y. split; [exact hy|].
    exists x, (concat (map enc_utf8 cs)). repeat split; auto; try lia. exists cs. auto.
Qed.
Lemma clean_ascii c r : unescaped (c :: r) -> c < 128 -> unescaped r.
Proof. intros h hc. apply clean_cons in h. destruct h as [(_ & _ & _ & h)|(h & _)]; [exact h|lia]. Qed.
Lemma clean_app w s : Forall (fun c => c < 128) w -> unescaped (w ++ s) -> unescaped s.
Proof. induction 1 as [|c w h hw IH]; auto. cbn. intro k. apply IH. eapply clean_ascii; eauto. Qed.
Lemma blank_ascii w : blank w -> Forall (fun c => c < 128) w.
Proof. apply Forall_impl. intros c h. lia. Qed.

Lemma pstr_clean : forall f s acc b r, pstr f s acc = POk b r -> unescaped s ->
  exists t b', s = t ++ 34 :: r /\ jchars t b' /\ unescaped r.
Proof.
  induction f as [|f IH]; intros s acc b r; cbn [pstr]; [discriminate|].
  destruct s as [|c s]; [discriminate|]. intros h hc.
  destruct (Z.eqb_spec c 34) as [->|n].
  { injection h as <- <-. exists [], []. split; [reflexivity|]. split; [constructor|]. eapply clean_ascii; eauto. lia. }
  destruct (clean_cons c s hc) as [(h1 & h2 & h3 & h4)|(h1 & x & r' & hx & hx32 & hx92 & hx34 & E & h4)].
  - replace (c =? 92) with false in h by (symmetry; apply Z.eqb_neq; exact h3).
    replace (128 <=? c) with false in h by (symmetry; apply Z.leb_gt; exact h1).
    destruct (IH _ _ _ _ h h4) as (t & b' & -> & ht & hr). exists (c :: t), (c :: b'). split; [reflexivity|]. split; [|exact hr].
    replace (c :: t) with (enc_utf8 c ++ t) by (unfold enc_utf8; rewrite (ltb_t c 128 h1); reflexivity).
    replace (c :: b') with (enc_utf8 c ++ b') by (unfold enc_utf8; rewrite (ltb_t c 128 h1); reflexivity).
    constructor; [constructor; auto; unfold scalar; lia|exact ht].
  - replace (c =? 92) with false in h by (symmetry; apply Z.eqb_neq; lia).
    replace (128 <=? c) with true in h by (symmetry; apply Z.leb_le; exact h1).
    rewrite E, (step_enc x r' hx), <- (enc_len_length x), skipn_app_exact, firstn_app_exact in h.
    destruct (IH _ _ _ _ h h4) as (t & b' & -> & ht & hr). exists (enc_utf8 x ++ t), (enc_utf8 x ++ b').
    rewrite E, <- app_assoc. split; [reflexivity|]. split; [|exact hr]. constructor; [constructor; auto|exact ht].
Qed.

Section Sound.
Variable rd : list Z -> option Z.
Local Notation jvalue := (jvalue rd any_int).
Local Notation jelems := (jelems rd any_int).
Local Notation jmembers := (jmembers rd any_int).

Lemma number_ascii t v : jvalue t v -> number v -> Forall (fun c => c < 128) t.
Proof.
  assert (D : forall l, Forall (fun c => 48 <= c <= 57) l -> Forall (fun c => c < 128) l)
    by (intros l; apply Forall_impl; intros; lia).
  assert (J : forall i, jint i -> Forall (fun c => c < 128) i).
  { intros i [->|((_ & h) & _)]; [repeat constructor|auto]. }
  intros [| | |t' z h hz|t' b h hb|t' b h|w h|t' l h|w h|t' l h]; cbn; try contradiction; intros _.
  - destruct h as [u h|u h]; cbn [app]; auto. constructor; [lia|auto].
  - destruct h as (g & i & f & e & -> & hg & hi & hf & he & _).
    repeat (apply Forall_app; split); auto.
    + destruct hg as [-> | ->]; repeat constructor.
    + destruct hf as [->|(d & -> & _ & hd)]; [constructor|constructor; [lia|auto]].
    + destruct he as [->|(x & g2 & d & -> & hx & hg2 & _ & hd)]; [constructor|].
      cbn [app]. constructor; [lia|]. apply Forall_app. split; [|auto].
      destruct hg2 as [->|[->| ->]]; repeat constructor.
Qed.

Lemma parse_clean : forall f,
  (forall s v r, pval rd f s = POk v r -> unescaped s ->
     exists w t v', s = w ++ t ++ r /\ blank w /\ jvalue t v' /\ unescaped r) /\
  (forall s acc v r, parr rd f s acc = POk v r -> unescaped s -> exists t l, s = t ++ 93 :: r /\ jelems t l /\ unescaped r) /\
  (forall s acc v r, pobj rd f s acc = POk v r -> unescaped s -> exists t l, s = t ++ 125 :: r /\ jmembers t l /\ unescaped r).
Proof.
  induction f as [|f (IV & IA & IO)]; [repeat split; intros; discriminate|]. split; [|split].
  - intros s v r h hs. destruct (pval_inv rd f s v r h) as (w & c & q & hw & -> & hc & H).
    pose proof (clean_app w (c :: q) (blank_ascii w hw) hs) as h1. exists w.
    assert (K : forall t, Forall (fun c => c < 128) t -> c :: q = t ++ r -> unescaped r).
    { intros t ht e. rewrite e in h1. eapply clean_app; eauto. }
    destruct H as [(-> & b & hb & ->)|[(-> & H)|[(-> & H)|[(-> & E & ->)|[(-> & E & ->)|[(-> & E & ->)|(hd & hp)]]]]]].
    + destruct (pstr_clean _ _ _ _ _ hb (clean_ascii _ _ h1 ltac:(lia))) as (t & b' & -> & ht & hr).
      exists (34 :: t ++ [34]), (JStr b'). cbn [app]. rewrite <- app_assoc. repeat split; auto.
      apply VStr. exists t. auto.
    + pose proof (clean_ascii _ _ h1 ltac:(lia)) as hq. destruct H as [(w2 & hw2 & -> & ->)|h2].
      * exists (123 :: w2 ++ [125]), (JObj []). cbn [app]. rewrite <- app_assoc. repeat split; auto; [apply (VObj0 rd any_int w2 hw2)|].
        apply (clean_app (w2 ++ [125])); [apply Forall_app; split; [apply blank_ascii, hw2|repeat constructor]|].
        rewrite <- app_assoc. exact hq.
      * destruct (skip_split q) as (w2 & hw2 & e2). rewrite e2 in hq. apply clean_app in hq; [|apply blank_ascii, hw2].
        destruct (IO _ _ _ _ h2 hq) as (t & l & e3 & ht & hr). eexists (123 :: (w2 ++ t) ++ [125]), _.
        rewrite e2, e3. cbn [app]. rewrite <- !app_assoc. cbn [app]. repeat split; auto.
        change (123 :: w2 ++ t ++ [125]) with ([123] ++ w2 ++ t ++ [125]). rewrite (app_assoc w2). apply VObj.
        instantiate (1 := l). destruct ht as [w1 k b wa wb u wc x|w1 k b wa wb u wc x y l]; rewrite app_assoc; constructor; auto; apply blank_app; auto.
    + pose proof (clean_ascii _ _ h1 ltac:(lia)) as hq. destruct H as [(w2 & hw2 & -> & ->)|h2].
      * exists (91 :: w2 ++ [93]), (JArr []). cbn [app]. rewrite <- app_assoc. repeat split; auto; [apply (VArr0 rd any_int w2 hw2)|].
        apply (clean_app (w2 ++ [93])); [apply Forall_app; split; [apply blank_ascii, hw2|repeat constructor]|].
        rewrite <- app_assoc. exact hq.
      * destruct (skip_split q) as (w2 & hw2 & e2). rewrite e2 in hq. apply clean_app in hq; [|apply blank_ascii, hw2].
        destruct (IA _ _ _ _ h2 hq) as (t & l & e3 & ht & hr). exists (91 :: (w2 ++ t) ++ [93]), (JArr l).
        rewrite e2, e3. cbn [app]. rewrite <- !app_assoc. cbn [app]. repeat split; auto.
        change (91 :: w2 ++ t ++ [93]) with ([91] ++ w2 ++ t ++ [93]). rewrite (app_assoc w2). apply VArr.
        destruct ht as [w1 u wa x|w1 u wa x y l]; rewrite app_assoc; constructor; auto; apply blank_app; auto.
    + exists t_true, JTrue. rewrite E. repeat split; auto; [constructor|]. apply (K t_true); auto. repeat constructor.
    + exists t_false, JFalse. rewrite E. repeat split; auto; [constructor|]. apply (K t_false); auto. repeat constructor.
    + exists t_null, JNull. rewrite E. repeat split; auto; [constructor|]. apply (K t_null); auto. repeat constructor.
    + destruct (pnum_inv rd _ _ _ hp) as (t & E & hn & hl & v' & hv). exists t, v'. rewrite E. repeat split; auto.
      apply (K t); auto. clear -hv hl E hd.
      assert (number v').
      { inversion hv; subst; cbn; auto; cbn in E; try (injection E as -> _; lia).
        destruct H as (u & -> & _). cbn in E. injection E as -> _. lia. }
      eapply number_ascii; eauto.
  - intros s acc v r h hs. destruct (parr_inv rd f s acc v r h) as (x & r1 & w & hv & hw & H).
    destruct (IV _ _ _ hv hs) as (w1 & t & v' & -> & hw1 & hv' & hr1).
    destruct H as [(r2 & -> & h2)|(-> & ->)].
    + assert (hr2 : unescaped r2).
      { apply (clean_app (w ++ [44])); [apply Forall_app; split; [apply blank_ascii, hw|repeat constructor]|]. rewrite <- app_assoc. exact hr1. }
      destruct (IA _ _ _ _ h2 hr2) as (t2 & l & -> & ht & hr). exists (w1 ++ t ++ w ++ [44] ++ t2), (v' :: l).
      split; [rewrite <- !app_assoc; reflexivity|]. split; [constructor; auto|exact hr].
    + exists (w1 ++ t ++ w), [v']. split; [rewrite <- !app_assoc; reflexivity|]. split; [constructor; auto|].
      apply (clean_app (w ++ [93])); [apply Forall_app; split; [apply blank_ascii, hw|repeat constructor]|]. rewrite <- app_assoc. exact hr1.
  - intros s acc v r h hs.
    destruct (pobj_inv rd f s acc v r h) as (w1 & r1 & k & r2 & w2 & r3 & x & r4 & w3 & hw1 & -> & hk & hw2 & -> & hv & hw3 & H).
    apply clean_app in hs; [|apply blank_ascii, hw1]. apply clean_ascii in hs; [|lia].
    destruct (pstr_clean _ _ _ _ _ hk hs) as (kt & kb & -> & hkt & hs2).
    assert (hs3 : unescaped r3).
    { apply (clean_app (w2 ++ [58])); [apply Forall_app; split; [apply blank_ascii, hw2|repeat constructor]|]. rewrite <- app_assoc. exact hs2. }
    destruct (IV _ _ _ hv hs3) as (w4 & t & v' & -> & hw4 & hv' & hr4).
    assert (K : jstring (34 :: kt ++ [34]) kb) by (exists kt; auto).
    destruct H as [(r5 & -> & h2)|(-> & ->)].
    + assert (hr5 : unescaped r5).
      { apply (clean_app (w3 ++ [44])); [apply Forall_app; split; [apply blank_ascii, hw3|repeat constructor]|]. rewrite <- app_assoc. exact hr4. }
      destruct (IO _ _ _ _ h2 hr5) as (t2 & l & -> & ht & hr).
      exists (w1 ++ (34 :: kt ++ [34]) ++ w2 ++ [58] ++ w4 ++ t ++ w3 ++ [44] ++ t2), ((kb, v') :: l).
      split; [repeat (rewrite <- !app_assoc; cbn [app]); reflexivity|]. split; [constructor; auto|exact hr].
    + exists (w1 ++ (34 :: kt ++ [34]) ++ w2 ++ [58] ++ w4 ++ t ++ w3), [(kb, v')].
      split; [repeat (rewrite <- !app_assoc; cbn [app]); reflexivity|]. split; [constructor; auto|].
      apply (clean_app (w3 ++ [125])); [apply Forall_app; split; [apply blank_ascii, hw3|repeat constructor]|]. rewrite <- app_assoc. exact hr4.
Qed.

Theorem accepted_is_json s v r : unescaped s -> json_parse rd s = POk v r ->
  exists p v', s = p ++ r /\ jtext rd any_int p v'.
Proof.
  intros hs h. destruct (proj1 (parse_clean _) _ _ _ h hs) as (w & t & v' & -> & hw & hv & _).
  exists (w ++ t), v'. split; [apply app_assoc|]. exists w, [], t. rewrite app_nil_r. repeat split; auto. constructor.
Qed.
End Sound.
