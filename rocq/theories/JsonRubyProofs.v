(** The generator written in Ruby: its texts under every layout, nesting, ASCII. *)
From Coq Require Import ZArith List Bool Lia.
From Verif Require MarshalModel.
From Verif Require Import Utf8Model Utf8Spec Utf8Proofs JsonModel JsonSpec JsonProofs JsonGenProofs.
Import ListNotations.
Open Scope Z_scope.

(** * A JSON text is UTF-8 *)
Lemma blank_valid w : blank w -> utf8_valid w.
Proof. intro h. apply valid_ascii. eapply Forall_impl; [|exact h]. cbn. intros; lia. Qed.
Lemma digits_ascii l : Forall (fun c => 48 <= c <= 57) l -> Forall (fun x => 0 <= x < 128) l.
Proof. intro h. eapply Forall_impl; [|exact h]. cbn. intros; lia. Qed.
Lemma jint_ascii t : jint t -> Forall (fun x => 0 <= x < 128) t.
Proof. intros [-> |((_ & h) & _)]; [repeat constructor; lia|apply digits_ascii, h]. Qed.
Lemma jinteger_ascii t z : jinteger t z -> Forall (fun x => 0 <= x < 128) t.
Proof. intros [u h|u h]; [apply jint_ascii, h|]. constructor; [lia|apply jint_ascii, h]. Qed.
Lemma jdecimal_ascii t : jdecimal t -> Forall (fun x => 0 <= x < 128) t.
Proof.
  intros (g & i & f & e & -> & hg & hi & hf & he & _). repeat (apply Forall_app; split).
  - destruct hg as [-> | ->]; repeat constructor; lia.
  - apply jint_ascii, hi.
  - destruct hf as [-> |(d & -> & _ & h)]; [constructor|]. constructor; [lia|apply digits_ascii, h].
  - destruct he as [-> |(x & s & d & -> & hx & hs & _ & h)]; [constructor|]. constructor; [lia|].
    apply Forall_app. split; [|apply digits_ascii, h]. destruct hs as [-> |[-> | ->]]; repeat constructor; lia.
Qed.
Lemma hex_digit_ascii c d : hex_digit c d -> 0 <= c < 128.
Proof. intros []; lia. Qed.
Lemma code_unit_ascii t u : code_unit t u -> Forall (fun x => 0 <= x < 128) t.
Proof.
  intros (a & b & c & d & x & y & z & w & -> & h1 & h2 & h3 & h4 & _).
  repeat constructor; eapply hex_digit_ascii; eassumption.
Qed.
Lemma jchar_valid t c : jchar t c -> utf8_valid t.
Proof.
  intros [c' h _ _ _|e c' h|t' u h _|t1 u1 t2 u2 h1 h2 _ _]; [apply valid_enc, h| | |]; apply valid_ascii.
  - cbn in h. repeat destruct h as [h|h]; try contradiction; inversion h; subst; repeat constructor; lia.
  - do 2 (constructor; [lia|]). eapply code_unit_ascii, h.
  - do 2 (constructor; [lia|]). apply Forall_app. split; [eapply code_unit_ascii, h1|].
    do 2 (constructor; [lia|]). eapply code_unit_ascii, h2.
Qed.
Lemma jchars_valid t b : jchars t b -> utf8_valid t.
Proof.
  induction 1 as [|t c r b h _ IH]; [exists []; split; [constructor|reflexivity]|].
  apply valid_app; [eapply jchar_valid, h|exact IH].
Qed.
Lemma one_valid c : 0 <= c < 128 -> utf8_valid [c].
Proof. intro h. apply valid_ascii. repeat constructor; lia. Qed.
Lemma jstring_valid t b : jstring t b -> utf8_valid t.
Proof.
  intros (u & -> & h). apply valid_app; [apply one_valid; lia|]. apply valid_app; [eapply jchars_valid, h|apply one_valid; lia].
Qed.
Section Valid.
Variables (rd : list Z -> option Z) (ok : Z -> Prop).
Lemma json_valid :
  (forall t v, jvalue rd ok t v -> utf8_valid t) /\ (forall t l, jelems rd ok t l -> utf8_valid t) /\
  (forall t l, jmembers rd ok t l -> utf8_valid t).
Proof.
  apply (jvalue_mut rd ok); intros;
    repeat apply valid_app; try apply (one_valid 91); try apply (one_valid 93); try apply (one_valid 123);
    try apply (one_valid 125); try apply (one_valid 44); try apply (one_valid 58); try lia; try (apply blank_valid; assumption);
    try assumption; try (eapply jstring_valid; eassumption); try (eapply valid_ascii, jinteger_ascii; eassumption);
    try (eapply valid_ascii, jdecimal_ascii; eassumption); apply valid_ascii; repeat constructor; lia.
Qed.
End Valid.

(** * Results in a row *)
Lemma each_ok (A B : Type) (f : A -> gres) (R : list Z -> B -> Prop) (l : list A) (m : list B) :
  Forall2 (fun x y => exists t, f x = GOk t /\ R t y) l m ->
  exists ts, each (map f l) = inl ts /\ Forall2 R ts m.
Proof.
  induction 1 as [|x y l m (t & e & r) _ (ts & E & F)]; [exists []; split; [reflexivity|constructor]|].
  exists (t :: ts). cbn [map each]. rewrite e, E. split; [reflexivity|constructor; assumption].
Qed.
Lemma each_inv l : forall ts, each l = inl ts -> l = map GOk ts.
Proof.
  induction l as [|[t|e] l IH]; intros ts h; cbn [each] in h; [injection h as <-; reflexivity| |discriminate].
  destruct (each l) as [us|e] eqn:E; [|discriminate]. injection h as <-. rewrite (IH us eq_refl). reflexivity.
Qed.

Lemma nesting_arr x l : In x l -> (nesting x < nesting (RArr l))%nat.
Proof.
  intro h. cbn [nesting]. apply le_n_S. induction l as [|y l IH]; [contradiction|].
  destruct h as [-> |h]; [apply Nat.le_max_l|]. etransitivity; [apply IH, h|apply Nat.le_max_r].
Qed.
Lemma nesting_hash p l : In p l -> (nesting (snd p) < nesting (RHash l))%nat.
Proof.
  intro h. cbn [nesting]. apply le_n_S. induction l as [|[k y] l IH]; [contradiction|].
  destruct h as [<- |h]; [apply Nat.le_max_l|]. etransitivity; [apply IH, h|apply Nat.le_max_r].
Qed.

Section Ruby.
Variables (fto_s : Z -> list Z) (recode : Z -> list Z -> option (list Z)) (rd : list Z -> option Z).
Hypothesis HF : format_ok fto_s rd.
Variable ok : Z -> Prop.

(** Layouts made of blanks. *)
Definition layout_ok (st : state) : Prop :=
  blank (s_indent st) /\ blank (s_space st) /\ blank (s_space_before st) /\ blank (s_object_nl st) /\ blank (s_array_nl st).
Definition fits (st : state) (d : nat) (v : rv) : Prop :=
  s_max_nesting st = 0 \/ Z.of_nat d + Z.of_nat (nesting v) <= s_max_nesting st.

Lemma times_blank n s : blank s -> blank (times n s).
Proof. intro h. induction n as [|n IH]; [constructor|]. apply blank_app; auto. Qed.
Lemma ind_blank (st : state) (nl : list Z) k : blank (s_indent st) -> blank (match nl with [] => [] | _ => times k (s_indent st) end : list Z).
Proof. intro h. destruct nl; [constructor|apply times_blank, h]. Qed.
Lemma str_to_json_ok st b : utf8_valid b -> exists t, str_to_json recode st 0 b = GOk t /\ jstring t b.
Proof.
  intro h. unfold str_to_json. cbn [Z.eqb]. rewrite (ok_of_valid b h).
  destruct (s_ascii_only st); eexists; (split; [reflexivity|]); eexists; (split; [reflexivity|]).
  - apply ascii_ok, h.
  - apply utf8_to_json_ok, h.
Qed.
Lemma flo_ok st b : finite b -> flo_to_json fto_s st b = GOk (fto_s b) /\ jvalue rd ok (fto_s b) (JFlo b).
Proof.
  intros (h1 & h2). unfold flo_to_json. rewrite h1, h2. destruct (HF b (conj h1 h2)) as (h3 & h4). split; [reflexivity|constructor; auto].
Qed.
Lemma nest_ok st d n : s_max_nesting st = 0 \/ Z.of_nat d + Z.of_nat (S n) <= s_max_nesting st ->
  negb (s_max_nesting st =? 0) && (s_max_nesting st <? Z.of_nat d + 1) = false.
Proof.
  intros [->|h]; [reflexivity|]. apply andb_false_iff. right. apply Z.ltb_ge. lia.
Qed.

Theorem to_json_ok st : layout_ok st -> forall v j top d, says v j -> all_ints ok j -> fits st d v ->
  exists t, to_json fto_s recode st top d v = GOk t /\ jvalue rd ok t j.
Proof.
  intros (L1 & L2 & L3 & L4 & L5) v.
  induction v as [| | |z|b|e b|l IH|l IH|t] using rv_ind2; intros j top d hs hi hf; inversion hs; subst.
  - eexists; split; [reflexivity|constructor].
  - eexists; split; [reflexivity|constructor].
  - eexists; split; [reflexivity|constructor].
  - eexists; split; [reflexivity|]. constructor; [apply dec_text_ok|exact hi].
  - destruct (flo_ok st b H0). eexists; split; eassumption.
  - cbn [to_json]. destruct (str_to_json_ok st b ltac:(assumption)) as (t & e & h). exists t. split; [exact e|constructor; exact h].
  - cbn [to_json]. rewrite (nest_ok st d _ hf). destruct l as [|x l].
    + inversion H0; subst. exists [91; 93]. split; [reflexivity|]. exact (VArr0 rd ok [] (Forall_nil _)).
    + apply all_ints_arr in hi.
      set (ind := fun k => match s_array_nl st with [] => [] | _ => times k (s_indent st) end).
      assert (F : Forall2 (fun x y => exists t, then_ (to_json fto_s recode st false (S d) x) (fun t => GOk (ind (S d) ++ t)) = GOk t /\
                   (exists u, t = ind (S d) ++ u /\ jvalue rd ok u y)) (x :: l) m).
      { assert (hf' : Forall (fun y => fits st (S d) y) (x :: l)).
        { apply Forall_forall. intros y hy. pose proof (nesting_arr y _ hy). destruct hf as [hf|hf]; [left; exact hf|right; lia]. }
        clear hs hf. revert m H0 hi hf'. induction IH as [|y l' hy hl IHl]; intros m h hi hf'; inversion h; subst; constructor.
        - inversion hi; subst. inversion hf'; subst. destruct (hy y0 false (S d)) as (t & e & j); auto.
          rewrite e. eexists. split; [reflexivity|]. exists t. auto.
        - inversion hi; subst. inversion hf'; subst. apply IHl; auto. }
      destruct (each_ok _ _ _ _ _ _ F) as (ts & E & G). fold (ind (S d)). fold (ind d).
      rewrite E. eexists. split; [reflexivity|].
      assert (W : exists us, ts = map (fun u => ind (S d) ++ u) us /\ Forall2 (jvalue rd ok) us m).
      { clear - G. induction G as [|t y ts m (u & -> & h) _ (us & -> & I)]; [exists []; split; [reflexivity|constructor]|].
        exists (u :: us). split; [reflexivity|constructor; assumption]. }
      destruct W as (us & -> & J).
      assert (N : us <> []) by (intros ->; inversion J; subst; inversion F).
      assert (BI : forall k, blank (ind k)) by (intro k; apply (ind_blank st (s_array_nl st)); exact L1).
      pose proof (elems_join rd ok (s_array_nl st) (ind (S d)) (s_array_nl st ++ ind d) L5 (BI (S d)) (blank_app _ _ L5 (BI d)) us m J N) as M.
      apply VArr in M. rewrite <- !app_assoc in M. exact M.
  - cbn [to_json]. rewrite (nest_ok st d _ hf). destruct l as [|x l].
    + inversion H0; subst. exists [123; 125]. split; [reflexivity|]. exact (VObj0 rd ok [] (Forall_nil _)).
    + apply all_ints_obj in hi.
      set (ind := fun k => match s_object_nl st with [] => [] | _ => times k (s_indent st) end).
      assert (F : Forall2 (fun p q => exists t, (let '(e, k) := key_to_s fto_s (fst p) in
                 then_ (str_to_json recode st e k) (fun kt =>
                 then_ (to_json fto_s recode st false (S d) (snd p)) (fun vt =>
                 GOk (ind (S d) ++ kt ++ s_space_before st ++ [58] ++ s_space st ++ vt)))) = GOk t /\
                   (exists u, t = member_text (ind (S d)) (s_space_before st) (s_space st) u /\
                     jstring (fst u) (fst q) /\ jvalue rd ok (snd u) (snd q))) (x :: l) m).
      { assert (hf' : Forall (fun y => fits st (S d) (snd y)) (x :: l)).
        { apply Forall_forall. intros y hy. pose proof (nesting_hash y _ hy). destruct hf as [hf|hf]; [left; exact hf|right; lia]. }
        clear hs hf H1. revert m H0 hi hf'. induction IH as [|y l' hy hl IHl]; intros m h hi hf';
          inversion h as [|p q l2 m2 (ek & hk & hv) h2]; subst; constructor.
        - inversion hi; subst. inversion hf'; subst. rewrite ek. cbn [key_to_s].
          destruct (str_to_json_ok st _ hk) as (kt & e1 & j1). rewrite e1. cbn [then_].
          destruct (hy (snd q) false (S d)) as (t & e & j); auto.
          rewrite e. eexists. split; [reflexivity|]. exists (kt, t). auto.
        - inversion hi; subst. inversion hf'; subst. apply IHl; auto. }
      destruct (each_ok _ _ _ _ _ _ F) as (ts & E & G). fold (ind (S d)). fold (ind d).
      rewrite E. eexists. split; [reflexivity|].
      assert (W : exists us, ts = map (member_text (ind (S d)) (s_space_before st) (s_space st)) us /\
        Forall2 (fun p q => jstring (fst p) (fst q) /\ jvalue rd ok (snd p) (snd q)) us m).
      { clear - G. induction G as [|t y ts m (u & -> & h) _ (us & -> & I)]; [exists []; split; [reflexivity|constructor]|].
        exists (u :: us). split; [reflexivity|constructor; assumption]. }
      destruct W as (us & -> & J).
      assert (N : us <> []) by (intros ->; inversion J; subst; inversion F).
      assert (BI : forall k, blank (ind k)) by (intro k; apply (ind_blank st (s_object_nl st)); exact L1).
      pose proof (obj_value rd ok (s_object_nl st) (ind (S d)) (s_space_before st) (s_space st) (s_object_nl st ++ ind d) us m
        L4 (BI (S d)) L3 L2 (blank_app _ _ L4 (BI d)) J N H1) as M.
      rewrite <- !app_assoc in M. exact M.
Qed.

(** Too deep: NestingError. *)
Definition fits_dec st d v : {fits st d v} + {~ fits st d v}.
Proof.
  unfold fits. destruct (Z.eq_dec (s_max_nesting st) 0); [left; auto|].
  destruct (Z_le_dec (Z.of_nat d + Z.of_nat (nesting v)) (s_max_nesting st)); [left; auto|right; lia].
Defined.
Lemma each_fail (A : Type) (f : A -> gres) (l : list A) e : (exists x, In x l /\ f x = GErr e) ->
  (forall x, In x l -> f x = GErr e \/ exists t, f x = GOk t) -> each (map f l) = inr e.
Proof.
  induction l as [|a l IH]; intros (x & hx & ex) h; [contradiction|]. cbn [map each].
  destruct (h a (or_introl eq_refl)) as [ea|(t & ea)]; rewrite ea; [reflexivity|].
  rewrite IH; [reflexivity| |intros; apply h; right; assumption].
  destruct hx as [-> |hx]; [congruence|]. exists x. auto.
Qed.
Lemma nesting_arr_max l n : (n < nesting (RArr l))%nat -> n = O \/ exists x, In x l /\ (n <= nesting x)%nat.
Proof.
  intro h. cbn [nesting] in h. apply le_S_n in h. induction l as [|y l IH]; [left; lia|].
  apply Nat.max_le in h. destruct h as [h|h]; [right; exists y; split; [left; reflexivity|exact h]|].
  destruct (IH h) as [e|(x & i & e)]; [left; exact e|right; exists x; split; [right; exact i|exact e]].
Qed.
Lemma nesting_hash_max l n : (n < nesting (RHash l))%nat -> n = O \/ exists x, In x l /\ (n <= nesting (snd x))%nat.
Proof.
  intro h. cbn [nesting] in h. apply le_S_n in h. induction l as [|[k y] l IH]; [left; lia|].
  apply Nat.max_le in h. destruct h as [h|h]; [right; exists (k, y); split; [left; reflexivity|exact h]|].
  destruct (IH h) as [e|(x & i & e)]; [left; exact e|right; exists x; split; [right; exact i|exact e]].
Qed.
Lemma forall2_in (A B : Type) (R : A -> B -> Prop) l m x : Forall2 R l m -> In x l -> exists y, In y m /\ R x y.
Proof. induction 1 as [|a b l m r _ IH]; intros []; [subst; exists b; split; [left|]; auto|]. destruct IH as (y & i & q); auto. exists y. split; [right|]; auto. Qed.

Theorem to_json_deep st : layout_ok st -> forall v j top d, says v j -> all_ints ok j -> ~ fits st d v ->
  Z.of_nat d <= s_max_nesting st -> to_json fto_s recode st top d v = GErr NestingError.
Proof.
  intros L v.
  induction v as [| | |z|b|e b|l IH|l IH|t] using rv_ind2; intros j top d hs hi hf hd; inversion hs; subst;
    try (exfalso; apply hf; right; cbn [nesting]; lia).
  - cbn [to_json]. destruct (Z.eqb_spec (s_max_nesting st) 0); [exfalso; apply hf; left; assumption|]. cbn [negb andb].
    destruct (Z.ltb_spec (s_max_nesting st) (Z.of_nat d + 1)); [reflexivity|].
    destruct l as [|x l]; [exfalso; apply hf; right; cbn [nesting]; lia|].
    rewrite (each_fail _ _ _ NestingError); [reflexivity| |].
    + assert (K : exists y, In y (x :: l) /\ ~ fits st (S d) y).
      { destruct (nesting_arr_max (x :: l) (Nat.pred (nesting (RArr (x :: l)))) ltac:(cbn [nesting]; lia)) as [E|(y & i & E)].
        - exfalso. apply hf. right. assert (nesting (RArr (x :: l)) = 1%nat) by (cbn [nesting] in *; lia). lia.
        - exists y. split; [exact i|]. intros [F|F]; [congruence|]. apply hf. right. lia. }
      destruct K as (y & i & nf). exists y. split; [exact i|].
      destruct (forall2_in _ _ _ _ _ y H0 i) as (z & iz & sz). apply all_ints_arr in hi. rewrite Forall_forall in IH, hi.
      rewrite (IH y i z false (S d) sz (hi z iz) nf); [reflexivity|lia].
    + intros y i. destruct (forall2_in _ _ _ _ _ y H0 i) as (z & iz & sz). apply all_ints_arr in hi. rewrite Forall_forall in IH, hi.
      destruct (fits_dec st (S d) y) as [F|F].
      * right. destruct (to_json_ok st L y z false (S d) sz (hi z iz) F) as (t & e & _). rewrite e. eexists. reflexivity.
      * left. rewrite (IH y i z false (S d) sz (hi z iz) F); [reflexivity|lia].
  - cbn [to_json]. destruct (Z.eqb_spec (s_max_nesting st) 0); [exfalso; apply hf; left; assumption|]. cbn [negb andb].
    destruct (Z.ltb_spec (s_max_nesting st) (Z.of_nat d + 1)); [reflexivity|].
    destruct l as [|x l]; [exfalso; apply hf; right; cbn [nesting]; lia|].
    rewrite (each_fail _ _ _ NestingError); [reflexivity| |].
    + assert (K : exists y, In y (x :: l) /\ ~ fits st (S d) (snd y)).
      { destruct (nesting_hash_max (x :: l) (Nat.pred (nesting (RHash (x :: l)))) ltac:(cbn [nesting]; lia)) as [E|(y & i & E)].
        - exfalso. apply hf. right. assert (nesting (RHash (x :: l)) = 1%nat) by (cbn [nesting] in *; lia). lia.
        - exists y. split; [exact i|]. intros [F|F]; [congruence|]. apply hf. right. lia. }
      destruct K as (y & i & nf). exists y. split; [exact i|].
      destruct (forall2_in _ _ _ _ _ y H0 i) as (z & iz & (ek & hk & sz)). apply all_ints_obj in hi. rewrite Forall_forall in IH, hi.
      rewrite ek. cbn [key_to_s]. destruct (str_to_json_ok st _ hk) as (kt & e1 & _). rewrite e1. cbn [then_].
      rewrite (IH y i (snd z) false (S d) sz (hi z iz) nf); [reflexivity|lia].
    + intros y i. destruct (forall2_in _ _ _ _ _ y H0 i) as (z & iz & (ek & hk & sz)). apply all_ints_obj in hi. rewrite Forall_forall in IH, hi.
      rewrite ek. cbn [key_to_s]. destruct (str_to_json_ok st _ hk) as (kt & e1 & _). rewrite e1. cbn [then_].
      destruct (fits_dec st (S d) (snd y)) as [F|F].
      * right. destruct (to_json_ok st L (snd y) (snd z) false (S d) sz (hi z iz) F) as (t & e & _). rewrite e. eexists. reflexivity.
      * left. rewrite (IH y i (snd z) false (S d) sz (hi z iz) F); [reflexivity|lia].
Qed.

(** The short cut. *)
Lemma fast_string_ok b : utf8_valid b -> exists t, fast_string recode 0 b = GOk t /\ jstring t b.
Proof.
  intro h. unfold fast_string. cbn [Z.eqb]. rewrite (ok_of_valid b h). eexists; (split; [reflexivity|]); eexists; (split; [reflexivity|]).
  apply esc_chars; auto; [apply esc_map_ok|apply esc_map_high].
Qed.
Lemma generate_json_ok st v : forall j, says v j -> all_ints ok j ->
  exists t, generate_json fto_s recode st v = GOk t /\ jvalue rd ok t j.
Proof.
  induction v as [| | |z|b|e b|l IH|l IH|t] using rv_ind2; intros j hs hi; inversion hs; subst.
  - eexists; split; [reflexivity|constructor].
  - eexists; split; [reflexivity|constructor].
  - eexists; split; [reflexivity|constructor].
  - eexists; split; [reflexivity|]. constructor; [apply dec_text_ok|exact hi].
  - destruct (flo_ok st b H0). eexists; split; eassumption.
  - cbn [generate_json]. destruct (fast_string_ok b ltac:(assumption)) as (t & e & h). exists t. split; [exact e|constructor; exact h].
  - cbn [generate_json]. apply all_ints_arr in hi.
    assert (F : Forall2 (fun x y => exists t, generate_json fto_s recode st x = GOk t /\ jvalue rd ok t y) l m).
    { clear hs. revert m H0 hi. induction IH as [|y l' hy hl IHl]; intros m h hi; inversion h; subst; constructor.
      - inversion hi; subst. apply hy; auto.
      - inversion hi; subst. apply IHl; auto. }
    destruct (each_ok _ _ _ _ _ _ F) as (ts & E & J). rewrite E. eexists. split; [reflexivity|].
    destruct ts as [|t ts]; [inversion J; subst; exact (VArr0 rd ok [] (Forall_nil _))|].
    pose proof (elems_join rd ok [] [] [] (Forall_nil _) (Forall_nil _) (Forall_nil _) _ _ J ltac:(discriminate)) as M.
    apply VArr in M. rewrite (map_ext (fun t : list Z => [] ++ t) (fun t => t)), map_id, app_nil_r in M by reflexivity. exact M.
  - cbn [generate_json]. apply all_ints_obj in hi.
    assert (F : Forall2 (fun p q => exists t, (let '(e, k) := key_to_s fto_s (fst p) in
          then_ (fast_string recode e k) (fun kt => then_ (generate_json fto_s recode st (snd p)) (fun vt => GOk (kt ++ [58] ++ vt)))) = GOk t /\
          (exists u, t = member_text [] [] [] u /\ jstring (fst u) (fst q) /\ jvalue rd ok (snd u) (snd q))) l m).
    { clear hs H1. revert m H0 hi. induction IH as [|y l' hy hl IHl]; intros m h hi;
          inversion h as [|p q l2 m2 (ek & hk & hv) h2]; subst; constructor.
      - inversion hi; subst. rewrite ek. cbn [key_to_s]. destruct (fast_string_ok _ hk) as (kt & e1 & j1). rewrite e1. cbn [then_].
        destruct (hy (snd q)) as (t & e & j); auto. rewrite e. eexists. split; [reflexivity|]. exists (kt, t). auto.
      - inversion hi; subst. apply IHl; auto. }
    destruct (each_ok _ _ _ _ _ _ F) as (ts & E & G). rewrite E. eexists. split; [reflexivity|].
    assert (W : exists us, ts = map (member_text [] [] []) us /\
        Forall2 (fun p q => jstring (fst p) (fst q) /\ jvalue rd ok (snd p) (snd q)) us m).
    { clear - G. induction G as [|t y ts m (u & -> & h) _ (us & -> & I)]; [exists []; split; [reflexivity|constructor]|].
      exists (u :: us). split; [reflexivity|constructor; assumption]. }
    destruct W as (us & -> & J). destruct us as [|u us]; [inversion J; subst; exact (VObj0 rd ok [] (Forall_nil _))|].
    pose proof (obj_value rd ok [] [] [] [] [] _ m (Forall_nil _) (Forall_nil _) (Forall_nil _) (Forall_nil _) (Forall_nil _) J ltac:(discriminate) H1) as M.
    rewrite app_nil_r in M. exact M.
Qed.

Theorem state_generate_ok st v j : layout_ok st -> says v j -> all_ints ok j -> 0 <= s_max_nesting st ->
  (fits st 0 v -> exists t, state_generate fto_s recode st v = GOk t /\ jvalue rd ok t j) /\
  (~ fits st 0 v -> state_generate fto_s recode st v = GErr NestingError).
Proof.
  intros L hs hi hm. unfold state_generate.
  match goal with |- context [if ?c then generate_json _ _ _ _ else _] => destruct c eqn:C end.
  - assert (Z0 : s_max_nesting st = 0).
    { apply andb_true_iff in C. destruct C as (C & _). apply andb_true_iff in C. apply Z.eqb_eq, C. }
    split; [|intro n; exfalso; apply n; left; exact Z0]. intros _.
    destruct (generate_json_ok st v j hs hi) as (t & e & h). rewrite e, (ok_of_valid t) by (exact (proj1 (json_valid rd ok) t j h)). exists t. auto.
  - split.
    + intro F. destruct (to_json_ok st L v j true O hs hi F) as (t & e & h).
      rewrite e, (ok_of_valid t) by (exact (proj1 (json_valid rd ok) t j h)). exists t. auto.
    + intro F. rewrite (to_json_deep st L v j true O hs hi F) by lia. reflexivity.
Qed.
End Ruby.

(** * Floats that are not numbers *)
Fixpoint all_finite (v : rv) : Prop :=
  match v with
  | RFlo b => finite b
  | RArr l => (fix go l := match l with [] => True | x :: r => all_finite x /\ go r end) l
  | RHash l => (fix go l := match l with [] => True | (_, x) :: r => all_finite x /\ go r end) l
  | _ => True
  end.
Section Finite.
Variables (fto_s : Z -> list Z) (recode : Z -> list Z -> option (list Z)) (st : state).
Hypothesis HN : s_allow_nan st = false.
Lemma flo_finite b t : flo_to_json fto_s st b = GOk t -> finite b.
Proof.
  unfold flo_to_json, finite. rewrite HN. destruct (MarshalModel.f_inf b), (MarshalModel.f_nan b); cbn; intro; try discriminate; auto.
Qed.
Lemma arr_finite l : Forall all_finite l -> all_finite (RArr l).
Proof. induction 1 as [|x l h _ IH]; [exact I|split; [exact h|exact IH]]. Qed.
Lemma hash_finite l : Forall (fun p => all_finite (snd p)) l -> all_finite (RHash l).
Proof. induction 1 as [|[k x] l h _ IH]; [exact I|split; [exact h|exact IH]]. Qed.
Lemma then_inv a k t : then_ a k = GOk t -> exists u, a = GOk u /\ k u = GOk t.
Proof. destruct a as [u|e]; cbn; intro h; [exists u; auto|discriminate]. Qed.
Lemma each_all (A : Type) (f : A -> gres) (P : A -> Prop) l ts : Forall (fun x => forall t, f x = GOk t -> P x) l ->
  each (map f l) = inl ts -> Forall P l.
Proof.
  intros F h. apply each_inv in h. revert ts h. induction F as [|x l hx _ IH]; intros ts h; constructor.
  - destruct ts as [|t ts]; [discriminate|]. injection h as e _. eapply hx, e.
  - destruct ts as [|t ts]; [discriminate|]. injection h as _ e. eapply IH, e.
Qed.
Lemma to_json_finite v : forall top d t, to_json fto_s recode st top d v = GOk t -> all_finite v.
Proof.
  induction v as [| | |z|b|e b|l IH|l IH|u] using rv_ind2; intros top d t h; try exact I.
  - eapply flo_finite, h.
  - apply arr_finite. cbn [to_json] in h. destruct (negb (s_max_nesting st =? 0) && (s_max_nesting st <? Z.of_nat d + 1)); [discriminate|].
    destruct l as [|x l]; [constructor|].
    match type of h with context [each (map ?f _)] => set (ff := f) in h end.
    destruct (each (map ff (x :: l))) as [ts|e] eqn:E; [|discriminate].
    eapply (each_all _ ff); [|exact E]. eapply Forall_impl; [|exact IH]. intros y hy t' ht. subst ff. cbv beta in ht.
    apply then_inv in ht. destruct ht as (u & e & _). eapply hy, e.
  - apply hash_finite. cbn [to_json] in h. destruct (negb (s_max_nesting st =? 0) && (s_max_nesting st <? Z.of_nat d + 1)); [discriminate|].
    destruct l as [|x l]; [constructor|].
    match type of h with context [each (map ?f _)] => set (ff := f) in h end.
    destruct (each (map ff (x :: l))) as [ts|e] eqn:E; [|discriminate].
    eapply (each_all _ ff); [|exact E]. eapply Forall_impl; [|exact IH]. intros y hy t' ht. subst ff. cbv beta in ht.
    destruct (key_to_s fto_s (fst y)) as [e k]. apply then_inv in ht. destruct ht as (u & _ & ht).
    apply then_inv in ht. destruct ht as (u' & e' & _). eapply hy, e'.
Qed.
Lemma generate_json_finite v : forall t, generate_json fto_s recode st v = GOk t -> all_finite v.
Proof.
  induction v as [| | |z|b|e b|l IH|l IH|u] using rv_ind2; intros t h; try exact I.
  - eapply flo_finite, h.
  - apply arr_finite. cbn [generate_json] in h.
    destruct (each (map (generate_json fto_s recode st) l)) as [ts|e] eqn:E; [|discriminate].
    eapply (each_all _ (generate_json fto_s recode st)); [|exact E]. exact IH.
  - apply hash_finite. cbn [generate_json] in h.
    match type of h with context [each (map ?f _)] => set (ff := f) in h end.
    destruct (each (map ff l)) as [ts|e] eqn:E; [|discriminate].
    eapply (each_all _ ff); [|exact E]. eapply Forall_impl; [|exact IH]. intros y hy t' ht. subst ff. cbv beta in ht.
    destruct (key_to_s fto_s (fst y)) as [e k]. apply then_inv in ht. destruct ht as (u & _ & ht).
    apply then_inv in ht. destruct ht as (u' & e' & _). eapply hy, e'.
Qed.
Theorem state_finite v t : state_generate fto_s recode st v = GOk t -> all_finite v.
Proof.
  unfold state_generate. match goal with |- context [if ?c then generate_json _ _ _ _ else _] => destruct c end.
  - destruct (generate_json fto_s recode st v) as [u|e] eqn:E; [intros _; eapply generate_json_finite, E|discriminate].
  - destruct (to_json fto_s recode st true 0 v) as [u|e] eqn:E; [intros _; eapply to_json_finite, E|discriminate].
Qed.
End Finite.

(** * ascii_only *)
Definition ascii (t : list Z) : Prop := Forall (fun x => 0 <= x < 128) t.
Lemma ascii_app a b : ascii a -> ascii b -> ascii (a ++ b).
Proof. intros. apply Forall_app. auto. Qed.
Lemma ascii_cons c t : 0 <= c < 128 -> ascii t -> ascii (c :: t).
Proof. constructor; auto. Qed.
Lemma blank_ascii w : blank w -> ascii w.
Proof. intro h. eapply Forall_impl; [|exact h]. cbn. intros; lia. Qed.
Lemma esc_byte_ascii safe c : 0 <= c < 128 -> ascii (esc_byte safe c).
Proof.
  intro h. unfold esc_byte. destruct (safe && (c =? 47)); [repeat constructor; lia|].
  unfold esc_map. eqbs; try (repeat constructor; lia). destruct (Z.ltb_spec c 32).
  - cbn [app]. repeat (apply ascii_cons; [lia|]).
    apply ascii_cons; [eapply hex_digit_ascii, hex_char_ok; split; [apply Z.div_pos; lia|apply Z.div_lt_upper_bound; lia]|].
    apply ascii_cons; [eapply hex_digit_ascii, hex_char_ok, Z.mod_pos_bound; lia|constructor].
  - repeat constructor; lia.
Qed.
Lemma utf16_ascii c : scalar c -> ascii (utf16_text c).
Proof.
  intro h. unfold utf16_text. destruct (Z.ltb_spec c 65536).
  - do 2 (apply ascii_cons; [lia|]). eapply code_unit_ascii, hex4_text_ok. unfold scalar in h. lia.
  - assert (B : 0 <= (c - 65536) / 1024 < 1024 /\ 0 <= (c - 65536) mod 1024 < 1024).
    { unfold scalar in h. split; [split; [apply Z.div_pos; lia|apply Z.div_lt_upper_bound; lia]|apply Z.mod_pos_bound; lia]. }
    do 2 (apply ascii_cons; [lia|]). apply ascii_app; [eapply code_unit_ascii, hex4_text_ok; lia|].
    do 2 (apply ascii_cons; [lia|]). eapply code_unit_ascii, hex4_text_ok; lia.
Qed.
Lemma to_json_ascii_ascii safe b : utf8_valid b -> forall f, ascii (utf8_to_json_ascii f safe b).
Proof.
  intros (cs & h & ->). induction h as [|c cs hc h IH]; intro f; cbn [map concat]; [destruct f; constructor|].
  destruct f as [|f]; [constructor|]. destruct (enc_head c hc) as (y & q & E & C).
  destruct C as [(L & -> & ->)|(L & hy)].
  - rewrite E. cbn [app utf8_to_json_ascii]. rewrite (ltb_t c 128 L). apply ascii_app; [apply esc_byte_ascii; unfold scalar in hc; lia|apply IH].
  - pose proof (step_enc c (concat (map enc_utf8 cs)) hc) as S. rewrite <- (enc_len_length c) in S.
    assert (M : utf8_to_json_ascii (Datatypes.S f) safe (enc_utf8 c ++ concat (map enc_utf8 cs)) =
      utf16_text (code_point (firstn (length (enc_utf8 c)) (enc_utf8 c ++ concat (map enc_utf8 cs)))) ++
      utf8_to_json_ascii f safe (skipn (length (enc_utf8 c)) (enc_utf8 c ++ concat (map enc_utf8 cs)))).
    { rewrite E in S |- *. cbn [app] in S |- *. cbn [utf8_to_json_ascii]. rewrite (ltb_f y 128) by lia. rewrite S. reflexivity. }
    rewrite M, firstn_app_exact, skipn_app_exact, (code_point_enc c hc). apply ascii_app; [apply utf16_ascii, hc|apply IH].
Qed.
Lemma join_ascii s l : ascii s -> Forall ascii l -> ascii (join s l).
Proof.
  intros hs. induction 1 as [|x l hx hl IH]; [constructor|]. destruct l as [|y l]; [exact hx|].
  cbn [join] in *. apply ascii_app; [exact hx|]. apply ascii_app; [exact hs|exact IH].
Qed.
Section Ascii.
Variables (fto_s : Z -> list Z) (recode : Z -> list Z -> option (list Z)) (rd : list Z -> option Z) (st : state).
Hypotheses (HF : format_ok fto_s rd) (HA : s_ascii_only st = true) (HL : layout_ok st).
Lemma str_ascii b t : utf8_valid b -> str_to_json recode st 0 b = GOk t -> ascii t.
Proof.
  intro h. unfold str_to_json. cbn [Z.eqb]. rewrite (ok_of_valid b h), HA. intro e. injection e as <-.
  apply ascii_cons; [lia|]. apply ascii_app; [apply to_json_ascii_ascii, h|repeat constructor; lia].
Qed.
Lemma each_ascii (A : Type) (f : A -> gres) l ts : (forall x t, In x l -> f x = GOk t -> ascii t) ->
  each (map f l) = inl ts -> Forall ascii ts.
Proof.
  intros F h. apply each_inv in h. revert l F h. induction ts as [|t ts IH]; intros l F h; constructor.
  - destruct l as [|x l]; [discriminate|]. injection h as e _. apply (F x t (or_introl eq_refl) e).
  - destruct l as [|x l]; [discriminate|]. injection h as _ e. apply (IH l); [intros y u i; apply F; right; exact i|exact e].
Qed.
Theorem to_json_ascii v : forall j top d t, says v j -> to_json fto_s recode st top d v = GOk t -> ascii t.
Proof.
  destruct HL as (L1 & L2 & L3 & L4 & L5).
  induction v as [| | |z|b|e b|l IH|l IH|u] using rv_ind2; intros j top d t hs h; inversion hs; subst.
  - injection h as <-. repeat constructor; lia.
  - injection h as <-. repeat constructor; lia.
  - injection h as <-. repeat constructor; lia.
  - injection h as <-. eapply jinteger_ascii, dec_text_ok.
  - destruct (flo_ok fto_s rd HF any_int st b H0) as (e & _). cbn [to_json] in h. rewrite e in h. injection h as <-.
    apply jdecimal_ascii, (HF b H0).
  - eapply str_ascii; [|exact h]. assumption.
  - cbn [to_json] in h. destruct (negb (s_max_nesting st =? 0) && (s_max_nesting st <? Z.of_nat d + 1)); [discriminate|].
    destruct l as [|x l]; [injection h as <-; repeat constructor; lia|].
    assert (BI : forall k, ascii (match s_array_nl st with [] => [] | _ => times k (s_indent st) end)).
    { intro k. apply blank_ascii, (ind_blank st). exact L1. }
    match type of h with context [each (map ?f _)] => set (ff := f) in h end.
    destruct (each (map ff (x :: l))) as [ts|e] eqn:E; [|discriminate]. injection h as <-.
    assert (F : Forall ascii ts).
    { eapply (each_ascii _ ff); [|exact E]. intros y t' i ht. subst ff. cbv beta in ht. apply then_inv in ht. destruct ht as (u & e & e').
      injection e' as <-. apply ascii_app; [exact (BI (S d))|]. destruct (forall2_in _ _ _ _ _ y H0 i) as (w & _ & sw).
      rewrite Forall_forall in IH. eapply IH; eassumption. }
    apply ascii_cons; [lia|]. apply ascii_app; [apply blank_ascii, L5|]. apply ascii_app.
    { apply join_ascii; [|exact F]. apply ascii_cons; [lia|apply blank_ascii, L5]. }
    apply ascii_app; [apply blank_ascii, L5|]. apply ascii_app; [apply BI|repeat constructor; lia].
  - cbn [to_json] in h. destruct (negb (s_max_nesting st =? 0) && (s_max_nesting st <? Z.of_nat d + 1)); [discriminate|].
    destruct l as [|x l]; [injection h as <-; repeat constructor; lia|].
    assert (BI : forall k, ascii (match s_object_nl st with [] => [] | _ => times k (s_indent st) end)).
    { intro k. apply blank_ascii, (ind_blank st). exact L1. }
    match type of h with context [each (map ?f _)] => set (ff := f) in h end.
    destruct (each (map ff (x :: l))) as [ts|e] eqn:E; [|discriminate]. injection h as <-.
    assert (F : Forall ascii ts).
    { eapply (each_ascii _ ff); [|exact E]. intros y t' i ht. subst ff. cbv beta in ht.
      destruct (forall2_in _ _ _ _ _ y H0 i) as (w & _ & (ek & hk & sw)). rewrite ek in ht. cbn [key_to_s] in ht.
      apply then_inv in ht. destruct ht as (u & e & e'). apply then_inv in e'. destruct e' as (u' & e' & e2). injection e2 as <-.
      apply ascii_app; [exact (BI (S d))|]. apply ascii_app; [eapply str_ascii; eassumption|]. apply ascii_app; [apply blank_ascii, L3|].
      apply ascii_cons; [lia|]. apply ascii_app; [apply blank_ascii, L2|].
      rewrite Forall_forall in IH. eapply IH; eassumption. }
    apply ascii_cons; [lia|]. apply ascii_app; [apply blank_ascii, L4|]. apply ascii_app.
    { apply join_ascii; [|exact F]. apply ascii_cons; [lia|apply blank_ascii, L4]. }
    apply ascii_app; [apply blank_ascii, L4|]. apply ascii_app; [apply BI|repeat constructor; lia].
Qed.
Theorem state_ascii v j t : says v j -> state_generate fto_s recode st v = GOk t -> ascii t.
Proof.
  intros hs. unfold state_generate. rewrite HA. cbn [negb]. rewrite !andb_false_r. cbn [andb].
  destruct (to_json fto_s recode st true 0 v) as [u|e] eqn:E; [|discriminate].
  destruct (utf8_ok u); [|discriminate]. intro h. injection h as <-. eapply to_json_ascii; eassumption.
Qed.
End Ascii.
