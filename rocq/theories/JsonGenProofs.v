(** The generators write JSON texts that say what they were given. *)
From Coq Require Import ZArith List Bool Lia.
From Verif Require IstrSpec IstrProofs MarshalModel.
From Verif Require Import IstrModel Utf8Model Utf8Spec Utf8Proofs JsonModel JsonSpec JsonProofs.
Import ListNotations.
Open Scope Z_scope.

(** * Integers *)
Lemma decimal_number l : forall a ds, Forall2 (fun c d => IstrSpec.digit_of 10 c d /\ ~ 65 <= c <= 90) l ds ->
  Forall (fun c => 48 <= c <= 57) l /\ decimal a l = a * 10 ^ Z.of_nat (length ds) + IstrSpec.number 10 ds.
Proof.
  induction l as [|c l IH]; intros a ds h; inversion h as [|c' d l' ds' (hd & _) h']; subst.
  - split; [constructor|]. cbn. lia.
  - assert (E : 48 <= c <= 57 /\ d = c - 48) by (unfold IstrSpec.digit_of in hd; lia). destruct E as (hc & ->).
    destruct (IH (10 * a + (c - 48)) ds' h') as (F & E). split; [constructor; auto|].
    cbn [decimal IstrSpec.number length]. rewrite E, Nat2Z.inj_succ, Z.pow_succ_r by lia. lia.
Qed.
Lemma fmt_jint n : 0 <= n -> jint (fmt_base n 10) /\ decimal 0 (fmt_base n 10) = n.
Proof.
  intro h. destruct (IstrProofs.fmt_base_ok n 10 ltac:(lia) h) as (ds & F & V & N & L).
  destruct (decimal_number _ 0 ds F) as (D & E). split; [|rewrite E, V; lia].
  destruct L as [L|L]; [left; exact L|right]. split; [split; [exact N|exact D]|exact L].
Qed.
Lemma dec_text_ok z : jinteger (dec_text z) z.
Proof.
  unfold dec_text. destruct (Z.ltb_spec z 0).
  - destruct (fmt_jint (- z) ltac:(lia)) as (h & e). pose proof (NNeg _ h) as n. rewrite e, Z.opp_involutive in n. exact n.
  - destruct (fmt_jint z ltac:(lia)) as (h & e). pose proof (NPos _ h) as n. rewrite e in n. exact n.
Qed.

(** * Strings *)
Lemma hex_char_ok d : 0 <= d < 16 -> hex_digit (hex_char d) d.
Proof.
  intro h. unfold hex_char. destruct (Z.ltb_spec d 10).
  - replace d with (48 + d - 48) at 2 by lia. apply HD. lia.
  - replace d with (87 + d - 87) at 2 by lia. apply HL. lia.
Qed.
Lemma hex4_text_ok c : 0 <= c < 65536 -> code_unit (hex4_text c) c.
Proof.
  intro h. unfold hex4_text. rewrite !Z.shiftr_div_pow2 by lia.
  change (2 ^ 12) with 4096. change (2 ^ 8) with 256. change (2 ^ 4) with 16.
  do 8 eexists. split; [reflexivity|]. repeat (split; [apply hex_char_ok, Z.mod_pos_bound; lia|]).
  pose proof (Z.div_mod c 16 ltac:(lia)). pose proof (Z.mod_pos_bound c 16 ltac:(lia)).
  pose proof (Z.div_mod (c / 16) 16 ltac:(lia)). pose proof (Z.mod_pos_bound (c / 16) 16 ltac:(lia)).
  pose proof (Z.div_mod (c / 256) 16 ltac:(lia)). pose proof (Z.mod_pos_bound (c / 256) 16 ltac:(lia)).
  replace (c / 256) with (c / 16 / 16) in * by (rewrite Z.div_div by lia; reflexivity).
  replace (c / 4096) with (c / 16 / 16 / 16) by (rewrite !Z.div_div by lia; reflexivity).
  assert (0 <= c / 16 / 16 / 16 < 16).
  { rewrite !Z.div_div by lia. split; [apply Z.div_pos; lia|apply Z.div_lt_upper_bound; lia]. }
  rewrite (Z.mod_small (c / 16 / 16 / 16)) by lia. lia.
Qed.
Lemma enc_ascii c : c < 128 -> enc_utf8 c = [c].
Proof. intro h. unfold enc_utf8. rewrite ltb_t by exact h. reflexivity. Qed.
Lemma scalar_ascii c : 0 <= c < 128 -> scalar c.
Proof. unfold scalar. lia. Qed.
Lemma raw_ascii c : 32 <= c < 128 -> c <> 34 -> c <> 92 -> jchar [c] c.
Proof. intros h n1 n2. rewrite <- (enc_ascii c) by lia. apply CRaw; auto; [apply scalar_ascii|]; lia. Qed.
Ltac eqbs := repeat match goal with |- context [?c =? ?n] => destruct (Z.eqb_spec c n) as [->|?] end.
Lemma esc_native_ok c : 0 <= c < 128 -> jchar (esc_native c) c.
Proof.
  intro h. unfold esc_native. eqbs; try (apply CEsc; cbn; tauto).
  destruct (Z.ltb_spec c 32); [|apply raw_ascii; auto; lia].
  apply (CUnit _ _ (hex4_text_ok c ltac:(lia))). apply scalar_ascii, h.
Qed.
Lemma esc_native_high c : 128 <= c -> esc_native c = [c].
Proof. intro h. unfold esc_native. eqbs; try lia. destruct (Z.ltb_spec c 32); [lia|reflexivity]. Qed.
Lemma esc_map_ok c : 0 <= c < 128 -> jchar (esc_map c) c.
Proof.
  intro h. unfold esc_map. eqbs; try (apply CEsc; cbn; tauto);
  try (destruct (Z.ltb_spec c 32)); try (apply raw_ascii; auto; lia); try (apply CEsc; cbn; tauto); try lia.
  change ([92; 117; 48; 48] ++ [hex_char (c / 16); hex_char (c mod 16)]) with ([92; 117] ++ [48; 48; hex_char (c / 16); hex_char (c mod 16)]).
  apply CUnit; [|apply scalar_ascii, h].
  exists 48, 48, (hex_char (c / 16)), (hex_char (c mod 16)), 0, 0, (c / 16), (c mod 16).
  split; [reflexivity|]. split; [exact (HD 48 ltac:(lia))|]. split; [exact (HD 48 ltac:(lia))|].
  split; [apply hex_char_ok; split; [apply Z.div_pos; lia|apply Z.div_lt_upper_bound; lia]|].
  split; [apply hex_char_ok, Z.mod_pos_bound; lia|]. pose proof (Z.div_mod c 16 ltac:(lia)). lia.
Qed.
Lemma esc_map_high c : 128 <= c -> esc_map c = [c].
Proof. intro h. unfold esc_map. eqbs; try lia. destruct (Z.ltb_spec c 32); [lia|reflexivity]. Qed.
Lemma esc_byte_ok safe c : 0 <= c < 128 -> jchar (esc_byte safe c) c.
Proof.
  intro h. unfold esc_byte. destruct (safe && (c =? 47)) eqn:e; [|apply esc_map_ok, h].
  apply andb_true_iff in e. destruct e as (_ & e). apply Z.eqb_eq in e. subst c. apply CEsc. cbn. tauto.
Qed.
Lemma esc_byte_high safe c : 128 <= c -> esc_byte safe c = [c].
Proof.
  intro h. unfold esc_byte. destruct (Z.eqb_spec c 47); [lia|]. rewrite andb_false_r. apply esc_map_high, h.
Qed.
(** The bytes of a multibyte character. *)
Lemma enc_high c : scalar c -> 128 <= c -> Forall (fun x => 128 <= x) (enc_utf8 c).
Proof.
  intros h hc. unfold enc_utf8. rewrite (ltb_f c 128) by lia.
  assert (D : 0 <= c / 64 /\ 0 <= c / 4096 /\ 0 <= c / 262144) by (repeat split; apply Z.div_pos; lia).
  pose proof (Z.mod_pos_bound c 64 ltac:(lia)). pose proof (Z.mod_pos_bound (c / 64) 64 ltac:(lia)).
  pose proof (Z.mod_pos_bound (c / 4096) 64 ltac:(lia)).
  destruct (c <? 2048); [|destruct (c <? 65536)]; repeat constructor; lia.
Qed.
Lemma map_high (esc : Z -> list Z) l : (forall x, 128 <= x -> esc x = [x]) -> Forall (fun x => 128 <= x) l ->
  concat (map esc l) = l.
Proof. intros e. induction 1 as [|x l h hl IH]; cbn; auto. rewrite (e x h), IH. reflexivity. Qed.
Lemma esc_chars (esc : Z -> list Z) b : (forall c, 0 <= c < 128 -> jchar (esc c) c) -> (forall x, 128 <= x -> esc x = [x]) ->
  utf8_valid b -> jchars (concat (map esc b)) b.
Proof.
  intros lo hi (cs & h & ->). induction h as [|c cs hc h IH]; cbn [map concat]; [constructor|].
  rewrite map_app, concat_app. constructor; [|exact IH].
  destruct (Z.lt_ge_cases c 128) as [L|L].
  - rewrite (enc_ascii c L). cbn [map concat]. rewrite app_nil_r. apply lo. unfold scalar in hc. lia.
  - rewrite (map_high esc _ hi (enc_high c hc L)). apply CRaw; auto; lia.
Qed.
Lemma gen_string_ok b : utf8_valid b -> jstring (gen_string b) b.
Proof. intro h. exists (concat (map esc_native b)). split; [reflexivity|]. apply esc_chars; auto; [apply esc_native_ok|apply esc_native_high]. Qed.

Lemma tj_step safe c r : c <> 226 -> utf8_to_json safe (c :: r) = esc_byte safe c ++ utf8_to_json safe r.
Proof.
  intro n. cbn [utf8_to_json]. destruct r as [|y [|x r]]; try reflexivity.
  - destruct y as [|p|p]; try reflexivity. repeat (destruct p as [p|p|]; try reflexivity).
  - replace (c =? 226) with false by (symmetry; apply Z.eqb_neq; exact n). rewrite andb_false_r. cbn [andb].
    destruct y as [|p|p]; try reflexivity. repeat (destruct p as [p|p|]; try reflexivity).
Qed.
Lemma tj_high safe l r : Forall (fun x => 128 <= x) l -> Forall (fun x => x <> 226) l ->
  utf8_to_json safe (l ++ r) = l ++ utf8_to_json safe r.
Proof.
  induction 1 as [|x l h hl IH]; intro n; [reflexivity|]. inversion n; subst. cbn [app].
  rewrite tj_step, esc_byte_high by auto. cbn [app]. rewrite IH by auto. reflexivity.
Qed.
(** Three bytes that start with 226. *)
Lemma tj_226 safe y z r : 128 <= y < 192 -> 128 <= z < 192 ->
  utf8_to_json safe (226 :: y :: z :: r) =
  (if safe && (y =? 128) && ((z =? 168) || (z =? 169)) then [92; 117; 50; 48; 50; if z =? 168 then 56 else 57] else [226; y; z])
    ++ utf8_to_json safe r.
Proof.
  intros hy hz.
  assert (G : utf8_to_json safe (y :: z :: r) = [y; z] ++ utf8_to_json safe r).
  { apply (tj_high safe [y; z] r); repeat constructor; lia. }
  destruct (Z.eqb_spec y 128) as [->|n].
  - change (utf8_to_json safe (226 :: 128 :: z :: r)) with
      (if safe && (226 =? 226) && ((z =? 168) || (z =? 169)) then [92; 117; 50; 48; 50; if z =? 168 then 56 else 57] ++ utf8_to_json safe r
       else esc_byte safe 226 ++ utf8_to_json safe (128 :: z :: r)).
    change (226 =? 226) with true. rewrite andb_true_r.
    destruct (safe && ((z =? 168) || (z =? 169))); [reflexivity|]. rewrite (esc_byte_high safe 226), G by lia. reflexivity.
  - rewrite andb_false_r. cbn [andb].
    transitivity (esc_byte safe 226 ++ utf8_to_json safe (y :: z :: r)); [|rewrite esc_byte_high, G by lia; reflexivity].
    cbn [utf8_to_json]. destruct y as [|p|p]; try reflexivity. repeat (destruct p as [p|p|]; try reflexivity). contradiction.
Qed.
Lemma utf8_to_json_ok safe b : utf8_valid b -> jchars (utf8_to_json safe b) b.
Proof.
  intros (cs & h & ->). induction h as [|c cs hc h IH]; cbn [map concat]; [constructor|].
  set (r := concat (map enc_utf8 cs)) in *. clearbody r.
  destruct (Z.lt_ge_cases c 128) as [L|L].
  - rewrite (enc_ascii c L). cbn [app]. rewrite tj_step by lia. change (c :: r) with ([c] ++ r). rewrite <- (enc_ascii c L).
    constructor; [apply esc_byte_ok; unfold scalar in hc; lia|exact IH].
  - assert (K : utf8_to_json safe (enc_utf8 c ++ r) = enc_utf8 c ++ utf8_to_json safe r \/
      (utf8_to_json safe (enc_utf8 c ++ r) = [92; 117; 50; 48; 50; if c =? 8232 then 56 else 57] ++ utf8_to_json safe r /\ (c = 8232 \/ c = 8233))).
    { pose proof (enc_high c hc L) as H. revert H. unfold enc_utf8. rewrite (ltb_f c 128) by lia.
      pose proof (Z.mod_pos_bound c 64 ltac:(lia)). pose proof (Z.mod_pos_bound (c / 64) 64 ltac:(lia)).
      pose proof (Z.mod_pos_bound (c / 4096) 64 ltac:(lia)).
      destruct (Z.ltb_spec c 2048); [|destruct (Z.ltb_spec c 65536)]; intro HH.
      - left. apply tj_high; auto. assert (c / 64 < 32) by (apply Z.div_lt_upper_bound; lia). repeat constructor; lia.
      - destruct (Z.eq_dec (c / 4096) 2) as [e|e].
        + rewrite e. change (224 + 2) with 226. cbn [app]. rewrite tj_226 by lia.
          destruct (safe && (128 + c / 64 mod 64 =? 128) && ((128 + c mod 64 =? 168) || (128 + c mod 64 =? 169))) eqn:b; [|left; reflexivity].
          right. apply andb_true_iff in b. destruct b as (b & b3). apply andb_true_iff in b. destruct b as (_ & b2).
          apply Z.eqb_eq in b2. apply orb_true_iff in b3. rewrite !Z.eqb_eq in b3.
          pose proof (Z.div_mod c 64 ltac:(lia)). pose proof (Z.div_mod (c / 64) 64 ltac:(lia)).
          replace (c / 64 / 64) with 2 in * by (rewrite Z.div_div by lia; exact (eq_sym e)).
          assert (K : c = 8232 \/ c = 8233) by lia. split; [|exact K].
          destruct K as [-> | ->]; reflexivity.
        + left. apply tj_high; auto. repeat constructor; lia.
      - left. apply tj_high; auto. assert (c / 262144 < 5) by (apply Z.div_lt_upper_bound; unfold scalar in hc; lia). repeat constructor; lia. }
    destruct K as [->|(-> & K)].
    + constructor; [apply CRaw; auto; lia|exact IH].
    + constructor; [|exact IH]. destruct K as [-> | ->]; cbn [Z.eqb Pos.eqb].
      * change [92; 117; 50; 48; 50; 56] with ([92; 117] ++ hex4_text 8232). apply CUnit; [apply hex4_text_ok; lia|exact hc].
      * change [92; 117; 50; 48; 50; 57] with ([92; 117] ++ hex4_text 8233). apply CUnit; [apply hex4_text_ok; lia|exact hc].
Qed.
Lemma code_point_enc c : scalar c -> code_point (enc_utf8 c) = c.
Proof.
  intro h. unfold enc_utf8. destruct (c <? 128); [reflexivity|].
  pose proof (Z.div_mod c 64 ltac:(lia)). pose proof (Z.div_mod (c / 64) 64 ltac:(lia)). pose proof (Z.div_mod (c / 4096) 64 ltac:(lia)).
  replace (c / 64 / 64) with (c / 4096) in * by (rewrite Z.div_div by lia; reflexivity).
  replace (c / 4096 / 64) with (c / 262144) in * by (rewrite Z.div_div by lia; reflexivity).
  destruct (c <? 2048); [|destruct (c <? 65536)]; cbn [code_point]; lia.
Qed.
Lemma utf16_text_ok c : scalar c -> 128 <= c -> jchar (utf16_text c) c.
Proof.
  intros h hc. unfold utf16_text. destruct (Z.ltb_spec c 65536).
  - apply CUnit; [apply hex4_text_ok; lia|exact h].
  - set (a := (c - 65536) / 1024). set (b := (c - 65536) mod 1024).
    assert (B : 0 <= a < 1024 /\ 0 <= b < 1024).
    { subst a b. unfold scalar in h. split; [split; [apply Z.div_pos; lia|apply Z.div_lt_upper_bound; lia]|apply Z.mod_pos_bound; lia]. }
    assert (E : c = 65536 + (55296 + a - 55296) * 1024 + (56320 + b - 56320)).
    { pose proof (Z.div_mod (c - 65536) 1024 ltac:(lia)). subst a b. lia. }
    rewrite E at 1. apply CPair; try apply hex4_text_ok; lia.
Qed.
Lemma ascii_ok safe b : utf8_valid b -> jchars (utf8_to_json_ascii (length b) safe b) b.
Proof.
  intros (cs & h & ->).
  enough (G : forall f, (length (concat (map enc_utf8 cs)) <= f)%nat -> jchars (utf8_to_json_ascii f safe (concat (map enc_utf8 cs))) (concat (map enc_utf8 cs))) by (apply G; lia).
  induction h as [|c cs hc h IH]; intros f hf; cbn [map concat]; [destruct f; constructor|].
  cbn [map concat] in hf. rewrite app_length in hf. set (r := concat (map enc_utf8 cs)) in *. clearbody r.
  destruct (enc_head c hc) as (y & q & E & C). destruct f as [|f]; [rewrite E in hf; cbn in hf; lia|].
  destruct C as [(L & -> & ->)|(L & hy)].
  - rewrite E in *. cbn [app length] in *. cbn [utf8_to_json_ascii]. rewrite (ltb_t c 128 L).
    change (c :: r) with ([c] ++ r). rewrite <- E. constructor; [apply esc_byte_ok; unfold scalar in hc; lia|]. apply IH. lia.
  - pose proof (step_enc c r hc) as S. rewrite <- (enc_len_length c) in S.
    assert (M : utf8_to_json_ascii (Datatypes.S f) safe (enc_utf8 c ++ r) =
      utf16_text (code_point (firstn (length (enc_utf8 c)) (enc_utf8 c ++ r))) ++ utf8_to_json_ascii f safe (skipn (length (enc_utf8 c)) (enc_utf8 c ++ r))).
    { rewrite E in S |- *. cbn [app] in S |- *. cbn [utf8_to_json_ascii]. rewrite (ltb_f y 128) by lia. rewrite S. reflexivity. }
    rewrite M, firstn_app_exact, skipn_app_exact, (code_point_enc c hc).
    constructor; [apply utf16_text_ok; auto|]. apply IH. rewrite E in hf. cbn in hf. lia.
Qed.

(** * Values *)
Section Values.
Variables (rd : list Z -> option Z) (ok : Z -> Prop).
Local Notation jvalue := (jvalue rd ok).
Local Notation jelems := (jelems rd ok).
Local Notation jmembers := (jmembers rd ok).

Lemma elems_join nl ind tail : blank nl -> blank ind -> blank tail -> forall ts vs, Forall2 jvalue ts vs -> ts <> [] ->
  jelems (nl ++ join ([44] ++ nl) (map (fun t => ind ++ t) ts) ++ tail) vs.
Proof.
  intros hn hi ht ts vs h. induction h as [|t v ts vs hv h IH]; [congruence|]. intros _.
  destruct ts as [|t2 ts].
  - inversion h; subst. cbn [map join]. replace (nl ++ (ind ++ t) ++ tail) with ((nl ++ ind) ++ t ++ tail) by (rewrite <- !app_assoc; reflexivity).
    apply EOne; auto. apply blank_app; auto.
  - specialize (IH ltac:(discriminate)). cbn [map join] in *.
    match type of IH with jelems ?x _ => set (rest := x) in * end.
    match goal with |- jelems ?x _ => replace x with ((nl ++ ind) ++ t ++ [] ++ [44] ++ rest)
      by (subst rest; rewrite <- !app_assoc; reflexivity) end.
    apply EMore; auto; [apply blank_app; auto|constructor].
Qed.
Definition member_text (ind sb sp : list Z) (p : list Z * list Z) : list Z := ind ++ fst p ++ sb ++ [58] ++ sp ++ snd p.
Lemma members_join nl ind sb sp tail : blank nl -> blank ind -> blank sb -> blank sp -> blank tail -> forall ts vs,
  Forall2 (fun p q => jstring (fst p) (fst q) /\ jvalue (snd p) (snd q)) ts vs -> ts <> [] ->
  jmembers (nl ++ join ([44] ++ nl) (map (member_text ind sb sp) ts) ++ tail) vs.
Proof.
  intros hn hi hsb hsp ht ts vs h. induction h as [|[k t] [b v] ts vs (hk & hv) h IH]; [congruence|]. intros _. cbn [fst snd] in hk, hv.
  destruct ts as [|t2 ts].
  - inversion h; subst. cbn [map join]. unfold member_text. cbn [fst snd].
    replace (nl ++ (ind ++ k ++ sb ++ [58] ++ sp ++ t) ++ tail) with ((nl ++ ind) ++ k ++ sb ++ [58] ++ sp ++ t ++ tail)
      by (rewrite <- !app_assoc; reflexivity).
    apply MOne; auto. apply blank_app; auto.
  - specialize (IH ltac:(discriminate)). cbn [map join] in *.
    match type of IH with jmembers ?x _ => set (rest := x) in * end.
    match goal with |- jmembers ?x _ => replace x with ((nl ++ ind) ++ k ++ sb ++ [58] ++ sp ++ t ++ [] ++ [44] ++ rest) end.
    2:{ subst rest. generalize (join ([44] ++ nl) (member_text ind sb sp t2 :: map (member_text ind sb sp) ts)). intro J.
      unfold member_text. cbn [fst snd]. repeat progress (rewrite <- ?app_assoc; cbn [app]). reflexivity. }
    apply MMore; auto; [apply blank_app; auto|constructor].
Qed.
Lemma beq_neq a b : a <> b -> beq a b = false.
Proof. unfold beq. destruct (list_eq_dec Z.eq_dec a b); congruence. Qed.
Lemma hput_new k v l : ~ In k (map fst l) -> hput k v l = l ++ [(k, v)].
Proof.
  induction l as [|[k' v'] l IH]; cbn; auto. intro h. rewrite beq_neq by (intros ->; auto). rewrite IH by tauto. reflexivity.
Qed.
Lemma fold_hput (l : list (list Z * jv)) : forall acc, NoDup (map fst (acc ++ l)) ->
  fold_left (fun m p => hput (fst p) (snd p) m) l acc = acc ++ l.
Proof.
  induction l as [|[k v] l IH]; intros acc h; cbn [fold_left]; [rewrite app_nil_r; reflexivity|]. cbn [fst snd].
  assert (N : ~ In k (map fst acc)).
  { rewrite map_app in h. cbn in h. apply NoDup_remove_2 in h. intro i. apply h, in_app_iff. auto. }
  rewrite (hput_new k v acc N), IH, <- app_assoc; [reflexivity|]. rewrite <- app_assoc. exact h.
Qed.
Lemma obj_value nl ind sb sp tail ts m : blank nl -> blank ind -> blank sb -> blank sp -> blank tail ->
  Forall2 (fun p q => jstring (fst p) (fst q) /\ jvalue (snd p) (snd q)) ts m -> ts <> [] -> NoDup (map fst m) ->
  jvalue ([123] ++ (nl ++ join ([44] ++ nl) (map (member_text ind sb sp) ts) ++ tail) ++ [125]) (JObj m).
Proof.
  intros h1 h2 h3 h4 h5 hm hn hd. pose proof (members_join nl ind sb sp tail h1 h2 h3 h4 h5 ts m hm hn) as M.
  apply VObj in M. rewrite (fold_hput m []) in M by exact hd. exact M.
Qed.
End Values.

(** Induction over Ruby values. *)
Section Rv_ind.
Variable P : rv -> Prop.
Hypotheses (HN : P RNil) (HT : P RTrue) (HF : P RFalse) (HI : forall z, P (RInt z)) (HFl : forall b, P (RFlo b))
  (HS : forall e b, P (RStr e b)) (HA : forall l, Forall P l -> P (RArr l))
  (HH : forall l, Forall (fun p => P (snd p)) l -> P (RHash l)) (HO : forall t, P (ROther t)).
Fixpoint rv_ind2 (v : rv) : P v :=
  match v with
  | RNil => HN | RTrue => HT | RFalse => HF | RInt z => HI z | RFlo b => HFl b | RStr e b => HS e b | ROther t => HO t
  | RArr l => HA l ((fix go l := match l return Forall P l with
      | [] => Forall_nil _ | x :: r => Forall_cons x (rv_ind2 x) (go r) end) l)
  | RHash l => HH l ((fix go l := match l return Forall (fun p => P (snd p)) l with
      | [] => Forall_nil _ | x :: r => Forall_cons x (rv_ind2 (snd x)) (go r) end) l)
  end.
End Rv_ind.

Lemma all_ints_arr ok l : all_ints ok (JArr l) <-> Forall (all_ints ok) l.
Proof.
  split.
  - cbn. induction l as [|x l IH]; intro h; constructor; [exact (proj1 h)|apply IH, h].
  - induction 1 as [|x l h hl IH]; cbn; [exact I|]. split; [exact h|exact IH].
Qed.
Lemma all_ints_obj ok l : all_ints ok (JObj l) <-> Forall (fun p => all_ints ok (snd p)) l.
Proof.
  split.
  - cbn. induction l as [|[k x] l IH]; intro h; constructor; [exact (proj1 h)|apply IH, h].
  - induction 1 as [|[k x] l h hl IH]; cbn; [exact I|]. split; [exact h|exact IH].
Qed.

(** * The native generator *)
Section Native.
Variables (dtoa : Z -> list Z) (rd : list Z -> option Z).
Hypothesis HF : format_ok dtoa rd.

Lemma lossy_of_valid b : utf8_valid b -> utf8_lossy b = b.
Proof. intro h. apply lossy_valid, utf8_ok_iff; auto. eapply Forall_impl; [|apply valid_bytes, h]. cbn. intros; lia. Qed.
Lemma ok_of_valid b : utf8_valid b -> utf8_ok b = true.
Proof. intro h. apply utf8_ok_iff; auto. eapply Forall_impl; [|apply valid_bytes, h]. cbn. intros; lia. Qed.
Lemma is_i63_ok z : fixnum z -> is_i63 z = true.
Proof. intro h. unfold is_i63. apply andb_true_iff. rewrite Z.leb_le, Z.ltb_lt. exact h. Qed.

Theorem gen_ok v : forall j, says v j -> all_ints fixnum j -> jvalue rd fixnum (gen dtoa v) j.
Proof.
  induction v as [| | |z|b|e b|l IH|l IH|t] using rv_ind2; intros j hs hi; inversion hs; subst.
  - constructor.
  - constructor.
  - constructor.
  - cbn [gen]. cbn in hi. rewrite (is_i63_ok z hi). constructor; [apply dec_text_ok|exact hi].
  - cbn [gen]. destruct H0 as (h1 & h2). rewrite h1, h2. destruct (HF b (conj h1 h2)) as (h3 & h4). constructor; auto.
  - cbn [gen]. rewrite (ok_of_valid b) by auto. constructor. apply gen_string_ok; auto.
  - cbn [gen]. apply all_ints_arr in hi.
    assert (F : Forall2 (jvalue rd fixnum) (map (gen dtoa) l) m).
    { clear hs. revert m H0 hi. induction IH as [|x l hx hl IHl]; intros m h hi; inversion h; subst; cbn [map]; constructor.
      - inversion hi; subst. apply hx; auto.
      - inversion hi; subst. apply IHl; auto. }
    destruct l as [|x l].
    + inversion F; subst. exact (VArr0 rd fixnum [] (Forall_nil _)).
    + pose proof (elems_join rd fixnum [] [] [] (Forall_nil _) (Forall_nil _) (Forall_nil _) _ _ F ltac:(discriminate)) as M.
      apply VArr in M. rewrite (map_ext (fun t : list Z => [] ++ t) (fun t => t)), map_id, app_nil_r in M by reflexivity. exact M.
  - cbn [gen]. apply all_ints_obj in hi.
    set (ts := map (fun p => (gen_string (rust_to_s dtoa (fst p)), gen dtoa (snd p))) l).
    assert (F : Forall2 (fun p q => jstring (fst p) (fst q) /\ jvalue rd fixnum (snd p) (snd q)) ts m).
    { clear hs H1. subst ts. revert m H0 hi. induction IH as [|[k x] l hx hl IHl]; intros m h hi; inversion h as [|p q l' m' (ek & hk & hv) h']; subst; cbn [map]; constructor.
      - inversion hi; subst. cbn [fst snd] in *. rewrite ek. cbn [rust_to_s]. rewrite (lossy_of_valid _ hk). split; [apply gen_string_ok; auto|]. apply hx; auto.
      - inversion hi; subst. apply IHl; auto. }
    destruct l as [|x l].
    + inversion F; subst. exact (VObj0 rd fixnum [] (Forall_nil _)).
    + pose proof (obj_value rd fixnum [] [] [] [] [] ts m (Forall_nil _) (Forall_nil _) (Forall_nil _) (Forall_nil _) (Forall_nil _) F ltac:(discriminate) H1) as M.
      subst ts. rewrite map_map, app_nil_r in M. exact M.
Qed.
End Native.
