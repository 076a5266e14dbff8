(** Where JSON goes wrong. *)
From Coq Require Import ZArith List Bool Lia.
From Verif Require MarshalModel.
From Verif Require Import Utf8Model Utf8Spec Utf8Proofs JsonModel JsonSpec JsonProofs JsonTotalProofs JsonGenProofs JsonRubyProofs.
Import ListNotations.
Open Scope Z_scope.

(** * The parser *)
Section Parser.
Variable rd : list Z -> option Z.

(** A text that starts with a quote is a string and blanks. *)
Lemma text_string ok r v : jtext rd ok (34 :: r) v -> exists t b w, r = t ++ 34 :: w /\ blank w /\ jchars t b.
Proof.
  intros (w1 & w2 & u & e & h1 & h2 & hv). destruct h1 as [|x w1 hx _].
  - destruct hv as [| | |t z h hz|t b h hb|t b h|w h|t l h|w h|t l h]; try discriminate.
    + destruct h as [u h|u h]; [destruct (jint_head u h) as (c & q & -> & hc)|]; injection e as ? _; lia.
    + destruct h as (g & i & f & x & -> & hg & hi & _). destruct (jint_head i hi) as (c & q & -> & hc).
      destruct hg as [-> | ->]; injection e as ? _; lia.
    + destruct h as (t' & -> & h). exists t', b, w2. cbn [app] in e. injection e as e. rewrite <- app_assoc in e. auto.
  - injection e as e _. lia.
Qed.
Lemma enc_first c x q : scalar c -> enc_utf8 c = x :: q -> x < 128 -> x = c.
Proof.
  intros h e hx. destruct (enc_head c h) as (y & q' & E & C). rewrite E in e. injection e as -> ->.
  destruct C as [(_ & -> & _)|(_ & C)]; lia.
Qed.
(** The first character of a string. *)
Lemma chars_first t b w c r : jchars t b -> t ++ 34 :: w = c :: r -> c < 128 ->
  c = 34 \/ (32 <= c /\ c <> 92) \/
  (c = 92 /\ exists e q, r = e :: q /\ (In e [34; 92; 47; 98; 102; 110; 114; 116] \/ (e = 117 /\ exists x q', q = x :: q' /\ (48 <= x <= 57 \/ 65 <= x <= 70 \/ 97 <= x <= 102)))).
Proof.
  intros h e hc. destruct h as [|t x s b hx _]; [injection e as -> _; auto|].
  assert (U : forall t u, code_unit t u -> exists x q', t = x :: q' /\ (48 <= x <= 57 \/ 65 <= x <= 70 \/ 97 <= x <= 102)).
  { intros t0 u (a & b0 & c0 & d & x0 & y & z & w0 & -> & h1 & _). exists a, [b0; c0; d]. split; [reflexivity|]. destruct h1; lia. }
  destruct hx as [x h1 h2 h3 h4|y x h|t u h _|t1 u1 t2 u2 h1 _ _ _].
  - right. left. destruct (enc_head x h1) as (y & q & E & _). rewrite E in e. injection e as -> _.
    rewrite (enc_first x c q h1 E hc). lia.
  - right. right. injection e as <- <-. split; [reflexivity|]. exists y, (s ++ 34 :: w). split; [reflexivity|]. left.
    cbn in h. repeat destruct h as [h|h]; try contradiction; injection h as <- _; cbn; tauto.
  - right. right. destruct (U t u h) as (a & q & -> & ha). injection e as <- <-. split; [reflexivity|].
    eexists 117, _. split; [reflexivity|]. right. split; [reflexivity|]. eexists _, _. split; [reflexivity|]. exact ha.
  - right. right. destruct (U t1 u1 h1) as (a & q & -> & ha). injection e as <- <-. split; [reflexivity|].
    eexists 117, _. split; [reflexivity|]. right. split; [reflexivity|]. eexists _, _. split; [reflexivity|]. exact ha.
Qed.

(** An unknown escape, a plus sign among hexadecimal digits, a control character and
    a byte that is no UTF-8 are all taken. *)
Definition not_json (s : list Z) : Prop := forall v, ~ jtext rd any_int s v.
Definition s_escape := [34; 92; 113; 34].
Definition s_plus := [34; 92; 117; 43; 48; 52; 49; 34].
Definition s_tab := [34; 9; 34].
Definition s_byte := [34; 255; 34].
Lemma bad_strings :
  (json_parse rd s_escape = POk (JStr [92; 113]) [] /\ not_json s_escape) /\
  (json_parse rd s_plus = POk (JStr [65]) [] /\ not_json s_plus) /\
  (json_parse rd s_tab = POk (JStr [9]) [] /\ not_json s_tab) /\
  (json_parse rd s_byte = POk (JStr fffd) [] /\ not_json s_byte).
Proof.
  repeat split; try reflexivity; intros v h.
  - destruct (text_string _ _ _ h) as (t & b & w & e & _ & hc).
    destruct (chars_first t b w 92 _ hc (eq_sym e) ltac:(lia)) as [H|[(_ & H)|(_ & x & q & E & [H|(H & _)])]]; try lia; injection E as <- _.
    + cbn in H. lia.
    + lia.
  - destruct (text_string _ _ _ h) as (t & b & w & e & _ & hc).
    destruct (chars_first t b w 92 _ hc (eq_sym e) ltac:(lia)) as [H|[(_ & H)|(_ & x & q & E & [H|(_ & y & q' & E' & H)])]]; try lia.
    + injection E as <- _. cbn in H. lia.
    + injection E as _ E. rewrite <- E in E'. injection E' as <- _. lia.
  - destruct (text_string _ _ _ h) as (t & b & w & e & _ & hc).
    destruct (chars_first t b w 9 _ hc (eq_sym e) ltac:(lia)) as [H|[(H & _)|(H & _)]]; lia.
  - destruct h as (w1 & w2 & u & e & h1 & h2 & hv).
    assert (K : utf8_valid s_byte).
    { rewrite e. apply valid_app; [apply blank_valid, h1|]. apply valid_app; [exact (proj1 (json_valid rd any_int) _ _ hv)|apply blank_valid, h2]. }
    apply ok_of_valid in K. vm_compute in K. discriminate.
Qed.

(** What follows the value is not looked at. *)
Definition s_trailing := [49; 32; 120].
Lemma bad_trailing : json_parse rd s_trailing = POk (JInt 1) [32; 120] /\ forall v, ~ jtext rd i64 s_trailing v.
Proof.
  split; [reflexivity|]. intros v h. destruct (parse_text rd _ _ h) as (w & hw & e).
  assert (E : json_parse rd s_trailing = POk (JInt 1) [32; 120]) by reflexivity. rewrite E in e. injection e as _ <-.
  inversion hw as [|a b _ h2]. inversion h2 as [|a' b' h3 _]. lia.
Qed.

(** 2^63 is read as a Float. *)
Definition s_big := [57; 50; 50; 51; 51; 55; 50; 48; 51; 54; 56; 53; 52; 55; 55; 53; 56; 48; 56].
Lemma bad_big b : rd s_big = Some b -> jtext rd any_int s_big (JInt (2 ^ 63)) /\ json_parse rd s_big = POk (JFlo b) [].
Proof.
  intro h. split.
  - exists [], [], s_big. split; [reflexivity|]. split; [constructor|]. split; [constructor|]. apply VInt; [|exact I].
    change (2 ^ 63) with (decimal 0 s_big). apply NPos. right. split; [split; [discriminate|repeat constructor; lia]|cbn; lia].
  - assert (E : json_parse rd s_big = match rd s_big with Some b => POk (JFlo b) [] | None => PErr end) by reflexivity.
    rewrite E, h. reflexivity.
Qed.

(** A high surrogate swallows the escape after it; a lone low one is refused. *)
Lemma bad_surrogates :
  json_parse rd [34; 92; 117; 100; 56; 48; 48; 65; 34] = POk (JStr (fffd ++ [65])) [] /\
  json_parse rd [34; 92; 117; 100; 56; 48; 48; 92; 117; 48; 48; 52; 49; 34] = POk (JStr fffd) [] /\
  json_parse rd [34; 92; 117; 100; 99; 48; 48; 34] = PErr.
Proof. repeat split; reflexivity. Qed.

(** No limit of 100. *)
Lemma bad_depth : json_parse rd (repeat 91 101 ++ repeat 93 101) = POk (Nat.iter 100 (fun x => JArr [x]) (JArr [])) [].
Proof. vm_compute. reflexivity. Qed.
End Parser.

(** * The native generator *)
Section Generator.
Variables (dtoa : Z -> list Z) (rd : list Z -> option Z).
(** 2^62 comes back as a String. *)
Lemma bad_fixnum : json_parse rd (gen dtoa (RInt (2 ^ 62))) = POk (JStr (dec_text (2 ^ 62))) [].
Proof. vm_compute. reflexivity. Qed.
(** NaN: accepted, written, not JSON. *)
Definition nan_bits := 9221120237041090560.
Lemma bad_nan : MarshalModel.f_nan nan_bits = true /\ gen dtoa (RFlo nan_bits) = t_nan /\ json_parse rd t_nan = PErr.
Proof. repeat split; reflexivity. Qed.
(** {1 => true, "1" => false} has two members of one name. *)
Lemma bad_keys : json_parse rd (gen dtoa (RHash [(RInt 1, RTrue); (RStr 0 [49], RFalse)])) = POk (JObj [([49], JFalse)]) [].
Proof. vm_compute. reflexivity. Qed.
(** "\xE9" and "\xE8", in any encoding, are both written as U+FFFD. *)
Lemma bad_encoding e : gen dtoa (RStr e [233]) = gen dtoa (RStr e [232]) /\ json_parse rd (gen dtoa (RStr e [233])) = POk (JStr fffd) [].
Proof. split; vm_compute; reflexivity. Qed.
End Generator.

(** * The Ruby generator *)
Section Ruby.
Variables (fto_s : Z -> list Z) (recode : Z -> list Z -> option (list Z)) (rd : list Z -> option Z).
(** A Symbol with a quote in it. *)
Definition s_symbol := [97; 34; 98].
Lemma bad_symbol : exists t, json_dump fto_s recode (RArr [ROther s_symbol]) = GOk t /\ json_parse rd t = PErr /\
  forall v, ~ jtext rd i64 t v.
Proof.
  exists [91; 34; 97; 34; 98; 34; 93]. split; [reflexivity|]. split; [reflexivity|].
  intros v h. destruct (parse_text rd _ _ h) as (w & _ & e). vm_compute in e. discriminate.
Qed.
Lemma bad_top : json_dump fto_s recode (ROther [97]) = GErr NoMethodError /\
  pretty_generate fto_s recode (ROther [97]) = GErr NoMethodError.
Proof. split; reflexivity. Qed.
(** ascii_only does not hold for the other classes. *)
Definition ascii_state : state :=
  {| s_indent := []; s_space := []; s_space_before := []; s_object_nl := []; s_array_nl := [];
     s_allow_nan := false; s_ascii_only := true; s_script_safe := false; s_strict := false; s_max_nesting := 100 |}.
Lemma bad_ascii : exists t, state_generate fto_s recode ascii_state (RArr [ROther [195; 169]]) = GOk t /\ In 195 t.
Proof. exists [91; 34; 195; 169; 34; 93]. split; [reflexivity|]. cbn. tauto. Qed.
(** dump refuses NaN and 101 levels; pretty_generate has no limit. *)
Definition deep (n : nat) : rv := Nat.iter n (fun x => RArr [x]) (RArr []).
Lemma bad_limits : nesting (deep 100) = 101%nat /\ json_dump fto_s recode (deep 100) = GErr NestingError /\
  json_dump fto_s recode (RFlo nan_bits) = GErr GeneratorError /\
  exists t, pretty_generate fto_s recode (deep 100) = GOk t.
Proof. repeat split; try reflexivity. eexists. vm_compute. reflexivity. Qed.
End Ruby.
