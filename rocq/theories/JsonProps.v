(** C76, C77, C78: JSON. *)
From Coq Require Import ZArith List Bool.
From Verif Require MarshalModel.
From Verif Require Import Utf8Spec JsonModel JsonSpec JsonProofs JsonTotalProofs JsonSoundProofs JsonGenProofs
  JsonRubyProofs JsonRoundProofs JsonBadProofs.
Import ListNotations.
Open Scope Z_scope.

(** * C76: JSON.generate *)
Theorem C76_generate_partial : forall dtoa rd v j, format_ok dtoa rd -> says v j -> all_ints fixnum j ->
  jvalue rd fixnum (gen dtoa v) j.
Proof. exact generate_ok. Qed.
Print Assumptions C76_generate_partial.

Theorem C76_round_trip_partial : forall dtoa rd v j, format_ok dtoa rd -> says v j -> all_ints fixnum j ->
  json_parse rd (gen dtoa v) = POk j [].
Proof. exact round_trip. Qed.
Print Assumptions C76_round_trip_partial.

(** An Array of an Array and a Hash. *)
Example C76_ex : forall dtoa rd, let v := RArr [RArr [RStr 0 [97; 10]; RNil]; RHash [(RStr 0 [195; 169], RInt (-7))]] in
  gen dtoa v = [91; 91; 34; 97; 92; 110; 34; 44; 110; 117; 108; 108; 93; 44; 123; 34; 195; 169; 34; 58; 45; 55; 125; 93] /\
  json_parse rd (gen dtoa v) = POk (JArr [JArr [JStr [97; 10]; JNull]; JObj [([195; 169], JInt (-7))]]) [].
Proof. intros. split; reflexivity. Qed.

Theorem C76_fixnum_refuted : forall dtoa rd,
  json_parse rd (gen dtoa (RInt (2 ^ 62))) = POk (JStr (dec_text (2 ^ 62))) [].
Proof. exact bad_fixnum. Qed.
Print Assumptions C76_fixnum_refuted.

Theorem C76_nan_refuted : forall dtoa rd,
  MarshalModel.f_nan nan_bits = true /\ gen dtoa (RFlo nan_bits) = t_nan /\ json_parse rd t_nan = PErr.
Proof. exact bad_nan. Qed.
Print Assumptions C76_nan_refuted.

Theorem C76_keys_refuted : forall dtoa rd,
  json_parse rd (gen dtoa (RHash [(RInt 1, RTrue); (RStr 0 [49], RFalse)])) = POk (JObj [([49], JFalse)]) [].
Proof. exact bad_keys. Qed.
Print Assumptions C76_keys_refuted.

Theorem C76_encoding_refuted : forall dtoa rd e,
  gen dtoa (RStr e [233]) = gen dtoa (RStr e [232]) /\ json_parse rd (gen dtoa (RStr e [233])) = POk (JStr fffd) [].
Proof. exact bad_encoding. Qed.
Print Assumptions C76_encoding_refuted.

(** * C77: JSON.parse *)
Theorem C77_reads_partial : forall rd t v, jtext rd i64 t v -> exists w, blank w /\ json_parse rd t = POk v w.
Proof. exact parse_text. Qed.
Print Assumptions C77_reads_partial.

Theorem C77_meaning_partial : forall rd t v v', jtext rd i64 t v -> jtext rd i64 t v' -> v = v'.
Proof. exact text_meaning. Qed.
Print Assumptions C77_meaning_partial.

Theorem C77_truncated : forall rd w t v p s, blank w -> jvalue rd i64 t v -> ~ number v -> t = p ++ s -> s <> [] ->
  json_parse rd (w ++ p) = PErr.
Proof. exact truncated. Qed.
Print Assumptions C77_truncated.

Theorem C77_total : forall rd s, json_parse rd s <> PFuel.
Proof. exact json_parse_total. Qed.
Print Assumptions C77_total.

Theorem C77_only_json_partial : forall rd s v r, unescaped s -> json_parse rd s = POk v r ->
  exists p v', s = p ++ r /\ jtext rd any_int p v'.
Proof. exact accepted_is_json. Qed.
Print Assumptions C77_only_json_partial.

(** A repeated member: the last value in the place of the first. *)
Example C77_ex : forall rd, json_parse rd
  [32; 123; 34; 97; 34; 58; 49; 44; 34; 98; 34; 58; 91; 93; 44; 34; 97; 34; 58; 34; 92; 117; 100; 56; 51; 100; 92; 117; 100; 101; 48; 48; 34; 125; 32]
  = POk (JObj [([97], JStr [240; 159; 152; 128]); ([98], JArr [])]) [32].
Proof. reflexivity. Qed.

Theorem C77_strings_refuted : forall rd,
  (json_parse rd s_escape = POk (JStr [92; 113]) [] /\ not_json rd s_escape) /\
  (json_parse rd s_plus = POk (JStr [65]) [] /\ not_json rd s_plus) /\
  (json_parse rd s_tab = POk (JStr [9]) [] /\ not_json rd s_tab) /\
  (json_parse rd s_byte = POk (JStr fffd) [] /\ not_json rd s_byte).
Proof. exact bad_strings. Qed.
Print Assumptions C77_strings_refuted.

Theorem C77_trailing_refuted : forall rd,
  json_parse rd s_trailing = POk (JInt 1) [32; 120] /\ forall v, ~ jtext rd i64 s_trailing v.
Proof. exact bad_trailing. Qed.
Print Assumptions C77_trailing_refuted.

Theorem C77_big_refuted : forall rd b, rd s_big = Some b ->
  jtext rd any_int s_big (JInt (2 ^ 63)) /\ json_parse rd s_big = POk (JFlo b) [].
Proof. exact bad_big. Qed.
Print Assumptions C77_big_refuted.

Theorem C77_surrogates_refuted : forall rd,
  json_parse rd [34; 92; 117; 100; 56; 48; 48; 65; 34] = POk (JStr (fffd ++ [65])) [] /\
  json_parse rd [34; 92; 117; 100; 56; 48; 48; 92; 117; 48; 48; 52; 49; 34] = POk (JStr fffd) [] /\
  json_parse rd [34; 92; 117; 100; 99; 48; 48; 34] = PErr.
Proof. exact bad_surrogates. Qed.
Print Assumptions C77_surrogates_refuted.

Theorem C77_depth_refuted : forall rd,
  json_parse rd (repeat 91 101 ++ repeat 93 101) = POk (Nat.iter 100 (fun x => JArr [x]) (JArr [])) [].
Proof. exact bad_depth. Qed.
Print Assumptions C77_depth_refuted.

(** * C78: the generator written in Ruby *)
Theorem C78_layout_partial : forall fto_s recode rd ok st v j, format_ok fto_s rd ->
  layout_ok st -> says v j -> all_ints ok j -> 0 <= s_max_nesting st ->
  (fits st 0 v -> exists t, state_generate fto_s recode st v = GOk t /\ jvalue rd ok t j) /\
  (~ fits st 0 v -> state_generate fto_s recode st v = GErr NestingError).
Proof. exact state_layout. Qed.
Print Assumptions C78_layout_partial.

Theorem C78_round_trip_partial : forall fto_s recode rd st v j t, format_ok fto_s rd ->
  layout_ok st -> says v j -> all_ints i64 j -> 0 <= s_max_nesting st ->
  state_generate fto_s recode st v = GOk t -> json_parse rd t = POk j [].
Proof. exact state_round_trip. Qed.
Print Assumptions C78_round_trip_partial.

Theorem C78_finite : forall fto_s recode st v t, s_allow_nan st = false ->
  state_generate fto_s recode st v = GOk t -> all_finite v.
Proof. exact state_only_finite. Qed.
Print Assumptions C78_finite.

Theorem C78_ascii_partial : forall fto_s recode rd st v j t, format_ok fto_s rd -> s_ascii_only st = true -> layout_ok st ->
  says v j -> state_generate fto_s recode st v = GOk t -> ascii t.
Proof. exact state_only_ascii. Qed.
Print Assumptions C78_ascii_partial.

(** pretty_generate({"a" => [1, []]}) *)
Example C78_ex : forall fto_s recode, pretty_generate fto_s recode (RHash [(RStr 0 [97], RArr [RInt 1; RArr []])]) =
  GOk ([123; 10; 32; 32; 34; 97; 34; 58; 32; 91; 10; 32; 32; 32; 32; 49; 44; 10; 32; 32; 32; 32; 91; 93; 10; 32; 32; 93; 10; 125]).
Proof. reflexivity. Qed.
(** ascii_only of U+1F600 *)
Example C78_ascii_ex : forall fto_s recode, state_generate fto_s recode ascii_state (RStr 0 [240; 159; 152; 128]) =
  GOk [34; 92; 117; 100; 56; 51; 100; 92; 117; 100; 101; 48; 48; 34].
Proof. reflexivity. Qed.

Theorem C78_symbol_refuted : forall fto_s recode rd,
  exists t, json_dump fto_s recode (RArr [ROther s_symbol]) = GOk t /\ json_parse rd t = PErr /\ forall v, ~ jtext rd i64 t v.
Proof. exact bad_symbol. Qed.
Print Assumptions C78_symbol_refuted.

Theorem C78_top_refuted : forall fto_s recode,
  json_dump fto_s recode (ROther [97]) = GErr NoMethodError /\ pretty_generate fto_s recode (ROther [97]) = GErr NoMethodError.
Proof. exact bad_top. Qed.
Print Assumptions C78_top_refuted.

Theorem C78_ascii_refuted : forall fto_s recode,
  exists t, state_generate fto_s recode ascii_state (RArr [ROther [195; 169]]) = GOk t /\ In 195 t.
Proof. exact bad_ascii. Qed.
Print Assumptions C78_ascii_refuted.

Theorem C78_limits_refuted : forall fto_s recode,
  nesting (deep 100) = 101%nat /\ json_dump fto_s recode (deep 100) = GErr NestingError /\
  json_dump fto_s recode (RFlo nan_bits) = GErr GeneratorError /\ exists t, pretty_generate fto_s recode (deep 100) = GOk t.
Proof. exact bad_limits. Qed.
Print Assumptions C78_limits_refuted.
