(** C90-C92: Strings. *)
From Coq Require Import ZArith List Bool Lia.
From Verif Require Import Utf8Model Utf8Spec IdModel StrModel StrSpec StrSafeProofs StrRightProofs StrCharModel StrReadProofs StrSplitProofs StrCatModel StrCatProofs StrBadProofs.
From Verif Require Import StrCharSpec StrPartSpec StrCatSpec.
Import ListNotations.
Open Scope Z_scope.

(** ** C90: the cached classification *)

Theorem C90_safe_partial : forall jis l st st', run jis st l = Some st' -> Forall ascii_names l -> Forall safe st ->
  Forall (fun s => safe s /\ (unchecked jis s = true -> utf8_ok (sb s) = true)) st'.
Proof. exact histories_safe. Qed.
Example C90_safe_ex : exists st s, run j0 [] [OAuto [97]; OShlInt 0 233; OSub 0 1 2; JSetByte 0 1 97] = Some st /\
  nth_error st 0 = Some s /\ sb s = [97; 97; 169] /\ sc s = CUnknown /\ unchecked j0 s = false.
Proof. do 2 eexists. split; [vm_compute; reflexivity|]. split; [reflexivity|]. repeat split; reflexivity. Qed.
Print Assumptions C90_safe_partial.

Theorem C90_answers_partial : forall jis l st', run jis [] l = Some st' -> plain_run jis false [] l = true ->
  Forall (fun s => valid_encoding jis s = is_well (classify jis (se s) (sb s))) st'.
Proof. exact answers_right. Qed.
Definition h_plain : list op :=
  [OAuto [195; 169]; OAuto [97]; OShl 0 1; OSub 0 1 3; OReverse 0; OMul 0 3; OInterp [inl 0%nat; inl 1%nat]; OChars 0; OSplice 0 0 2 1].
Example C90_answers_ex : plain_run j0 false [] h_plain = true /\ plain_run j0 true [] h_plain = false /\
  option_map (map (valid_encoding j0)) (run j0 [] h_plain) = Some [true; true; false; true; true; true; true; true].
Proof. repeat split; vm_compute; reflexivity. Qed.
Print Assumptions C90_answers_partial.

Theorem C90_exact_partial : forall jis l st', run jis [] l = Some st' -> plain_run jis true [] l = true ->
  Forall (fun s => code_range jis s = classify jis (se s) (sb s)) st'.
Proof. exact answers_exact. Qed.
Example C90_exact_ex : plain_run j0 true [] (firstn 8 h_plain) = true /\
  option_map (map (ascii_only j0)) (run j0 [] (firstn 8 h_plain)) = Some [false; true; false; false; false; false; false; true].
Proof. split; vm_compute; reflexivity. Qed.
Print Assumptions C90_exact_partial.

Theorem C90_name_refuted : exists s, last_s h_name = Some s /\ unchecked j0 s = true /\ utf8_ok (sb s) = false.
Proof. exact bad_name. Qed.
Print Assumptions C90_name_refuted.
Theorem C90_valid_refuted : wrong_valid h_us /\ wrong_valid h_mul_sjis /\ wrong_valid h_mul_euc /\ wrong_valid h_mul_16 /\ wrong_valid h_rev /\
  wrong_valid h_16 /\ wrong_valid h_16e /\ wrong_valid h_16i /\ wrong_valid h_pad.
Proof. exact bad_valid. Qed.
Print Assumptions C90_valid_refuted.
Theorem C90_compiled_refuted : exists s i, last_s [ONew [129] (Sjis 0) true; JShlInt 0 64 true] = Some s /\
  last_s [ONew [129] (Sjis 0) true; OShlInt 0 64] = Some i /\ text_of s = text_of i /\
  valid_encoding j0 s = false /\ valid_encoding j0 i = true.
Proof. exact bad_jit_sjis. Qed.
Print Assumptions C90_compiled_refuted.
Theorem C90_slice_refuted : exists s, last_s h_slice = Some s /\ sb s = [97] /\ ascii_only j0 s = false.
Proof. exact bad_slice. Qed.
Print Assumptions C90_slice_refuted.
Theorem C90_splice_refuted : exists s, last_s [ONew [97] Utf8 true; ONew [195; 169] Utf8 true; OSplice 1 0 2 0] = Some s /\
  sb s = [97] /\ ascii_only j0 s = false.
Proof. exact bad_splice. Qed.
Print Assumptions C90_splice_refuted.
Theorem C90_splice_encoding_refuted : exists s, last_s [ONew [98] Utf8 true; ONew [255; 97] Utf8 true; OSplice 1 1 1 0] = Some s /\
  sb s = [255; 98] /\ se s = Ascii8.
Proof. exact bad_splice_enc. Qed.
Print Assumptions C90_splice_encoding_refuted.

(** ** C91: characters *)

Theorem C91_split_unique : forall e b cs1 cs2, Forall is_byte b -> split e b cs1 -> split e b cs2 -> cs1 = cs2.
Proof. exact split_det. Qed.
Example C91_split_unique_ex : split Utf8 [97; 255; 195; 169] [[97]; [255]; [195; 169]].
Proof. exact (split_utf8 [97; 255; 195; 169] ltac:(repeat constructor; lia)). Qed.
Print Assumptions C91_split_unique.

Theorem C91_length_partial : forall jis s, normal s -> regular s ->
  exists cs, split (se s) (sb s) cs /\ char_length jis s = length cs /\ chars s = cs.
Proof. exact length_read. Qed.
Example C91_length_ex : char_length j0 (S [97; 255; 195; 169; 227; 129] Utf8) = 5%nat
  /\ chars (S [97; 255; 195; 169; 227; 129] Utf8) = [[97]; [255]; [195; 169]; [227]; [129]]
  /\ char_length j0 (S [164; 162; 97] EucJp) = 2%nat.
Proof. repeat split; vm_compute; reflexivity. Qed.
Print Assumptions C91_length_partial.

Theorem C91_index_partial : forall jis s i, normal s -> regular s ->
  exists cs, split (se s) (sb s) cs /\ answers (se s) (one cs i) (index1 jis s i).
Proof. exact index1_read. Qed.
Example C91_index_ex : index1 j0 (S [97; 195; 169; 98] Utf8) 1 = RStr (mkS [195; 169] Utf8 CValid) /\
  index1 j0 (S [97; 195; 169; 98] Utf8) (-3) = RStr (mkS [97] Utf8 CValid) /\ index1 j0 (S [97; 195; 169; 98] Utf8) 3 = RNil.
Proof. repeat split; vm_compute; reflexivity. Qed.
Print Assumptions C91_index_partial.

Theorem C91_slice_partial : forall jis s i len, normal s -> regular s -> 0 < len < 2 ^ 63 -> (multi (se s) = false \/ len < 2 ^ 60) ->
  exists cs, split (se s) (sb s) cs /\ answers (se s) (some cs i len) (index2 jis s i len).
Proof. exact index2_read. Qed.
Example C91_slice_ex : index2 j0 (S [97; 195; 169; 98] Utf8) 1 (2 ^ 63 - 1) = RStr (mkS [195; 169; 98] Utf8 CValid) /\
  index2 j0 (S [97; 195; 169; 98] Utf8) 3 1 = RStr (mkS [] Utf8 C7) /\ index2 j0 (S [97; 195; 169; 98] Utf8) 4 1 = RNil.
Proof. repeat split; vm_compute; reflexivity. Qed.
Print Assumptions C91_slice_partial.

Theorem C91_range_partial : forall jis s a b excl, normal s -> regular s -> int64 a -> int64 b -> end_fits (se s) b excl ->
  exists cs, split (se s) (sb s) cs /\ answers (se s) (between cs a b excl) (index_range jis s a b excl).
Proof. exact range_read. Qed.
Example C91_range_ex : index_range j0 (S [97; 195; 169; 98] Utf8) (Some (-2)) None false = RStr (mkS [195; 169; 98] Utf8 CValid) /\
  index_range j0 (S [97; 195; 169; 98] Utf8) (Some 1) (Some (-9)) false = RStr (mkS [] Utf8 C7) /\
  index_range j0 (S [97; 195; 169; 98] Utf8) (Some 4) None false = RNil.
Proof. repeat split; vm_compute; reflexivity. Qed.
Print Assumptions C91_range_partial.

Theorem C91_bytes_partial : forall jis s, Z.of_nat (length (sb s)) < 2 ^ 60 ->
  (forall i, answers (se s) (one (each_byte (sb s)) i) (byteslice1 jis s s i)) /\
  (forall i len, len < 2 ^ 63 -> answers (se s) (some (each_byte (sb s)) i len) (byteslice2 jis s s i len)) /\
  (forall a b excl, int64 b -> match b with Some b => - Z.of_nat (length (sb s)) <= b | None => True end ->
     answers (se s) (between (each_byte (sb s)) a b excl) (byteslice_range jis s s a b excl)).
Proof. exact bytes_read. Qed.
Example C91_bytes_ex : byteslice2 j0 (S [97; 195; 169] Utf8) (S [97; 195; 169] Utf8) 1 1 = RStr (mkS [195] Utf8 CUnknown) /\
  byteslice1 j0 (S [97; 195; 169] Utf8) (S [97; 195; 169] Utf8) (-3) = RStr (mkS [97] Utf8 CValid).
Proof. split; vm_compute; reflexivity. Qed.
Print Assumptions C91_bytes_partial.

Theorem C91_valid_partial : forall jis s, byte_wise (se s) -> Forall is_byte (sb s) ->
  (is_well (classify jis (se s) (sb s)) = true <-> valid_in (se s) (sb s)).
Proof. exact valid_read. Qed.
Example C91_valid_ex : is_well (classify j0 (Sjis 0) [129; 64; 177]) = true /\ is_well (classify j0 (Sjis 0) [129]) = false /\
  is_well (classify j0 Utf8 [237; 160; 128]) = false /\ is_well (classify j0 EucJp [142; 177; 143; 161; 161]) = true.
Proof. repeat split; vm_compute; reflexivity. Qed.
Print Assumptions C91_valid_partial.
Theorem C91_valid_wide_partial : forall jis s, multi (se s) = true -> valid_in (se s) (sb s) -> is_well (classify jis (se s) (sb s)) = true.
Proof. exact valid_wide. Qed.
Print Assumptions C91_valid_wide_partial.
Theorem C91_ascii : forall jis e b, ascii_compatible e = true -> (classify jis e b = C7 <-> Forall (fun x => x < 128) b).
Proof. exact ascii_read. Qed.
Example C91_ascii_ex : classify j0 EucJp [97; 127] = C7 /\ classify j0 EucJp [97; 128] = CBroken /\ classify j0 Utf16Le [97; 0] = CValid.
Proof. repeat split; vm_compute; reflexivity. Qed.
Print Assumptions C91_ascii.

Theorem C91_pair_refuted : split Utf16Le [61; 216; 0; 222] [[61; 216; 0; 222]] /\ char_length j0 (S [61; 216; 0; 222] Utf16Le) = 2%nat.
Proof. exact bad_pair. Qed.
Print Assumptions C91_pair_refuted.
Theorem C91_surrogate_refuted : is_well (classify j0 Utf16Le [0; 216]) = true /\ ~ valid_in Utf16Le [0; 216].
Proof. exact bad_lone. Qed.
Print Assumptions C91_surrogate_refuted.
Theorem C91_far_refuted : is_well (classify j0 Utf32Le [0; 0; 17; 0]) = true /\ ~ valid_in Utf32Le [0; 0; 17; 0].
Proof. exact bad_far. Qed.
Print Assumptions C91_far_refuted.
Theorem C91_lead_refuted : chars (S [164; 97] EucJp) = [[164; 97]] /\ split EucJp [164; 97] [[164]; [97]].
Proof. exact bad_euc. Qed.
Print Assumptions C91_lead_refuted.
Theorem C91_wrap_refuted : index2 j0 (S [97; 0; 0; 0] Utf32Le) 0 (2 ^ 62) = RStr (mkS [] Utf32Le C7) /\
  index2 j0 (S [97; 0] Utf16Le) 1 (2 ^ 63 - 1) = RCrash /\
  index_range j0 (S [97; 98; 99] Utf8) (Some 0) (Some (2 ^ 63 - 1)) false = RStr (mkS [] Utf8 C7).
Proof. exact (conj bad_wrap32 (conj bad_wrap16 bad_range)). Qed.
Print Assumptions C91_wrap_refuted.
Theorem C91_empty_refuted : index2 j0 (S [97] (Sjis 0)) 0 0 = RStr (mkS [] Utf8 C7).
Proof. exact bad_zero. Qed.
Print Assumptions C91_empty_refuted.
Theorem C91_byteslice_refuted : byteslice_range j0 (S [104; 101; 108; 108; 111] Utf8) (S [104; 101; 108; 108; 111] Utf8) (Some 1) (Some (-10)) false = RNil
  /\ between (each_byte [104; 101; 108; 108; 111]) (Some 1) (Some (-10)) false = Some [].
Proof. exact bad_byteslice. Qed.
Print Assumptions C91_byteslice_refuted.
Theorem C91_reentry_refuted : byteslice2 j0 (S [97; 98; 99] Utf8) (S [] Utf8) 0 3 = RCrash.
Proof. exact bad_reenter. Qed.
Print Assumptions C91_reentry_refuted.

(** ** C92: joining and comparing *)

Theorem C92_add_partial : forall jis s o r s1 o1, extend jis s o = (r, s1, o1) -> exact_ jis s -> exact_ jis o ->
  view r = join (text_of s) (text_of o) /\ text_of s1 = text_of s /\ text_of o1 = text_of o.
Proof. exact extend_join. Qed.
Example C92_add_ex : join (Utf8, [97]) (Ascii8, [255]) = Some (Ascii8, [97; 255]) /\
  join (Utf8, [195; 169]) (Ascii8, [255]) = None /\ join (Utf16Le, []) (Utf8, [97]) = Some (Utf8, [97]) /\
  view (fst (fst (extend j0 (S [97] Utf8) (S [255] Ascii8)))) = Some (Ascii8, [97; 255]).
Proof. repeat split; vm_compute; reflexivity. Qed.
Print Assumptions C92_add_partial.

Theorem C92_interpolation_partial : forall jis ps,
  Forall (fun p => match p with inl s => exact_ jis s | inr t => ascii_b t = true end) ps ->
  (Forall (fun p => match p with inl _ => True | inr _ => False end) ps \/
   Forall (fun p => match p with inl s => ascii_compatible (se s) = true | inr _ => True end) ps) ->
  view (interp jis ps) = joined (map piece ps).
Proof. exact interp_joined. Qed.
Example C92_interpolation_ex :
  view (interp j0 [inl (S [97] UsAscii); inl (S [195; 169] Utf8); inr [35; 60; 62]; inl (S [98] Ascii8)]) = Some (Utf8, [97; 195; 169; 35; 60; 62; 98]).
Proof. vm_compute. reflexivity. Qed.
Print Assumptions C92_interpolation_partial.

Theorem C92_compiled_append : forall jis s o room r, jit_shl_str s o room = Some r ->
  view (fst (fst (extend jis s o))) = Some (text_of r).
Proof. exact jit_shl_same. Qed.
Example C92_compiled_append_ex : jit_shl_str (S [195; 169] Utf8) (S [97] Ascii8) true = Some (mkS [195; 169; 97] Utf8 CValid) /\
  jit_shl_str (S [97] Utf8) (S [195; 169] Ascii8) true = None.
Proof. split; vm_compute; reflexivity. Qed.
Print Assumptions C92_compiled_append.
Theorem C92_compiled_append_int : forall s c room r, jit_shl_int s c room = Some r -> view (shl_int s c) = Some (text_of r).
Proof. exact jit_shl_int_same. Qed.
Example C92_compiled_append_int_ex : jit_shl_int (S [97] Ascii8) 200 true = Some (mkS [97; 200] Ascii8 CUnknown) /\
  jit_shl_int (S [97] Utf8) 200 true = None /\ jit_shl_int (S [97] Utf8) 98 true = Some (mkS [97; 98] Utf8 C7).
Proof. repeat split; vm_compute; reflexivity. Qed.
Print Assumptions C92_compiled_append_int.
Theorem C92_compiled_setbyte : forall s i v r, jit_setbyte s i v = Some r -> setbyte s i v = inl r.
Proof. exact jit_setbyte_same. Qed.
Example C92_compiled_setbyte_ex : jit_setbyte (S [97; 98] Utf8) (-1) 355 = Some (mkS [97; 99] Utf8 C7) /\
  jit_setbyte (S [97; 98] Utf8) 0 128 = Some (mkS [128; 98] Utf8 CUnknown) /\ jit_setbyte (S [97; 98] Utf8) 2 0 = None.
Proof. repeat split; vm_compute; reflexivity. Qed.
Print Assumptions C92_compiled_setbyte.

Theorem C92_equal_partial : forall jis s o, exact_ jis s -> exact_ jis o -> (str_eq jis s o = true <-> same (text_of s) (text_of o)).
Proof. exact str_eq_right. Qed.
Example C92_equal_ex : str_eq j0 (S [97] Utf8) (S [97] Ascii8) = true /\ str_eq j0 (S [255] Utf8) (S [255] Ascii8) = false.
Proof. split; vm_compute; reflexivity. Qed.
Print Assumptions C92_equal_partial.
Theorem C92_compare_partial : forall jis s o, exact_ jis s -> exact_ jis o -> real_enc (se s) -> real_enc (se o) -> apart (se s) (se o) ->
  (str_cmp jis s o = Eq <-> same (text_of s) (text_of o)).
Proof. exact str_cmp_eq. Qed.
Example C92_compare_ex : str_cmp j0 (S [255] Utf8) (S [255] Ascii8) = Gt /\ str_cmp j0 (S [97] Utf8) (S [97] Ascii8) = Eq.
Proof. split; vm_compute; reflexivity. Qed.
Print Assumptions C92_compare_partial.
Theorem C92_lexicographic : forall jis s o, sb s <> sb o -> lex (sb s) (sb o) (str_cmp jis s o).
Proof. exact str_cmp_lex. Qed.
Example C92_lexicographic_ex : str_cmp j0 (S [97; 98] Utf8) (S [97; 98; 99] Utf8) = Lt /\ str_cmp j0 (S [97; 255] Utf8) (S [97; 98; 99] Utf8) = Gt.
Proof. split; vm_compute; reflexivity. Qed.
Print Assumptions C92_lexicographic.
Theorem C92_lex_unique : forall a b c, lex a b c -> forall d, lex a b d -> c = d.
Proof. exact lex_det. Qed.
Print Assumptions C92_lex_unique.
Theorem C92_antisymmetric : forall jis s o, str_cmp jis o s = CompOpp (str_cmp jis s o).
Proof. exact str_cmp_anti. Qed.
Print Assumptions C92_antisymmetric.

Theorem C92_join_refuted : exists s, last_s h_slice = Some s /\ joint (text_of s) (text_of (S [255] Ascii8)) = Some Ascii8 /\
  view (fst (fst (extend j0 s (S [255] Ascii8)))) = None.
Proof. exact bad_join. Qed.
Print Assumptions C92_join_refuted.
Theorem C92_compare_refuted : exists s, last_s h_slice = Some s /\ str_eq j0 s (S [97] UsAscii) = true /\ str_cmp j0 s (S [97] UsAscii) = Gt.
Proof. exact bad_cmp. Qed.
Print Assumptions C92_compare_refuted.
Theorem C92_ordinal_refuted : str_eq j0 (S [130; 160] (Sjis 0)) (S [130; 160] (Sjis 1)) = false /\
  str_cmp j0 (S [130; 160] (Sjis 0)) (S [130; 160] (Sjis 1)) = Eq.
Proof. exact bad_ord. Qed.
Print Assumptions C92_ordinal_refuted.
Theorem C92_transitive_refuted : str_cmp j0 (S [97; 97] (Iso8859 1)) (S [97; 97] Utf8) = Eq /\
  str_cmp j0 (S [97; 97] Utf8) (S [97; 97] Utf16Be) = Lt /\
  str_cmp j0 (S [97; 97] (Iso8859 1)) (S [97; 97] Utf16Be) = Gt.
Proof. exact bad_trans. Qed.
Print Assumptions C92_transitive_refuted.
Theorem C92_pad_refuted : joint (text_of (S [97] UsAscii)) (text_of (S [195; 169] Utf8)) = Some Utf8 /\
  text_of (pad j0 (S [97] UsAscii) (S [195; 169] Utf8) 0 1) = (UsAscii, [97; 195; 169]).
Proof. exact bad_pad_enc. Qed.
Print Assumptions C92_pad_refuted.
Theorem C92_interpolation_refuted : view (interp j0 [inl (S [0; 65] Utf16Be); inr [35; 60; 65; 62]]) = Some (Utf16Be, [0; 65; 35; 60; 65; 62]) /\
  joined [(Utf16Be, [0; 65]); (Utf8, [35; 60; 65; 62])] = None.
Proof. exact bad_interp. Qed.
Print Assumptions C92_interpolation_refuted.
