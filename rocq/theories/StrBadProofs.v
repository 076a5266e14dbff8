(** Strings on which the runtime is wrong. *)
From Coq Require Import ZArith List Bool Lia.
From Verif Require Import Utf8Model Utf8Spec IdModel StrModel StrSpec StrCharModel StrCharSpec StrPartSpec StrCatModel StrCatSpec StrCatProofs.
Import ListNotations.
Open Scope Z_scope.

Definition j0 : list Z -> option nat := fun _ => None.
(** The last string of a run. *)
Definition last_s (l : list op) : option str := match run j0 [] l with Some st => Some (last st empty_s) | None => None end.
Definition wrong_valid (l : list op) : Prop :=
  exists s, last_s l = Some s /\ valid_encoding j0 s <> is_well (classify j0 (se s) (sb s)).

(** An object of the class É whose [to_s] is not a String is interpolated; the first three
    bytes of the result are sliced off. *)
Definition h_name : list op := [OInterp [inr [35; 60; 195; 137; 58; 48; 62]]; OSub 0 0 3].
Lemma bad_name : exists s, last_s h_name = Some s /\ unchecked j0 s = true /\ utf8_ok (sb s) = false.
Proof. eexists. split; [vm_compute; reflexivity|]. split; reflexivity. Qed.
(** [force_encoding("US-ASCII") << 0x3042]. *)
Definition h_us : list op := [ONew [97] UsAscii true; OShlInt 0 12354].
(** ["\x81".force_encoding("Shift_JIS") * 2], the same in EUC-JP and UTF-16LE. *)
Definition h_mul_sjis : list op := [ONew [129] (Sjis 0) true; OMul 0 2].
Definition h_mul_euc : list op := [ONew [161] EucJp true; OMul 0 2].
Definition h_mul_16 : list op := [ONew [97] Utf16Le true; OMul 0 2].
(** ["\xA9\xC3".reverse]. *)
Definition h_rev : list op := [ONew [169; 195] Utf8 true; OReverse 0].
(** UTF-16BE "A" [<< 0x42]. *)
Definition h_16 : list op := [ONew [0; 65] Utf16Be true; OShlInt 0 66].
(** Empty UTF-16LE [<< 0x61]. *)
Definition h_16e : list op := [ONew [] Utf16Le true; OShlInt 0 97].
(** UTF-16BE "A" interpolated before an object that prints three bytes. *)
Definition h_16i : list op := [ONew [0; 65] Utf16Be true; OInterp [inl 0%nat; inr [35; 60; 62]]].
(** Empty UTF-16BE [.ljust(1, " ")]. *)
Definition h_pad : list op := [ONew [] Utf16Be true; ONew [32] Utf8 true; OPad 0 1 0 1].
Ltac wv := eexists; split; [vm_compute; reflexivity|vm_compute; discriminate].
Lemma bad_us : wrong_valid h_us. Proof. wv. Qed.
Lemma bad_mul_sjis : wrong_valid h_mul_sjis. Proof. wv. Qed.
Lemma bad_mul_euc : wrong_valid h_mul_euc. Proof. wv. Qed.
Lemma bad_mul_16 : wrong_valid h_mul_16. Proof. wv. Qed.
Lemma bad_rev : wrong_valid h_rev. Proof. wv. Qed.
Lemma bad_16 : wrong_valid h_16. Proof. wv. Qed.
Lemma bad_16e : wrong_valid h_16e. Proof. wv. Qed.
Lemma bad_16i : wrong_valid h_16i. Proof. wv. Qed.
Lemma bad_pad : wrong_valid h_pad. Proof. wv. Qed.
Lemma bad_valid : wrong_valid h_us /\ wrong_valid h_mul_sjis /\ wrong_valid h_mul_euc /\ wrong_valid h_mul_16 /\ wrong_valid h_rev /\
  wrong_valid h_16 /\ wrong_valid h_16e /\ wrong_valid h_16i /\ wrong_valid h_pad.
Proof. exact (conj bad_us (conj bad_mul_sjis (conj bad_mul_euc (conj bad_mul_16 (conj bad_rev (conj bad_16 (conj bad_16e (conj bad_16i bad_pad)))))))). Qed.
(** ["\x81".force_encoding("Shift_JIS") << 0x40], valid afterwards: not in compiled code. *)
Lemma bad_jit_sjis : exists s i, last_s [ONew [129] (Sjis 0) true; JShlInt 0 64 true] = Some s /\
  last_s [ONew [129] (Sjis 0) true; OShlInt 0 64] = Some i /\ text_of s = text_of i /\
  valid_encoding j0 s = false /\ valid_encoding j0 i = true.
Proof. do 2 eexists. split; [vm_compute; reflexivity|]. split; [vm_compute; reflexivity|]. repeat split; reflexivity. Qed.
(** ["aé"\[0\]] is not [ascii_only?]. *)
Definition h_slice : list op := [ONew [97; 195; 169] Utf8 true; OSub 0 0 1].
Lemma bad_slice : exists s, last_s h_slice = Some s /\ sb s = [97] /\ ascii_only j0 s = false.
Proof. eexists. split; [vm_compute; reflexivity|]. split; reflexivity. Qed.
(** [s = "é"; s.bytesplice(0, 2, "a")]. *)
Lemma bad_splice : exists s, last_s [ONew [97] Utf8 true; ONew [195; 169] Utf8 true; OSplice 1 0 2 0] = Some s /\
  sb s = [97] /\ ascii_only j0 s = false.
Proof. eexists. split; [vm_compute; reflexivity|]. split; reflexivity. Qed.
(** [s = "\xFFa"; s.bytesplice(1, 1, "b")], all UTF-8, makes [s] ASCII-8BIT. *)
Lemma bad_splice_enc : exists s, last_s [ONew [98] Utf8 true; ONew [255; 97] Utf8 true; OSplice 1 1 1 0] = Some s /\
  sb s = [255; 98] /\ se s = Ascii8.
Proof. eexists. split; [vm_compute; reflexivity|]. split; reflexivity. Qed.

(** ** Characters. *)
Definition S (b : list Z) (e : encoding) : str := mkS b e (classify j0 e b).
(** U+1F600 in UTF-16LE is two characters. *)
Lemma bad_pair : split Utf16Le [61; 216; 0; 222] [[61; 216; 0; 222]] /\ char_length j0 (S [61; 216; 0; 222] Utf16Le) = 2%nat.
Proof.
  split; [|reflexivity]. apply (sp_char Utf16Le [61; 216; 0; 222] []); [|constructor].
  apply ch_pair; [exact I|cbn; lia|cbn; lia].
Qed.
(** A lone surrogate, and a code point beyond Unicode, are valid. *)
Lemma bad_lone : is_well (classify j0 Utf16Le [0; 216]) = true /\ ~ valid_in Utf16Le [0; 216].
Proof.
  split; [reflexivity|]. intros (cs & h & hc). destruct hc as [|c cs hc _]; [discriminate|]. cbn in h.
  inversion hc; subst; try contradiction; cbn in *; try discriminate.
  injection h as <- <- _. match goal with q : scalar _ |- _ => unfold scalar in q; cbn in q; lia end.
Qed.
Lemma bad_far : is_well (classify j0 Utf32Le [0; 0; 17; 0]) = true /\ ~ valid_in Utf32Le [0; 0; 17; 0].
Proof.
  split; [reflexivity|]. intros (cs & h & hc). destruct hc as [|c cs hc _]; [discriminate|]. cbn in h.
  inversion hc; subst; try contradiction; cbn in *; try discriminate.
  injection h as <- <- <- <- _. match goal with q : scalar _ |- _ => unfold scalar in q; cbn in q; lia end.
Qed.
(** An EUC-JP lead byte swallows the ASCII character after it. *)
Lemma bad_euc : chars (S [164; 97] EucJp) = [[164; 97]] /\ split EucJp [164; 97] [[164]; [97]].
Proof.
  split; [reflexivity|]. apply (sp_bad EucJp [164; 97]); [discriminate| |].
  - intros c r h hc. destruct c as [|x [|y [|z c]]]; cbn in h; try discriminate h; inversion hc; subst; try contradiction;
      try (match goal with q : enc_utf8 _ = _ |- _ => idtac end); injection h; intros; subst; lia.
  - apply (sp_char EucJp [97] []); [|constructor]. apply ch_ascii; [exact I|lia].
Qed.
(** Lengths that wrap: UTF-32 [s\[0, 2**62\]] is empty, UTF-16 [s\[1, 2**63-1\]] crashes. *)
Lemma bad_wrap32 : index2 j0 (S [97; 0; 0; 0] Utf32Le) 0 (2 ^ 62) = RStr (mkS [] Utf32Le C7).
Proof. vm_compute. reflexivity. Qed.
Lemma bad_wrap16 : index2 j0 (S [97; 0] Utf16Le) 1 (2 ^ 63 - 1) = RCrash.
Proof. vm_compute. reflexivity. Qed.
(** ["abc"\[0..2**63-1\]] is empty. *)
Lemma bad_range : index_range j0 (S [97; 98; 99] Utf8) (Some 0) (Some (2 ^ 63 - 1)) false = RStr (mkS [] Utf8 C7).
Proof. vm_compute. reflexivity. Qed.
(** [s\[0, 0\]] of a Shift_JIS string is in UTF-8. *)
Lemma bad_zero : index2 j0 (S [97] (Sjis 0)) 0 0 = RStr (mkS [] Utf8 C7).
Proof. vm_compute. reflexivity. Qed.
(** ["hello".byteslice(1..-10)] is nil. *)
Lemma bad_byteslice : byteslice_range j0 (S [104; 101; 108; 108; 111] Utf8) (S [104; 101; 108; 108; 111] Utf8) (Some 1) (Some (-10)) false = RNil
  /\ between (each_byte [104; 101; 108; 108; 111]) (Some 1) (Some (-10)) false = Some [].
Proof. split; vm_compute; reflexivity. Qed.
(** [byteslice] when the conversion of its argument empties the string. *)
Lemma bad_reenter : byteslice2 j0 (S [97; 98; 99] Utf8) (S [] Utf8) 0 3 = RCrash.
Proof. vm_compute. reflexivity. Qed.

(** ** Joining and comparing. *)
(** ["aé"\[0\] + "\xFF".b]. *)
Lemma bad_join : exists s, last_s h_slice = Some s /\ joint (text_of s) (text_of (S [255] Ascii8)) = Some Ascii8 /\
  view (fst (fst (extend j0 s (S [255] Ascii8)))) = None.
Proof. eexists. split; [vm_compute; reflexivity|]. split; vm_compute; reflexivity. Qed.
(** ["aé"\[0\]] is equal to the US-ASCII "a", and comes after it. *)
Lemma bad_cmp : exists s, last_s h_slice = Some s /\ str_eq j0 s (S [97] UsAscii) = true /\ str_cmp j0 s (S [97] UsAscii) = Gt.
Proof. eexists. split; [vm_compute; reflexivity|]. split; vm_compute; reflexivity. Qed.
(** The two Shift_JIS encodings: different, compared as equal. *)
Lemma bad_ord : str_eq j0 (S [130; 160] (Sjis 0)) (S [130; 160] (Sjis 1)) = false /\
  str_cmp j0 (S [130; 160] (Sjis 0)) (S [130; 160] (Sjis 1)) = Eq.
Proof. split; vm_compute; reflexivity. Qed.
(** Not transitive. *)
Lemma bad_trans : str_cmp j0 (S [97; 97] (Iso8859 1)) (S [97; 97] Utf8) = Eq /\
  str_cmp j0 (S [97; 97] Utf8) (S [97; 97] Utf16Be) = Lt /\
  str_cmp j0 (S [97; 97] (Iso8859 1)) (S [97; 97] Utf16Be) = Gt.
Proof. repeat split; vm_compute; reflexivity. Qed.
(** US-ASCII "a" [.ljust(2, "é")] stays US-ASCII. *)
Lemma bad_pad_enc : joint (text_of (S [97] UsAscii)) (text_of (S [195; 169] Utf8)) = Some Utf8 /\
  text_of (pad j0 (S [97] UsAscii) (S [195; 169] Utf8) 0 1) = (UsAscii, [97; 195; 169]).
Proof. split; vm_compute; reflexivity. Qed.
(** An object printed into a UTF-16 string: its ASCII bytes. *)
Lemma bad_interp : view (interp j0 [inl (S [0; 65] Utf16Be); inr [35; 60; 65; 62]]) = Some (Utf16Be, [0; 65; 35; 60; 65; 62]) /\
  joined [(Utf16Be, [0; 65]); (Utf8, [35; 60; 65; 62])] = None.
Proof. split; vm_compute; reflexivity. Qed.
