(** C34-C37, C56: Array#pack and String#unpack.  [widen], [c_string], [fixed]: what the directives
    f, p and P need of the outside; [base]: the offset for '^'. *)

From Coq Require Import ZArith Bool List.
From Verif Require Import PackModel PackSpec PackProofs PackFmtProofs.
Import ListNotations.
Local Open Scope Z_scope.

(** `l!>3 # c\nn*`: three big-endian signed 8-byte integers, then big-endian unsigned 2-byte ones. *)
Example C34_template :
  option_map (map (fun nd => (tmpl nd, big nd, count nd)))
    (parse_template [108; 33; 62; 51; 32; 35; 32; 99; 10; 110; 42])
  = Some [(IntOf true 8, true, Some 3%nat); (IntOf false 2, true, None)].
Proof. vm_compute. reflexivity. Qed.

(** A count is the number its digits write. *)
Theorem C34_count c ds : Forall (fun c => 48 <= c <= 57) (c :: ds) -> decimal (c :: ds) <= 2 ^ 63 - 1 ->
  parse_template (67 :: c :: ds) = Some [Node (IntOf false 1) false (Some (decimal (c :: ds))) true].
Proof. exact (count_value c ds). Qed.
Print Assumptions C34_count.
(** Integers through any template of integer directives come back reduced. *)
Theorem C34_roundtrip widen c_string fixed base t nds xs out :
  parse_template t = Some nds -> Forall is_int nds -> pack (map VInt xs) t = Some out ->
  exists ys, unpack widen c_string fixed out t base = Some (map VInt ys) /\
    length ys = length (layout nds (length xs)) /\
    Forall2 (fun d p => reduces (fst d) (snd d) (fst p) (snd p)) (layout nds (length xs)) (combine xs ys).
Proof. exact (ints_roundtrip widen c_string fixed base t nds xs out). Qed.
Print Assumptions C34_roundtrip.
Theorem C34_unpack1 widen c_string fixed base t nd sg size x :
  parse_template t = Some [nd] -> tmpl nd = IntOf sg size -> repeat nd = Some 1 ->
  exists b y, pack [VInt x] t = Some b /\ length b = size /\
    unpack1 widen c_string fixed b t base = Some (VInt y) /\ reduces sg size x y.
Proof. exact (int_single widen c_string fixed base t nd sg size x). Qed.
Print Assumptions C34_unpack1.
(** The bytes are the base-256 digits of x (modulo the width), in the order of the directive. *)
Theorem C34_bytes t nd sg size x b : parse_template t = Some [nd] -> tmpl nd = IntOf sg size -> count nd = Some 1%nat ->
  pack [VInt x] t = Some b ->
  length b = size /\ forall i, (i < size)%nat ->
    nth i b 0 = (x / 256 ^ Z.of_nat (if big nd then size - 1 - i else i)) mod 256.
Proof. exact (int_layout t nd sg size x b). Qed.
Print Assumptions C34_bytes.
(** c C s S i I l L q Q j J v V n N, then l! L! s> and L_>. *)
Example C34_letters :
  map (fun t => match parse_template t with Some [Node (IntOf sg size) bg (Some 1) false] => Some (sg, size, bg) | _ => None end)
    [[99]; [67]; [115]; [83]; [105]; [73]; [108]; [76]; [113]; [81]; [106]; [74]; [118]; [86]; [110]; [78];
     [108; 33]; [76; 33]; [115; 62]; [76; 95; 62]]
  = map Some [(true, 1%nat, false); (false, 1%nat, false); (true, 2%nat, false); (false, 2%nat, false);
      (true, 4%nat, false); (false, 4%nat, false); (true, 4%nat, false); (false, 4%nat, false);
      (true, 8%nat, false); (false, 8%nat, false); (true, 8%nat, false); (false, 8%nat, false);
      (false, 2%nat, false); (false, 4%nat, false); (false, 2%nat, true); (false, 4%nat, true);
      (true, 8%nat, false); (false, 8%nat, false); (true, 2%nat, true); (false, 8%nat, true)].
Proof. vm_compute. reflexivity. Qed.
(** "s>C2": -2, 300, -2^70 - 1. *)
Example C34_example :
  pack [VInt (-2); VInt 300; VInt (- 2 ^ 70 - 1)] [115; 62; 67; 50] = Some [255; 254; 44; 255] /\
  unpack (fun x => x) (fun _ => []) (fun _ _ => []) [255; 254; 44; 255] [115; 62; 67; 50] 0
    = Some [VInt (-2); VInt 44; VInt 255].
Proof. vm_compute. split; reflexivity. Qed.

(** m, u and M with any count. *)
Theorem C35_roundtrip widen c_string fixed base t d n s :
  one t d n -> In d [Base64; QuotedPrintable; UuEncoded] -> bytes s ->
  exists b, pack [VStr s] t = Some b /\ unpack widen c_string fixed b t base = Some [VStr s].
Proof. exact (encoded_one widen c_string fixed base t d n s). Qed.
Print Assumptions C35_roundtrip.
(** What they write is text in lines of the length asked for (0: m writes a single one). *)
Theorem C35_base64_text s n : Forall b64_text (base64_encode s n) /\
  (0 < n -> Forall (fun l => Z.of_nat (length l) <= 4 * ((n + 2) / 3)) (lines (base64_encode s n))) /\
  (n = 0 -> lines (base64_encode s n) = [base64_encode s n]).
Proof. exact (base64_format s n). Qed.
Print Assumptions C35_base64_text.
Theorem C35_qp_text s n : bytes s -> Forall qp_text (qp_encode s n) /\
  Forall (fun l => Z.of_nat (length l) <= (if 1 <? n then n else 72) + 4) (lines (qp_encode s n)).
Proof. exact (qp_format s n). Qed.
Print Assumptions C35_qp_text.
Theorem C35_uu_text s n : n = 0 \/ 3 <= n -> Forall uu_text (uu_encode s n) /\
  Forall (fun l => Z.of_nat (length l) <= 61) (lines (uu_encode s n)).
Proof. exact (uu_format s n). Qed.
Print Assumptions C35_uu_text.
(** "u4" writes three bytes per line (not four). *)
Example C35_uu_lines :
  pack [VStr [97; 98; 99; 100; 101]] [117; 52] = Some [35; 56; 54; 41; 67; 10; 34; 57; 38; 52; 96; 10] /\
  map (uu_encode [97; 98; 99; 100; 101]) [4; 5] = [uu_encode [97; 98; 99; 100; 101] 3; uu_encode [97; 98; 99; 100; 101] 3].
Proof. vm_compute. split; reflexivity. Qed.
(** "m3" breaks the line after three bytes; "=\n" ends a quoted-printable text without newline. *)
Example C35_example :
  one [109; 51] Base64 (Some 3%nat) /\
  pack [VStr [97; 98; 99; 100]] [109; 51] = Some [89; 87; 74; 106; 10; 90; 65; 61; 61; 10] /\
  pack [VStr [97; 61; 32; 10; 98]] [77] = Some [97; 61; 51; 68; 32; 61; 10; 10; 98; 61; 10] /\
  unpack (fun x => x) (fun _ => []) (fun _ _ => []) [97; 61; 51; 68; 32; 61; 10; 10; 98; 61; 10] [77] 0
    = Some [VStr [97; 61; 32; 10; 98]].
Proof. split; [eexists; split; [reflexivity|split; reflexivity]|]. vm_compute. repeat split. Qed.

(** w below 2^63, R below 2^64, r from -2^63 to 2^63, U below 2^21. *)
Theorem C36_roundtrip_partial widen c_string fixed base t d n xs :
  one t d n -> In d [BerCompressedInt; UlebUnsigned; SlebSigned; Utf8] ->
  Forall (holds d) xs -> for_count n (length xs) ->
  exists b, pack (map VInt xs) t = Some b /\ unpack widen c_string fixed b t base = Some (map VInt xs).
Proof. exact (numbers_one widen c_string fixed base t d n xs). Qed.
Print Assumptions C36_roundtrip_partial.
(** w takes any non-negative integer, but what comes back is reduced to a signed 64-bit one... *)
Theorem C36_ber widen c_string fixed base t n xs :
  one t BerCompressedInt n -> Forall (fun x => 0 <= x) xs -> for_count n (length xs) ->
  exists b, pack (map VInt xs) t = Some b /\ unpack widen c_string fixed b t base = Some (map VInt (map i64 xs)).
Proof. exact (ber_one widen c_string fixed base t n xs). Qed.
Print Assumptions C36_ber.
(** ... which no integer from 2^63 on is: 2^63 comes back negative, 2^64 as 0. *)
Theorem C36_ber_large_refuted :
  (forall x, 2 ^ 63 <= x -> i64 x <> x) /\
  forall widen c_string fixed base,
  pack [VInt (2 ^ 63); VInt (2 ^ 64)] [119; 42] =
    Some [129; 128; 128; 128; 128; 128; 128; 128; 128; 0; 130; 128; 128; 128; 128; 128; 128; 128; 128; 0] /\
  unpack widen c_string fixed
    [129; 128; 128; 128; 128; 128; 128; 128; 128; 0; 130; 128; 128; 128; 128; 128; 128; 128; 128; 0] [119; 42] base
    = Some [VInt (- 2 ^ 63); VInt 0].
Proof. split; [exact ber_wrong|]. intros. split; reflexivity. Qed.
Print Assumptions C36_ber_large_refuted.
(** R reduces to 64 bits instead of refusing a negative integer or encoding a big one. *)
Theorem C36_uleb widen c_string fixed base t n xs :
  one t UlebUnsigned n -> for_count n (length xs) ->
  exists b, pack (map VInt xs) t = Some b /\
    unpack widen c_string fixed b t base = Some (map VInt (map (fun x => x mod 2 ^ 64) xs)).
Proof. exact (uleb_one widen c_string fixed base t n xs). Qed.
Print Assumptions C36_uleb.
Theorem C36_uleb_large_refuted :
  (forall x, x < 0 \/ 2 ^ 64 <= x -> x mod 2 ^ 64 <> x) /\
  forall widen c_string fixed base, exists b, pack [VInt (2 ^ 64 + 5)] [82] = Some b /\
    unpack widen c_string fixed b [82] base = Some [VInt 5].
Proof. split; [exact uleb_wrong|]. intros. exists [5]. split; reflexivity. Qed.
Print Assumptions C36_uleb_large_refuted.
(** U encodes up to 2^32 but reads no more than four bytes. *)
Theorem C36_utf8_large_refuted widen c_string fixed base t x :
  one t Utf8 (Some 1%nat) -> 2 ^ 21 <= x < 2 ^ 32 ->
  exists b, pack [VInt x] t = Some b /\ unpack widen c_string fixed b t base = None.
Proof. exact (utf8_wrong widen c_string fixed base t x). Qed.
Print Assumptions C36_utf8_large_refuted.
(** A number cut off by the end of the string is dropped by "R*" and nil for "R". *)
Example C36_cut : forall widen c_string fixed base,
  unpack widen c_string fixed [5; 128] [82; 42] base = Some [VInt 5] /\
  unpack widen c_string fixed [5; 128] [82; 50] base = Some [VInt 5; VNil].
Proof. intros. split; reflexivity. Qed.
(** r refuses what does not fit 64 bits. *)
Theorem C36_sleb_range t x : one t SlebSigned (Some 1%nat) -> x < - 2 ^ 63 \/ 2 ^ 63 <= x -> pack [VInt x] t = None.
Proof. exact (sleb_wrong t x). Qed.
Print Assumptions C36_sleb_range.
(** The formats: groups of seven bits, flagged but for the last, most significant first for w, least
    for R and r (whose last group carries the sign); no leading zero group. *)
Theorem C36_ber_format z : 0 <= z -> exists ds, groups ds /\ ber_encode_value z = Some (flagged ds) /\ be_value ds = z /\
  (hd 0 ds = 0 -> ds = [0]).
Proof. exact (ber_format z). Qed.
Print Assumptions C36_ber_format.
Theorem C36_uleb_format v : 0 <= v < 2 ^ 64 -> exists ds, groups ds /\ encode_uleb128 v = flagged ds /\ le_value ds = v /\
  (last ds 0 = 0 -> ds = [0]).
Proof. exact (uleb_format v). Qed.
Print Assumptions C36_uleb_format.
Theorem C36_sleb_format v : - 2 ^ 63 <= v < 2 ^ 63 -> exists ds, groups ds /\ encode_sleb128 v = flagged ds /\
  v = le_value ds - (if 64 <=? last ds 0 then 128 ^ Z.of_nat (length ds) else 0).
Proof. exact (sleb_format v). Qed.
Print Assumptions C36_sleb_format.
Example C36_example : forall widen c_string fixed base,
  one [119; 42] BerCompressedInt None /\ one [85] Utf8 (Some 1%nat) /\
  pack [VInt 300; VInt (2 ^ 63 - 1)] [119; 42] = Some [130; 44; 255; 255; 255; 255; 255; 255; 255; 255; 127] /\
  pack [VInt (- 2 ^ 63)] [114] = Some [128; 128; 128; 128; 128; 128; 128; 128; 128; 127] /\
  unpack widen c_string fixed [128; 128; 128; 128; 128; 128; 128; 128; 128; 127] [114] base = Some [VInt (- 2 ^ 63)] /\
  pack [VInt 8364; VInt (2 ^ 21 - 1)] [85; 42] = Some [226; 130; 172; 247; 191; 191; 191].
Proof. intros. repeat split; try reflexivity; (eexists; split; [reflexivity|split; reflexivity]). Qed.

(** unpack1 is the first value when the first directive yields one... *)
Theorem C37_partial widen c_string fixed base s t nds nd v vs i vs' :
  parse_template t = Some (nd :: nds) -> unpack_node widen c_string fixed base s nd 0 = Some (v :: vs, i) ->
  unpack widen c_string fixed s t base = Some vs' ->
  unpack1 widen c_string fixed s t base = Some v /\ exists r, vs' = v :: r.
Proof. exact (unpack1_first widen c_string fixed base s t nds nd v vs i vs'). Qed.
Print Assumptions C37_partial.
(** ... as these do. *)
Theorem C37_yields widen c_string fixed base s nd i : (match tmpl nd with
    | IntOf _ _ | F64 | F32 => exists k, count nd = Some (S k)
    | Hex | Ascii | AsciiTrim | CString | Base64 | QuotedPrintable | UuEncoded | BitString | Offset => True
    | _ => False end) -> exists v vs j, unpack_node widen c_string fixed base s nd i = Some (v :: vs, j).
Proof. exact (yields widen c_string fixed base s nd i). Qed.
Print Assumptions C37_yields.
(** unpack1 does not fail where unpack does not. *)
Theorem C37_total widen c_string fixed base s t vs : unpack widen c_string fixed s t base = Some vs ->
  exists v, unpack1 widen c_string fixed s t base = Some v.
Proof. exact (unpack1_total widen c_string fixed base s t vs). Qed.
Print Assumptions C37_total.
(** Where the first directive only moves, unpack1 is nil: "xC" on two bytes. *)
Theorem C37_positioned_refuted :
  (forall widen c_string fixed base s t nds nd i v vs, parse_template t = Some (nd :: nds) ->
    unpack_node widen c_string fixed base s nd 0 = Some ([], i) ->
    unpack widen c_string fixed s t base = Some (v :: vs) ->
    unpack1 widen c_string fixed s t base = Some VNil) /\
  forall widen c_string fixed base, unpack widen c_string fixed [1; 2] [120; 67] base = Some [VInt 2] /\
    unpack1 widen c_string fixed [1; 2] [120; 67] base = Some VNil.
Proof.
  split; [exact unpack1_none|]. intros. split; reflexivity.
Qed.
Print Assumptions C37_positioned_refuted.
(** "nC*". *)
Example C37_example : forall widen c_string fixed base,
  unpack widen c_string fixed [1; 2; 3; 4] [110; 67; 42] base = Some [VInt 258; VInt 3; VInt 4] /\
  unpack1 widen c_string fixed [1; 2; 3; 4] [110; 67; 42] base = Some (VInt 258).
Proof. intros. split; reflexivity. Qed.

(** Any sequence of directives whose values fit comes back, when only the last one reads to the
    end of the string. *)
Theorem C56_record_partial widen c_string fixed base t nds vss :
  parse_template t = Some nds -> Forall2 field nds vss -> delimited_but_last nds ->
  exists b, pack (concat vss) t = Some b /\ unpack widen c_string fixed b t base = Some (concat vss).
Proof. exact (record_back widen c_string fixed base t nds vss). Qed.
Print Assumptions C56_record_partial.
(** The other direction of B/b and H/h: bytes to digits and back. *)
Theorem C56_bits big s : bytes s ->
  bits_loop big (flat_map (bits8 big) s) (length (flat_map (bits8 big) s)) 0 0 = s.
Proof. exact (bits_to_bytes big s). Qed.
Print Assumptions C56_bits.
Theorem C56_hex high s : bytes s ->
  hex_loop high (flat_map (hex_pair high) s) (length (flat_map (hex_pair high) s)) 0 false = s.
Proof. exact (hex_to_bytes high s). Qed.
Print Assumptions C56_hex.
(** "A" removes the trailing spaces and NULs, and nothing else. *)
Theorem C56_strip l : exists t, l = strip l ++ t /\ Forall (fun c => c = 32 \/ c = 0) t /\
  (forall p c, strip l = p ++ [c] -> c <> 32 /\ c <> 0).
Proof. exact (strip_spec l). Qed.
Print Assumptions C56_strip.
(** "Z*" writes a terminator but reads to the end of the string, not to the terminator. *)
Theorem C56_cstrings_refuted widen c_string fixed base :
  pack [VStr [97]; VStr [98]] [90; 42; 90; 42] = Some [97; 0; 98; 0] /\
  unpack widen c_string fixed [97; 0; 98; 0] [90; 42; 90; 42] base = Some [VStr [97]; VStr []].
Proof. split; reflexivity. Qed.
Print Assumptions C56_cstrings_refuted.
(** "NA5xB3Z*". *)
Example C56_example : forall widen c_string fixed base,
  let t := [78; 65; 53; 120; 66; 51; 90; 42] in
  let vs := [VInt 258; VStr [104; 105]; VStr [49; 48; 49]; VStr [122]] in
  pack vs t = Some [0; 0; 1; 2; 104; 105; 32; 32; 32; 0; 160; 122; 0] /\
  unpack widen c_string fixed [0; 0; 1; 2; 104; 105; 32; 32; 32; 0; 160; 122; 0] t base = Some vs.
Proof. intros. split; reflexivity. Qed.
