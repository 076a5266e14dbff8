(** Where the code differs from Ruby. *)
From Coq Require Import List Bool ZArith Lia.
From Verif Require Import FormatModel FormatSpec FormatProofs FormatIntProofs.
Import ListNotations.
Open Scope Z_scope.

(** Zeros up to the width although there is a precision: %08.3d of 5. *)
Lemma zero_bad : exists f v, zero f = true /\ minus f = false /\
  format_int CDec v f 8 (Some 3) = Ok [48; 48; 48; 48; 48; 48; 48; 53] /\ ruby_int CDec v f 8 (Some 3) = [32; 32; 32; 32; 32; 48; 48; 53].
Proof. exists (mkFl true false false false false), 5. repeat split; reflexivity. Qed.
(** The mark for a zero: %#.3x of 0. *)
Lemma mark_bad : exists f, zero f = false /\ format_int (CHex false) 0 f 0 (Some 3) = Ok [48; 120; 48; 48; 48] /\ ruby_int (CHex false) 0 f 0 (Some 3) = [48; 48; 48].
Proof. exists (mkFl false false false false true). repeat split; reflexivity. Qed.
(** One zero too many: %+#.3o of -8. *)
Lemma octal_bad : exists f, zero f = false /\ format_int COct (-8) f 0 (Some 3) = Ok [45; 48; 48; 49; 48] /\ ruby_int COct (-8) f 0 (Some 3) = [45; 48; 49; 48].
Proof. exists (mkFl false false true false true). repeat split; reflexivity. Qed.
(** Above 65535 zeros the program ends. *)
Lemma wide_bad : forall v w, 0 <= v < 10 -> 65536 < w -> format_int CDec v (mkFl true false false false false) w None = Panic.
Proof.
  intros v w V W. unfold format_int. destruct (Z.ltb_spec v 0); [lia|]. cbn [app int_precision]. destruct (digs_ok 10 (Z.abs v) ltac:(lia) ltac:(lia)) as (WW & D & NE & HD & _).
  rewrite flags_plain by (unfold numeral; rewrite <- app_nil_r; apply digits_not_minus; [apply (digits_le 10); [lia|exact D]|exact NE]).
  unfold int_with_prefix. cbn [sign_of plus space app zero andb]. assert (ascii (numeral 10 false (Z.abs v)) = true) as A by (apply ascii_digits, (digits_le 10); [lia|exact D]).
  rewrite (bytes_ascii _ A). change (bytes []) with 0. assert (len (numeral 10 false (Z.abs v)) = 1) as L.
  { unfold numeral. rewrite len_map. rewrite Z.abs_eq by lia. assert (v = 0 \/ v = 1 \/ v = 2 \/ v = 3 \/ v = 4 \/ v = 5 \/ v = 6 \/ v = 7 \/ v = 8 \/ v = 9) as Q by lia.
    repeat (destruct Q as [->|Q]; [reflexivity|]). subst v. reflexivity. }
  rewrite L. destruct (Z.ltb_spec 1 w); [|lia]. unfold zeros_to. destruct (Z.ltb_spec 65535 (w - 0 - 0)); [reflexivity|lia].
Qed.
(** %3s of a letter that takes two bytes. *)
Lemma text_bad : exists t f, len t = 1 /\ format_text t f 3 None = [32; 233] /\ ruby_text t f 3 None = [32; 32; 233].
Proof. exists [233], (mkFl false false false false false). repeat split; reflexivity. Qed.
(** The number of an argument counts modulo 2^64: %18446744073709551617$d *)
Lemma index_bad : exists l vs, In 36 l /\ sprintf Z Some (fun c f w p v => format_int CDec v f w p) l vs = Ok [53]
  /\ l = 37 :: decimal (2 ^ 64 + 1) ++ [36; 100] /\ length vs = 1%nat.
Proof. exists (37 :: decimal (2 ^ 64 + 1) ++ [36; 100]), [5]. split; [vm_compute; tauto|]. split; [vm_compute; reflexivity|]. split; reflexivity. Qed.
(** A width from an argument above the C integers: no error. *)
Lemma star_bad : exists ps vs, forallb good_piece ps = true /\ means Z Some (fun _ _ w _ _ => Ok (decimal w)) vs Free ps = SRange
  /\ sprintf Z Some (fun _ _ w _ _ => Ok (decimal w)) (render ps) vs = Ok [50; 49; 52; 55; 52; 56; 51; 54; 52; 56].
Proof. exists [PDir (mkD [] ANext None None 100)], [2147483648; 5]. repeat split; vm_compute; reflexivity. Qed.
(** And from the format: %2147483648d *)
Lemma literal_bad : exists l vs, l = 37 :: decimal (int_max + 1) ++ [100] /\ sprintf Z Some (fun _ _ w _ _ => Ok (decimal w)) l vs = Ok [50; 49; 52; 55; 52; 56; 51; 54; 52; 56].
Proof. exists (37 :: decimal (int_max + 1) ++ [100]), [5]. split; [reflexivity|vm_compute; reflexivity]. Qed.
