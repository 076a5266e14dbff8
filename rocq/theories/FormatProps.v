(** C103-C105: sprintf. *)
From Coq Require Import List Bool ZArith.
From Verif Require Import FormatModel FormatSpec FormatProofs FormatIntProofs FormatDirProofs FormatBadProofs.
Import ListNotations.
Open Scope Z_scope.

(** The digits of a number in a base stand for it, without a zero in front. *)
Theorem C103_numeral : forall base n, 2 <= base -> 0 <= n ->
  worth base (digs base n) = n /\ Forall (fun d => 0 <= d < base) (digs base n) /\ digs base n <> [] /\ (0 < n -> hd 0 (digs base n) <> 0) /\ (n = 0 -> digs base n = [0]).
Proof. exact digs_ok. Qed.
Print Assumptions C103_numeral.
(** 255 and 2^64+1 *)
Example C103_digits_example : numeral 16 false 255 = [102; 102] /\ numeral 16 true 255 = [70; 70]
  /\ numeral 10 false (2 ^ 64 + 1) = [49; 56; 52; 52; 54; 55; 52; 52; 48; 55; 51; 55; 48; 57; 53; 53; 49; 54; 49; 55] /\ complement 16 256 = [15; 0; 0] /\ complement 16 255 = [15; 0; 1] /\ complement 8 1 = [7].
Proof. repeat split; vm_compute; reflexivity. Qed.

(** Integers as in Ruby, but for zeros with a precision or beyond 65535, a marked zero, and a signed octal with a precision. *)
Theorem C103_integers_partial : forall c v f width prec, fair_int c v f width prec = true -> match prec with Some p => 0 <= p | None => True end ->
  format_int c v f width prec = Ok (ruby_int c v f width prec).
Proof. exact int_ok. Qed.
Print Assumptions C103_integers_partial.
(** %+8.3d of -5, %#010x of 255, %x of -256, %010b of -5, %-8o of 8 *)
Example C103_example :
  ruby_int CDec (-5) (mkFl false false true false false) 8 (Some 3) = [32; 32; 32; 32; 45; 48; 48; 53] /\
  ruby_int (CHex false) 255 (mkFl true false false false true) 10 None = [48; 120; 48; 48; 48; 48; 48; 48; 102; 102] /\
  ruby_int (CHex false) (-256) plain_flags 0 None = [46; 46; 102; 48; 48] /\
  ruby_int (CBin false) (-5) (mkFl true false false false false) 10 None = [46; 46; 49; 49; 49; 49; 49; 48; 49; 49] /\
  ruby_int COct 8 (mkFl false true false false true) 8 None = [48; 49; 48; 32; 32; 32; 32; 32] /\
  fair_int (CHex false) 255 (mkFl true false false false true) 10 None = true.
Proof. repeat split; vm_compute; reflexivity. Qed.

Theorem C103_zero_with_precision_refuted : ~ (forall c v f width p, 0 <= p -> minus f = false -> format_int c v f width (Some p) = Ok (ruby_int c v f width (Some p))).
Proof. intros H. destruct zero_bad as (f & v & Z0 & M & E & R). specialize (H CDec v f 8 3 ltac:(discriminate) M). rewrite E, R in H. discriminate H. Qed.
Print Assumptions C103_zero_with_precision_refuted.
Theorem C103_marked_zero_refuted : ~ (forall c v f width p, 0 <= p -> zero f = false -> format_int c v f width (Some p) = Ok (ruby_int c v f width (Some p))).
Proof. intros H. destruct mark_bad as (f & Z0 & E & R). specialize (H (CHex false) 0 f 0 3 ltac:(discriminate) Z0). rewrite E, R in H. discriminate H. Qed.
Print Assumptions C103_marked_zero_refuted.
Theorem C103_signed_octal_refuted : ~ (forall v f width p, 0 <= p -> zero f = false -> format_int COct v f width (Some p) = Ok (ruby_int COct v f width (Some p))).
Proof. intros H. destruct octal_bad as (f & Z0 & E & R). specialize (H (-8) f 0 3 ltac:(discriminate) Z0). rewrite E, R in H. discriminate H. Qed.
Print Assumptions C103_signed_octal_refuted.
Theorem C103_no_panic_refuted : ~ (forall c v f width prec, format_int c v f width prec <> Panic).
Proof. intros H. apply (H CDec 5 (mkFl true false false false false) 70000 None). apply wide_bad; [split; [discriminate|reflexivity]|reflexivity]. Qed.
Print Assumptions C103_no_panic_refuted.

(** A format read and its arguments taken as Ruby says, whatever the conversions do. *)
Theorem C104_directives_partial : forall value star convert ps vs, forallb good_piece ps = true -> means value star convert vs Free ps <> SRange ->
  shown (sprintf value star convert (render ps) vs) = means value star convert vs Free ps.
Proof. exact sprintf_ok. Qed.
Print Assumptions C104_directives_partial.
(** %2$-*1$d! with -4 and 7; %d %1$d is an error. *)
Example C104_example :
  let go := sprintf Z Some (fun _ f w p v => format_int CDec v f w p) in
  render [PDir (mkD [45] (ANth 1) None (Some (2, First)) 100); PText 33] = [37; 50; 36; 45; 42; 49; 36; 100; 33] /\
  go [37; 50; 36; 45; 42; 49; 36; 100; 33] [-4; 7] = Ok [55; 32; 32; 32; 33] /\
  go [37; 100; 32; 37; 49; 36; 100] [1] = Err /\
  means Z Some (fun _ f w p v => format_int CDec v f w p) [1] Free [PDir (mkD [] ANone None None 100); PText 32; PDir (mkD [] ANone None (Some (1, First)) 100)] = SErr /\
  means Z Some (fun _ f w p v => format_int CDec v f w p) [-4; 7] Free [PDir (mkD [45] (ANth 1) None (Some (2, First)) 100); PText 33] = SOk [55; 32; 32; 32; 33].
Proof. repeat split; vm_compute; reflexivity. Qed.
Theorem C104_index_refuted : ~ (forall n (vs : list Z), len vs < n -> sprintf Z Some (fun c f w p v => format_int CDec v f w p) (37 :: decimal n ++ [36; 100]) vs = Err).
Proof. intros H. destruct index_bad as (l & vs & _ & E & L & N). specialize (H (2 ^ 64 + 1) vs). unfold len in H. rewrite N in H. specialize (H ltac:(reflexivity)). rewrite <- L, E in H. discriminate H. Qed.
Print Assumptions C104_index_refuted.
Theorem C104_star_range_refuted : ~ (forall value star convert ps (vs : list value), forallb good_piece ps = true -> means value star convert vs Free ps = SRange ->
  sprintf value star convert (render ps) vs = Err).
Proof. intros H. destruct star_bad as (ps & vs & G & M & E). specialize (H _ _ _ ps vs G M). rewrite E in H. discriminate H. Qed.
Print Assumptions C104_star_range_refuted.
Theorem C104_width_range_refuted : ~ (forall value star convert n (vs : list value), int_max < n -> sprintf value star convert (37 :: decimal n ++ [100]) vs = Err).
Proof. intros H. destruct literal_bad as (l & vs & L & E). specialize (H Z Some (fun _ _ w _ _ => Ok (decimal w)) (int_max + 1) vs ltac:(reflexivity)). rewrite <- L, E in H. discriminate H. Qed.
Print Assumptions C104_width_range_refuted.

(** Text cut to its precision and filled up to its width: in characters below 128. *)
Theorem C105_text_partial : forall t f width prec, ascii t = true -> match prec with Some p => 0 <= p | None => True end ->
  format_text t f width prec = ruby_text t f width prec.
Proof. exact text_ok. Qed.
Print Assumptions C105_text_partial.
(** %-6.2s of abc *)
Example C105_example : ruby_text [97; 98; 99] (mkFl false true false false false) 6 (Some 2) = [97; 98; 32; 32; 32; 32] /\ ascii [97; 98; 99] = true.
Proof. split; reflexivity. Qed.
Theorem C105_width_refuted : ~ (forall t f width prec, match prec with Some p => 0 <= p | None => True end -> format_text t f width prec = ruby_text t f width prec).
Proof. intros H. destruct text_bad as (t & f & _ & E & R). specialize (H t f 3 None Logic.I). rewrite E, R in H. discriminate H. Qed.
Print Assumptions C105_width_refuted.
