(** C67: arithmetic sequences; C68: slicing arrays with them. *)
From Coq Require Import ZArith Bool List Floats.SpecFloat.
From Verif Require Import IntModel ImSpec AseqModel AseqSpec AseqProofs AseqSliceProofs AseqBadProofs.
Import ListNotations.
Open Scope Z_scope.

(** ** C67 *)

(** Every progression with an end has one number of terms. *)
Theorem C67_counted : forall b e s excl, s <> 0 -> exists n, is_count b e s excl n.
Proof. exact count_exists. Qed.
Print Assumptions C67_counted.
Theorem C67_unique : forall b e s excl n m, is_count b e s excl n -> is_count b e s excl m -> n = m.
Proof. exact count_unique. Qed.
Print Assumptions C67_unique.

Theorem C67_size_partial : forall b e s excl n, s <> 0 -> is_count b e s excl n -> n < 2 ^ 63 ->
  size (fixseq b (Some e) s excl) = AOk (Some n).
Proof. exact size_exact. Qed.
Print Assumptions C67_size_partial.

Theorem C67_first : forall b e s excl n m, s <> 0 -> is_count b e s excl n -> 0 <= m < 2 ^ 63 ->
  are_ints (first_n (fixseq b (Some e) s excl) m) (terms b s 0 (Z.min m n)).
Proof. exact first_ok. Qed.
Print Assumptions C67_first.

Theorem C67_first_endless : forall b s excl m, s <> 0 -> 0 <= m ->
  are_ints (first_n (fixseq b None s excl) m) (terms b s 0 m).
Proof. exact first_endless. Qed.
Print Assumptions C67_first_endless.

Theorem C67_last_partial : forall b e s excl n, s <> 0 -> is_count b e s excl n -> n < 2 ^ 63 ->
  match last_term (fixseq b (Some e) s excl) with
  | AOk None => n = 0
  | AOk (Some v) => 0 < n /\ exists x, v = AI x /\ is_int x (b + (n - 1) * s)
  | AErr _ => False
  end.
Proof. exact last_ok. Qed.
Print Assumptions C67_last_partial.

Theorem C67_last_n_partial : forall b e s excl n m, s <> 0 -> is_count b e s excl n -> n < 2 ^ 63 -> 0 <= m ->
  are_ints (last_n (fixseq b (Some e) s excl) m) (terms b s (n - Z.min m n) (Z.min m n)).
Proof. exact last_n_ok. Qed.
Print Assumptions C67_last_n_partial.

Theorem C67_each_partial : forall b e s excl n fuel, s <> 0 -> is_count b e s excl n -> n < 2 ^ 63 ->
  are_ints (each fuel (fixseq b (Some e) s excl)) (terms b s 0 (Z.min n (Z.of_nat fuel))).
Proof. exact each_ok. Qed.
Print Assumptions C67_each_partial.

Theorem C67_each_endless : forall b s excl fuel, s <> 0 ->
  are_ints (each fuel (fixseq b None s excl)) (terms b s 0 (Z.of_nat fuel)).
Proof. exact each_endless. Qed.
Print Assumptions C67_each_endless.

Theorem C67_to_a_partial : forall b e s excl n, s <> 0 -> is_count b e s excl n -> n < 2 ^ 63 ->
  are_ints (to_a (fixseq b (Some e) s excl)) (terms b s 0 n).
Proof. exact to_a_ok. Qed.
Print Assumptions C67_to_a_partial.

(** With a block: Integers of any size. *)
Theorem C67_block : forall b e s excl n fuel, ival s <> 0 -> is_count (ival b) (ival e) (ival s) excl n ->
  are_ints (step_block fuel (mkseq (Some (AI b)) (Some (AI e)) (AI s) excl))
           (terms (ival b) (ival s) 0 (Z.min n (Z.of_nat fuel))).
Proof. exact block_ok. Qed.
Print Assumptions C67_block.
Theorem C67_block_endless : forall b s excl fuel, ival s <> 0 ->
  are_ints (step_block fuel (mkseq (Some (AI b)) None (AI s) excl))
           (terms (ival b) (ival s) 0 (Z.of_nat fuel)).
Proof. exact block_endless. Qed.
Print Assumptions C67_block_endless.

(** On Floats the methods agree with one another. *)
Theorem C67_float_agree : forall b e s excl n l m,
  let q := mkseq (Some (AF b)) e (AF s) excl in
  size q = AOk (Some n) -> to_a q = AOk l -> 0 <= m ->
  first_n q m = AOk (firstn (Z.to_nat m) l) /\
  last_n q m = AOk (skipn (Z.to_nat (n - m)) l) /\
  length l = Z.to_nat n /\
  last_term q = AOk (nth_error l (Z.to_nat (n - 1))) /\
  forall fuel, each fuel q = AOk (firstn fuel l).
Proof. intros b e s excl n l m q. exact (agree q (AF b) n l m eq_refl (fun i => float_terms b i s)). Qed.
Print Assumptions C67_float_agree.

(** With a block: the terms in order, never beyond the end. *)
Theorem C67_float_block : forall fuel b e u excl, f_inf u = false ->
  f_inf (f_div (f_sub e b) u) = false ->
  yields b e u excl (float_step fuel b (Some e) u excl) /\
  Z.of_nat (length (float_step fuel b (Some e) u excl)) <= Z.max 0 (step_index b e u + 1).
Proof. exact float_block_ok. Qed.
Print Assumptions C67_float_block.

(** Endless sequences have no size, array or last term; a step of 0 is
    refused. *)
Theorem C67_endless_refused : forall q b n, sbeg q = Some b -> send q = None -> is_zero (sstep q) = false ->
  size q = AOk None /\ to_a q = AErr ARange /\ last_term q = AErr ARange /\ last_n q n = AErr ARange.
Proof. exact endless_refused. Qed.
Print Assumptions C67_endless_refused.
Theorem C67_zero_refused : forall q n fuel, is_zero (sstep q) = true ->
  size q = AErr AArg /\ to_a q = AErr AArg /\ last_term q = AErr AType /\ last_n q n = AErr AType /\
  (0 < n -> first_n q n = AErr AType) /\ each fuel q = AErr AType /\ step_block fuel q = AErr AArg.
Proof. exact zero_refused. Qed.
Print Assumptions C67_zero_refused.

Theorem C67_clamp_refuted : is_count (- 2 ^ 62) (2 ^ 62 - 1) 1 false (2 ^ 63) /\
  size (fixseq (- 2 ^ 62) (Some (2 ^ 62 - 1)) 1 false) = AOk (Some (2 ^ 63 - 1)).
Proof. exact clamp_bad. Qed.
Print Assumptions C67_clamp_refuted.

Theorem C67_big_size_refuted : is_count (2 ^ 64) (2 ^ 64 + 3) 1 false 4 /\ size big_seq = AOk (Some 1) /\
  are_ints (to_a big_seq) [2 ^ 64] /\
  are_ints (step_block 9 big_seq) [2 ^ 64; 2 ^ 64 + 1; 2 ^ 64 + 2; 2 ^ 64 + 3].
Proof. exact big_size_bad. Qed.
Print Assumptions C67_big_size_refuted.

Theorem C67_big_terms_refuted : exists f, first_n big_seq 1 = AOk [AF f] /\ last_term big_seq = AOk (Some (AF f)).
Proof. exact big_terms_bad. Qed.
Print Assumptions C67_big_terms_refuted.

Theorem C67_float_block_refuted : exists a b c d,
  (forall fuel, step_block (5 + fuel) tenths = AOk [a; b; c; d]) /\ size tenths = AOk (Some 3) /\
  to_a tenths = AOk [a; b; c] /\ d = AF (f_div (f_of_Z 3) (f_of_Z 10)).
Proof. exact float_block_bad. Qed.
Print Assumptions C67_float_block_refuted.

Theorem C67_mixed_refuted : exists x y r, x <> y /\
  match to_a mixed with AOk l => nth_error l 3 = Some x | AErr _ => False end /\
  first_n mixed 4 = AOk (r ++ [y]) /\ length r = 3%nat.
Proof. exact mixed_bad. Qed.
Print Assumptions C67_mixed_refuted.

Example C67_ex : is_count 10 1 (-3) true 3 /\
  to_a (fixseq 10 (Some 1) (-3) true) = AOk [AI (NFix 10); AI (NFix 7); AI (NFix 4)] /\
  last_n (fixseq 1 (Some 10) 4 false) 2 = AOk [AI (NFix 5); AI (NFix 9)].
Proof.
  split; [|split; reflexivity]. split; [now compute|]. intros k K. unfold within. cbn [Z.ltb Z.compare].
  split; intros; Lia.lia.
Qed.

(** ** C68 *)

(** No sequence reads outside the array. *)
Theorem C68_safe : forall A (q : aseq) (l : list A), Z.of_nat (length l) < 2 ^ 61 ->
  aval_ok (sbeg q) -> aval_ok (send q) -> aval_ok (Some (sstep q)) -> index_op q l <> Wild.
Proof. intros A. exact index_safe. Qed.
Print Assumptions C68_safe.

Theorem C68_slice_partial : forall A (l : list A) b e s excl, s <> 0 -> fixnum s -> Z.of_nat (length l) < 2 ^ 61 ->
  opt_fixnum b -> opt_fixnum e -> plain_end e s excl ->
  let len := Z.of_nat (length l) in
  slice_spec l (span_lo len b e s excl) (span_hi len b e s excl) s (index_core l b e s excl).
Proof. intros A. exact index_ok. Qed.
Print Assumptions C68_slice_partial.

Theorem C68_descending_refuted :
  ~ slice_spec [0; 1; 2; 3; 4; 5] (span_lo 6 (Some 4) (Some (-1)) (-1) true) (span_hi 6 (Some 4) (Some (-1)) (-1) true) (-1)
      (index_core [0; 1; 2; 3; 4; 5] (Some 4) (Some (-1)) (-1) true) /\
  ~ slice_spec [0; 1; 2; 3; 4; 5] (span_lo 6 (Some 4) None (-1) true) (span_hi 6 (Some 4) None (-1) true) (-1)
      (index_core [0; 1; 2; 3; 4; 5] (Some 4) None (-1) true).
Proof. exact descending_bad. Qed.
Print Assumptions C68_descending_refuted.

Example C68_ex :
  index_op (fixseq 1 (Some (-1)) 2 false) [10; 11; 12; 13; 14] = Picked [11; 13] /\
  index_op (fixseq (-1) None (-2) false) [10; 11; 12; 13; 14] = Picked [14; 12; 10] /\
  index_op (fixseq (-9) None 2 false) [10; 11; 12] = PErr ARange /\
  index_op (fixseq 7 None 1 false) [10; 11; 12] = PNil.
Proof. repeat split. Qed.
