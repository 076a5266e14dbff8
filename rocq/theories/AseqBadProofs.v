(** Witnesses for sequences that go wrong. *)
From Coq Require Import ZArith Bool Lia List Floats.SpecFloat.
From Verif Require Import IntModel ImSpec AseqModel AseqSpec.
Import ListNotations.
Open Scope Z_scope.

(** All the fixnums: 2^63 of them. *)
Lemma clamp_bad : is_count (- 2 ^ 62) (2 ^ 62 - 1) 1 false (2 ^ 63) /\
  size (fixseq (- 2 ^ 62) (Some (2 ^ 62 - 1)) 1 false) = AOk (Some (2 ^ 63 - 1)).
Proof.
  split; [|reflexivity]. split; [lia|]. intros k K. unfold within. cbn [Z.ltb Z.compare]. lia.
Qed.

(** (2**64 .. 2**64+3).step(1). *)
Definition big_seq : aseq :=
  mkseq (Some (AI (NBig (2 ^ 64)))) (Some (AI (NBig (2 ^ 64 + 3)))) (AI (NFix 1)) false.
Lemma big_size_bad : is_count (2 ^ 64) (2 ^ 64 + 3) 1 false 4 /\ size big_seq = AOk (Some 1) /\
  are_ints (to_a big_seq) [2 ^ 64] /\
  are_ints (step_block 9 big_seq) [2 ^ 64; 2 ^ 64 + 1; 2 ^ 64 + 2; 2 ^ 64 + 3].
Proof.
  split; [split; [lia|]; intros k K; unfold within; cbn [Z.ltb Z.compare]; lia|].
  split; [vm_compute; reflexivity|]. split.
  - exists [AI (NBig (2 ^ 64))]. split; [vm_compute; reflexivity|]. repeat constructor.
    eexists. split; [reflexivity|]. split; [reflexivity|]. cbn; lia.
  - exists (map (fun z => AI (NBig z)) [2 ^ 64; 2 ^ 64 + 1; 2 ^ 64 + 2; 2 ^ 64 + 3]).
    split; [vm_compute; reflexivity|].
    repeat constructor; (eexists; split; [reflexivity|]; split; [reflexivity|]; cbn; lia).
Qed.
Lemma big_terms_bad : exists f, first_n big_seq 1 = AOk [AF f] /\ last_term big_seq = AOk (Some (AF f)).
Proof. eexists. split; vm_compute; reflexivity. Qed.

(** (0.0..0.3).step(0.1): three terms without a block, four with one. *)
Definition tenths : aseq :=
  mkseq (Some (AF (f_of_Z 0))) (Some (AF (f_div (f_of_Z 3) (f_of_Z 10))))
        (AF (f_div (f_of_Z 1) (f_of_Z 10))) false.
Lemma float_block_bad : exists a b c d,
  (forall fuel, step_block (5 + fuel) tenths = AOk [a; b; c; d]) /\ size tenths = AOk (Some 3) /\
  to_a tenths = AOk [a; b; c] /\ d = AF (f_div (f_of_Z 3) (f_of_Z 10)).
Proof.
  do 4 eexists. split; [|split; [vm_compute; reflexivity|split; vm_compute; reflexivity]].
  intros fuel. vm_compute. reflexivity.
Qed.

(** Float start, Integer step beyond 2^53. *)
Definition mixed : aseq :=
  mkseq (Some (AF (f_of_Z 0))) (Some (AF (f_of_Z (2 ^ 55)))) (AI (NFix (2 ^ 53 + 1))) false.
Lemma mixed_bad : exists x y r, x <> y /\
  match to_a mixed with AOk l => nth_error l 3 = Some x | AErr _ => False end /\
  first_n mixed 4 = AOk (r ++ [y]) /\ length r = 3%nat.
Proof.
  exists (AF (f_add (f_of_Z 0) (f_of_Z (3 * (2 ^ 53 + 1))))),
    (AF (f_add (f_of_Z 0) (f_mul (f_of_Z 3) (f_of_Z (2 ^ 53 + 1))))).
  exists (match first_n mixed 3 with AOk l => l | AErr _ => [] end).
  split; [vm_compute; discriminate|]. split; [vm_compute; reflexivity|].
  split; vm_compute; reflexivity.
Qed.

(** [0, 1, 2, 3, 4, 5] by (4...-1).step(-1) and (4...).step(-1). *)
Lemma descending_bad : 
  ~ slice_spec [0; 1; 2; 3; 4; 5] (span_lo 6 (Some 4) (Some (-1)) (-1) true) (span_hi 6 (Some 4) (Some (-1)) (-1) true) (-1)
      (index_core [0; 1; 2; 3; 4; 5] (Some 4) (Some (-1)) (-1) true) /\
  ~ slice_spec [0; 1; 2; 3; 4; 5] (span_lo 6 (Some 4) None (-1) true) (span_hi 6 (Some 4) None (-1) true) (-1)
      (index_core [0; 1; 2; 3; 4; 5] (Some 4) None (-1) true).
Proof.
  split; intros H; vm_compute in H; destruct H as [l [E P]]; injection E as <-; specialize (P 0%nat);
    vm_compute in P; discriminate.
Qed.
