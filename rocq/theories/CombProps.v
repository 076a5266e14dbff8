(** C121 to C123: Array combinatorics, product and bsearch. *)
From Coq Require Import ZArith NArith List Bool Sorted.
From Verif Require Import CombModel CombSpec CombProofs CombPerm CombSearch CombBadProofs.
Import ListNotations.
Local Open Scope nat_scope.

(** C121. combination(n) yields the rows of n increasing positions, each once and in lexicographic order. *)
Theorem C121_combination len n :
  yields (fun fuel => combination fuel len n) (fun r => row len n r /\ increasing r).
Proof. exact (combination_ok len n). Qed.
Example C121_combination_example : (combination 9 4 3, combination 9 3 0, combination 9 3 4, combination 9 3 (-1), combination 9 2 1) = (Some [[0;1;2];[0;1;3];[0;2;3];[1;2;3]], Some [[]], Some [], Some [], Some [[0];[1]]).
Proof. repeat split; reflexivity. Qed.
Print Assumptions C121_combination.

(** repeated_combination(n) yields the rows of n positions that do not decrease. *)
Theorem C121_repeated_combination len n :
  yields (fun fuel => repeated_combination fuel len n) (fun r => row len n r /\ nondecreasing r).
Proof. exact (repeated_combination_ok len n). Qed.
Example C121_repeated_combination_example : (repeated_combination 9 2 3, repeated_combination 9 0 2, repeated_combination 9 0 0) = (Some [[0;0;0];[0;0;1];[0;1;1];[1;1;1]], Some [], Some [[]]).
Proof. repeat split; reflexivity. Qed.
Print Assumptions C121_repeated_combination.

(** All positions of a row exist in the copy, which makes it a row of elements. *)
Theorem C121_elements {A} (pool : list A) r : Forall (fun i => i < length pool) r ->
  exists l, pick pool r = map Some l /\ length l = length r.
Proof. exact (pick_ok pool r). Qed.
Example C121_elements_example : pick [5; 6; 7] [0; 2] = [Some 5; Some 7].
Proof. repeat split; reflexivity. Qed.
Print Assumptions C121_elements.

(** The size of the enumerator of combination is the number of rows, *)
Theorem C121_combination_size len n :
  size_of (fun r => row len n r /\ increasing r) (combination_size len n).
Proof. exact (combination_size_ok len n). Qed.
Example C121_combination_size_example : (combination_size 52 5, combination_size 5 3, combination_size 5 6, combination_size 5 (-1), combination_size 5 0) = (2598960, 10, 0, 0, 1)%Z.
Proof. repeat split; reflexivity. Qed.
Print Assumptions C121_combination_size.

(** and that of repeated_combination, too. *)
Theorem C121_repeated_combination_size len n :
  size_of (fun r => row len n r /\ nondecreasing r) (repeated_combination_size len n).
Proof. exact (repeated_combination_size_ok len n). Qed.
Example C121_repeated_combination_size_example : (repeated_combination_size 5 3, repeated_combination_size 0 3, repeated_combination_size 0 0) = (35, 0, 1)%Z.
Proof. repeat split; reflexivity. Qed.
Print Assumptions C121_repeated_combination_size.

(** A block that raises something else than StopIteration sees the rows up to there, and the exception leaves combination. *)
Theorem C121_block fuel len n b rows :
  combination fuel len n = Some rows ->
  (forall r, In r rows -> b r <> Stop) ->
  combination_block fuel len n b = Some (shows b rows).
Proof. exact (combination_block_ok fuel len n b rows). Qed.
Example C121_block_example : combination_block 9 3 2 (fun r => match r with [0; 2] => Raise | _ => Go end) = Some ([[0;1];[0;2]], Left Raise).
Proof. repeat split; reflexivity. Qed.
Print Assumptions C121_block.

(** For at most one position this holds for StopIteration, too. *)
Theorem C121_block_small fuel len n b rows : (n <= 1)%Z ->
  combination fuel len n = Some rows ->
  combination_block fuel len n b = Some (shows b rows).
Proof. exact (combination_block_small fuel len n b rows). Qed.
Example C121_block_small_example : combination_block 9 3 1 (fun r => match r with [1] => Stop | _ => Go end) = Some ([[0];[1]], Left Stop).
Proof. repeat split; reflexivity. Qed.
Print Assumptions C121_block_small.

(** False: a StopIteration raised by the block of combination(2) is swallowed, and combination returns. In Ruby it leaves the method. *)
Theorem C121_stop_refuted :
  ~ (forall fuel len n b rows, combination fuel len n = Some rows ->
       combination_block fuel len n b = Some (shows b rows)).
Proof. exact (stop_swallowed). Qed.
Print Assumptions C121_stop_refuted.

(** C122. permutation(n) yields the rows of n different positions, each once and in lexicographic order. *)
Theorem C122_permutation len n :
  yields (fun fuel => permutation fuel len n)
    (fun r => row len (match n with Some n => n | None => Z.of_nat len end) r /\ NoDup r).
Proof. exact (permutation_ok len n). Qed.
Example C122_permutation_example : (permutation 9 3 None, permutation 9 3 (Some 2%Z), permutation 9 3 (Some 0%Z), permutation 9 3 (Some 4%Z)) = (Some [[0;1;2];[0;2;1];[1;0;2];[1;2;0];[2;0;1];[2;1;0]], Some [[0;1];[0;2];[1;0];[1;2];[2;0];[2;1]], Some [[]], Some []).
Proof. repeat split; reflexivity. Qed.
Print Assumptions C122_permutation.

(** repeated_permutation(n) yields all rows of n positions. *)
Theorem C122_repeated_permutation len n :
  yields (fun fuel => repeated_permutation fuel len n) (row len n).
Proof. exact (repeated_permutation_ok len n). Qed.
Example C122_repeated_permutation_example : (repeated_permutation 9 2 2, repeated_permutation 9 0 2) = (Some [[0;0];[0;1];[1;0];[1;1]], Some []).
Proof. repeat split; reflexivity. Qed.
Print Assumptions C122_repeated_permutation.

(** The size of the enumerator of permutation is the number of rows, *)
Theorem C122_permutation_size len n :
  size_of (fun r => row len (match n with Some n => n | None => Z.of_nat len end) r /\ NoDup r)
    (permutation_size len n).
Proof. exact (permutation_size_ok len n). Qed.
Example C122_permutation_size_example : (permutation_size 5 None, permutation_size 5 (Some 2%Z), permutation_size 5 (Some 6%Z), permutation_size 5 (Some (-1)%Z)) = (120, 20, 0, 0)%Z.
Proof. repeat split; reflexivity. Qed.
Print Assumptions C122_permutation_size.

(** and that of repeated_permutation, too. *)
Theorem C122_repeated_permutation_size len n :
  size_of (row len n) (repeated_permutation_size len n).
Proof. exact (repeated_permutation_size_ok len n). Qed.
Example C122_repeated_permutation_size_example : (repeated_permutation_size 5 3, repeated_permutation_size 0 0, repeated_permutation_size 3 (-1)) = (125, 1, 0)%Z.
Proof. repeat split; reflexivity. Qed.
Print Assumptions C122_repeated_permutation_size.

(** As long as the receiver keeps its size, changes by the block do not change what permutation yields. *)
Theorem C122_same_size now n : forall fuel t len st,
  (forall k, now k = len) ->
  perm_live now t n fuel st = run (perm_step len n) (shown n) fuel st.
Proof. exact (perm_live_ok now n). Qed.
Example C122_same_size_example : perm_live (fun _ => 2) 0 2 9 (seq 0 2, cycles0 2 2) = Some [[0;1];[1;0]].
Proof. repeat split; reflexivity. Qed.
Print Assumptions C122_same_size.

(** False: when the block adds an element to [0, 1, 2], permutation yields rows twice and leaves others out. Ruby works on a copy. *)
Theorem C122_copy_refuted :
  ~ (forall now len fuel rows, (forall t, len <= now t) ->
       permutation fuel len None = Some rows ->
       perm_live now 0 len fuel (seq 0 len, cycles0 len len) = Some rows).
Proof. exact (permutation_grows). Qed.
Example C122_copy_example : perm_live (fun _ => 4) 0 3 3 (seq 0 3, cycles0 3 3) = None /\ perm_live (fun t => if t =? 0 then 3 else 4) 0 3 40 (seq 0 3, cycles0 3 3) <> permutation 40 3 None.
Proof. split; vm_compute; [reflexivity|discriminate]. Qed.
Print Assumptions C122_copy_refuted.

(** C123. product gives the rows of the cartesian product in order, or raises RangeError. *)
Theorem C123_product {A} (arrays : list (list A)) :
  product (fun _ => arrays) = Val (cartesian arrays) \/ product (fun _ => arrays) = Err.
Proof. exact (product_sound arrays). Qed.
Example C123_product_example : (product (fun _ => [[1; 2]; [3]; [4; 5]]), product (fun _ => [[1; 2]; []])) = (Val [[1;3;4];[1;3;5];[2;3;4];[2;3;5]], Val []).
Proof. repeat split; reflexivity. Qed.
Print Assumptions C123_product.

(** It does not raise if no array is empty and there are at most a million rows. Missing: more rows (see the refutation). *)
Theorem C123_product_small_partial {A} (arrays : list (list A)) :
  arrays <> [] ->
  (forall a, In a arrays -> a <> []) ->
  (N.of_nat (length (cartesian arrays)) <= product_limit)%N ->
  product (fun _ => arrays) = Val (cartesian arrays).
Proof. exact (product_small arrays). Qed.
Example C123_product_small_example : cartesian [[1; 2]; [3; 4]] = [[1;3];[1;4];[2;3];[2;4]].
Proof. repeat split; reflexivity. Qed.
Print Assumptions C123_product_small_partial.

(** False: product raises RangeError for 1002001 rows. Ruby makes them. *)
Theorem C123_product_big_refuted :
  ~ (forall A (arrays : list (list A)), product (fun _ => arrays) = Val (cartesian arrays)).
Proof. exact (product_too_big). Qed.
Print Assumptions C123_product_big_refuted.

(** False: when the block empties the receiver, product indexes past its end and panics. Ruby works on copies. *)
Theorem C123_product_panic_refuted :
  ~ (forall A (live : nat -> list (list A)), product live <> Panic).
Proof. exact (product_panics). Qed.
Print Assumptions C123_product_panic_refuted.

(** False: when the block changes an element of the receiver, the later rows show it. Ruby works on copies. *)
Theorem C123_product_copy_refuted :
  ~ (forall A (live : nat -> list (list A)) rows, product (fun _ => live 0) = Val rows ->
       product live = Val rows).
Proof. exact (product_not_copied). Qed.
Print Assumptions C123_product_copy_refuted.

(** bsearch_index ends for every block and looks only at elements of the array. *)
Theorem C123_bsearch_total size f :
  exists r, bsearch_index size f = Some r /\ r <> Panic.
Proof. exact (bsearch_index_total size f). Qed.
Example C123_bsearch_total_example : bsearch_index 9 (fun i => if i =? 4 then ANum 0 else AOther) = Some (Val (Some 4)) /\ bsearch_index 9 (fun _ => AOther) = Some Err /\ bsearch_index 9 (fun i => if i =? 4 then ANum 1 else ATrue) = Some Err.
Proof. repeat split; reflexivity. Qed.
Print Assumptions C123_bsearch_total.

(** Find-minimum: the first index from which on the block is true, nil if there is none. *)
Theorem C123_find_minimum size f p : find_min_block size f p ->
  bsearch_index size f = Some (Val (if p <? size then Some p else None)).
Proof. exact (bsearch_min_ok size f p). Qed.
Example C123_find_minimum_example : (bsearch_index 9 (fun i => if i <? 6 then AFalse else ATrue), bsearch_index 9 (fun _ => ANil), bsearch_index 9 (fun _ => ATrue)) = (Some (Val (Some 6)), Some (Val None), Some (Val (Some 0))).
Proof. repeat split; reflexivity. Qed.
Print Assumptions C123_find_minimum.

(** bsearch gives the element there. *)
Theorem C123_find_first {A} (l : list A) (P : A -> bool) a b :
  l = a ++ b -> (forall x, In x a -> P x = false) -> (forall x, In x b -> P x = true) ->
  bsearch l (fun x => if P x then ATrue else AFalse) = Some (Val (hd_error b)).
Proof. exact (bsearch_first l P a b). Qed.
Example C123_find_first_example : (bsearch [0; 4; 7; 10; 12] (fun x => if 5 <=? x then ATrue else AFalse), bsearch [0; 4] (fun x => if 5 <=? x then ATrue else AFalse)) = (Some (Val (Some 7)), Some (Val None)).
Proof. repeat split; reflexivity. Qed.
Print Assumptions C123_find_first.

(** Find-any: an index found is one for which the block answers 0. *)
Theorem C123_find_any size f i : (forall j, j < size -> exists z, f j = ANum z) ->
  bsearch_index size f = Some (Val (Some i)) -> i < size /\ f i = ANum 0.
Proof. exact (bsearch_any_sound size f i). Qed.
Example C123_find_any_example : bsearch_index 5 (fun i => ANum (2 - Z.of_nat i)) = Some (Val (Some 2)).
Proof. repeat split; reflexivity. Qed.
Print Assumptions C123_find_any.

(** Something is found if the block answers negative numbers first, then 0, then positive numbers. Missing: the direction Ruby documents (see the refutation). *)
Theorem C123_find_any_mirrored_partial size f p q : mirrored_block size f p q -> p < q ->
  exists i, p <= i < q /\ bsearch_index size f = Some (Val (Some i)).
Proof. exact (bsearch_mirrored_ok size f p q). Qed.
Example C123_find_any_mirrored_example : bsearch_index 5 (fun i => ANum (Z.of_nat i - 1)) = Some (Val (Some 1)).
Proof. repeat split; reflexivity. Qed.
Print Assumptions C123_find_any_mirrored_partial.

(** False: find-any goes the wrong way. [0, 4, 7, 10, 12].bsearch { |x| 4 <=> x } is nil; Ruby finds 4. *)
Theorem C123_find_any_refuted :
  ~ (forall size f p q, find_any_block size f p q -> p < q ->
       exists i, p <= i < q /\ bsearch_index size f = Some (Val (Some i))).
Proof. exact (find_any_inverted). Qed.
Print Assumptions C123_find_any_refuted.
