(** C144: the Ruby code of String. *)
From Coq Require Import ZArith List Bool.
From Verif Require Import StrbModel StrbSpec StrbProofs.
Import ListNotations.
Local Open Scope Z_scope.

(** C144. insert makes Ruby's String, and raises IndexError where Ruby does. Missing: the index in the message (refuted below). *)
Theorem C144_insert_partial : forall s z o r, insert s z o = Good r <-> ruby_insert s z o = Good r.
Proof. exact (insert_ok). Qed.
Example C144_insert_example : insert [1; 2; 3] 1 [9] = Good [1; 9; 2; 3] /\ insert [1; 2; 3] (-1) [9] = Good [1; 2; 3; 9] /\ insert [1; 2; 3] (-4) [9] = Good [9; 1; 2; 3] /\ insert [1; 2; 3] 3 [9] = Good [1; 2; 3; 9] /\ insert [1; 2; 3] 4 [9] = Bad 4.
Proof. repeat split; reflexivity. Qed.
Print Assumptions C144_insert_partial.

(** False: the message of insert has the index counted from the beginning. Ruby's has the one given, plus one. *)
Theorem C144_insert_index_refuted : ~ (forall s z o, insert s z o = ruby_insert s z o).
Proof. exact (insert_index_bad). Qed.
Example C144_insert_index_example : insert [1; 2; 3] (-6) [9] = Bad (-2) /\ ruby_insert [1; 2; 3] (-6) [9] = Bad (-5).
Proof. repeat split; reflexivity. Qed.
Print Assumptions C144_insert_index_refuted.

(** concat appends its arguments. Missing: the receiver as an argument after the first (refuted below). *)
Theorem C144_concat_partial : forall args s, ~ In Self (tl args) -> concat_ s args = ruby_concat s args.
Proof. exact (concat_ok). Qed.
Example C144_concat_example : concat_ [1; 2] [Self; Other [3]; Other [4]] = [1; 2; 1; 2; 3; 4] /\ concat_ [1; 2] [] = [1; 2].
Proof. repeat split; reflexivity. Qed.
Print Assumptions C144_concat_partial.

(** False: concat appends the receiver as it has grown. Ruby appends it as it was. *)
Theorem C144_concat_self_refuted : ~ (forall s args, concat_ s args = ruby_concat s args).
Proof. exact (concat_self_bad). Qed.
Example C144_concat_self_example : concat_ [1] [Self; Self] = [1; 1; 1; 1] /\ ruby_concat [1] [Self; Self] = [1; 1; 1].
Proof. repeat split; reflexivity. Qed.
Print Assumptions C144_concat_self_refuted.

(** prepend puts its arguments in front, in order. Missing: the receiver as an argument before the last (refuted below). *)
Theorem C144_prepend_partial : forall args a s, ~ In Self args -> prepend s (args ++ [a]) = ruby_prepend s (args ++ [a]).
Proof. exact (prepend_ok). Qed.
Example C144_prepend_example : prepend [1; 2] [Other [3]; Other [4]; Self] = [3; 4; 1; 2; 1; 2].
Proof. repeat split; reflexivity. Qed.
Print Assumptions C144_prepend_partial.

(** False: prepend puts the receiver in front as it has grown. Ruby does as it was. *)
Theorem C144_prepend_self_refuted : ~ (forall s args, prepend s args = ruby_prepend s args).
Proof. exact (prepend_self_bad). Qed.
Example C144_prepend_self_example : prepend [1] [Self; Other [5]] = [5; 1; 5; 1] /\ ruby_prepend [1] [Self; Other [5]] = [1; 5; 1].
Proof. repeat split; reflexivity. Qed.
Print Assumptions C144_prepend_self_refuted.

(** chop takes off a carriage return and line feed at the end. *)
Theorem C144_chop_crlf : forall s, chop (s ++ [13; 10]) = s.
Proof. exact (chop_crlf). Qed.
Example C144_chop_crlf_example : chop [7; 13; 10] = [7] /\ chop [13; 10] = [] /\ chop [] = [].
Proof. repeat split; reflexivity. Qed.
Print Assumptions C144_chop_crlf.

(** chop takes off one character otherwise. *)
Theorem C144_chop : forall s x, (forall t, s ++ [x] <> t ++ [13; 10]) -> chop (s ++ [x]) = s.
Proof. exact (chop_one). Qed.
Example C144_chop_example : chop [7; 10] = [7] /\ chop [7; 13] = [7] /\ chop [10; 13] = [10] /\ chop [10] = [].
Proof. repeat split; reflexivity. Qed.
Print Assumptions C144_chop.

(** delete_suffix takes off the suffix. *)
Theorem C144_delete_suffix : forall t suf, delete_suffix (t ++ suf) suf = t.
Proof. exact (delete_suffix_there). Qed.
Example C144_delete_suffix_example : delete_suffix [1; 2; 3; 2; 3] [2; 3] = [1; 2; 3] /\ delete_suffix [1] [] = [1].
Proof. repeat split; reflexivity. Qed.
Print Assumptions C144_delete_suffix.

(** delete_suffix leaves a String without the suffix as it is. *)
Theorem C144_delete_suffix_not : forall s suf, (forall t, s <> t ++ suf) -> delete_suffix s suf = s.
Proof. exact (delete_suffix_not). Qed.
Example C144_delete_suffix_not_example : delete_suffix [2; 3; 1] [2; 3] = [2; 3; 1] /\ delete_suffix [3] [2; 3] = [3].
Proof. repeat split; reflexivity. Qed.
Print Assumptions C144_delete_suffix_not.

(** partition cuts at the first occurrence. *)
Theorem C144_partition : forall s sep a0, occurs s sep a0 -> exists a c, partition s sep = (a, sep, c) /\ s = a ++ sep ++ c
  /\ forall b, occurs s sep b -> (length a <= length b)%nat.
Proof. exact (partition_there). Qed.
Example C144_partition_example : partition [1; 2; 2; 2; 3] [2; 2] = ([1], [2; 2], [2; 3]) /\ partition [1; 2] [] = ([], [], [1; 2]).
Proof. repeat split; reflexivity. Qed.
Print Assumptions C144_partition.

(** partition without an occurrence has the String in front. *)
Theorem C144_partition_not : forall s sep, (forall a, ~ occurs s sep a) -> partition s sep = (s, [], []).
Proof. exact (partition_not). Qed.
Example C144_partition_not_example : partition [1; 2] [3] = ([1; 2], [], []).
Proof. repeat split; reflexivity. Qed.
Print Assumptions C144_partition_not.

(** rpartition cuts at the last occurrence. *)
Theorem C144_rpartition : forall s sep a0, occurs s sep a0 -> exists a c, rpartition s sep = (a, sep, c) /\ s = a ++ sep ++ c
  /\ forall b, occurs s sep b -> (length b <= length a)%nat.
Proof. exact (rpartition_there). Qed.
Example C144_rpartition_example : rpartition [1; 2; 2; 2; 3] [2; 2] = ([1; 2], [2; 2], [3]) /\ rpartition [1; 2] [] = ([1; 2], [], []).
Proof. repeat split; reflexivity. Qed.
Print Assumptions C144_rpartition.

(** rpartition without an occurrence has the String at the end. *)
Theorem C144_rpartition_not : forall s sep, (forall a, ~ occurs s sep a) -> rpartition s sep = ([], [], s).
Proof. exact (rpartition_not). Qed.
Example C144_rpartition_not_example : rpartition [1; 2] [3] = ([], [], [1; 2]).
Proof. repeat split; reflexivity. Qed.
Print Assumptions C144_rpartition_not.
