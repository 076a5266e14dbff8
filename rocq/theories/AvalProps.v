(** C141: values_at, fetch_values, assoc, rassoc and tally of Array. *)
From Coq Require Import ZArith List Bool.
From Verif Require Import AvalModel AvalSpec AvalProofs.
Import ListNotations.
Local Open Scope Z_scope.

(** C141. values_at with one selector, any Integer or Range, gives Ruby's elements, and nothing where Ruby raises RangeError. *)
Theorem C141_value_sel : forall (V : Type) (nil : V) l s,
  value_sel V nil l s = match ruby_sel nil l s with Some r => r | None => [] end.
Proof. exact (value_sel_ok). Qed.
Example C141_value_sel_example : value_sel Z 0 [1; 2; 3] (Rg (Some (-2)) (Some 5) true) = [2; 3; 0; 0] /\ value_sel Z 0 [1; 2; 3] (Rg (Some 1) None true) = [2; 3] /\ value_sel Z 0 [1; 2; 3] (Rg None (Some (-2)) false) = [1; 2] /\ value_sel Z 0 [1; 2; 3] (Ix (-1)) = [3] /\ value_sel Z 0 [1; 2; 3] (Ix (-4)) = [0].
Proof. repeat split; reflexivity. Qed.
Print Assumptions C141_value_sel.

(** values_at answers what Ruby does if Ruby does not raise RangeError. Missing: Ranges that begin before the Array (refuted below). *)
Theorem C141_values_at_partial : forall (V : Type) (nil : V) l ss r,
  ruby_values_at nil l ss = Some r -> values_at V nil l ss = r.
Proof. exact (values_at_ok). Qed.
Example C141_values_at_example : values_at Z 0 [1; 2; 3] [Ix 2; Rg (Some 0) (Some (-2)) false; Ix 7] = [3; 1; 2; 0] /\ ruby_values_at 0 [1; 2; 3] [Ix 2; Rg (Some 0) (Some (-2)) false; Ix 7] = Some [3; 1; 2; 0].
Proof. repeat split; reflexivity. Qed.
Print Assumptions C141_values_at_partial.

(** False: values_at skips a Range that begins before the Array. Ruby raises RangeError. *)
Theorem C141_values_at_range_refuted : ~ (forall (V : Type) (nil : V) l ss,
  ruby_values_at nil l ss = Some (values_at V nil l ss)).
Proof. exact (values_range_bad). Qed.
Example C141_values_at_range_example : values_at Z 0 [1; 2; 3] [Ix 0; Rg (Some (-4)) (Some 1) false] = [1] /\ ruby_values_at 0 [1; 2; 3] [Ix 0; Rg (Some (-4)) (Some 1) false] = None.
Proof. repeat split; reflexivity. Qed.
Print Assumptions C141_values_at_range_refuted.

(** fetch_values answers the elements, the block's answers for indices outside, and raises IndexError for those without a block. *)
Theorem C141_fetch_values : forall (V : Type) (nil : V) g l ix r,
  fetch_values V nil g l ix = Some r <-> Forall2 (fun z v => fetched nil g l z = Some v) ix r.
Proof. exact (fetch_values_ok). Qed.
Example C141_fetch_values_example : fetch_values Z 0 None [1; 2; 3] [2; -3] = Some [3; 1] /\ fetch_values Z 0 None [1; 2; 3] [2; 3] = None /\ fetch_values Z 0 None [1; 2; 3] [-4] = None /\ fetch_values Z 0 (Some (fun z => z * 10)) [1; 2; 3] [3; -1; -4] = Some [30; 3; -40].
Proof. repeat split; reflexivity. Qed.
Print Assumptions C141_fetch_values.

(** assoc answers the first Array whose first element is the key. Missing: elements whose to_ary answers neither an Array nor nil (refuted below). *)
Theorem C141_assoc_partial : forall key es r, ruby_assoc 0 key es = Some r -> assoc key es = r.
Proof. exact (assoc_ok). Qed.
Example C141_assoc_example : assoc 2 [EPlain; EArr []; EConvNil; EArr [1; 2]; EConv [2; 3]; EArr [2; 4]] = Some [2; 3] /\ assoc 0 [EArr []; EArr [1; 0]] = None.
Proof. repeat split; reflexivity. Qed.
Print Assumptions C141_assoc_partial.

(** rassoc answers the first Array whose second element is the value. Missing: as for assoc. *)
Theorem C141_rassoc_partial : forall key es r, ruby_assoc 1 key es = Some r -> rassoc key es = r.
Proof. exact (rassoc_ok). Qed.
Example C141_rassoc_example : rassoc 2 [EArr [2]; EArr [2; 1]; EArr [1; 2; 3]; EConv [4; 2]] = Some [1; 2; 3] /\ rassoc 0 [EArr [0]] = None.
Proof. repeat split; reflexivity. Qed.
Print Assumptions C141_rassoc_partial.

(** False: assoc goes past an element whose to_ary answers neither an Array nor nil. Ruby raises TypeError. *)
Theorem C141_assoc_to_ary_refuted : ~ (forall key es, ruby_assoc 0 key es = Some (assoc key es)).
Proof. exact (assoc_other_bad). Qed.
Example C141_assoc_to_ary_example : assoc 1 [EConvOther; EArr [1; 2]] = Some [1; 2] /\ ruby_assoc 0 1 [EConvOther; EArr [1; 2]] = None.
Proof. repeat split; reflexivity. Qed.
Print Assumptions C141_assoc_to_ary_refuted.

(** tally answers each element in the order of the first places, with the number of times it is there. *)
Theorem C141_tally : forall l, tally l = map (fun x => (x, times x l)) (firsts [] l).
Proof. exact (tally_ok). Qed.
Example C141_tally_example : tally [3; 1; 3; 2; 1; 3] = [(3, 3); (1, 2); (2, 1)].
Proof. repeat split; reflexivity. Qed.
Print Assumptions C141_tally.
