(** Where Set is not Ruby's. *)
From Coq Require Import ZArith List Bool Lia.
From Verif Require Import EnblModel SetModel SetSpec SetProofs.
Import ListNotations.
Local Open Scope Z_scope.

(** dup of a set that compares by identity loses elements that are eql?. *)
Lemma dup_bad : ~ (forall (O : objects) (s : set O), wf s -> cls s = 0 -> dup s = s).
Proof.
  intros H. specialize (H pairs (pset 0 true [(1, 1); (1, 2)])).
  assert (W : wf (pset 0 true [(1, 1); (1, 2)])) by (repeat split).
  specialize (H W eq_refl). discriminate H.
Qed.

(** dup and the operators on a set of a subclass give a Set. *)
Lemma dup_class_bad : ~ (forall (O : objects) (s : set O), cls (dup s) = cls s).
Proof. intros H. specialize (H pairs (pset 7 false [])). discriminate H. Qed.

Lemma union_class_bad : ~ (forall (O : objects) (s r : set O) a, union s a = Val r -> cls r = cls s).
Proof. intros H. specialize (H pairs (pset 7 false []) (pset 0 false []) (AEnum []) eq_refl). discriminate H. Qed.

(** Sub[1] gives a Set. *)
Lemma index_bad : ~ (forall (O : objects) c (vs : list (V O)), set_index c vs = set_new c vs).
Proof. intros H. specialize (H pairs 7 []). discriminate H. Qed.

(** intersect? of an endless enumeration does not end at the first common
    element. *)
Lemma intersect_endless_bad : ~ (forall (O : objects) (s : set O) a, meets s a -> intersect_q s a = Val true).
Proof.
  intros H. specialize (H pairs (pset 0 false [(3, 0)]) (@AEndless pairs (fun n => (Z.of_nat n, 0)))).
  assert (M : meets (pset 0 false [(3, 0)]) (@AEndless pairs (fun n => (Z.of_nat n, 0)))).
  { apply (meets_endless (pset 0 false [(3, 0)]) (fun n => (Z.of_nat n, 0)) 3%nat). reflexivity. }
  specialize (H M). discriminate H.
Qed.

(** An exception of the argument's each becomes ArgumentError. *)
Lemma intersect_raise_bad : ~ (forall (O : objects) (s : set O) e, intersect_q s (ARaise e) = Raise e).
Proof. intros H. specialize (H pairs new_empty Other). discriminate H. Qed.

(** <=> of sets that compare in different ways does not look at the sizes. *)
Lemma order_bad : ~ (forall (O : objects) (s t : set O), wf s -> wf t -> spaceship s t = ruby_order s t).
Proof.
  intros H. specialize (H pairs (pset 0 true [(1, 1); (1, 2)]) (pset 0 false [(1, 3)])).
  assert (W : wf (pset 0 true [(1, 1); (1, 2)])) by (repeat split).
  assert (W' : wf (pset 0 false [(1, 3)])) by (repeat split).
  specialize (H W W'). discriminate H.
Qed.

(** divide puts elements with equal answers into different sets if the
    answers are different objects. *)
Lemma divide_bad : ~ (forall (O : objects) (f : V O -> V O) (s : set O), divide f s = map snd (group_by eql f (els s))).
Proof.
  intros H. specialize (H pairs (fun x => (0, fst x)) (pset 0 false [(1, 0); (2, 0)])). discriminate H.
Qed.

(** reset does not make an element that has changed findable. *)
Lemma reset_bad : ~ (forall (O : objects) (h : V O -> Z) t v,
  (forall a b, eql a b = true -> h a = h b) -> found h (reset t) v = existsb (fun e => eql (snd e) v) t).
Proof.
  intros H. specialize (H pairs fst [(1, (2, 0)); (5, (5, 0))] (2, 0)).
  assert (G : forall a b : V pairs, eql a b = true -> fst a = fst b).
  { intros a b E. apply Z.eqb_eq. exact E. }
  specialize (H G). discriminate H.
Qed.
