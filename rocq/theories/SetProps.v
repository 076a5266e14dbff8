(** C127 to C129: Set. *)
From Coq Require Import ZArith List Bool.
From Verif Require Import EnblModel SetModel SetSpec SetProofs SetCmp SetBadProofs.
Import ListNotations.
Local Open Scope Z_scope.

(** C127. Set.new has the elements it is given, each once. *)
Theorem C127_new {O} c (vs : list (V O)) :
  wf (set_new c vs) /\ cls (set_new c vs) = c /\ forall w, has (set_new c vs) w = mem false vs w.
Proof. exact (new_ok c vs). Qed.
Example C127_new_example : @set_new pairs 7 [(2, 0); (1, 0); (2, 5)] = pset 7 false [(2, 0); (1, 0)].
Proof. repeat split; reflexivity. Qed.
Print Assumptions C127_new.

(** So has Set[...]. *)
Theorem C127_index {O} (vs : list (V O)) : set_index 0 vs = set_new 0 vs.
Proof. exact (index_ok vs). Qed.
Example C127_index_example : @set_index pairs 0 [(2, 0); (2, 5)] = pset 0 false [(2, 0)].
Proof. repeat split; reflexivity. Qed.
Print Assumptions C127_index.

(** False: Sub[...] of a subclass Sub gives a Set. *)
Theorem C127_index_refuted : ~ (forall (O : objects) c (vs : list (V O)), set_index c vs = set_new c vs).
Proof. exact (index_bad). Qed.
Print Assumptions C127_index_refuted.

(** add makes its argument a member and changes no other membership, *)
Theorem C127_add {O} (s : set O) v : wf s ->
  wf (add s v) /\ forall w, has (add s v) w = has s w || rel (ident s) v w.
Proof. exact (add_ok s v). Qed.
Example C127_add_example : add (pset 0 false [(1, 0); (2, 0)]) (3, 0) = pset 0 false [(1, 0); (2, 0); (3, 0)] /\ add (pset 0 false [(1, 0); (2, 0)]) (1, 9) = (pset 0 false [(1, 0); (2, 0)]) /\ add (pset 0 true [(1, 1); (1, 2)]) (1, 3) = pset 0 true [(1, 1); (1, 2); (1, 3)].
Proof. repeat split; reflexivity. Qed.
Print Assumptions C127_add.

(** delete removes it. *)
Theorem C127_delete {O} (s : set O) v : wf s ->
  wf (delete s v) /\ forall w, has (delete s v) w = has s w && negb (rel (ident s) v w).
Proof. exact (delete_ok s v). Qed.
Example C127_delete_example : delete (pset 0 false [(1, 0); (2, 0)]) (1, 9) = pset 0 false [(2, 0)] /\ delete (pset 0 true [(1, 1); (1, 2)]) (1, 9) = (pset 0 true [(1, 1); (1, 2)]) /\ delete (pset 0 true [(1, 1); (1, 2)]) (1, 1) = pset 0 true [(1, 2)].
Proof. repeat split; reflexivity. Qed.
Print Assumptions C127_delete.

(** add? says whether the element is new, *)
Theorem C127_add_q {O} (s : set O) v : add_q s v = (add s v, negb (has s v)).
Proof. exact (add_q_ok s v). Qed.
Example C127_add_q_example : add_q (pset 0 false [(1, 0); (2, 0)]) (1, 4) = ((pset 0 false [(1, 0); (2, 0)]), false) /\ add_q (pset 0 false [(1, 0); (2, 0)]) (3, 4) = (pset 0 false [(1, 0); (2, 0); (3, 4)], true).
Proof. repeat split; reflexivity. Qed.
Print Assumptions C127_add_q.

(** delete? whether it was there. *)
Theorem C127_delete_q {O} (s : set O) v : delete_q s v = (delete s v, has s v).
Proof. exact (delete_q_ok s v). Qed.
Example C127_delete_q_example : delete_q (pset 0 false [(1, 0); (2, 0)]) (1, 4) = (pset 0 false [(2, 0)], true) /\ delete_q (pset 0 false [(1, 0); (2, 0)]) (3, 4) = ((pset 0 false [(1, 0); (2, 0)]), false).
Proof. repeat split; reflexivity. Qed.
Print Assumptions C127_delete_q.

(** The union has the members of both; *)
Theorem C127_union {O} (s : set O) a l : wf s -> elems a = Val l ->
  exists r, union s a = Val r /\ wf r /\ ident r = ident s /\ forall w, has r w = has s w || mem (ident s) l w.
Proof. exact (union_ok s a l). Qed.
Example C127_union_example : union (pset 0 false [(1, 0); (2, 0)]) (@AEnum pairs [(3, 0); (1, 5); (3, 7)]) = Val (pset 0 false [(1, 0); (2, 0); (3, 0)]) /\ union (pset 0 false [(1, 0); (2, 0)]) (ARaise Other) = Raise Other /\ union (pset 0 false [(1, 0); (2, 0)]) AOther = Raise ArgErr.
Proof. repeat split; reflexivity. Qed.
Print Assumptions C127_union.

(** those of the receiver come first. *)
Theorem C127_union_order {O} (s : set O) a l : wf s -> elems a = Val l ->
  exists r, union s a = Val r /\ exists more, els r = els s ++ more.
Proof. exact (union_order s a l). Qed.
Example C127_union_order_example : union (pset 0 true [(1, 1); (1, 2)]) (@AEnum pairs [(1, 1); (1, 3)]) = Val (pset 0 true [(1, 1); (1, 2); (1, 3)]).
Proof. repeat split; reflexivity. Qed.
Print Assumptions C127_union_order.

(** False: the union of a set of a subclass is of that subclass. It is a Set. *)
Theorem C127_union_refuted : ~ (forall (O : objects) (s r : set O) a, union s a = Val r -> cls r = cls s).
Proof. exact (union_class_bad). Qed.
Print Assumptions C127_union_refuted.

(** The difference has the members of the first that are not in the other. *)
Theorem C127_difference {O} (s : set O) a l : wf s -> elems a = Val l ->
  exists r, difference s a = Val r /\ wf r /\ ident r = ident s /\
    forall w, has r w = has s w && negb (mem (ident s) l w).
Proof. exact (difference_ok s a l). Qed.
Example C127_difference_example : difference (pset 0 false [(1, 0); (2, 0)]) (@AEnum pairs [(1, 5)]) = Val (pset 0 false [(2, 0)]) /\ difference (pset 0 true [(1, 1); (1, 2)]) (@AEnum pairs [(1, 1)]) = Val (pset 0 true [(1, 2)]).
Proof. repeat split; reflexivity. Qed.
Print Assumptions C127_difference.

(** The intersection has the members of both; *)
Theorem C127_intersection {O} (s : set O) a l : wf s -> ident s = false -> elems a = Val l ->
  exists r, intersection s a = Val r /\ wf r /\ ident r = false /\
    forall w, has r w = has s w && mem false l w.
Proof. exact (intersection_ok s a l). Qed.
Example C127_intersection_example : intersection (pset 0 false [(1, 0); (2, 0)]) (@AEnum pairs [(3, 0); (1, 5)]) = Val (pset 0 false [(1, 0)]).
Proof. repeat split; reflexivity. Qed.
Print Assumptions C127_intersection.

(** for a receiver that compares by identity, the common objects, which are then compared with eql? (as in Ruby). *)
Theorem C127_intersection_identity {O} (s : set O) a l : wf s -> ident s = true -> elems a = Val l ->
  exists r, intersection s a = Val r /\ wf r /\ ident r = false /\
    forall w, has r w = true <-> exists k, In k (els s) /\ In k l /\ eql k w = true.
Proof. exact (intersection_ident s a l). Qed.
Example C127_intersection_identity_example : intersection (pset 0 true [(1, 1); (1, 2)]) (@AEnum pairs [(1, 2); (1, 1)]) = Val (pset 0 false [(1, 1)]) /\ intersection (pset 0 true [(1, 1); (1, 2)]) (@AEnum pairs [(1, 7)]) = Val (pset 0 false []).
Proof. repeat split; reflexivity. Qed.
Print Assumptions C127_intersection_identity.

(** The symmetric difference has the members of exactly one of them. *)
Theorem C127_symmetric {O} (s : set O) a l : wf s -> elems a = Val l ->
  exists r, symmetric s a = Val r /\ wf r /\ ident r = ident s /\
    forall w, has r w = xorb (has s w) (mem (ident s) l w).
Proof. exact (symmetric_ok s a l). Qed.
Example C127_symmetric_example : symmetric (pset 0 false [(1, 0); (2, 0)]) (@AEnum pairs [(3, 0); (1, 5); (3, 1)]) = Val (pset 0 false [(2, 0); (3, 0)]).
Proof. repeat split; reflexivity. Qed.
Print Assumptions C127_symmetric.

(** C128. subset? says whether all members of the first are in the second, *)
Theorem C128_subset {O} (s t : set O) : wf s -> ident s = ident t -> (subset s t = true <-> included s t).
Proof. exact (subset_ok s t). Qed.
Example C128_subset_example : subset (pset 0 false [(1, 0); (2, 0)]) (pset 0 false [(2, 7); (3, 0); (1, 7)]) = true /\ subset (pset 0 false [(1, 0); (2, 0)]) (pset 0 false [(2, 7); (3, 0); (4, 7)]) = false /\ subset (pset 0 false [(1, 0); (2, 0)]) (pset 0 false [(1, 0); (2, 0)]) = true.
Proof. repeat split; reflexivity. Qed.
Print Assumptions C128_subset.

(** superset? the other way round. *)
Theorem C128_superset {O} (s t : set O) : wf t -> ident s = ident t -> (superset s t = true <-> included t s).
Proof. exact (superset_ok s t). Qed.
Example C128_superset_example : superset (pset 0 false [(2, 7); (3, 0); (1, 7)]) (pset 0 false [(1, 0); (2, 0)]) = true /\ superset (pset 0 false [(1, 0); (2, 0)]) (pset 0 false [(5, 0)]) = false.
Proof. repeat split; reflexivity. Qed.
Print Assumptions C128_superset.

(** The proper ones also say that there are others, *)
Theorem C128_proper_subset {O} (s t : set O) : wf s -> wf t -> ident s = ident t ->
  (proper_subset s t = true <-> included s t /\ ~ included t s).
Proof. exact (proper_subset_ok s t). Qed.
Example C128_proper_subset_example : proper_subset (pset 0 false [(1, 0); (2, 0)]) (pset 0 false [(1, 0); (2, 0)]) = false /\ proper_subset (pset 0 false [(1, 4)]) (pset 0 false [(1, 0); (2, 0)]) = true.
Proof. repeat split; reflexivity. Qed.
Print Assumptions C128_proper_subset.

(** in both directions. *)
Theorem C128_proper_superset {O} (s t : set O) : wf s -> wf t -> ident s = ident t ->
  (proper_superset s t = true <-> included t s /\ ~ included s t).
Proof. exact (proper_superset_ok s t). Qed.
Example C128_proper_superset_example : proper_superset (pset 0 false [(1, 0); (2, 0)]) (pset 0 false [(1, 0); (2, 0)]) = false /\ proper_superset (pset 0 false [(1, 0); (2, 0)]) (pset 0 false [(1, 4)]) = true.
Proof. repeat split; reflexivity. Qed.
Print Assumptions C128_proper_superset.

(** Two sets are == if they have the same members and compare them in the same way, whatever their order. *)
Theorem C128_eq {O} (s t : set O) : wf s -> wf t ->
  (set_eq s t = true <-> ident s = ident t /\ forall v, has s v = has t v).
Proof. exact (set_eq_ok s t). Qed.
Example C128_eq_example : set_eq (pset 0 false [(1, 0); (2, 0)]) (pset 7 false [(2, 5); (1, 6)]) = true /\ set_eq (pset 0 true []) (pset 0 false []) = false /\ set_eq (pset 0 false [(1, 0); (2, 0)]) (pset 0 false [(2, 0); (3, 0)]) = false.
Proof. repeat split; reflexivity. Qed.
Print Assumptions C128_eq.

(** <=> agrees with the other comparisons. Missing: two sets of which one compares by identity (refuted below). *)
Theorem C128_order_partial {O} (s t : set O) : wf s -> wf t -> ident s = ident t ->
  spaceship s t =
    if set_eq s t then Some 0
    else if proper_subset s t then Some (-1)
    else if proper_superset s t then Some 1
    else None.
Proof. exact (spaceship_ok s t). Qed.
Example C128_order_example : spaceship (pset 0 false [(1, 0); (2, 0)]) (pset 0 false [(2, 5); (1, 6)]) = Some 0 /\ spaceship (pset 0 false [(1, 0); (2, 0)]) (pset 0 false [(1, 0)]) = Some 1 /\ spaceship (pset 0 false [(1, 0); (2, 0)]) (pset 0 false [(3, 0)]) = None.
Proof. repeat split; reflexivity. Qed.
Print Assumptions C128_order_partial.

(** False: a set of two equal Strings by identity <=> a set of one such String is nil. Here it is -1. *)
Theorem C128_order_refuted : ~ (forall (O : objects) (s t : set O), wf s -> wf t -> spaceship s t = ruby_order s t).
Proof. exact (order_bad). Qed.
Print Assumptions C128_order_refuted.

(** intersect? of a set says whether they have a common member, *)
Theorem C128_intersect_partial {O} (s t : set O) : ident s = ident t ->
  exists b, intersect_q s (ASet t) = Val b /\ (b = true <-> exists v, has s v = true /\ has t v = true).
Proof. exact (intersect_set s t). Qed.
Example C128_intersect_example : intersect_q (pset 0 false [(1, 0); (2, 0)]) (ASet (pset 0 false [(7, 0); (2, 9)])) = Val true /\ intersect_q (pset 0 false [(1, 0); (2, 0)]) (ASet (pset 0 false [(7, 0)])) = Val false.
Proof. repeat split; reflexivity. Qed.
Print Assumptions C128_intersect_partial.

(** of another finite enumeration, whether one of its elements is a member, *)
Theorem C128_intersect_enum {O} (s : set O) l :
  exists b, intersect_q s (AEnum l) = Val b /\ (b = true <-> exists v, In v l /\ has s v = true).
Proof. exact (intersect_enum s l). Qed.
Example C128_intersect_enum_example : intersect_q (pset 0 false [(1, 0); (2, 0)]) (@AEnum pairs [(7, 0); (2, 9)]) = Val true /\ intersect_q (pset 0 false [(1, 0); (2, 0)]) (@AEnum pairs []) = Val false /\ intersect_q (pset 0 false [(1, 0); (2, 0)]) AOther = Raise ArgErr.
Proof. repeat split; reflexivity. Qed.
Print Assumptions C128_intersect_enum.

(** False: Set[3].intersect?(0..) does not end. Ruby gives true at 3. *)
Theorem C128_intersect_endless_refuted : ~ (forall (O : objects) (s : set O) a, meets s a -> intersect_q s a = Val true).
Proof. exact (intersect_endless_bad). Qed.
Print Assumptions C128_intersect_endless_refuted.

(** False: an exception of the argument's each becomes ArgumentError. *)
Theorem C128_intersect_raise_refuted : ~ (forall (O : objects) (s : set O) e, intersect_q s (ARaise e) = Raise e).
Proof. exact (intersect_raise_bad). Qed.
Print Assumptions C128_intersect_raise_refuted.

(** disjoint? is the opposite. *)
Theorem C128_disjoint {O} (s : set O) a :
  disjoint_q s a = match intersect_q s a with Val b => Val (negb b) | Raise e => Raise e | Forever => Forever end.
Proof. exact (disjoint_ok s a). Qed.
Example C128_disjoint_example : disjoint_q (pset 0 false [(1, 0); (2, 0)]) (@AEnum pairs [(7, 0); (2, 9)]) = Val false /\ disjoint_q (pset 0 false [(1, 0); (2, 0)]) (ASet (pset 0 false [(7, 0)])) = Val true.
Proof. repeat split; reflexivity. Qed.
Print Assumptions C128_disjoint.

(** Sets that are == have the same hash. *)
Theorem C128_hash {O} (h : V O -> Z) (s t : set O) : wf s -> wf t ->
  (forall a b, eql a b = true -> h a = h b) -> set_eq s t = true -> set_hash h s = set_hash h t.
Proof. exact (set_hash_ok h s t). Qed.
Example C128_hash_example : @set_hash pairs fst (pset 0 false [(1, 0); (2, 0)]) = @set_hash pairs fst (pset 0 false [(2, 5); (1, 6)]) /\ @set_hash pairs fst (pset 0 false [(1, 0); (2, 0)]) <> @set_hash pairs fst (pset 0 false [(2, 5)]).
Proof. split; [reflexivity|discriminate]. Qed.
Print Assumptions C128_hash.

(** C129. merge adds the elements of its argument, *)
Theorem C129_merge {O} (s : set O) a l : wf s -> elems a = Val l ->
  exists r, merge s a = Val r /\ wf r /\ forall w, has r w = has s w || mem (ident s) l w.
Proof. exact (merge_ok s a l). Qed.
Example C129_merge_example : merge (pset 0 false [(1, 0); (2, 0)]) (@AEnum pairs [(3, 0); (1, 5)]) = Val (pset 0 false [(1, 0); (2, 0); (3, 0)]) /\ merge (pset 0 false [(1, 0); (2, 0)]) (@AEndless pairs (fun _ => (0, 0))) = Forever.
Proof. repeat split; reflexivity. Qed.
Print Assumptions C129_merge.

(** subtract removes them. *)
Theorem C129_subtract {O} (s : set O) a l : wf s -> elems a = Val l ->
  exists r, subtract s a = Val r /\ wf r /\ forall w, has r w = has s w && negb (mem (ident s) l w).
Proof. exact (subtract_ok s a l). Qed.
Example C129_subtract_example : subtract (pset 0 false [(1, 0); (2, 0)]) (@AEnum pairs [(3, 0); (1, 5)]) = Val (pset 0 false [(2, 0)]).
Proof. repeat split; reflexivity. Qed.
Print Assumptions C129_subtract.

(** replace by a set takes its elements and its way to compare, *)
Theorem C129_replace {O} (s t : set O) : wf t -> replace s (ASet t) = Val (mkS (cls s) (ident t) (els t)).
Proof. exact (replace_ok s t). Qed.
Example C129_replace_example : replace (pset 7 false [(9, 9)]) (ASet (pset 0 true [(1, 1); (1, 2)])) = Val (pset 7 true [(1, 1); (1, 2)]).
Proof. repeat split; reflexivity. Qed.
Print Assumptions C129_replace.

(** by another enumeration its elements. *)
Theorem C129_replace_enum {O} (s : set O) l :
  exists r, replace s (AEnum l) = Val r /\ wf r /\ ident r = ident s /\ forall w, has r w = mem (ident s) l w.
Proof. exact (replace_enum s l). Qed.
Example C129_replace_enum_example : replace (pset 0 false [(1, 0); (2, 0)]) (@AEnum pairs [(3, 0); (3, 5)]) = Val (pset 0 false [(3, 0)]).
Proof. repeat split; reflexivity. Qed.
Print Assumptions C129_replace_enum.

(** compare_by_identity keeps the elements and their order. *)
Theorem C129_by_identity {O} (s : set O) : wf s -> wf (by_identity s) /\ els (by_identity s) = els s.
Proof. exact (by_identity_ok s). Qed.
Example C129_by_identity_example : by_identity (pset 0 false [(1, 0); (2, 0)]) = pset 0 true [(1, 0); (2, 0)].
Proof. repeat split; reflexivity. Qed.
Print Assumptions C129_by_identity.

(** delete_if removes the elements for which the block is true, and keeps the order of the others; *)
Theorem C129_delete_if {O} (p : V O -> bool) (s : set O) : wf s ->
  wf (delete_if p s) /\ els (delete_if p s) = filter (fun k => negb (p k)) (els s).
Proof. exact (delete_if_ok p s). Qed.
Example C129_delete_if_example : @delete_if pairs (fun x => fst x =? 1) (pset 7 false [(1, 0); (2, 0); (3, 0)]) = pset 7 false [(2, 0); (3, 0)].
Proof. repeat split; reflexivity. Qed.
Print Assumptions C129_delete_if.

(** keep_if those for which it is not. *)
Theorem C129_keep_if {O} (p : V O -> bool) (s : set O) : wf s ->
  wf (keep_if p s) /\ els (keep_if p s) = filter p (els s).
Proof. exact (keep_if_ok p s). Qed.
Example C129_keep_if_example : @keep_if pairs (fun x => snd x =? 2) (pset 0 true [(1, 1); (1, 2)]) = pset 0 true [(1, 2)].
Proof. repeat split; reflexivity. Qed.
Print Assumptions C129_keep_if.

(** reject! does the same as delete_if and says whether it removed anything, *)
Theorem C129_reject {O} (p : V O -> bool) (s : set O) : wf s ->
  reject_bang p s = (delete_if p s, existsb p (els s)).
Proof. exact (reject_bang_ok p s). Qed.
Example C129_reject_example : @reject_bang pairs (fun x => fst x =? 1) (pset 0 false [(1, 0); (2, 0)]) = (pset 0 false [(2, 0)], true) /\ @reject_bang pairs (fun x => fst x =? 9) (pset 0 false [(1, 0); (2, 0)]) = ((pset 0 false [(1, 0); (2, 0)]), false).
Proof. repeat split; reflexivity. Qed.
Print Assumptions C129_reject.

(** and so does select!. *)
Theorem C129_select {O} (p : V O -> bool) (s : set O) : wf s ->
  select_bang p s = (keep_if p s, existsb (fun k => negb (p k)) (els s)).
Proof. exact (select_bang_ok p s). Qed.
Example C129_select_example : @select_bang pairs (fun x => fst x =? 1) (pset 0 false [(1, 0); (2, 0)]) = (pset 0 false [(1, 0)], true) /\ @select_bang pairs (fun x => fst x <? 9) (pset 0 false [(1, 0); (2, 0)]) = ((pset 0 false [(1, 0); (2, 0)]), false).
Proof. repeat split; reflexivity. Qed.
Print Assumptions C129_select.

(** collect! has the answers of the block as its members. *)
Theorem C129_collect {O} (f : V O -> V O) (s : set O) :
  wf (collect_bang f s) /\ cls (collect_bang f s) = cls s /\
  forall w, has (collect_bang f s) w = existsb (fun k => eql (f k) w) (els s).
Proof. exact (collect_bang_ok f s). Qed.
Example C129_collect_example : @collect_bang pairs (fun x => (fst x / 2, 0)) (pset 7 true [(1, 0); (2, 0); (3, 0)]) = pset 7 false [(0, 0); (1, 0)].
Proof. repeat split; reflexivity. Qed.
Print Assumptions C129_collect.

(** dup of a Set that compares with eql? is the same. Missing: identity and subclasses (refuted below). *)
Theorem C129_dup_partial {O} (s : set O) : wf s -> ident s = false -> cls s = 0 -> dup s = s.
Proof. exact (dup_ok s). Qed.
Example C129_dup_example : dup (pset 0 false [(1, 0); (2, 0)]) = (pset 0 false [(1, 0); (2, 0)]) /\ dup (pset 0 true [(1, 1); (1, 2)]) = pset 0 true [(1, 1)].
Proof. repeat split; reflexivity. Qed.
Print Assumptions C129_dup_partial.

(** False: dup of a set with two equal Strings by identity has only one of them. *)
Theorem C129_dup_refuted : ~ (forall (O : objects) (s : set O), wf s -> cls s = 0 -> dup s = s).
Proof. exact (dup_bad). Qed.
Print Assumptions C129_dup_refuted.

(** False: dup of a set of a subclass is a Set. *)
Theorem C129_dup_class_refuted : ~ (forall (O : objects) (s : set O), cls (dup s) = cls s).
Proof. exact (dup_class_bad). Qed.
Print Assumptions C129_dup_class_refuted.

(** divide gives the elements with the same answer. Missing: answers that are equal and not the same object (refuted below). *)
Theorem C129_divide_partial {O} (f : V O -> V O) (s : set O) :
  (forall a b, In a (els s) -> In b (els s) -> eql (f a) (f b) = true -> f a = f b) ->
  divide f s = map snd (group_by eql f (els s)).
Proof. exact (divide_ok f s). Qed.
Example C129_divide_example : @divide pairs (fun x => (fst x mod 2, 0)) (pset 0 false [(1, 0); (2, 0); (3, 0)]) = [[(1, 0); (3, 0)]; [(2, 0)]].
Proof. repeat split; reflexivity. Qed.
Print Assumptions C129_divide_partial.

(** False: with Strings as answers every element is a group of its own. *)
Theorem C129_divide_refuted : ~ (forall (O : objects) (f : V O -> V O) (s : set O), divide f s = map snd (group_by eql f (els s))).
Proof. exact (divide_bad). Qed.
Print Assumptions C129_divide_refuted.

(** False: reset makes an element that has changed findable. It does nothing. *)
Theorem C129_reset_refuted : ~ (forall (O : objects) (h : V O -> Z) t v,
  (forall a b, eql a b = true -> h a = h b) -> found h (reset t) v = existsb (fun e => eql (snd e) v) t).
Proof. exact (reset_bad). Qed.
Example C129_reset_example : @found pairs fst [(1, (2, 0)); (5, (5, 0))] (5, 3) = true.
Proof. repeat split; reflexivity. Qed.
Print Assumptions C129_reset_refuted.
