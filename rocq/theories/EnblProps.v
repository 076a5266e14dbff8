(** C124 to C126: Enumerable and Comparable. *)
From Coq Require Import ZArith List Bool Floats.SpecFloat.
From Verif Require Import IntModel AseqModel FintModel EnblModel EnblSpec EnblProofs EnblBadProofs.
Import ListNotations.
Local Open Scope Z_scope.

(** C124. each_slice(n) cuts the elements in slices of n, the last one possibly shorter. *)
Theorem C124_each_slice {A} n (l : list A) : 0 < n ->
  exists o, each_slice n l = Val o /\ sliced (Z.to_nat n) l o.
Proof. exact (each_slice_ok n l). Qed.
Example C124_each_slice_example : each_slice 2 [1; 2; 3; 4; 5] = Val [[1; 2]; [3; 4]; [5]] /\ each_slice 2 [1; 2] = Val [[1; 2]].
Proof. repeat split; reflexivity. Qed.
Print Assumptions C124_each_slice.

(** There is only one way to do this, *)
Theorem C124_slices_unique {A} n (l : list A) o : (0 < n)%nat -> sliced n l o -> forall o', sliced n l o' -> o = o'.
Proof. exact (sliced_unique n l o). Qed.
Example C124_slices_unique_example : sliced 2 [1; 2; 3] [[1; 2]; [3]].
Proof. apply (sliced_more 2 [1; 2] [3]); [reflexivity|]. apply sliced_last; [discriminate|]. apply le_n. Qed.
Print Assumptions C124_slices_unique.

(** and no element is lost. *)
Theorem C124_slices_all {A} n (l : list A) o : sliced n l o -> concat o = l.
Proof. exact (sliced_concat n l o). Qed.
Example C124_slices_all_example : concat [[1; 2]; [3]] = [1; 2; 3].
Proof. repeat split; reflexivity. Qed.
Print Assumptions C124_slices_all.

(** each_cons(n) gives the windows of n neighbours. *)
Theorem C124_each_cons {A} n (l : list A) : 0 < n -> each_cons n l = Val (windows (Z.to_nat n) l).
Proof. exact (each_cons_ok n l). Qed.
Example C124_each_cons_example : each_cons 3 [1; 2; 3; 4] = Val [[1; 2; 3]; [2; 3; 4]] /\ each_cons 3 [1; 2] = Val [] /\ each_cons 1 [1; 2] = Val [[1]; [2]].
Proof. repeat split; reflexivity. Qed.
Print Assumptions C124_each_cons.

(** Sizes that are not positive are refused. *)
Theorem C124_refused {A} n (l : list A) : n <= 0 ->
  each_slice n l = Raise ArgErr /\ each_cons n l = Raise ArgErr /\ (n < 0 -> take n l = Raise ArgErr).
Proof. exact (sizes_refused n l). Qed.
Example C124_refused_example : each_slice 0 [1] = Raise ArgErr /\ take 0 [1] = Val ([], O).
Proof. repeat split; reflexivity. Qed.
Print Assumptions C124_refused.

(** chunk gives the runs of equal keys; nil drops an element, :_alone sets it apart. *)
Theorem C124_chunk {A K} (keq : K -> K -> bool) (key : A -> ckey K) l :
  (forall x, In x l -> key x <> KReserved) ->
  chunk keq key l = (chunks keq key (length l) l, false).
Proof. exact (chunk_ok keq key l). Qed.
Example C124_chunk_example : chunk Z.eqb (fun x => if x =? 0 then KSep else if x =? 9 then KAlone else KKey (x mod 2)) [1; 3; 2; 0; 4; 9; 9; 5] = ([(Some 1, [1; 3]); (Some 0, [2]); (Some 0, [4]); (None, [9]); (None, [9]); (Some 1, [5])], false).
Proof. repeat split; reflexivity. Qed.
Print Assumptions C124_chunk.

(** Another Symbol with an underscore raises. *)
Theorem C124_chunk_reserved {A K} (keq : K -> K -> bool) (key : A -> ckey K) l :
  (exists x, In x l /\ key x = KReserved) -> snd (chunk keq key l) = true.
Proof. exact (chunk_reserved keq key l). Qed.
Example C124_chunk_reserved_example : chunk Z.eqb (fun x => if x =? 0 then KReserved else KKey x) [1; 2; 0] = ([(Some 1, [1])], true).
Proof. repeat split; reflexivity. Qed.
Print Assumptions C124_chunk_reserved.

(** chunk_while cuts exactly between the neighbours for which the block is false, *)
Theorem C124_chunk_while {A} (p : A -> A -> bool) x (l : list A) :
  cuts (fun a b => negb (p a b)) (x :: l) (chunk_while p (x :: l)).
Proof. exact (chunk_while_ok p x l). Qed.
Example C124_chunk_while_example : chunk_while (fun a b => b =? a + 1) [1; 2; 4; 9; 10; 11] = [[1; 2]; [4]; [9; 10; 11]].
Proof. repeat split; reflexivity. Qed.
Print Assumptions C124_chunk_while.

(** slice_when exactly where it is true. *)
Theorem C124_slice_when {A} (p : A -> A -> bool) x (l : list A) :
  cuts p (x :: l) (slice_when p (x :: l)).
Proof. exact (slice_when_ok p x l). Qed.
Example C124_slice_when_example : slice_when (fun a b => b =? a + 1) [1; 2; 4; 9; 10; 11] = [[1]; [2; 4; 9]; [10]; [11]].
Proof. repeat split; reflexivity. Qed.
Print Assumptions C124_slice_when.

(** There is only one way to do this, *)
Theorem C124_cuts_unique {A} (cut : A -> A -> bool) l o : cuts cut l o -> forall o', cuts cut l o' -> o = o'.
Proof. exact (cuts_unique cut l o). Qed.
Example C124_cuts_unique_example : cuts (fun a b => b <? a) [1; 2; 1] [[1; 2]; [1]].
Proof. apply cuts_on; [reflexivity|]. apply cuts_new; [reflexivity|]. constructor. Qed.
Print Assumptions C124_cuts_unique.

(** and no element is lost. *)
Theorem C124_cuts_all {A} (cut : A -> A -> bool) l o : cuts cut l o -> concat o = l.
Proof. exact (cuts_concat cut l o). Qed.
Example C124_cuts_all_example : concat [[1; 2]; [1]] = [1; 2; 1].
Proof. repeat split; reflexivity. Qed.
Print Assumptions C124_cuts_all.

(** slice_before begins a slice at each element that fits, and else only at the first one, *)
Theorem C124_slice_before {A} (b : bound A) l : (forall f, b <> NilPattern f) ->
  exists o, slice_before b l = Val o /\ before (pred_of b) l o.
Proof. exact (slice_before_ok b l). Qed.
Example C124_slice_before_example : slice_before (Block Z.even) [1; 3; 2; 5; 4; 6] = Val [[1; 3]; [2; 5]; [4]; [6]] /\ slice_before (Pattern Z.even) [2] = Val [[2]] /\ slice_before (Pattern Z.even) [] = Val [].
Proof. repeat split; reflexivity. Qed.
Print Assumptions C124_slice_before.

(** slice_after ends a slice at each element that fits, and else only at the last one. *)
Theorem C124_slice_after {A} (b : bound A) l : (forall f, b <> NilPattern f) ->
  exists o, slice_after b l = Val o /\ after (pred_of b) l o.
Proof. exact (slice_after_ok b l). Qed.
Example C124_slice_after_example : slice_after (Block Z.even) [1; 3; 2; 5; 4; 6; 7] = Val [[1; 3; 2]; [5; 4]; [6]; [7]] /\ slice_after (Pattern Z.even) [2] = Val [[2]].
Proof. repeat split; reflexivity. Qed.
Print Assumptions C124_slice_after.

(** False: slice_before(nil) raises NoMethodError. Ruby matches the elements against nil. *)
Theorem C124_nil_before_refuted : ~ (forall (b : bound (option Z)) l, exists o, slice_before b l = Val o /\ before (pred_of b) l o).
Proof. exact (slice_before_nil_bad). Qed.
Print Assumptions C124_nil_before_refuted.

(** False: so does slice_after(nil). *)
Theorem C124_nil_after_refuted : ~ (forall (b : bound (option Z)) l, exists o, slice_after b l = Val o /\ after (pred_of b) l o).
Proof. exact (slice_after_nil_bad). Qed.
Print Assumptions C124_nil_after_refuted.

(** False: (1..).each_slice(3).size raises FloatDomainError. Ruby gives Infinity. *)
Theorem C124_size_refuted : ~ (forall n s, 0 < n -> each_slice_size n s = Val (slice_count n s)).
Proof. exact (slice_size_bad). Qed.
Example C124_size_example : each_slice_size 3 (Count 10) = Val (Count 4) /\ each_slice_size 3 (Count 9) = Val (Count 3) /\ each_slice_size 0 (Count 9) = Raise ArgErr.
Proof. vm_compute. repeat split. Qed.
Print Assumptions C124_size_refuted.

(** False: the size goes through Float. For 10**18 elements in threes it is 333333333333333312; Ruby gives 333333333333333334. *)
Theorem C124_size_inexact_refuted : ~ (forall n k, 0 < n -> 0 <= k -> each_slice_size n (Count k) = Val (slice_count n (Count k))).
Proof. exact (slice_size_inexact). Qed.
Print Assumptions C124_size_inexact_refuted.

(** C125. take(n) gives the first n elements and asks the receiver for no more. *)
Theorem C125_take {A} n (l : list A) : 0 <= n ->
  take n l = Val (firstn (Z.to_nat n) l, Nat.min (Z.to_nat n) (length l)).
Proof. exact (take_ok n l). Qed.
Example C125_take_example : take 2 [5; 6; 7] = Val ([5; 6], 2%nat) /\ take 4 [5; 6; 7] = Val ([5; 6; 7], 3%nat).
Proof. repeat split; reflexivity. Qed.
Print Assumptions C125_take.

(** partition: those that fit and those that do not, in order. *)
Theorem C125_partition {A} (p : A -> bool) l :
  partition p l = (filter p l, filter (fun x => negb (p x)) l).
Proof. exact (partition_ok p l). Qed.
Example C125_partition_example : partition Z.even [1; 2; 3; 4] = ([2; 4], [1; 3]).
Proof. repeat split; reflexivity. Qed.
Print Assumptions C125_partition.

(** group_by: one group for each key, with all its elements in order, *)
Theorem C125_group_by {A K} (keq : K -> K -> bool) (f : A -> K) l : decides keq ->
  NoDup (map fst (group_by keq f l)) /\
  forall k g, In (k, g) (group_by keq f l) <->
    g <> [] /\ g = filter (fun x => keq (f x) k) l.
Proof. exact (group_by_ok keq f l). Qed.
Example C125_group_by_example : group_by Z.eqb (fun x => x mod 3) [1; 2; 3; 4; 5] = [(1, [1; 4]); (2, [2; 5]); (0, [3])].
Proof. repeat split; reflexivity. Qed.
Print Assumptions C125_group_by.

(** the keys in the order in which they come up. *)
Theorem C125_group_by_order {A K} (keq : K -> K -> bool) (f : A -> K) l : decides keq ->
  map fst (group_by keq f l) = uniq keq (fun k => k) (map f l).
Proof. exact (group_by_order keq f l). Qed.
Example C125_group_by_order_example : map fst (group_by Z.eqb (fun x => x mod 3) [2; 1; 5; 0]) = [2; 1; 0].
Proof. repeat split; reflexivity. Qed.
Print Assumptions C125_group_by_order.

(** uniq keeps the first element of each key, *)
Theorem C125_uniq {A K} (keq : K -> K -> bool) (f : A -> K) l : decides keq ->
  NoDup (map f (uniq keq f l)) /\
  (forall x, In x (uniq keq f l) <-> find (fun y => keq (f y) (f x)) l = Some x).
Proof. exact (uniq_ok keq f l). Qed.
Example C125_uniq_example : uniq Z.eqb Z.abs [3; -3; 1; 2; -1; 3] = [3; 1; 2].
Proof. repeat split; reflexivity. Qed.
Print Assumptions C125_uniq.

(** in the order of the receiver. *)
Theorem C125_uniq_order {A K} (keq : K -> K -> bool) (f : A -> K) l : sub (uniq keq f l) l.
Proof. exact (uniq_sub keq f l). Qed.
Example C125_uniq_order_example : sub [3; 1] [3; 3; 1].
Proof. apply sub_keep, sub_skip, sub_keep, sub_nil. Qed.
Print Assumptions C125_uniq_order.

(** min gives the first of the least elements, *)
Theorem C125_min {A} (cmp : A -> A -> option Z) rank x (l : list A) : ranked cmp rank ->
  exists m, min cmp (x :: l) = Val (Some m) /\ least rank (x :: l) m.
Proof. exact (min_ok cmp rank x l). Qed.
Example C125_min_example : min (fun a b => Some (Z.abs a - Z.abs b)) [3; -2; 2; 5] = Val (Some (-2)).
Proof. repeat split; reflexivity. Qed.
Print Assumptions C125_min.

(** max the first of the greatest, *)
Theorem C125_max {A} (cmp : A -> A -> option Z) rank x (l : list A) : ranked cmp rank ->
  exists m, max cmp (x :: l) = Val (Some m) /\ greatest rank (x :: l) m.
Proof. exact (max_ok cmp rank x l). Qed.
Example C125_max_example : max (fun a b => Some (Z.abs a - Z.abs b)) [3; -5; 2; 5] = Val (Some (-5)).
Proof. repeat split; reflexivity. Qed.
Print Assumptions C125_max.

(** min_by and *)
Theorem C125_min_by {A K} (cmp : K -> K -> option Z) rank (f : A -> K) x (l : list A) : ranked cmp rank ->
  exists m, min_by cmp f (x :: l) = Val (Some m) /\ least (fun y => rank (f y)) (x :: l) m.
Proof. exact (min_by_ok cmp rank f x l). Qed.
Example C125_min_by_example : min_by (fun a b => Some (a - b)) Z.abs [3; -2; 2; 5] = Val (Some (-2)).
Proof. repeat split; reflexivity. Qed.
Print Assumptions C125_min_by.

(** max_by likewise by what the block gives, *)
Theorem C125_max_by {A K} (cmp : K -> K -> option Z) rank (f : A -> K) x (l : list A) : ranked cmp rank ->
  exists m, max_by cmp f (x :: l) = Val (Some m) /\ greatest (fun y => rank (f y)) (x :: l) m.
Proof. exact (max_by_ok cmp rank f x l). Qed.
Example C125_max_by_example : max_by (fun a b => Some (a - b)) Z.abs [3; -5; 2; 5] = Val (Some (-5)).
Proof. repeat split; reflexivity. Qed.
Print Assumptions C125_max_by.

(** minmax and *)
Theorem C125_minmax {A} (cmp : A -> A -> option Z) rank x (l : list A) : ranked cmp rank ->
  exists a b, minmax cmp (x :: l) = Val (Some (a, b)) /\ least rank (x :: l) a /\ greatest rank (x :: l) b.
Proof. exact (minmax_ok cmp rank x l). Qed.
Example C125_minmax_example : minmax (fun a b => Some (Z.abs a - Z.abs b)) [3; -2; 2; -5; 5] = Val (Some (-2, -5)).
Proof. repeat split; reflexivity. Qed.
Print Assumptions C125_minmax.

(** minmax_by both at once. *)
Theorem C125_minmax_by {A K} (cmp : K -> K -> option Z) rank (f : A -> K) x (l : list A) : ranked cmp rank ->
  exists a b, minmax_by cmp f (x :: l) = Val (Some (a, b)) /\
    least (fun y => rank (f y)) (x :: l) a /\ greatest (fun y => rank (f y)) (x :: l) b.
Proof. exact (minmax_by_ok cmp rank f x l). Qed.
Example C125_minmax_by_example : minmax_by (fun a b => Some (a - b)) Z.abs [3; -2; 2; -5; 5] = Val (Some (-2, -5)).
Proof. repeat split; reflexivity. Qed.
Print Assumptions C125_minmax_by.

(** Nothing comes of an empty receiver. *)
Theorem C125_empty {A K} (p : A -> A -> bool) (cmp : K -> K -> option Z) (f : A -> K) (c : A -> A -> option Z) :
  chunk_while p [] = [] /\ slice_when p [] = [] /\
  min c [] = Val None /\ max c [] = Val None /\ min_by cmp f [] = Val None /\ max_by cmp f [] = Val None /\
  minmax c [] = Val None /\ minmax_by cmp f [] = Val None.
Proof. exact (empty_ok p cmp f c). Qed.
Example C125_empty_example : max (fun a b => Some (a - b)) [] = Val None.
Proof. repeat split; reflexivity. Qed.
Print Assumptions C125_empty.

(** Elements that cannot be compared raise ArgumentError in min and max. *)
Theorem C125_incomparable {A} (cmp : A -> A -> option Z) x y (l : list A) : cmp y x = None ->
  min cmp (x :: y :: l) = Raise ArgErr /\ max cmp (x :: y :: l) = Raise ArgErr.
Proof. exact (min_incomparable cmp x y l). Qed.
Example C125_incomparable_example : minmax (fun a b : Z => None) [1; 2] = Raise ArgErr.
Proof. repeat split; reflexivity. Qed.
Print Assumptions C125_incomparable.

(** False: min_by raises NoMethodError for keys that cannot be compared. Ruby raises ArgumentError. *)
Theorem C125_by_refuted : ~ (forall (cmp : Z -> Z -> option Z) (f : Z -> Z) x y l,
  cmp (f y) (f x) = None -> min_by cmp f (x :: y :: l) = Raise ArgErr).
Proof. exact (min_by_bad). Qed.
Example C125_by_example : max_by (fun a b : Z => None) Z.abs [1; 2] = Raise NoMethod /\ minmax_by (fun a b : Z => None) Z.abs [1; 2] = Raise NoMethod.
Proof. repeat split; reflexivity. Qed.
Print Assumptions C125_by_refuted.

(** zip with finite enumerations gives the rows, nil where one is too short. *)
Theorem C125_zip {A} (l : list A) os : (forall f, ~ In (Endless f) os) -> zip l os = Val (rows l os).
Proof. exact (zip_ok l os). Qed.
Example C125_zip_example : zip [1; 2] [Finite [3]; Finite [4; 5; 6]] = Val [[Some 1; Some 3; Some 4]; [Some 2; None; Some 5]].
Proof. repeat split; reflexivity. Qed.
Print Assumptions C125_zip.

(** False: (1..3).each_entry.zip(1..) never ends. Ruby takes three elements of the argument. *)
Theorem C125_zip_refuted : ~ (forall (l : list Z) os, zip l os = Val (rows l os)).
Proof. exact (zip_bad). Qed.
Print Assumptions C125_zip_refuted.

(** cycle(n) yields the elements n times over. *)
Theorem C125_cycle {A} n (l : list A) : cycle n l = concat (repeat l (Z.to_nat n)).
Proof. exact (cycle_ok n l). Qed.
Example C125_cycle_example : cycle 3 [1; 2] = [1; 2; 1; 2; 1; 2] /\ cycle (-1) [1] = [] /\ cycle 1 [1; 2] = [1; 2].
Proof. repeat split; reflexivity. Qed.
Print Assumptions C125_cycle.

(** False: cycle without n swallows a StopIteration of the block after the first pass. In Ruby it leaves the method. *)
Theorem C125_cycle_stop_refuted : ~ (forall (l : list Z) k, l <> [] -> cycle_stop l k = Stopped).
Proof. exact (cycle_bad). Qed.
Example C125_cycle_stop_example : cycle_stop [1; 2] 1 = Stopped /\ cycle_stop [1; 2] 2 = Returned.
Proof. repeat split; reflexivity. Qed.
Print Assumptions C125_cycle_stop_refuted.

(** The sum of Integers is exact. *)
Theorem C125_sum_integers init l : sum (NI init) (map NI l) = NI (fold_left Z.add l init).
Proof. exact (sum_integers init l). Qed.
Example C125_sum_integers_example : sum (NI 5) [NI 1; NI (2 ^ 70)] = NI (6 + 2 ^ 70) /\ sum (NI 0) [NI 1; NF (f_of_Z 2); NI 4] = NF (f_of_Z 7) /\ sum (NF (f_of_Z 1)) [NF (f_of_Z (2 ^ 53)); NF (f_of_Z 1)] = NF (f_of_Z (2 ^ 53 + 2)) /\ sum (NI 0) [NF (f_of_Z (2 ^ 53)); NF (f_of_Z 1); NF (f_of_Z 1)] = NF (f_of_Z (2 ^ 53 + 2)).
Proof. vm_compute. repeat split. Qed.
Print Assumptions C125_sum_integers.

(** False: the sum of Infinity and 1.0 is NaN. Ruby gives Infinity. *)
Theorem C125_sum_infinity_refuted : ~ (forall a b, sum (NI 0) [NF a; NF b] = NF (f_add a b)).
Proof. exact (sum_inf_bad). Qed.
Print Assumptions C125_sum_infinity_refuted.

(** False: the sum of 1.0, 2.0**60, 1.0 and -(2.0**60) is 0.0. Ruby's compensated sum gives 2.0. *)
Theorem C125_sum_kahan_refuted : ~ (forall l, sum (NF f_zero) (map NF l) = NF (kb_sum l)).
Proof. exact (sum_kahan_bad). Qed.
Print Assumptions C125_sum_kahan_refuted.

(** C126. Comparable#== is what <=> says, unless that raises NoMethodError or ArgumentError. *)
Theorem C126_eq same c : (same = true \/ (c <> CRaise NoMethod /\ c <> CRaise ArgErr)) ->
  c_eq same c = ruby_eq same c.
Proof. exact (eq_ok same c). Qed.
Example C126_eq_example : c_eq false (CNum 0) = Val true /\ c_eq false CNil = Val false /\ c_eq false COther = Raise ArgErr /\ c_eq true CNil = Val true /\ c_eq false (CRaise Other) = Raise Other.
Proof. repeat split; reflexivity. Qed.
Print Assumptions C126_eq.

(** False: a NoMethodError raised by <=> makes == false. Ruby lets it pass. *)
Theorem C126_eq_refuted : ~ (forall same c, c_eq same c = ruby_eq same c).
Proof. exact (eq_bad). Qed.
Example C126_eq_hidden_example : c_eq false (CRaise ArgErr) = Val false.
Proof. repeat split; reflexivity. Qed.
Print Assumptions C126_eq_refuted.

(** != is the negation of == if <=> gives a number. Missing: nil (see the refutations). *)
Theorem C126_ne_partial same z : (same = true -> z = 0) -> c_ne (CNum z) = ruby_ne same (CNum z).
Proof. exact (ne_ok same z). Qed.
Example C126_ne_example : c_ne (CNum 1) = Val true /\ c_ne (CNum 0) = Val false /\ c_ne (CNum (-1)) = Val true.
Proof. repeat split; reflexivity. Qed.
Print Assumptions C126_ne_partial.

(** False: != raises ArgumentError when <=> gives nil. Ruby gives true. *)
Theorem C126_ne_refuted : ~ (forall same c, c_ne c = ruby_ne same c).
Proof. exact (ne_bad). Qed.
Print Assumptions C126_ne_refuted.

(** False: != raises even for the object itself if its <=> gives nil. Ruby gives false. *)
Theorem C126_ne_self_refuted : ~ (forall c, c_ne c = ruby_ne true c).
Proof. exact (ne_same_bad). Qed.
Print Assumptions C126_ne_self_refuted.

(** The four orders follow the sign of <=>. *)
Theorem C126_orders z :
  c_lt (CNum z) = Val (z <? 0) /\ c_gt (CNum z) = Val (0 <? z) /\
  c_ge (CNum z) = Val (negb (z <? 0)) /\ c_le (CNum z) = Val (negb (0 <? z)).
Proof. exact (ops_ok z). Qed.
Example C126_orders_example : c_le (CNum 0) = Val true /\ c_ge (CNum 0) = Val true /\ c_lt (CNum 0) = Val false /\ c_gt (CNum 0) = Val false.
Proof. repeat split; reflexivity. Qed.
Print Assumptions C126_orders.

(** Without an order they raise ArgumentError. *)
Theorem C126_orders_nil : c_lt CNil = Raise ArgErr /\ c_gt CNil = Raise ArgErr /\
  c_ge CNil = Raise ArgErr /\ c_le CNil = Raise ArgErr.
Proof. exact (ops_nil). Qed.
Example C126_orders_nil_example : c_lt COther = Raise ArgErr /\ c_lt (CRaise Other) = Raise Other.
Proof. repeat split; reflexivity. Qed.
Print Assumptions C126_orders_nil.

(** clamp gives the receiver if it is between the bounds, else the nearer bound. *)
Theorem C126_clamp {A} (cmp : A -> A -> option Z) rank (self : A) lo hi : ranked cmp rank ->
  (forall a b, lo = Some a -> hi = Some b -> rank a <= rank b) ->
  exists r, clamp cmp self lo hi false = Val r /\
    (forall a, lo = Some a -> rank a <= rank r) /\ (forall b, hi = Some b -> rank r <= rank b) /\
    ((forall a, lo = Some a -> rank a <= rank self) -> (forall b, hi = Some b -> rank self <= rank b) -> r = self) /\
    (r = self \/ Some r = lo \/ Some r = hi).
Proof. exact (clamp_ok cmp rank self lo hi). Qed.
Example C126_clamp_example : clamp (fun a b => Some (a - b)) 5 (Some 1) (Some 3) false = Val 3 /\ clamp (fun a b => Some (a - b)) 0 (Some 1) (Some 3) false = Val 1 /\ clamp (fun a b => Some (a - b)) 2 (Some 1) None true = Val 2.
Proof. repeat split; reflexivity. Qed.
Print Assumptions C126_clamp.

(** Bounds in the wrong order raise ArgumentError, *)
Theorem C126_clamp_bounds {A} (cmp : A -> A -> option Z) rank (self : A) a b e : ranked cmp rank ->
  rank b < rank a -> clamp cmp self (Some a) (Some b) e = Raise ArgErr.
Proof. exact (clamp_bounds cmp rank self a b e). Qed.
Example C126_clamp_bounds_example : clamp (fun a b => Some (a - b)) 2 (Some 3) (Some 1) false = Raise ArgErr /\ clamp (fun a b => None) 2 (Some 3) (Some 4) false = Raise ArgErr.
Proof. repeat split; reflexivity. Qed.
Print Assumptions C126_clamp_bounds.

(** and so does an exclusive range. *)
Theorem C126_clamp_exclusive {A} (cmp : A -> A -> option Z) self lo b : clamp cmp self lo (Some b) true = Raise ArgErr.
Proof. exact (clamp_exclusive cmp self lo b). Qed.
Example C126_clamp_exclusive_example : clamp (fun a b => Some (a - b)) 2 None (Some 3) true = Raise ArgErr.
Proof. repeat split; reflexivity. Qed.
Print Assumptions C126_clamp_exclusive.

(** False: clamp raises NoMethodError when the receiver cannot be compared. Ruby raises ArgumentError. *)
Theorem C126_clamp_refuted : ~ (forall (cmp : Z -> Z -> option Z) self a,
  cmp self a = None -> clamp cmp self (Some a) None false = Raise ArgErr).
Proof. exact (clamp_bad). Qed.
Example C126_clamp_nil_example : clamp (fun a b : Z => None) 1 None (Some 2) false = Raise NoMethod.
Proof. repeat split; reflexivity. Qed.
Print Assumptions C126_clamp_refuted.

(** between? says whether the receiver is between the bounds. *)
Theorem C126_between {A} (cmp : A -> A -> option Z) rank (self lo hi : A) : ranked cmp rank ->
  between cmp self lo hi = Val ((rank lo <=? rank self) && (rank self <=? rank hi)).
Proof. exact (between_ok cmp rank self lo hi). Qed.
Example C126_between_example : between (fun a b => Some (a - b)) 2 2 2 = Val true /\ between (fun a b => Some (a - b)) 3 1 2 = Val false /\ between (fun a b => Some (a - b)) 0 1 2 = Val false.
Proof. repeat split; reflexivity. Qed.
Print Assumptions C126_between.

(** False: between? asks the lower bound instead of the receiver. x.between?(1, 9) raises NoMethodError if only x knows how to compare. *)
Theorem C126_between_refuted : ~ (forall (cmp : Z -> Z -> option Z) self lo hi, between cmp self lo hi = ruby_between cmp self lo hi).
Proof. exact (between_bad). Qed.
Example C126_between_nil_example : between (fun a b => if a =? 1 then Some 0 else None) 100 1 2 = Raise NoMethod.
Proof. repeat split; reflexivity. Qed.
Print Assumptions C126_between_refuted.
