(** C118 to C120: ranges of numbers. *)
From Coq Require Import List Bool ZArith QArith.
From Verif Require Import RangeModel RangeSpec RangeProofs RangeIter RangeSearch RangeBadProofs.
Import ListNotations.
Local Open Scope Z_scope.

(** C118. A number is covered by a range exactly if it lies between the ends. *)
Theorem C118_cover r v x : value v = Some x -> (cover_val r v = true <-> inside r x).
Proof. exact (cover_val_ok r v x). Qed.
Example C118_cover_example : (cover_val (mkR (Some (I 1)) (Some (F (7 # 2))) true) (F (7 # 2)), cover_val (mkR (Some (I 1)) (Some (F (7 # 2))) false) (F (7 # 2)), cover_val (mkR None (Some (I 0)) false) (I 1), cover_val (mkR (Some (Inf true)) None false) (I 1)) = (false, true, false, true).
Proof. repeat split; reflexivity. Qed.
Example C118_infinite_example : (cover_val (mkR (Some (Inf true)) (Some (Inf false)) true) (Inf true), cover_val (mkR (Some (Inf true)) (Some (Inf false)) true) (Inf false), cover_val (mkR (Some (Inf false)) None false) (Inf true), cover_val (mkR None (Some (Inf false)) false) (Inf false)) = (true, false, false, true).
Proof. repeat split; reflexivity. Qed.
Print Assumptions C118_cover.

(** overlap? says exactly whether some number lies in both ranges. *)
Theorem C118_overlap s o : finite s = true -> finite o = true -> (overlap s o = true <-> exists x, inside s x /\ inside o x).
Proof. exact (overlap_ok s o). Qed.
Example C118_overlap_example : (overlap (mkR (Some (I 1)) (Some (I 3)) true) (mkR (Some (I 3)) None false), overlap (mkR (Some (I 1)) (Some (I 3)) false) (mkR (Some (I 3)) None false), overlap (mkR None (Some (I 0)) false) (mkR None (Some (I 9)) true)) = (false, true, true).
Proof. repeat split; reflexivity. Qed.
Print Assumptions C118_overlap.

(** A range is taken for empty exactly if no number lies in it. *)
Theorem C118_empty r : finite r = true -> (empty_q r = true <-> ~ inhabited r).
Proof. exact (empty_ok r). Qed.
Example C118_empty_example : (empty_q (mkR (Some (I 3)) (Some (I 3)) true), empty_q (mkR (Some (I 3)) (Some (I 3)) false), empty_q (mkR (Some (I 3)) None true)) = (true, false, false).
Proof. repeat split; reflexivity. Qed.
Print Assumptions C118_empty.

(** cover? of a range: one that has elements, all of them in the receiver, is covered. *)
Theorem C118_cover_range s v : finite s = true -> finite v = true -> (fin v = None -> excl s = true -> excl v = true) ->
  inhabited v -> (forall x, inside v x -> inside s x) -> cover_range s v = true.
Proof. exact (cover_range_complete s v). Qed.
Example C118_cover_range_example : (cover_range (mkR (Some (I 1)) (Some (I 9)) false) (mkR (Some (I 2)) (Some (I 9)) false), cover_range (mkR (Some (I 1)) (Some (I 9)) true) (mkR (Some (I 2)) (Some (I 9)) false)) = (true, false).
Proof. repeat split; reflexivity. Qed.
Print Assumptions C118_cover_range.

(** A covered range has elements. *)
Theorem C118_covered_inhabited s v : finite v = true -> cover_range s v = true -> inhabited v.
Proof. exact (cover_range_inhabited s v). Qed.
Example C118_covered_inhabited_example : cover_range (mkR (Some (I 1)) (Some (I 9)) false) (mkR (Some (I 5)) (Some (I 4)) false) = false.
Proof. repeat split; reflexivity. Qed.
Print Assumptions C118_covered_inhabited.

(** All numbers of a covered range are in the receiver, unless only the argument excludes its end. *)
Theorem C118_covered_numbers s v : finite s = true -> finite v = true -> excl s = true \/ excl v = false -> cover_range s v = true ->
  forall x, inside v x -> inside s x.
Proof. exact (cover_range_exact s v). Qed.
Example C118_covered_numbers_example : (cover_range (mkR None (Some (I 4)) true) (mkR (Some (I 1)) (Some (F (7 # 2))) false), cover_range (mkR None (Some (I 4)) true) (mkR (Some (I 1)) (Some (F (9 # 2))) true)) = (true, false).
Proof. repeat split; reflexivity. Qed.
Print Assumptions C118_covered_numbers.

(** All integers of a covered range are in the receiver. *)
Theorem C118_covered_integers s v : finite s = true -> finite v = true -> cover_range s v = true -> forall z, has v z -> has s z.
Proof. exact (cover_range_integers s v). Qed.
Example C118_covered_integers_example : (cover_range (mkR (Some (I 1)) (Some (I 2)) false) (mkR (Some (I 1)) (Some (I 3)) true), cover_range (mkR (Some (I 1)) (Some (I 2)) false) (mkR (Some (I 1)) (Some (I 4)) true)) = (true, false).
Proof. repeat split; reflexivity. Qed.
Print Assumptions C118_covered_integers.

(** False: (1..2).cover?(1.5...3) is true, although 2.5 lies in the argument only. Ruby says false. *)
Theorem C118_cover_range_refuted : ~ forall s v q, finite s = true -> finite v = true -> beg v = Some (F q) -> cover_range s v = true -> forall x, inside v x -> inside s x.
Proof. exact (covers_too_much). Qed.
Print Assumptions C118_cover_range_refuted.

(** C119. each yields the integers of the range upwards from the begin, each once, and all of them if it ends. *)
Theorem C119_each fuel r b : beg r = Some (I b) -> walk fuel b 1 (has r) (each fuel r).
Proof. exact (each_ok fuel r b). Qed.
Example C119_each_example : (each 9 (mkR (Some (I 1)) (Some (F (7 # 2))) true), each 3 (mkR (Some (I 5)) None false), each 9 (mkR (Some (I 5)) (Some (I 4)) false), each 9 (mkR (Some (I 5)) (Some (F 7)) true)) = (Done [1; 2; 3], More [5; 6; 7], Done [], Done [5; 6]).
Proof. repeat split; reflexivity. Qed.
Print Assumptions C119_each.

(** It ends if the range is bounded above, *)
Theorem C119_each_ends r b : beg r = Some (I b) -> bounded r -> exists fuel l, each fuel r = Done l.
Proof. exact (each_ends r b). Qed.
Example C119_each_ends_example : bounded (mkR (Some (I 1)) (Some (Inf true)) true).
Proof. exists 0. intros z [_ H]. discriminate H. Qed.
Print Assumptions C119_each_ends.

(** and goes on forever if not. *)
Theorem C119_each_endless r b : beg r = Some (I b) -> ~ bounded r -> forall fuel, exists l, each fuel r = More l.
Proof. exact (each_endless r b). Qed.
Example C119_each_endless_example : each 4 (mkR (Some (I 1)) (Some (Inf false)) true) = More [1; 2; 3; 4].
Proof. repeat split; reflexivity. Qed.
Print Assumptions C119_each_endless.

(** reverse_each yields the integers of the range downwards. *)
Theorem C119_reverse fuel r : (beg r = None \/ exists b, beg r = Some (I b)) -> ((exists e, fin r = Some (I e)) \/ exists q, fin r = Some (F q)) ->
  exists top, walk fuel top (-1) (has r) (reverse_each fuel r).
Proof. exact (reverse_ok fuel r). Qed.
Example C119_reverse_example : (reverse_each 9 (mkR (Some (I 1)) (Some (F 3)) true), reverse_each 2 (mkR None (Some (F (7 # 2))) true)) = (Done [2; 1], More [3; 2]).
Proof. repeat split; reflexivity. Qed.
Print Assumptions C119_reverse.

(** It yields what each yields, in reverse, *)
Theorem C119_reverse_is_reverse r f f' l l' : ((exists e, fin r = Some (I e)) \/ exists q, fin r = Some (F q)) ->
  each f r = Done l -> reverse_each f' r = Done l' -> l' = rev l.
Proof. exact (reverse_is_reverse r f f' l l'). Qed.
Example C119_reverse_is_reverse_example : (each 9 (mkR (Some (I (-1))) (Some (F (-1 # 2))) false), reverse_each 9 (mkR (Some (I (-1))) (Some (F (-1 # 2))) false)) = (Done [-1], Done [-1]).
Proof. repeat split; reflexivity. Qed.
Print Assumptions C119_reverse_is_reverse.

(** and ends if the range has a begin. *)
Theorem C119_reverse_ends r : (exists b, beg r = Some (I b)) -> ((exists e, fin r = Some (I e)) \/ exists q, fin r = Some (F q)) -> exists fuel l, reverse_each fuel r = Done l.
Proof. exact (reverse_ends r). Qed.
Example C119_reverse_ends_example : reverse_each 4 (mkR (Some (I 3)) (Some (I 4)) false) = Done [4; 3].
Proof. repeat split; reflexivity. Qed.
Print Assumptions C119_reverse_ends.

(** size is the number of elements each yields, *)
Theorem C119_size r n : size r = Val (Some n) -> exists fuel l, each fuel r = Done l /\ Z.of_nat (length l) = n.
Proof. exact (size_ok r n). Qed.
Example C119_size_example : (size (mkR (Some (I 3)) (Some (I 5)) false), size (mkR (Some (I 3)) (Some (I 5)) true), size (mkR (Some (I 3)) (Some (I 1)) false)) = (Val (Some 3), Val (Some 2), Val (Some 0)).
Proof. repeat split; reflexivity. Qed.
Print Assumptions C119_size.

(** and infinite only if each does not end. *)
Theorem C119_size_infinite r : size r = Val None -> forall fuel, exists l, each fuel r = More l.
Proof. exact (size_infinite r). Qed.
Example C119_size_infinite_example : size (mkR (Some (I 3)) (Some (Inf false)) true) = Val None.
Proof. repeat split; reflexivity. Qed.
Print Assumptions C119_size_infinite.

(** map, flat_map, all? and last go through the elements each yields, if they do not raise. *)
Theorem C119_elements r l : elements r = Val l -> exists fuel, each fuel r = Done l.
Proof. exact (elements_ok r l). Qed.
Example C119_elements_example : (elements (mkR (Some (I 3)) (Some (I 5)) false), elements (mkR (Some (I 3)) (Some (I 1)) true)) = (Val [3; 4; 5], Val []).
Proof. repeat split; reflexivity. Qed.
Print Assumptions C119_elements.

(** They do not raise for Integers below 2^62. Missing: Float ends and larger Integers (see the refutations). *)
Theorem C119_elements_small_partial r b e : beg r = Some (I b) -> fin r = Some (I e) -> small b = true -> small e = true -> exists l, elements r = Val l.
Proof. exact (elements_fix r b e). Qed.
Example C119_elements_small_example : elements (mkR (Some (I (2 ^ 62 - 2))) (Some (I (2 ^ 62 - 1))) false) = Val [2 ^ 62 - 2; 2 ^ 62 - 1].
Proof. repeat split; reflexivity. Qed.
Print Assumptions C119_elements_small_partial.

(** count is the number of elements each yields, if it does not raise. *)
Theorem C119_count r n : count r = Val (Some n) -> exists fuel l, each fuel r = Done l /\ Z.of_nat (length l) = n.
Proof. exact (count_ok r n). Qed.
Example C119_count_example : (count (mkR (Some (I 3)) (Some (I 5)) false), count (mkR (Some (I 3)) (Some (I 5)) true)) = (Val (Some 3), Val (Some 2)).
Proof. repeat split; reflexivity. Qed.
Print Assumptions C119_count.

(** last(n) is the end of what each yields, n elements long or all there are. *)
Theorem C119_last r n l : last r n = Val l -> exists fuel l0, each fuel r = Done (l0 ++ l) /\ length l = Nat.min (Z.to_nat n) (length (l0 ++ l)).
Proof. exact (last_ok r n l). Qed.
Example C119_last_example : (last (mkR (Some (I 3)) (Some (I 9)) true) 2, last (mkR (Some (I 3)) (Some (I 4)) false) 7) = (Val [7; 8], Val [3; 4]).
Proof. repeat split; reflexivity. Qed.
Print Assumptions C119_last.

(** first(n) is the start of what each yields, shorter only if each ends. *)
Theorem C119_first r n l : first r n = Val l -> exists fuel, l = firstn (Z.to_nat n) (yields (each fuel r)) /\
  (Z.of_nat (length l) < n -> exists l', each fuel r = Done l').
Proof. exact (first_ok r n l). Qed.
Example C119_first_example : (first (mkR (Some (I 3)) None true) 2, first (mkR (Some (I 3)) (Some (F (7 # 2))) true) 2, first (mkR (Some (I 3)) (Some (I 8)) true) 3) = (Val [3; 4], Val [3], Val [3; 4; 5]).
Proof. repeat split; reflexivity. Qed.
Print Assumptions C119_first.

(** first(n) of a range with an Integer begin never raises. *)
Theorem C119_first_total r b n : beg r = Some (I b) -> 0 <= n -> exists l, first r n = Val l.
Proof. exact (first_total r b n). Qed.
Example C119_first_total_example : first (mkR (Some (I (2 ^ 70))) (Some (Inf false)) true) 1 = Val [2 ^ 70].
Proof. repeat split; reflexivity. Qed.
Print Assumptions C119_first_total.

(** max(n) of a range of Integers: its n greatest elements, downwards. *)
Theorem C119_max_n fuel r n l e : (beg r = None \/ exists b, beg r = Some (I b)) -> fin r = Some (I e) -> max_n fuel r n = Done l ->
  (Z.of_nat (length l) <= n) /\ (exists top, l = run top (-1) (length l)) /\ (forall z, In z l -> has r z) /\
  (forall z, has r z -> ~ In z l -> Z.of_nat (length l) = n /\ forall y, In y l -> z < y).
Proof. exact (max_n_ok fuel r n l e). Qed.
Example C119_max_n_example : (max_n 9 (mkR (Some (I 3)) (Some (I 9)) true) 2, max_n 9 (mkR (Some (I 3)) (Some (I 4)) false) 7, max_n 9 (mkR (Some (I 5)) (Some (I 4)) false) 7) = (Done [8; 7], Done [4; 3], Done []).
Proof. repeat split; reflexivity. Qed.
Print Assumptions C119_max_n.

(** step over Integers yields begin, begin + step and so on, all of them up to the end. *)
Theorem C119_step fuel : forall i e s (ex : bool), s <> 0 ->
  walk fuel i s (fun z => (exists k, 0 <= k /\ z = i + k * s) /\ if 0 <? s then (if ex then z < e else z <= e) else (if ex then e < z else e <= z)) (stepping fuel i e s ex).
Proof. exact (stepping_ok fuel). Qed.
Example C119_step_example : (stepping 9 1 7 3 false, stepping 9 1 7 3 true, stepping 9 7 2 (-2) false) = (Done [1; 4; 7], Done [1; 4], Done [7; 5; 3]).
Proof. repeat split; reflexivity. Qed.
Print Assumptions C119_step.

(** min is the least number of the range, nil if it is empty. *)
Theorem C119_min r : finite r = true -> match min r with
  | Val m => exists x, value m = Some x /\ inside r x /\ forall y, inside r y -> (x <= y)%Q
  | Nil => ~ inhabited r
  | Err => beg r = None
  end.
Proof. exact (min_ok r). Qed.
Example C119_min_example : (min (mkR (Some (F (3 # 2))) (Some (I 3)) true), min (mkR (Some (I 3)) (Some (I 3)) true)) = (Val (F (3 # 2)), Nil).
Proof. repeat split; reflexivity. Qed.
Print Assumptions C119_min.

(** max of a range with its end is the greatest number of the range, nil if it is empty. *)
Theorem C119_max_closed r : finite r = true -> excl r = false -> match max r with
  | Val m => exists x, value m = Some x /\ inside r x /\ forall y, inside r y -> (y <= x)%Q
  | Nil => ~ inhabited r
  | Err => fin r = None
  end.
Proof. exact (max_closed_ok r). Qed.
Example C119_max_closed_example : (max (mkR (Some (F (3 # 2))) (Some (I 3)) false), max (mkR (Some (I 4)) (Some (I 3)) false)) = (Val (I 3), Nil).
Proof. repeat split; reflexivity. Qed.
Print Assumptions C119_max_closed.

(** max of a range of Integers without its end is the greatest integer of the range. *)
Theorem C119_max_open r e : (beg r = None \/ exists b, beg r = Some (I b)) -> fin r = Some (I e) -> excl r = true -> match max r with
  | Val m => exists z, m = I z /\ has r z /\ forall y, has r y -> y <= z
  | Nil => forall z, ~ has r z
  | Err => False
  end.
Proof. exact (max_open_ok r e). Qed.
Example C119_max_open_example : (max (mkR None (Some (I 3)) true), max (mkR (Some (I 3)) (Some (I 3)) true)) = (Val (I 2), Nil).
Proof. repeat split; reflexivity. Qed.
Print Assumptions C119_max_open.

(** False for a Float begin: (1.5...3).max is 2, although 2.5 is in the range. Ruby raises TypeError. *)
Theorem C119_max_refuted : ~ forall r m x y, finite r = true -> max r = Val m -> value m = Some x -> beg r <> None -> (forall b, beg r <> Some (I b)) -> inside r y -> (y <= x)%Q.
Proof. exact (max_too_low). Qed.
Print Assumptions C119_max_refuted.

(** False: an exclusive Float end always raises. (1.5...1.5).max is nil; Ruby raises TypeError. *)
Theorem C119_max_float_refuted : ~ forall r q, fin r = Some (F q) -> excl r = true -> (forall b, beg r = Some b -> cmp b (F q) <> Some Gt) -> max r = Err.
Proof. exact (max_float_end). Qed.
Print Assumptions C119_max_float_refuted.

(** False: max(n) gives elements of the range. (1.5..3).max(5) is [3, 2, 1, 0, -1]; Ruby raises TypeError. *)
Theorem C119_max_n_refuted : ~ forall fuel r n l z, finite r = true -> max_n fuel r n = Done l -> In z l -> has r z.
Proof. exact (max_n_outside). Qed.
Print Assumptions C119_max_n_refuted.

(** False: map goes through what each yields. (1..3.5).map raises RuntimeError, and so do flat_map and all?. *)
Theorem C119_map_refuted : ~ forall fuel r l, each fuel r = Done l -> elements r = Val l.
Proof. exact (map_float_end). Qed.
Print Assumptions C119_map_refuted.

(** The same for Integers from 2^62 on. *)
Theorem C119_map_big_refuted : ~ forall fuel r l b e, beg r = Some (I b) -> fin r = Some (I e) -> each fuel r = Done l -> elements r = Val l.
Proof. exact (map_big). Qed.
Print Assumptions C119_map_big_refuted.

(** The same for count. *)
Theorem C119_count_refuted : ~ forall fuel r l, each fuel r = Done l -> count r = Val (Some (Z.of_nat (length l))).
Proof. exact (count_float_end). Qed.
Print Assumptions C119_count_refuted.

(** The same for last(n). *)
Theorem C119_last_refuted : ~ forall fuel r l n, 0 <= n -> each fuel r = Done l -> exists l', last r n = Val l'.
Proof. exact (last_float_end). Qed.
Print Assumptions C119_last_refuted.

(** C120. bsearch with a block that turns from false to true once finds the least element for which it is true, or nil if there is none. *)
Theorem C120_least fuel p b e ex : rising p -> (b <> None \/ e <> None) ->
  match bsearch fuel p b e ex with
  | Found z => between b e ex z /\ p z = Sat /\ forall y, between b e ex y -> y < z -> p y = Unsat
  | Nothing => forall y, between b e ex y -> p y = Unsat
  | Running => True
  end.
Proof. exact (bsearch_min fuel p b e ex). Qed.
Example C120_least_example : (bsearch 20 (fun z => if 37 <=? z then Sat else Unsat) (Some 0) (Some 100) true, bsearch 20 (fun z => if 37 <=? z then Sat else Unsat) (Some 0) None false, bsearch 20 (fun z => if -37 <=? z then Sat else Unsat) None (Some 5) false, bsearch 20 (fun z => if 100 <=? z then Sat else Unsat) (Some 0) (Some 100) true) = (Found 37, Found 37, Found (-37), Nothing).
Proof. repeat split; reflexivity. Qed.
Print Assumptions C120_least.

(** With a block that gives a positive number below, zero inside and a negative number above some interval, it finds an element of the interval, or nil if there is none. *)
Theorem C120_any fuel p b e ex : signs p -> (b <> None \/ e <> None) ->
  match bsearch fuel p b e ex with
  | Found z => between b e ex z /\ p z = Equal
  | Nothing => forall y, between b e ex y -> p y <> Equal
  | Running => True
  end.
Proof. exact (bsearch_any fuel p b e ex). Qed.
Example C120_any_example : (bsearch 20 (fun z => match Z.compare z 37 with Lt => Greater | Eq => Equal | Gt => Less end) (Some 0) None true, bsearch 20 (fun z => if z <? 37 then Greater else Less) (Some 0) (Some 99) true) = (Found 37, Nothing).
Proof. repeat split; reflexivity. Qed.
Print Assumptions C120_any.

(** It ends, unless an open side has no point beyond which the block points back. *)
Theorem C120_ends p b e ex :
  (b = None -> exists z0, forall z, z <= z0 -> p z = Unsat \/ p z = Greater) ->
  (e = None -> exists z0, forall z, z0 <= z -> p z = Sat \/ p z = Equal \/ p z = Less) ->
  exists fuel, bsearch fuel p b e ex <> Running.
Proof. exact (bsearch_ends p b e ex). Qed.
Example C120_ends_example : bsearch 200 (fun _ => Unsat) (Some 0) None true = Running.
Proof. vm_compute. reflexivity. Qed.
Print Assumptions C120_ends.

(** Between two Integers it asks the block at most log2 of their number, plus one, times. *)
Theorem C120_fast p b e (ex : bool) n : (if ex then e else e + 1) - b < 2 ^ Z.of_nat n -> bsearch (S n) p (Some b) (Some e) ex <> Running.
Proof. exact (bsearch_fast p b e ex  n). Qed.
Example C120_fast_example : bsearch 11 (fun z => if 1000 <=? z then Sat else Unsat) (Some 0) (Some 1022) true = Found 1000.
Proof. repeat split; reflexivity. Qed.
Print Assumptions C120_fast.

(** Floats: the key of a Float lies below 2^64 and gives the Float back, *)
Theorem C120_keys bits : float bits -> from_key (to_key bits) = bits /\ 0 <= to_key bits < 2 ^ 64.
Proof. exact (key_inverse bits). Qed.
Example C120_keys_example : (to_key 0, to_key (2 ^ 63), to_key 1) = (2 ^ 63, 2 ^ 63 - 1, 2 ^ 63 + 1).
Proof. repeat split; reflexivity. Qed.
Print Assumptions C120_keys.

(** and every key belongs to a Float; *)
Theorem C120_keys_back k : 0 <= k < 2 ^ 64 -> to_key (from_key k) = k /\ float (from_key k).
Proof. exact (key_back k). Qed.
Example C120_keys_back_example : from_key (2 ^ 63 - 2) = 2 ^ 63 + 1.
Proof. repeat split; reflexivity. Qed.
Print Assumptions C120_keys_back.

(** smaller Floats have smaller keys; *)
Theorem C120_key_order a b : float a -> float b -> fval a < fval b -> to_key a < to_key b.
Proof. exact (key_order a b). Qed.
Example C120_key_order_example : fval (2 ^ 63 + 5) < fval 4607182418800017408 /\ to_key (2 ^ 63 + 5) < to_key 4607182418800017408.
Proof. repeat split; reflexivity. Qed.
Print Assumptions C120_key_order.

(** and smaller keys belong to smaller Floats, but for the two zeros. *)
Theorem C120_key_order_back a b : float a -> float b -> to_key a < to_key b -> fval a < fval b \/ (a = 2 ^ 63 /\ b = 0).
Proof. exact (key_order_back a b). Qed.
Example C120_key_order_back_example : to_key (2 ^ 63) < to_key 0 /\ fval (2 ^ 63) = fval 0.
Proof. repeat split; reflexivity. Qed.
Print Assumptions C120_key_order_back.

(** bsearch between Floats finds the least Float for which the block is true, nil if there is none. Missing: an exclusive end 0.0, and 0.0..-0.0 (see the refutations). *)
Theorem C120_float_partial fuel p b e (ex : bool) : float b -> float e -> (ex = true -> e <> 0) -> ~ (b = 0 /\ e = 2 ^ 63) ->
  (forall z, p z = Sat \/ p z = Unsat) -> (forall x y, float x -> float y -> fval x <= fval y -> p x = Sat -> p y = Sat) ->
  match bsearch_float fuel p b e ex with
  | Found z => float z /\ fval b <= fval z /\ (if ex then fval z < fval e else fval z <= fval e) /\ p z = Sat /\
      forall y, float y -> fval b <= fval y < fval z -> p y = Unsat
  | Nothing => forall y, float y -> fval b <= fval y -> (if ex then fval y < fval e else fval y <= fval e) -> p y = Unsat
  | Running => True
  end.
Proof. exact (float_min fuel p b e ex). Qed.
Example C120_float_example : bsearch_float 70 (fun x => if fval 4607182418800017408 <=? fval x then Sat else Unsat) 0 4621819117588971520 true = Found 4607182418800017408.
Proof. vm_compute. reflexivity. Qed.
Print Assumptions C120_float_partial.

(** It ends after at most 65 calls of the block. *)
Theorem C120_float_ends p b e ex : float b -> float e -> bsearch_float 66 p b e ex <> Running.
Proof. exact (float_ends p b e ex). Qed.
Example C120_float_ends_example : bsearch_float 66 (fun _ => Unsat) 18442240474082181120 9218868437227405312 false = Nothing.
Proof. vm_compute. reflexivity. Qed.
Print Assumptions C120_float_ends.

(** False: without a begin, a block that is zero everywhere is never answered. Ruby returns an element at once. *)
Theorem C120_endless_refuted : ~ forall p e, signs p -> p e = Equal -> exists fuel, bsearch fuel p None (Some e) false <> Running.
Proof. exact (never_found). Qed.
Print Assumptions C120_endless_refuted.

(** False: (-1.0...0.0).bsearch can return -0.0, which is not less than the end. Ruby leaves it out. *)
Theorem C120_zero_refuted : ~ forall fuel p b e z, float b -> float e -> bsearch_float fuel p b e true = Found z -> fval z < fval e.
Proof. exact (zero_offered). Qed.
Print Assumptions C120_zero_refuted.

(** False: (0.0..-0.0).bsearch finds nothing, although the range contains zero. *)
Theorem C120_zeros_refuted : ~ forall fuel b e, float b -> float e -> fval b = fval e -> (66 <= fuel)%nat -> bsearch_float fuel (fun _ => Sat) b e false <> Nothing.
Proof. exact (zeros_missed). Qed.
Print Assumptions C120_zeros_refuted.
