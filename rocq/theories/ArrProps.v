(** C86-C89: Arrays. *)
From Coq Require Import ZArith List Bool Lia.
From Verif Require Import ArrModel ArrSpec ArrProofs ArrProofs2 ArrIterModel ArrIterProofs ArrJitModel ArrJitProofs ArrBadProofs.
Import ListNotations.
Open Scope Z_scope.

(** ** C86: reading *)

Theorem C86_at : forall (V : Type) (l : list V) i, get_elem1 l i = Ok (ov (s_at l i)).
Proof. exact @at_right. Qed.
Example C86_at_ex : get_elem1 [10; 20; 30] (-1) = Ok (RV 30) /\ get_elem1 [10; 20; 30] (-4) = Ok RNil
  /\ get_elem1 [10; 20; 30] 3 = Ok RNil.
Proof. repeat split; reflexivity. Qed.
Print Assumptions C86_at.

Theorem C86_slice : forall (V : Type) (l : list V) i n, exists r, get_elem2 l i n = Ok r /\ s_sub l (norm l i) n r.
Proof. exact @slice_right. Qed.
Example C86_slice_ex : get_elem2 [10; 20; 30] (-2) 5 = Ok (RA [20; 30]) /\ get_elem2 [10; 20; 30] 3 1 = Ok (RA [])
  /\ get_elem2 [10; 20; 30] 4 1 = Ok RNil.
Proof. repeat split; reflexivity. Qed.
Print Assumptions C86_slice.

Theorem C86_range : forall (V : Type) (l : list V) r, exists x, get_range l r = Ok x /\ s_range l r x.
Proof. exact @range_right. Qed.
Example C86_range_ex : get_range [10; 20; 30] {| r_start := Some (-2); r_end := Some (-1); r_excl := false |} = Ok (RA [20; 30])
  /\ get_range [10; 20; 30] {| r_start := None; r_end := Some 2; r_excl := true |} = Ok (RA [10; 20])
  /\ get_range [10; 20; 30] {| r_start := Some 2; r_end := Some 0; r_excl := false |} = Ok (RA []).
Proof. repeat split; reflexivity. Qed.
Print Assumptions C86_range.

Theorem C86_ends : forall (V : Type) (l : list V) n,
  ((n < 0 -> first_n l n = Err EArg) /\
   (0 <= n -> exists vs, first_n l n = Ok vs /\ is vs (fun k => if k <? n then get l k else None))) /\
  ((n < 0 -> last_n l n = Err EArg) /\
   (0 <= n -> exists vs, last_n l n = Ok vs /\ is vs (fun k => get l (Z.max 0 (size l - n) + k)))) /\
  ((n < 0 -> take l n = Err EArg) /\
   (0 <= n -> exists vs, take l n = Ok vs /\ is vs (fun k => if k <? n then get l k else None))) /\
  ((n < 0 -> drop l n = Err EArg) /\
   (0 <= n -> exists vs, drop l n = Ok vs /\ is vs (fun k => get l (n + k)))).
Proof. exact (fun V l n => conj (first_right l n) (conj (last_right l n) (conj (take_right l n) (drop_right l n)))). Qed.
Example C86_ends_ex : first_n [1; 2; 3] 2 = Ok [1; 2] /\ last_n [1; 2; 3] 2 = Ok [2; 3] /\ take [1; 2; 3] 9 = Ok [1; 2; 3]
  /\ drop [1; 2; 3] 2 = Ok [3] /\ drop [1; 2; 3] (-1) = Err EArg.
Proof. repeat split; reflexivity. Qed.
Print Assumptions C86_ends.

Theorem C86_fetch : forall (V : Type) (l : list V) i d, fetch l i d =
  match s_at l i with Some v => Ok v | None => match d with Some x => Ok x | None => Err EIndex end end.
Proof. exact @fetch_right. Qed.
Example C86_fetch_ex : fetch [1; 2] (-2) None = Ok 1 /\ fetch [1; 2] 2 None = Err EIndex /\ fetch [1; 2] (-3) (Some 7) = Ok 7.
Proof. repeat split; reflexivity. Qed.
Print Assumptions C86_fetch.

Theorem C86_rotate : forall (V : Type) (l : list V) i, exists l', rotate l i = Ok l' /\ size l' = size l /\
  forall k, 0 <= k < size l -> get l' k = get l ((k + i) mod size l).
Proof. exact @rotate_right_ok. Qed.
Example C86_rotate_ex : rotate [1; 2; 3; 4] 5 = Ok [2; 3; 4; 1] /\ rotate [1; 2; 3; 4] (- 2 ^ 63) = Ok [1; 2; 3; 4]
  /\ rotate [1; 2; 3] (-1) = Ok [3; 1; 2].
Proof. repeat split; reflexivity. Qed.
Print Assumptions C86_rotate.

(** Missing: products of the length that Rust cannot allocate (refuted). *)
Theorem C86_mul_partial : forall (V : Type) (l : list V) n, (n < 0 -> mul l n = Err EArg) /\
  (0 <= n -> size l * n <= VEC_MAX -> exists l', mul l n = Ok l' /\ size l' = n * size l /\
     forall k, 0 <= k < n * size l -> get l' k = get l (k mod size l)).
Proof. exact @mul_right. Qed.
Example C86_mul_ex : mul [1; 2] 3 = Ok [1; 2; 1; 2; 1; 2] /\ mul [1] (-1) = Err EArg.
Proof. split; reflexivity. Qed.
Print Assumptions C86_mul_partial.

Theorem C86_mul_refuted : exists n, i64 n /\ mul [1] n = Panic.
Proof. exact bad_mul. Qed.
Print Assumptions C86_mul_refuted.

(** Missing: an empty first row before rows that are not empty (refuted). *)
Theorem C86_transpose_partial : forall (V : Type) (rows : list (list V)) r0 rest, rows = r0 :: rest ->
  (r0 <> [] \/ forall r, In r rows -> r = []) ->
  match transpose rows with
  | Ok cols => (forall r, In r rows -> length r = length r0) /\ length cols = length r0 /\
               s_transpose rows cols /\ (forall c, In c cols -> length c = length rows)
  | Err e => (exists r, In r rows /\ length r <> length r0) /\ e = EIndex
  | Panic => False
  end.
Proof. exact @transpose_right. Qed.
Example C86_transpose_ex : transpose [[1; 2; 3]; [4; 5; 6]] = Ok [[1; 4]; [2; 5]; [3; 6]] /\ transpose [[1; 2]; [3]] = Err EIndex.
Proof. split; reflexivity. Qed.
Print Assumptions C86_transpose_partial.

Theorem C86_transpose_refuted : exists rows r0 rest, rows = r0 :: rest /\ (exists r, In r rows /\ length r <> length r0) /\
  transpose rows = Ok (@List.nil (list Z)).
Proof. exact bad_transpose. Qed.
Print Assumptions C86_transpose_refuted.

(** Missing: the products refused although Ruby computes them (refuted
    below). *)
Theorem C86_product_partial : forall (V : Type) (l : list V) ls,
  match product l ls with
  | Ok x => x = cart (l :: ls)
  | Err e => e = ERange /\ exists n, (n < length ls)%nat /\ PRODUCT_MAX < dims (l :: firstn (S n) ls)
  | Panic => False
  end.
Proof. exact @product_right. Qed.
Theorem C86_product_small : forall (V : Type) (l : list V) ls, Forall (fun a => a <> []) (l :: ls) ->
  Z.of_nat (length (cart (l :: ls))) <= PRODUCT_MAX -> product l ls = Ok (cart (l :: ls)).
Proof. exact @product_small. Qed.
Example C86_product_ex : product [1; 2] [[3; 4]; [5]] = Ok [[1; 3; 5]; [1; 4; 5]; [2; 3; 5]; [2; 4; 5]]
  /\ product [1; 2] [[]] = Ok [] /\ product [1; 2] [] = Ok [[1]; [2]].
Proof. repeat split; reflexivity. Qed.
Print Assumptions C86_product_partial.
Print Assumptions C86_product_small.

Theorem C86_product_refuted : exists (l : list Z) ls, Z.of_nat (length (cart (l :: ls))) = 1001000 /\ product l ls = Err ERange.
Proof. exact bad_product. Qed.
Theorem C86_product_empty_refuted : exists (l : list Z) ls, cart (l :: ls) = [] /\ product l ls = Err ERange.
Proof. exact bad_product_empty. Qed.
Print Assumptions C86_product_refuted.
Print Assumptions C86_product_empty_refuted.

Theorem C86_bsearch : forall (V : Type) (p : V -> bool) l, monotone p l ->
  bsearch p l = find p l /\ bsearch_index p l = find_pos p l.
Proof. exact @bsearch_right. Qed.
Example C86_bsearch_ex : bsearch (fun v => 4 <=? v) [0; 4; 7; 10; 12] = Some 4 /\ bsearch_index (fun v => 6 <=? v) [0; 4; 7; 10; 12] = Some 2
  /\ bsearch (fun v => 100 <=? v) [0; 4; 7] = None.
Proof. repeat split; reflexivity. Qed.
Print Assumptions C86_bsearch.

Theorem C86_flatten : forall h a N, refs_below h N -> (a < N)%nat ->
  (cyclic h a /\ flatten (S N) h a None = Some (Err EArg)) \/
  (~ cyclic h a /\ exists xs, flatten (S N) h a None = Some (Ok xs) /\ flat h None a xs).
Proof. exact flatten_all. Qed.
(** Missing: recursive arrays with a level (refuted). *)
Theorem C86_flatten_level_partial : forall h a N lv, refs_below h N -> (a < N)%nat -> ~ cyclic h a ->
  exists xs, flatten (S N) h a lv = Some (Ok xs) /\ flat h (level lv) a xs.
Proof. exact flatten_level. Qed.
Theorem C86_flatten_only : forall h,
  (forall lv a xs, flat h lv a xs -> forall ys, flat h lv a ys -> xs = ys) /\
  (forall lv vs xs, flats h lv vs xs -> forall ys, flats h lv vs ys -> xs = ys).
Proof. exact flat_fun. Qed.
Definition h_ex : aheap := fun a => match a with 0%nat => [Leaf 1; Ref 1] | 1%nat => [Leaf 2; Ref 2] | 2%nat => [Leaf 3] | _ => [] end.
Example C86_flatten_ex : flatten 9 h_ex 0 None = Some (Ok [Leaf 1; Leaf 2; Leaf 3])
  /\ flatten 9 h_ex 0 (Some 1) = Some (Ok [Leaf 1; Leaf 2; Ref 2]) /\ flatten 9 h_self 0 None = Some (Err EArg).
Proof. repeat split; reflexivity. Qed.
Print Assumptions C86_flatten.
Print Assumptions C86_flatten_level_partial.
Print Assumptions C86_flatten_only.

Theorem C86_flatten_refuted : exists h a lv xs, flat h (level lv) a xs /\ forall n, (1 < n)%nat ->
  flatten n h a lv = Some (Err EArg).
Proof. exact bad_flatten. Qed.
Print Assumptions C86_flatten_refuted.

(** ** C87: writing *)

(** Missing: an index at which no array can end (refuted: panic). *)
Theorem C87_store_partial : forall (V : Type) (nil : V) l i v, fits (size l) -> fits (norm l i + 1) ->
  match set_index nil l i v with
  | Ok l' => 0 <= norm l i /\ s_put nil l (norm l i) v l'
  | Err e => norm l i < 0 /\ e = EIndex
  | Panic => False
  end.
Proof. exact @store_right. Qed.
Example C87_store_ex : set_index 0 [1; 2] 4 9 = Ok [1; 2; 0; 0; 9] /\ set_index 0 [1; 2] (-2) 9 = Ok [9; 2] /\ set_index 0 [1; 2] (-3) 9 = Err EIndex.
Proof. repeat split; reflexivity. Qed.
Print Assumptions C87_store_partial.

Theorem C87_huge_refuted : exists i, i64 i /\ 0 <= norm (@List.nil Z) i /\ set_index 0 [] i 1 = Panic.
Proof. exact bad_huge. Qed.
Print Assumptions C87_huge_refuted.

(** Missing: a right-hand side whose to_ary answers nil (refuted), huge
    indices. *)
Theorem C87_slice_assign_partial : forall (V : Type) (nil : V) l i n h, (forall v, h <> HConv v None) ->
  fits (size l + size (s_rhs l h)) -> fits (norm l i + size (s_rhs l h)) ->
  match slice_assign nil false l i n h with
  | Ok l' => 0 <= n /\ 0 <= norm l i /\ s_splice nil l (norm l i) n (s_rhs l h) l'
  | Err e => (n < 0 \/ norm l i < 0) /\ e = EIndex
  | Panic => False
  end.
Proof. exact @slice_assign_right. Qed.
Example C87_slice_assign_ex : slice_assign 0 false [1; 2; 3] 1 1 (HArr [7; 8; 9]) = Ok [1; 7; 8; 9; 3]
  /\ slice_assign 0 false [1; 2; 3; 4] (-3) 2 (HVal 9) = Ok [1; 9; 4] /\ slice_assign 0 false [1; 2] 1 0 HSelf = Ok [1; 1; 2; 2]
  /\ slice_assign 0 false [1] 3 0 (HArr []) = Ok [1; 0; 0].
Proof. repeat split; reflexivity. Qed.
Print Assumptions C87_slice_assign_partial.

Theorem C87_conv_nil_refuted : exists l i n h l', slice_assign 0 false l i n h = Ok l' /\
  ~ s_splice 0 l (norm l i) n (s_rhs l h) l'.
Proof. exact bad_conv_nil. Qed.
Print Assumptions C87_conv_nil_refuted.

(** Missing: right-hand sides with to_ary, [0..2**63-1] (both refuted), huge
    indices. *)
Theorem C87_range_assign_partial : forall (V : Type) (nil : V) l r h, (forall v o, h <> HConv v o) ->
  i64o (r_start r) -> i64o (r_end r) ->
  ~ (s_beg l r = 0 /\ r_end r = Some (2 ^ 63 - 1) /\ r_excl r = false) ->
  fits (size l + size (s_rhs l h)) -> fits (s_beg l r + size (s_rhs l h)) ->
  match range_assign nil false l r h with
  | Ok l' => 0 <= s_beg l r /\
             s_splice nil l (s_beg l r) (Z.max 0 (s_end l r - s_beg l r)) (s_rhs l h) l'
  | Err e => s_beg l r < 0 /\ e = ERange
  | Panic => False
  end.
Proof. exact @range_assign_right. Qed.
Example C87_range_assign_ex : range_assign 0 false [1; 2; 3] {| r_start := Some 0; r_end := Some (-2); r_excl := false |} (HArr [9]) = Ok [9; 3]
  /\ range_assign 0 false [1; 2; 3] {| r_start := Some 2; r_end := Some 0; r_excl := false |} (HVal 9) = Ok [1; 2; 9; 3]
  /\ range_assign 0 false [1] {| r_start := Some (-2); r_end := None; r_excl := false |} (HVal 9) = Err ERange.
Proof. repeat split; reflexivity. Qed.
Print Assumptions C87_range_assign_partial.

Theorem C87_range_refuted : exists l r h l', i64o (r_start r) /\ i64o (r_end r) /\ range_assign 0 false l r h = Ok l' /\
  ~ s_splice 0 l (s_beg l r) (Z.max 0 (s_end l r - s_beg l r)) (s_rhs l h) l'.
Proof. exact bad_range. Qed.
Theorem C87_range_conv_refuted : exists l r h l', range_assign 0 false l r h = Ok l' /\
  ~ s_splice 0 l (s_beg l r) (Z.max 0 (s_end l r - s_beg l r)) (s_rhs l h) l'.
Proof. exact bad_range_conv. Qed.
Print Assumptions C87_range_refuted.
Print Assumptions C87_range_conv_refuted.

Theorem C87_pop : forall (V : Type) (l : list V),
  (exists l' r, pop false l None = Ok (l', r) /\
     r = ov (get l (size l - 1)) /\ is l' (fun k => if k <? size l - 1 then get l k else None)) /\
  forall n, (n < 0 -> pop false l (Some n) = Err EArg) /\
  (0 <= n -> exists l' vs, pop false l (Some n) = Ok (l', RA vs) /\
     is l' (fun k => if k <? size l - n then get l k else None) /\
     is vs (fun k => get l (Z.max 0 (size l - n) + k))).
Proof. exact (fun V l => conj (pop_right l) (pop_n_right l)). Qed.
Theorem C87_shift : forall (V : Type) (l : list V),
  (exists l' r, shift false l None = Ok (l', r) /\ r = ov (get l 0) /\ is l' (fun k => get l (k + 1))) /\
  forall n, (n < 0 -> shift false l (Some n) = Err EArg) /\
  (0 <= n -> exists l' vs, shift false l (Some n) = Ok (l', RA vs) /\
     is l' (fun k => get l (k + n)) /\ is vs (fun k => if k <? n then get l k else None)).
Proof. exact (fun V l => conj (shift_right l) (shift_n_right l)). Qed.
Theorem C87_append : forall (V : Type) (l vs : list V), fits (size l + size vs) ->
  unshift false l vs = Ok (vs ++ l) /\ append false l vs = Ok (l ++ vs) /\ (fits (size vs) -> replace false l vs = Ok vs).
Proof. exact (fun V l vs F => conj (unshift_right l vs F) (conj (append_right l vs F) (replace_right l vs))). Qed.
Example C87_ends_ex : pop false [1; 2; 3] (Some 2) = Ok ([1], RA [2; 3]) /\ shift false [1; 2; 3] None = Ok ([2; 3], RV 1)
  /\ unshift false [1] [8; 9] = Ok [8; 9; 1] /\ pop false (@List.nil Z) None = Ok ([], RNil).
Proof. repeat split; reflexivity. Qed.
Print Assumptions C87_pop.
Print Assumptions C87_shift.
Print Assumptions C87_append.

Theorem C87_insert : forall (V : Type) (nil : V) l i vs, vs <> [] -> fits (size l + size vs) -> fits (gap l i + size vs) ->
  match insert nil false l i vs with
  | Ok l' => 0 <= gap l i /\ s_splice nil l (gap l i) 0 vs l'
  | Err e => gap l i < 0 /\ e = EIndex
  | Panic => False
  end.
Proof. exact @insert_right. Qed.
Example C87_insert_ex : insert 0 false [1; 2; 3] (-2) [9] = Ok [1; 2; 9; 3] /\ insert 0 false [1] 3 [8; 9] = Ok [1; 0; 0; 8; 9]
  /\ insert 0 false [1] (-3) [9] = Err EIndex.
Proof. repeat split; reflexivity. Qed.
Print Assumptions C87_insert.

Theorem C87_delete_at : forall (V : Type) (l : list V) i, exists l' r, delete_at false l i = Ok (l', r) /\
  match s_at l i with
  | Some v => r = RV v /\ s_cut l (norm l i) (norm l i + 1) l'
  | None => r = RNil /\ l' = l
  end.
Proof. exact @delete_at_right. Qed.
Theorem C87_slice_bang : forall (V : Type) (l : list V) i,
  (exists l' r, slice_bang1 false l i = Ok (l', r) /\
   match s_at l i with
   | Some v => r = RV v /\ s_cut l (norm l i) (norm l i + 1) l'
   | None => r = RNil /\ l' = l
   end) /\
  forall n, exists l' r, slice_bang2 false l i n = Ok (l', r) /\ s_take_out l (norm l i) n l' r.
Proof. exact (fun V l i => conj (slice_bang1_right l i) (slice_bang2_right l i)). Qed.
(** Missing: ranges that start past the end (refuted). *)
Theorem C87_slice_bang_range_partial : forall (V : Type) (l : list V) r,
  s_beg l r <= size l -> exists l' x, slice_bang_range false l r = Ok (l', x) /\
  s_take_out l (s_beg l r) (Z.max 0 (s_end l r - s_beg l r)) l' x.
Proof. exact @slice_bang_range_right. Qed.
Example C87_slice_bang_ex : slice_bang2 false [1; 2; 3; 4] 1 2 = Ok ([1; 4], RA [2; 3]) /\ delete_at false [1; 2; 3] (-1) = Ok ([1; 2], RV 3)
  /\ slice_bang_range false [1; 2; 3] {| r_start := Some 1; r_end := None; r_excl := false |} = Ok ([1], RA [2; 3])
  /\ slice_bang2 false [1; 2] 3 1 = Ok ([1; 2], RNil).
Proof. repeat split; reflexivity. Qed.
Print Assumptions C87_delete_at.
Print Assumptions C87_slice_bang.
Print Assumptions C87_slice_bang_range_partial.

Theorem C87_slice_bang_refuted : exists (l : list Z) r l' x, slice_bang_range false l r = Ok (l', x) /\
  ~ s_take_out l (s_beg l r) (Z.max 0 (s_end l r - s_beg l r)) l' x.
Proof. exact bad_slice_bang. Qed.
Print Assumptions C87_slice_bang_refuted.

(** Missing: ends past 2^30, where monoruby raises; a length of 0 or less
    leaves the array alone. *)
Theorem C87_fill_partial : forall (V : Type) (nil : V) l v i,
  (forall n, size l <= CAPA_MAX -> 0 < n -> Z.max 0 (norm l i) + n <= FILL_MAX ->
   exists l', fill_len nil false l v i n = Ok l' /\
   s_fill nil l (Z.max 0 (norm l i)) (Z.max 0 (norm l i) + n) v l') /\
  (forall n, n <= 0 -> fill_len nil false l v i n = Ok l) /\
  (exists l', fill_from false l v i = Ok l' /\
   is l' (fun k => if (Z.max 0 (norm l i) <=? k) && (k <? size l) then Some v else get l k)).
Proof. exact (fun V nil l v i => conj (fill_len_right nil l v i) (conj (fill_none nil l v i) (fill_from_right l v i))). Qed.
Theorem C87_fill_range_partial : forall (V : Type) (nil : V) l v r, size l <= CAPA_MAX -> i64o (r_end r) ->
  ~ (r_end r = Some (2 ^ 63 - 1) /\ r_excl r = false) ->
  Z.max (s_beg l r) (s_end l r) <= FILL_MAX ->
  match fill_range nil false l v r with
  | Ok l' => 0 <= s_beg l r /\
             s_fill nil l (s_beg l r) (if s_end l r <? s_beg l r then s_beg l r else s_end l r) v l'
  | Err e => s_beg l r < 0 /\ e = ERange
  | Panic => False
  end.
Proof. exact @fill_range_right. Qed.
Example C87_fill_ex : fill_len 0 false [1; 2; 3] 9 (-2) 4 = Ok [1; 9; 9; 9; 9] /\ fill_len 0 false [1] 9 3 1 = Ok [1; 0; 0; 9]
  /\ fill_range 0 false [1; 2; 3] 9 {| r_start := Some 1; r_end := Some (-1); r_excl := true |} = Ok [1; 9; 3]
  /\ fill_from false [1; 2; 3] 9 1 = Ok [1; 9; 9].
Proof. repeat split; reflexivity. Qed.
Print Assumptions C87_fill_partial.
Print Assumptions C87_fill_range_partial.

Theorem C87_fill_refuted : exists l r, i64o (r_end r) /\ size l < s_end l r /\ fill_range 0 false l 9 r = Ok l.
Proof. exact bad_fill. Qed.
Print Assumptions C87_fill_refuted.

Theorem C87_delete : forall (V : Type) (eq : V -> bool) l,
  delete false eq l = Ok (filter (fun v => negb (eq v)) l, ov (last_such eq l)).
Proof. exact @delete_right. Qed.
Theorem C87_compact : forall (V : Type) (p : V -> bool) l,
  compact p l = Ok (filter (fun v => negb (p v)) l) /\
  compact_bang false p l = Ok (filter (fun v => negb (p v)) l, if existsb p l then RSelf else RNil).
Proof. exact (fun V p l => conj (compact_right p l) (compact_bang_right p l)). Qed.
Example C87_delete_ex : delete false (fun v => v mod 10 =? 2) [1; 2; 3; 12; 4] = Ok ([1; 3; 4], RV 12)
  /\ delete false (fun v => v =? 9) [1; 2] = Ok ([1; 2], RNil) /\ compact_bang false (fun v => v =? 0) [1; 0; 2] = Ok ([1; 2], RSelf).
Proof. repeat split; reflexivity. Qed.
Print Assumptions C87_delete.
Print Assumptions C87_compact.

Theorem C87_frozen : forall (V : Type) (nil : V) l i n v h r vs lv eq,
  index_assign nil true l i v = Err EFrozen /\ range_assign nil true l r h = Err EFrozen /\
  slice_assign nil true l i n h = Err EFrozen /\ (forall m, pop true l m = Err EFrozen) /\
  (forall m, shift true l m = Err EFrozen) /\ unshift true l vs = Err EFrozen /\
  append true l vs = Err EFrozen /\ replace true l vs = Err EFrozen /\ insert nil true l i vs = Err EFrozen /\
  delete_at true l i = Err EFrozen /\ slice_bang1 true l i = Err EFrozen /\ slice_bang2 true l i n = Err EFrozen /\
  slice_bang_range true l r = Err EFrozen /\ fill_len nil true l v i n = Err EFrozen /\
  fill_from true l v i = Err EFrozen /\ fill_range nil true l v r = Err EFrozen /\
  rotate_bang true l lv = Err EFrozen /\ compact_bang true eq l = Err EFrozen /\
  (existsb eq l = true -> delete true eq l = Err EFrozen).
Proof. exact all_writes_frozen. Qed.
Example C87_frozen_ex : delete true (fun v => v =? 1) [1; 2] = Err EFrozen /\ delete true (fun v => v =? 9) [1; 2] = Ok ([1; 2], RNil).
Proof. split; reflexivity. Qed.
Print Assumptions C87_frozen.

(** ** C88: walking while the block changes the array *)

Theorem C88_each_safe : forall (S V : Type) (cb : S -> list V -> V -> S * list V * ans) n s l i log,
  0 <= i -> each_loop cb n s l i log <> Panics.
Proof. exact @each_safe. Qed.
Theorem C88_each_same : forall (S V : Type) (cb : S -> list V -> V -> S * list V * ans), keeps_array cb -> forall s l,
  match each_loop cb (Datatypes.S (length l)) s l 0 [] with
  | Fin (_, l1, log) => l1 = l /\ log = l
  | Raised (_, l1, log) => l1 = l /\ exists v r1 r2, l = r1 ++ v :: r2 /\ log = r1 ++ [v]
  | _ => False
  end.
Proof. exact @each_same. Qed.
(** Elements appended by the block are visited too. *)
Theorem C88_each_append : forall (S V : Type) (cb : S -> list V -> V -> S * list V * ans), only_appends cb ->
  forall n s done rest s1 l1 log,
  each_loop cb n s (done ++ rest) (size done) done = Fin (s1, l1, log) ->
  log = l1 /\ exists t, l1 = (done ++ rest) ++ t.
Proof. exact @each_append. Qed.
Theorem C88_each_ends : forall (S V : Type) (cb : S -> list V -> V -> S * list V * ans), never_lengthens cb ->
  forall n s l i log, 0 <= i -> (length l < n + Z.to_nat i)%nat -> (0 < n)%nat -> each_loop cb n s l i log <> Fuel.
Proof. exact @each_ends. Qed.
Theorem C88_index : forall (V : Type) (p : V -> bool) rest done n, (length rest < n)%nat ->
  index_loop (fun (s : unit) l v => (s, l, if p v then Yes else No)) n tt (done ++ rest) (size done)
  = Fin (tt, done ++ rest, match find_pos p rest with Some k => Some (size done + k) | None => None end).
Proof. exact @index_same. Qed.
Example C88_each_ex : each_loop cb_grow 9 0%nat [1; 2] 0 [] = Fin (1%nat, [1; 2; 7], [1; 2; 7])
  /\ each_loop cb_clear 9 tt [1; 2; 3] 0 [] = Fin (tt, [], [1; 2]).
Proof. split; reflexivity. Qed.
Print Assumptions C88_each_safe.
Print Assumptions C88_each_same.
Print Assumptions C88_each_append.
Print Assumptions C88_each_ends.
Print Assumptions C88_index.

(** delete_if, reject!, keep_if, select!: missing blocks that change the array
    (for those that do not shorten it, no panic). *)
Theorem C88_retain_partial : forall (S V : Type) (cb : S -> list V -> V -> S * list V * ans), keeps_array cb ->
  forall negate l s,
  let '(s1, l1, e) := s_retain cb negate l l s [] in
  match retain_block cb (Datatypes.S (length l)) negate s l 0 0 with
  | Fin (s2, l2, b) => e = Done /\ s2 = s1 /\ l2 = l1 /\ b = (length l1 <? length l)%nat
  | Raised (s2, l2, _) => e = Stopped /\ s2 = s1 /\ l2 = l1
  | _ => False
  end.
Proof. exact @retain_same. Qed.
Theorem C88_retain_safe_partial : forall (S V : Type) (cb : S -> list V -> V -> S * list V * ans), never_shortens cb ->
  forall n negate s l i del, 0 <= del <= i -> retain_block cb n negate s l i del <> Panics.
Proof. exact @retain_safe. Qed.
Definition cb_raise (s : Z) (l : list Z) (v : Z) : Z * list Z * ans :=
  (s + 1, l, if v =? 4 then Raise else if Z.even v then Yes else No).
Example C88_retain_ex : retain_block cb_raise 9 true 0 [1; 2; 3; 4; 5] 0 0 = Raised (4, [1; 3; 4; 5], true)
  /\ retain_block cb_raise 9 false 0 [1; 2; 3; 6] 0 0 = Fin (4, [2; 6], true).
Proof. split; reflexivity. Qed.
Print Assumptions C88_retain_partial.
Print Assumptions C88_retain_safe_partial.

Theorem C88_retain_refuted : retain_block cb_clear 9 true tt [1; 2; 3] 0 0 = Panics.
Proof. exact bad_retain. Qed.
Theorem C88_retain_value_refuted : retain_block cb_set 9 true tt [1; 2; 3] 0 0 = Fin (tt, [9; 3], true).
Proof. exact bad_retain_value. Qed.
Print Assumptions C88_retain_refuted.
Print Assumptions C88_retain_value_refuted.

(** fill with a block: missing blocks that shorten the array. *)
Theorem C88_fill_safe_partial : forall (S V : Type) (fcb : S -> list V -> Z -> S * list V * option V),
  (forall s l i s1 l1 o, fcb s l i = (s1, l1, o) -> (length l <= length l1)%nat) ->
  forall n s l i, 0 <= i -> i + Z.of_nat n <= size l -> fill_block fcb n s l i <> Panics.
Proof. exact @fill_block_safe. Qed.
Theorem C88_fill_same : forall (S V : Type) (fcb : S -> list V -> Z -> S * list V * option V) (f : Z -> V),
  (forall s l i, fcb s l i = (s, l, Some (f i))) ->
  forall n s l i, 0 <= i -> i + Z.of_nat n <= size l ->
  exists l', fill_block fcb n s l i = Fin (s, l') /\ size l' = size l /\
  is l' (fun k => if (i <=? k) && (k <? i + Z.of_nat n) then Some (f k) else get l k).
Proof. exact @fill_block_same. Qed.
Example C88_fill_ex : fill_block (fun (s : unit) l i => (s, l, Some (i * i))) 2 tt [7; 7; 7; 7] 2 = Fin (tt, [7; 7; 4; 9]).
Proof. reflexivity. Qed.
Theorem C88_fill_refuted : fill_block cb_fill 2 tt [1; 2] 0 = Panics.
Proof. exact bad_fill_block. Qed.
Print Assumptions C88_fill_safe_partial.
Print Assumptions C88_fill_same.
Print Assumptions C88_fill_refuted.

(** product with a block: missing blocks that shorten one of the arrays. *)
Theorem C88_product_safe_partial : forall (S V : Type) (pcb : S -> list (list V) -> list V -> S * list (list V) * bool),
  no_list_shortens pcb -> forall s ls, product_block pcb s ls <> Panics.
Proof. exact @product_block_safe. Qed.
Example C88_product_ex : product_block (fun s ls row => (s ++ [row], ls, false)) [] [[1; 2]; [3]] = Fin ([[1; 3]; [2; 3]], [[1; 2]; [3]]).
Proof. reflexivity. Qed.
Theorem C88_product_refuted : product_block cb_prod tt [[1; 2]; [3; 4]] = Panics.
Proof. exact bad_product_block. Qed.
Print Assumptions C88_product_safe_partial.
Print Assumptions C88_product_refuted.

(** zip with a block, min, max, minmax, inject(sym): missing callbacks that
    move or shorten the array. *)
Theorem C88_held_safe_partial : forall (S V : Type) (hcb : S -> @hary V -> V -> S * @hary V * bool), stays_put hcb ->
  forall s a start, held hcb s a start <> HUnsafe.
Proof. exact @held_safe. Qed.
Theorem C88_held_same : forall (S V : Type) (hcb : S -> @hary V -> V -> S * @hary V * bool), hkeeps hcb ->
  forall s a start, (start <= length (h_cont a))%nat ->
  match held hcb s a start with
  | HFin (_, a1, log) => a1 = a /\ log = skipn start (h_cont a)
  | HRaised (_, a1, log) => a1 = a /\ exists v r1 r2, skipn start (h_cont a) = r1 ++ v :: r2 /\ log = r1 ++ [v]
  | HUnsafe => False
  end.
Proof. exact @held_same. Qed.
Example C88_held_ex : held (fun s a v => (s + v, a, v =? 3)) 0 {| h_id := 0; h_cont := [1; 2; 3; 4] |} 1
  = HRaised (5, {| h_id := 0; h_cont := [1; 2; 3; 4] |}, [2; 3]).
Proof. reflexivity. Qed.
Theorem C88_held_moved_refuted : held cb_push tt {| h_id := 0; h_cont := [1; 2; 3; 4; 5] |} 0 = HUnsafe.
Proof. exact bad_held_moved. Qed.
Theorem C88_held_cleared_refuted : held cb_hclear tt {| h_id := 0; h_cont := [1; 2] |} 0 = HUnsafe.
Proof. exact bad_held_cleared. Qed.
Theorem C88_held_grown_refuted : held cb_hgrow 0%nat {| h_id := 0; h_cont := [1; 2] |} 0
    = HFin (1%nat, {| h_id := 0; h_cont := [1; 2; 7] |}, [1; 2]) /\
  each_loop cb_grow 9 0%nat [1; 2] 0 [] = Fin (1%nat, [1; 2; 7], [1; 2; 7]).
Proof. exact bad_held_grown. Qed.
Print Assumptions C88_held_safe_partial.
Print Assumptions C88_held_same.
Print Assumptions C88_held_moved_refuted.
Print Assumptions C88_held_cleared_refuted.
Print Assumptions C88_held_grown_refuted.

(** ** C89: compiled code *)

Theorem C89_read : forall (V : Type) (nil : V) r i, real r -> jit_read nil r i = lift nil (s_at (abs r) i).
Proof. exact @read_right. Qed.
Theorem C89_len : forall (V : Type) (r : @rep V), real r -> jit_len r = size (abs r).
Proof. exact @len_right. Qed.
Example C89_read_ex : jit_read 0 r5 (-5) = Some 1 /\ jit_read 0 r5 (-6) = Some 0
  /\ jit_read 0 {| f_capa := 8; f_len := 6; inl := [0; 0; 0; 0; 0]; hp := [1; 2; 3; 4; 5; 6; 98; 99] |} 6 = Some 0.
Proof. repeat split; reflexivity. Qed.
Print Assumptions C89_read.
Print Assumptions C89_len.

(** Missing: frozen arrays, and an index once more below the first (both
    refuted). *)
Theorem C89_store_partial : forall (V : Type) (nil : V) r i v, real r -> ~ (- 2 * size (abs r) <= i < - size (abs r)) ->
  jit_store nil false r i v = Some (index_assign nil false (abs r) i v).
Proof. exact @store_agrees. Qed.
Theorem C89_store_wrong : forall (V : Type) (nil : V) r i v, real r -> - 2 * size (abs r) <= i < - size (abs r) ->
  index_assign nil false (abs r) i v = Err EIndex /\
  jit_store nil false r i v = Some (put (abs r) (i + 2 * size (abs r)) v).
Proof. exact @store_twice. Qed.
Example C89_store_ex : jit_store 0 false r5 (-1) 9 = Some (Ok [1; 2; 3; 4; 9]) /\ jit_store 0 false r5 6 9 = Some (Ok [1; 2; 3; 4; 5; 0; 9])
  /\ jit_store 0 false r5 (-11) 9 = Some (Err EIndex).
Proof. repeat split; reflexivity. Qed.
Print Assumptions C89_store_partial.
Print Assumptions C89_store_wrong.

Theorem C89_frozen_refuted : exists r i v, real r /\ index_assign 0 true (abs r) i v = Err EFrozen /\
  jit_store 0 true r i v = Some (Ok [9; 2; 3; 4; 5]).
Proof. exact bad_jit_frozen. Qed.
Theorem C89_twice_refuted : exists r i v, real r /\ index_assign 0 false (abs r) i v = Err EIndex /\
  jit_store 0 false r i v = Some (Ok [1; 2; 3; 4; 9]).
Proof. exact bad_jit_twice. Qed.
Print Assumptions C89_frozen_refuted.
Print Assumptions C89_twice_refuted.

Theorem C89_shl : forall (V : Type) fz (r : @rep V) v, real r -> size (abs r) + 1 <= CAPA_MAX ->
  jit_shl fz r v = Some (append fz (abs r) [v]).
Proof. exact @shl_agrees. Qed.
Theorem C89_slice : forall (V : Type) (nil : V) fz r start len x, real r -> 0 <= len ->
  match x with SArr q => real q /\ size (abs r) + len <= CAPA_MAX | _ => True end ->
  jit_slice nil fz r start len x = Some (slice_assign nil fz (abs r) start len (src_rhs x)).
Proof. exact @slice_agrees. Qed.
Theorem C89_rotate : forall (V : Type) fz (r : @rep V) i, jit_rotate fz r i = rotate_bang fz (abs r) i.
Proof. exact @rotate_agrees. Qed.
Example C89_shl_ex : jit_shl false {| f_capa := 4; f_len := 0; inl := [1; 2; 3; 4; 77]; hp := [] |} 9 = Some (Ok [1; 2; 3; 4; 9])
  /\ jit_shl true r5 9 = Some (Err EFrozen) /\ jit_shl false r5 9 = Some (Ok [1; 2; 3; 4; 5; 9]).
Proof. repeat split; reflexivity. Qed.
Example C89_slice_ex : jit_slice 0 false r5 1 2 (SArr {| f_capa := 2; f_len := 0; inl := [8; 9; 0; 0; 0]; hp := [] |}) = Some (Ok [1; 8; 9; 4; 5])
  /\ jit_slice 0 false r5 4 2 SSelf = Some (Ok [1; 2; 3; 4; 1; 2; 3; 4; 5]).
Proof. split; reflexivity. Qed.
Print Assumptions C89_shl.
Print Assumptions C89_slice.
Print Assumptions C89_rotate.
