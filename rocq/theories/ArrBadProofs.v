(** Programs on which the Array methods do something else. *)
From Coq Require Import ZArith List Bool Lia.
From Verif Require Import ArrModel ArrSpec ArrProofs ArrProofs2 ArrIterModel ArrIterProofs ArrJitModel ArrJitProofs.
Import ListNotations.
Open Scope Z_scope.

Lemma all_writes_frozen : forall (V : Type) (nil : V) l i n v h r vs lv eq,
  index_assign nil true l i v = Err EFrozen /\ range_assign nil true l r h = Err EFrozen /\
  slice_assign nil true l i n h = Err EFrozen /\ (forall m, pop true l m = Err EFrozen) /\
  (forall m, shift true l m = Err EFrozen) /\ unshift true l vs = Err EFrozen /\
  append true l vs = Err EFrozen /\ replace true l vs = Err EFrozen /\ insert nil true l i vs = Err EFrozen /\
  delete_at true l i = Err EFrozen /\ slice_bang1 true l i = Err EFrozen /\ slice_bang2 true l i n = Err EFrozen /\
  slice_bang_range true l r = Err EFrozen /\ fill_len nil true l v i n = Err EFrozen /\
  fill_from true l v i = Err EFrozen /\ fill_range nil true l v r = Err EFrozen /\
  rotate_bang true l lv = Err EFrozen /\ compact_bang true eq l = Err EFrozen /\
  (existsb eq l = true -> delete true eq l = Err EFrozen).
Proof.
  intros. repeat (split; [reflexivity|]). intros H. unfold delete. rewrite H. reflexivity.
Qed.

(** [a = []; a[2**62 - 1] = 1] : Ruby raises IndexError. *)
Lemma bad_huge : exists i, i64 i /\ 0 <= norm (@List.nil Z) i /\ set_index 0 [] i 1 = Panic.
Proof. exists (2 ^ 62 - 1). split; [unfold i64; lia|]. split; [cbn; lia | vm_compute; reflexivity]. Qed.
(** [[1] * 2**61] : Ruby raises ArgumentError. *)
Lemma bad_mul : exists n, i64 n /\ mul [1] n = Panic.
Proof. exists (2 ^ 61). split; [unfold i64; lia | vm_compute; reflexivity]. Qed.
(** [[[], [1]].transpose] : Ruby raises IndexError. *)
Lemma bad_transpose : exists rows r0 rest, rows = r0 :: rest /\ (exists r, In r rows /\ length r <> length r0) /\
  transpose rows = Ok (@List.nil (list Z)).
Proof. exists [[]; [1]], [], [[1]]. split; [reflexivity|]. split; [|reflexivity]. exists [1]. split; [right; left; reflexivity | discriminate]. Qed.
(** 1001 x 1000 combinations are refused. *)
Lemma bad_product : exists (l : list Z) ls, Z.of_nat (length (cart (l :: ls))) = 1001000 /\ product l ls = Err ERange.
Proof.
  exists (repeat 0 (Z.to_nat 1001)), [repeat 0 (Z.to_nat 1000)]. split.
  - rewrite cart_len. cbn [fold_right]. rewrite !size_repeat. rewrite !Z2Nat.id by lia. reflexivity.
  - unfold product. cbn [product_total]. change (@zlen Z) with (@size Z). rewrite !size_repeat. rewrite !Z2Nat.id by lia. reflexivity.
Qed.
(** So are products with no element at all. *)
Lemma bad_product_empty : exists (l : list Z) ls, cart (l :: ls) = [] /\ product l ls = Err ERange.
Proof.
  exists (repeat 0 (Z.to_nat 1001)), [repeat 0 (Z.to_nat 1000); []]. split.
  - apply cart_empty. cbn [existsb]. rewrite !orb_true_r. reflexivity.
  - unfold product. cbn [product_total]. change (@zlen Z) with (@size Z). rewrite !size_repeat. rewrite !Z2Nat.id by lia. reflexivity.
Qed.
(** [a = [1]; a << a; a.flatten(1)] : Ruby answers [[1, 1, a]]. *)
Definition h_self : aheap := fun _ => [Leaf 1; Ref 0].
Lemma bad_flatten : exists h a lv xs, flat h (level lv) a xs /\ forall n, (1 < n)%nat ->
  flatten n h a lv = Some (Err EArg).
Proof.
  exists h_self, 0%nat, (Some 1), [Leaf 1; Leaf 1; Ref 0]. split.
  - constructor. cbn [level Z.leb Z.compare Z.to_nat Pos.to_nat Pos.iter_op h_self]. constructor.
    change [Leaf 1; Ref 0] with ([Leaf 1; Ref 0] ++ []). apply flats_lv; [|constructor].
    constructor. unfold h_self. constructor. constructor. constructor.
  - intros n Hn. destruct n as [|[|n]]; [lia | lia | reflexivity].
Qed.
(** [a = [1, 2]; a[0..2**63-1] = [9]] inserts. *)
Definition r_all : rng := {| r_start := Some 0; r_end := Some (2 ^ 63 - 1); r_excl := false |}.
Lemma bad_range : exists l r h l', i64o (r_start r) /\ i64o (r_end r) /\ range_assign 0 false l r h = Ok l' /\
  ~ s_splice 0 l (s_beg l r) (Z.max 0 (s_end l r - s_beg l r)) (s_rhs l h) l'.
Proof.
  exists [1; 2], r_all, (HArr [9]), [9; 1; 2]. split; [cbn [r_all r_start i64o]; unfold i64; lia|]. split; [cbn [r_all r_end i64o]; unfold i64; lia|].
  split; [vm_compute; reflexivity|]. intros H. specialize (H 1 ltac:(lia)).
  change (get [9; 1; 2] 1) with (Some 1) in H. cbn beta in H.
  change (s_beg [1; 2] r_all) with 0 in H. change (size (s_rhs [1; 2] (HArr [9]))) with 1 in H.
  change (1 <? 0) with false in H. change (1 <? 0 + 1) with false in H. cbv iota in H.
  rewrite get_out in H; [discriminate|]. change (s_end [1; 2] r_all) with (2 ^ 63). change (size [1; 2]) with 2. lia.
Qed.
(** The range form never asks for [to_ary]. *)
Definition r_0_0 : rng := {| r_start := Some 0; r_end := Some 0; r_excl := false |}.
Lemma bad_range_conv : exists l r h l', range_assign 0 false l r h = Ok l' /\
  ~ s_splice 0 l (s_beg l r) (Z.max 0 (s_end l r - s_beg l r)) (s_rhs l h) l'.
Proof.
  exists [1; 2], r_0_0, (HConv 7 (Some [8; 9])), [7; 2]. split; [reflexivity|]. intros H. specialize (H 0 ltac:(lia)). vm_compute in H. discriminate.
Qed.
(** [a[0, 1] = x] with [x.to_ary] nil stores nil and not [x]. *)
Lemma bad_conv_nil : exists l i n h l', slice_assign 0 false l i n h = Ok l' /\
  ~ s_splice 0 l (norm l i) n (s_rhs l h) l'.
Proof.
  exists [1; 2], 0, 1, (HConv 7 None), [0; 2]. split; [reflexivity|]. intros H. specialize (H 0 ltac:(lia)). vm_compute in H. discriminate.
Qed.
(** [[1].slice!(5..)] answers [[]] and not nil. *)
Definition r_5 : rng := {| r_start := Some 5; r_end := None; r_excl := false |}.
Lemma bad_slice_bang : exists (l : list Z) r l' x, slice_bang_range false l r = Ok (l', x) /\
  ~ s_take_out l (s_beg l r) (Z.max 0 (s_end l r - s_beg l r)) l' x.
Proof.
  exists [1], r_5, [1], (RA []). split; [reflexivity|]. intros [H _]. vm_compute in H. discriminate.
Qed.
(** [[1, 2].fill(9, 0..2**63-1)] fills nothing; Ruby raises ArgumentError. *)
Lemma bad_fill : exists l r, i64o (r_end r) /\ size l < s_end l r /\ fill_range 0 false l 9 r = Ok l.
Proof. exists [1; 2], r_all. split; [cbn [r_all r_end i64o]; unfold i64; lia|]. split; vm_compute; reflexivity. Qed.

(** [a.delete_if { |x| a.clear if x == 2; x == 1 }] on [[1, 2, 3]] *)
Definition cb_clear (s : unit) (l : list Z) (v : Z) : unit * list Z * ans :=
  (s, if v =? 2 then [] else l, if v =? 1 then Yes else No).
Lemma bad_retain : retain_block cb_clear 9 true tt [1; 2; 3] 0 0 = Panics.
Proof. reflexivity. Qed.
(** [a.delete_if { |x| a[1] = 9 if x == 2; x == 1 }]: Ruby keeps the 2 it gave
    to the block. *)
Definition cb_set (s : unit) (l : list Z) (v : Z) : unit * list Z * ans :=
  (s, if v =? 2 then match put l 1 9 with Ok l1 => l1 | _ => l end else l, if v =? 1 then Yes else No).
Lemma bad_retain_value : retain_block cb_set 9 true tt [1; 2; 3] 0 0 = Fin (tt, [9; 3], true).
Proof. reflexivity. Qed.
(** [a.fill { a.clear; 0 }] on [[1, 2]] *)
Definition cb_fill (s : unit) (l : list Z) (i : Z) : unit * list Z * option Z := (s, [], Some 0).
Lemma bad_fill_block : fill_block cb_fill 2 tt [1; 2] 0 = Panics.
Proof. reflexivity. Qed.
(** [a.product([3, 4]) { a.clear }] *)
Definition cb_prod (s : unit) (ls : list (list Z)) (row : list Z) : unit * list (list Z) * bool :=
  (s, match ls with _ :: r => [] :: r | [] => [] end, false).
Lemma bad_product_block : product_block cb_prod tt [[1; 2]; [3; 4]] = Panics.
Proof. reflexivity. Qed.

(** [push] on an array whose elements are in the object: the sixth moves. *)
Definition h_push (a : @hary Z) (v : Z) : @hary Z :=
  {| h_id := if Nat.ltb (length (h_cont a)) 5 then h_id a else S (h_id a); h_cont := h_cont a ++ [v] |}.
Definition cb_push (s : unit) (a : @hary Z) (v : Z) : unit * @hary Z * bool := (s, h_push a 0, false).
Lemma bad_held_moved : held cb_push tt {| h_id := 0; h_cont := [1; 2; 3; 4; 5] |} 0 = HUnsafe.
Proof. reflexivity. Qed.
Definition cb_hclear (s : unit) (a : @hary Z) (v : Z) : unit * @hary Z * bool :=
  (s, {| h_id := h_id a; h_cont := [] |}, false).
Lemma bad_held_cleared : held cb_hclear tt {| h_id := 0; h_cont := [1; 2] |} 0 = HUnsafe.
Proof. reflexivity. Qed.
(** Elements appended in place are not visited; the loops that re-read the
    length visit them. *)
Definition cb_hgrow (s : nat) (a : @hary Z) (v : Z) : nat * @hary Z * bool :=
  match s with O => (1%nat, h_push a 7, false) | _ => (s, a, false) end.
Definition cb_grow (s : nat) (l : list Z) (v : Z) : nat * list Z * ans :=
  match s with O => (1%nat, l ++ [7], Yes) | _ => (s, l, Yes) end.
Lemma bad_held_grown : held cb_hgrow 0%nat {| h_id := 0; h_cont := [1; 2] |} 0
    = HFin (1%nat, {| h_id := 0; h_cont := [1; 2; 7] |}, [1; 2]) /\
  each_loop cb_grow 9 0%nat [1; 2] 0 [] = Fin (1%nat, [1; 2; 7], [1; 2; 7]).
Proof. split; reflexivity. Qed.

(** Compiled [a[0] = 9] on a frozen array, and [a[-6] = 9] on five
    elements. *)
Definition r5 : @rep Z := {| f_capa := 5; f_len := 0; inl := [1; 2; 3; 4; 5]; hp := [] |}.
Lemma r5_real : real r5.
Proof. unfold real, r5, INLINE, size. cbn. repeat split; try lia; intros; lia. Qed.
Lemma bad_jit_frozen : exists r i v, real r /\ index_assign 0 true (abs r) i v = Err EFrozen /\
  jit_store 0 true r i v = Some (Ok [9; 2; 3; 4; 5]).
Proof. exists r5, 0, 9. split; [exact r5_real|]. split; reflexivity. Qed.
Lemma bad_jit_twice : exists r i v, real r /\ index_assign 0 false (abs r) i v = Err EIndex /\
  jit_store 0 false r i v = Some (Ok [1; 2; 3; 4; 9]).
Proof. exists r5, (-6), 9. split; [exact r5_real|]. split; reflexivity. Qed.
