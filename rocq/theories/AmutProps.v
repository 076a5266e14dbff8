(** C140: Array's iterators with blocks that change the Array. *)
From Coq Require Import List Bool Arith.
From Verif Require Import AmutModel AmutSpec AmutProofs.
Import ListNotations.

(** C140. map, with any block that may change the Array, answers what Ruby's does, followed by a nil for each element of the old Array that was not reached. *)
Theorem C140_map : forall (S V R : Type) (nil : V) (pad : R) blk n (s : S) l,
  map_ S V R nil pad blk n s l
  = match ruby_map S V R nil blk n s l with
    | Some (s', l', out) => Some (s', l', out ++ repeat pad (length l - length out))
    | None => None
    end.
Proof. exact (map_ok). Qed.
Example C140_map_example : map_ unit nat nat 0 0 (fun s l v => (s, removelast l, v * 2)) 5 tt [1; 2; 3; 4] = Some (tt, [1; 2], [2; 4; 0; 0]).
Proof. repeat split; reflexivity. Qed.
Print Assumptions C140_map.

(** map is Ruby's if the block does not shorten the Array. Missing: blocks that do (refuted below). *)
Theorem C140_map_partial : forall (S V R : Type) (nil : V) (pad : R) (blk : S -> list V -> V -> S * list V * R) n s l,
  no_shorter_ans blk -> map_ S V R nil pad blk n s l = ruby_map S V R nil blk n s l.
Proof. exact (map_same). Qed.
Example C140_map_partial_example : map_ nat nat nat 0 0 (fun (s : nat) l v => (s + v, if length l <? 5 then l ++ [v + 7] else l, v * 2)) 9 0 [1; 2; 3] = Some (23, [1; 2; 3; 8; 9], [2; 4; 6; 16; 18]).
Proof. repeat split; reflexivity. Qed.
Print Assumptions C140_map_partial.

(** False: map with a block that pops leaves nils at the end of the answer. Ruby does not. *)
Theorem C140_map_shrink_refuted : ~ (forall (S V R : Type) (nil : V) (pad : R) blk n (s : S) l,
  map_ S V R nil pad blk n s l = ruby_map S V R nil blk n s l).
Proof. exact (map_shrink_bad). Qed.
Example C140_map_shrink_example : ruby_map unit nat nat 0 (fun s l v => (s, removelast l, v * 2)) 5 tt [1; 2; 3; 4] = Some (tt, [1; 2], [2; 4]).
Proof. repeat split; reflexivity. Qed.
Print Assumptions C140_map_shrink_refuted.

(** reverse_each gives the block Ruby's elements if it does not shorten the Array. Missing: blocks that do (refuted below). *)
Theorem C140_reverse_each_partial : forall (S V : Type) (nil : V) (blk : S -> list V -> V -> S * list V) s l,
  no_shorter blk -> reverse_each S V nil blk s l = ruby_reverse_each S V nil blk s l.
Proof. exact (reverse_each_ok). Qed.
Example C140_reverse_each_example : reverse_each nat nat 0 (fun s l v => (s + v, l ++ [9])) 0 [1; 2; 3] = (6, [1; 2; 3; 9; 9; 9], [3; 2; 1]) /\ reverse_each nat nat 0 (fun s l v => (s + v, 5 :: l)) 0 [1; 2; 3] = (9, [5; 5; 5; 1; 2; 3], [3; 1; 5]).
Proof. repeat split; reflexivity. Qed.
Print Assumptions C140_reverse_each_partial.

(** False: reverse_each gives nil to the block for each element that the block took away. Ruby goes on at the end of what is left. *)
Theorem C140_reverse_each_shrink_refuted : ~ (forall (S V : Type) (nil : V) blk (s : S) l,
  reverse_each S V nil blk s l = ruby_reverse_each S V nil blk s l).
Proof. exact (reverse_shrink_bad). Qed.
Example C140_reverse_each_shrink_example : reverse_each nat nat 0 (fun s l v => (s + 1, [])) 0 [1; 2; 3] = (3, [], [3; 0; 0]) /\ ruby_reverse_each nat nat 0 (fun s l v => (s + 1, [])) 0 [1; 2; 3] = (1, [], [3]).
Proof. repeat split; reflexivity. Qed.
Print Assumptions C140_reverse_each_shrink_refuted.

(** rindex with any block, which may change the Array, ends and is Ruby's. *)
Theorem C140_rindex : forall (S V : Type) (nil : V) blk n (s : S) l, 2 * length l + 2 <= n ->
  rindex S V nil blk n s l = Some (ruby_rindex S V nil blk s l).
Proof. exact (rindex_ok). Qed.
Example C140_rindex_example : rindex nat nat 0 (fun s l v => (s + 1, removelast (removelast l), v <? 3)) 14 0 [1; 2; 3; 4; 5; 6] = Some (3, [], Some 1).
Proof. repeat split; reflexivity. Qed.
Print Assumptions C140_rindex.

(** drop_while is Ruby's if the block does not shorten the Array. Missing: blocks that do (refuted below). *)
Theorem C140_drop_while_partial : forall (S V : Type) (nil : V) (blk : S -> list V -> V -> S * list V * bool) n s l,
  no_shorter_ans blk ->
  drop_while S V nil blk n s l
  = match ruby_drop_while S V nil blk n s l with Some (s', l', r) => Some (s', l', Some r) | None => None end.
Proof. exact (drop_while_ok). Qed.
Example C140_drop_while_example : drop_while nat nat 0 (fun s l v => (s + 1, l ++ [v], v <? 3)) 9 0 [1; 2; 3; 4] = Some (3, [1; 2; 3; 4; 1; 2; 3], Some [3; 4; 1; 2; 3]).
Proof. repeat split; reflexivity. Qed.
Print Assumptions C140_drop_while_partial.

(** drop_while with any block goes Ruby's rounds and answers what Ruby does, or nil where Ruby's answer is empty. *)
Theorem C140_drop_while_any : forall (S V : Type) (nil : V) (blk : S -> list V -> V -> S * list V * bool) n s l,
  match drop_while S V nil blk n s l, ruby_drop_while S V nil blk n s l with
  | Some (s1, l1, o), Some (s2, l2, r) => s1 = s2 /\ l1 = l2 /\ (o = Some r \/ (o = None /\ r = []))
  | None, None => True
  | _, _ => False
  end.
Proof. exact (drop_while_any). Qed.
Example C140_drop_while_any_example : drop_while unit nat 0 (fun s l v => (s, removelast l, v <? 2)) 5 tt [1; 2; 3; 4] = Some (tt, [1; 2], Some [2]).
Proof. repeat split; reflexivity. Qed.
Print Assumptions C140_drop_while_any.

(** reverse_each gives as many elements to the block as there were at first, whatever the block does. *)
Theorem C140_reverse_each_count : forall (S V : Type) (nil : V) blk (s : S) l, length (snd (reverse_each S V nil blk s l)) = length l.
Proof. exact (reverse_each_count). Qed.
Example C140_reverse_each_count_example : length (snd (reverse_each nat nat 0 (fun s l v => (s, removelast l)) 0 [1; 2; 3])) = 3.
Proof. repeat split; reflexivity. Qed.
Print Assumptions C140_reverse_each_count.

(** False: drop_while answers nil if the block clears the Array after the first round. Ruby answers an empty Array. *)
Theorem C140_drop_while_shrink_refuted : ~ (forall (S V : Type) (nil : V) blk n (s : S) l r,
  drop_while S V nil blk n s l = Some r -> snd r <> None).
Proof. exact (drop_shrink_bad). Qed.
Example C140_drop_while_shrink_example : drop_while unit nat 0 (fun s l v => (s, if v =? 2 then [] else l, v <? 2)) 5 tt [1; 2; 3] = Some (tt, [], None) /\ ruby_drop_while unit nat 0 (fun s l v => (s, if v =? 2 then [] else l, v <? 2)) 5 tt [1; 2; 3] = Some (tt, [], []).
Proof. repeat split; reflexivity. Qed.
Print Assumptions C140_drop_while_shrink_refuted.
