(** C139: blocks given to the methods of Hash. *)
From Coq Require Import ZArith List Bool.
From Verif Require Import StructModel DataModel HrbModel HrbSpec HitModel HitSpec HitProofs.
Import ListNotations.
Local Open Scope Z_scope.

(** C139. any? with a block of one or two parameters asks whether it holds for a pair. *)
Theorem C139_any : forall b h, any_block b h = true <-> exists e, In e h /\ holds b e.
Proof. exact (any_ok). Qed.
Example C139_any_example : any_block (Two (fun _ v => is_nil v)) [(1, VInt 6); (2, VInt 5); (3, VNil)] = true /\ any_block (One (fun a => match a with Whole _ v => is_nil v | Only _ => false end)) [(1, VInt 6); (2, VInt 5); (3, VNil)] = true /\ any_block (Two (fun k _ => k =? 4)) [(1, VInt 6); (2, VInt 5); (3, VNil)] = false.
Proof. repeat split; reflexivity. Qed.
Print Assumptions C139_any.

(** all? with such a block asks whether it holds for every pair. *)
Theorem C139_all : forall b h, all_block b h = true <-> forall e, In e h -> holds b e.
Proof. exact (all_ok). Qed.
Example C139_all_example : all_block (Two (fun _ v => is_nil v)) [(1, VInt 6); (2, VInt 5); (3, VNil)] = false /\ all_block (One (fun a => match a with Whole _ v => is_nil v | Only _ => false end)) [(3, VNil)] = true /\ all_block (Two (fun _ v => is_nil v)) [] = true.
Proof. repeat split; reflexivity. Qed.
Print Assumptions C139_all.

(** any? without a block asks whether there is a pair. *)
Theorem C139_any_plain : forall h, any_plain h = true <-> h <> [].
Proof. exact (any_plain_ok). Qed.
Example C139_any_plain_example : any_plain [(1, VNil)] = true /\ any_plain [] = false.
Proof. repeat split; reflexivity. Qed.
Print Assumptions C139_any_plain.

(** count with a block, with an argument or with neither counts the pairs. Missing: both (refuted below). *)
Theorem C139_count_partial : forall b eq h, b = None \/ eq = None -> count b eq h = ruby_count b eq h.
Proof. exact (count_ok). Qed.
Example C139_count_example : count (Some (One (fun a => match a with Whole _ v => is_nil v | Only _ => false end))) None [(1, VInt 6); (2, VInt 5); (3, VNil)] = 1 /\ count None (Some (fun e => 1 <? fst e)) [(1, VInt 6); (2, VInt 5); (3, VNil)] = 2 /\ count None None [(1, VInt 6); (2, VInt 5); (3, VNil)] = 3.
Proof. repeat split; reflexivity. Qed.
Print Assumptions C139_count_partial.

(** flat_map with a block of two parameters joins its answers. Missing: one parameter, to_ary (refuted below). *)
Theorem C139_flat_map_partial : forall b h, two b -> no_to_ary b h -> flat_map_block b h = ruby_flat_map b h.
Proof. exact (flat_map_ok). Qed.
Example C139_flat_map_example : flat_map_block (Two (fun k v => if is_nil v then AVal v else AArr [VInt k; v])) [(1, VInt 6); (2, VInt 5); (3, VNil)] = [VInt 1; VInt 6; VInt 2; VInt 5; VNil] /\ two (Two (fun (k : Z) (v : val) => AArr [])) /\ flat_map_block (Two (fun _ _ => AArr [])) [(1, VInt 6); (2, VInt 5); (3, VNil)] = [].
Proof. repeat split; reflexivity. Qed.
Print Assumptions C139_flat_map_partial.

(** min_by with a block of two parameters that answers Integers is Ruby's. Missing: one parameter (refuted below). *)
Theorem C139_min_by_partial : forall b h, two b -> min_by_block b h = ruby_min_by_block b h.
Proof. exact (min_block_ok). Qed.
Example C139_min_by_example : min_by_block (Two (fun k _ => - k)) [(1, VInt 6); (2, VInt 5); (3, VNil)] = Val (Some (3, VNil)).
Proof. repeat split; reflexivity. Qed.
Print Assumptions C139_min_by_partial.

(** False: flat_map gives a block of one parameter only the key. Ruby gives it the pair. *)
Theorem C139_flat_map_one_refuted : ~ (forall b h, no_to_ary b h -> flat_map_block b h = ruby_flat_map b h).
Proof. exact (flat_one_bad). Qed.
Example C139_flat_map_one_example : flat_map_block (One (fun a => AVal (match a with Whole _ v => v | Only k => VInt k end))) [(1, VInt 5)] = [VInt 1] /\ ruby_flat_map (One (fun a => AVal (match a with Whole _ v => v | Only k => VInt k end))) [(1, VInt 5)] = [VInt 5].
Proof. repeat split; reflexivity. Qed.
Print Assumptions C139_flat_map_one_refuted.

(** False: flat_map does not take apart an object with to_ary. Ruby does. *)
Theorem C139_flat_map_to_ary_refuted : ~ (forall b h, two b -> flat_map_block b h = ruby_flat_map b h).
Proof. exact (flat_to_ary_bad). Qed.
Example C139_flat_map_to_ary_example : flat_map_block (Two (fun _ v => AToAry [v; v])) [(1, VInt 5)] = [VObj 2] /\ ruby_flat_map (Two (fun _ v => AToAry [v; v])) [(1, VInt 5)] = [VInt 5; VInt 5].
Proof. repeat split; reflexivity. Qed.
Print Assumptions C139_flat_map_to_ary_refuted.

(** False: min_by gives a block of one parameter only the key. Ruby gives it the pair. *)
Theorem C139_min_by_one_refuted : ~ (forall b h, min_by_block b h = ruby_min_by_block b h).
Proof. exact (min_one_bad). Qed.
Example C139_min_by_one_example : min_by_block (One (fun a => match a with Whole _ (VInt z) => z | Whole k _ | Only k => k end)) [(1, VInt 6); (2, VInt 5)] = Val (Some (1, VInt 6)) /\ ruby_min_by_block (One (fun a => match a with Whole _ (VInt z) => z | Whole k _ | Only k => k end)) [(1, VInt 6); (2, VInt 5)] = Val (Some (2, VInt 5)).
Proof. repeat split; reflexivity. Qed.
Print Assumptions C139_min_by_one_refuted.

(** False: count with an argument and a block asks the block. Ruby ignores it. *)
Theorem C139_count_both_refuted : ~ (forall b eq h, count b eq h = ruby_count b eq h).
Proof. exact (count_both_bad). Qed.
Example C139_count_both_example : count (Some (Two (fun _ _ => true))) (Some (fun e => fst e =? 1)) [(1, VInt 6); (2, VInt 5)] = 2 /\ ruby_count (Some (Two (fun _ _ => true))) (Some (fun e => fst e =? 1)) [(1, VInt 6); (2, VInt 5)] = 1.
Proof. repeat split; reflexivity. Qed.
Print Assumptions C139_count_both_refuted.
