(** C130 to C132: Enumerator::Lazy. *)
From Coq Require Import ZArith List Bool.
From Verif Require Import LazyModel LazySpec LazyProofs.
Import ListNotations.
Local Open Scope Z_scope.

(** C130. A lazy chain gives the elements that the methods of Enumerable give one after the other. *)
Theorem C130_force {V} (p : list (stage V)) l : ok p -> fst (force p l) = eager p l.
Proof. exact (force_ok p l). Qed.
Example C130_force_example : fst (force [Take 3; Map (fun x => x * x); Select Z.odd] [1; 2; 3; 4; 5; 6; 7; 8]) = [1; 9; 25] /\ fst (force [Select Z.odd; Take 3] [1; 2; 3; 4]) = [1; 3] /\ fst (force [DropWhile (fun x => x <? 3); Reject Z.even] [1; 2; 3; 1; 5]) = [3; 1; 5] /\ fst (force [Uniq (fun x => x mod 3) Z.eqb; Drop 1] [9; 1; 4; 2; 3]) = [1; 2; 3] /\ fst (force [WithIndex 10 (fun v i => v * 100 + i); Compact (Z.eqb 0)] [0; 7; 0; 8]) = [710; 811].
Proof. repeat split; reflexivity. Qed.
Print Assumptions C130_force.

Example C130_more_example : fst (force [FlatMap (fun x => if x =? 0 then AOne 5 else if x =? 1 then ALazy [x; x] else AArray [x])] [0; 1; 2]) = [5; 1; 1; 2] /\ fst (force [FilterMap (fun x => if x =? 0 then None else Some (- x))] [0; 1; 2]) = [-1; -2] /\ fst (force [Grep Z.even (Z.add 1); GrepV (Z.eqb 4) (fun x => x)] [1; 2; 4; 6]) = [3; 7] /\ fst (force [TakeWhile (fun x => x <? 3)] [1; 2; 3; 1]) = [1; 2] /\ fst (force [Zip (fun v r => match r with [Some a; None] => v + a | _ => v end) [fun n => nth_error [10; 20] n; fun n => nth_error [] n]] [1; 2; 3]) = [11; 22; 3].
Proof. repeat split; reflexivity. Qed.

(** The elements of a part of the source are the beginning of the elements. *)
Theorem C130_prefix {V} (p : list (stage V)) l k : ok p ->
  exists r, eager p l = eager p (firstn k l) ++ r.
Proof. exact (eager_prefix p l k). Qed.
Example C130_prefix_example : eager [Take 2; Select Z.odd] [1; 2; 3; 4; 5] = [1; 3] /\ eager [Take 2; Select Z.odd] (firstn 2 [1; 2; 3; 4; 5]) = [1].
Proof. repeat split; reflexivity. Qed.
Print Assumptions C130_prefix.

(** False: flat_map does not flatten an object that has to_ary. Ruby does. *)
Theorem C130_flat_map_refuted : ~ (forall (V : Type) (f : V -> answer V) l,
  fst (force [FlatMap f] l) = flat_map (fun v => ruby_flat (f v)) l).
Proof. exact (flat_map_bad). Qed.
Print Assumptions C130_flat_map_refuted.

(** C131. first(n) gives the first n elements, and asks the source for no element more than is needed. *)
Theorem C131_first_n {V} (p : list (stage V)) n l : ok p ->
  fst (first_n p n l) = firstn n (eager p l) /\
  (snd (first_n p n l) <= length l)%nat /\
  forall j, (j < snd (first_n p n l))%nat -> (length (eager p (firstn j l)) < n)%nat.
Proof. exact (first_n_ok p n l). Qed.
Example C131_first_n_example : first_n [Map (Z.mul 2); Select Z.even] 2 [1; 2; 3; 4; 5; 6] = ([4; 8], 4%nat) /\ first_n [Map (Z.mul 2)] 0 [1; 2] = ([], O) /\ first_n [Select Z.even] 2 [1; 2; 3] = ([2], 3%nat) /\ first_n [FlatMap (fun x => AArray [x; x; x])] 4 [1; 2; 3] = ([1; 1; 1; 2], 2%nat).
Proof. repeat split; reflexivity. Qed.
Print Assumptions C131_first_n.

(** first gives the first element, nil if there is none. *)
Theorem C131_first {V} (p : list (stage V)) l : ok p ->
  fst (first p l) = hd_error (eager p l) /\ snd (first p l) = snd (first_n p 1 l).
Proof. exact (first_ok p l). Qed.
Example C131_first_example : first [Select Z.even] [1; 3; 4; 5] = (Some 4, 3%nat) /\ first [Select Z.even] [1; 3] = (None, 2%nat).
Proof. repeat split; reflexivity. Qed.
Print Assumptions C131_first.

(** take(n) asks the source for as much as first(n). *)
Theorem C131_take {V} n (up : list (stage V)) l : 0 <= n ->
  snd (force (Take n :: up) l) = snd (first_n up (Z.to_nat n) l).
Proof. exact (take_asks n up l). Qed.
Example C131_take_example : force [Take 2; Select Z.even] [1; 2; 3; 4; 5; 6] = ([2; 4], 4%nat) /\ force [Take 0; Select Z.even] [1; 2] = ([], O) /\ force [Map (Z.add 1); Take 1; Map (Z.mul 2)] [1; 2] = ([3], 1%nat).
Proof. repeat split; reflexivity. Qed.
Print Assumptions C131_take.

(** take_while asks for one element that fails. *)
Theorem C131_take_while {V} (p : V -> bool) l :
  snd (force [TakeWhile p] l) = if forallb p l then length l else Datatypes.S (length (take_while p l)).
Proof. exact (take_while_asks p l). Qed.
Example C131_take_while_example : force [TakeWhile Z.even] [2; 4; 5; 6] = ([2; 4], 3%nat).
Proof. repeat split; reflexivity. Qed.
Print Assumptions C131_take_while.

(** What a walk gives that is left or ends early does not depend on the rest of the source, which may be endless. *)
Theorem C131_endless {V} (p : list (stage V)) (S : Type) (k : S -> V -> S * bool) s l r :
  snd (fst (each p S k s l)) = true \/ (snd (each p S k s l) < length l)%nat ->
  each p S k s (l ++ r) = each p S k s l.
Proof. exact (endless p S k s l r). Qed.
Example C131_endless_example : forall r, force [Take 2; Select Z.even] ([1; 2; 3; 4; 5] ++ r) = ([2; 4], 4%nat).
Proof. reflexivity. Qed.
Print Assumptions C131_endless.

(** C132. A size that is not nil is the number of elements. *)
Theorem C132_size {V} : forall (p : list (stage V)) l z, ok p ->
  lsize p (Some (Count (Z.of_nat (length l)))) = Some z -> z = Count (Z.of_nat (length (eager p l))).
Proof. exact (size_ok). Qed.
Example C132_size_example : lsize [Take 3; Map Z.succ; Drop 2] (Some (Count 10)) = Some (Count 3) /\ lsize [@Take Z 3; Drop 8] (Some (Count 10)) = Some (Count 2) /\ lsize [@Drop Z 20] (Some (Count 10)) = Some (Count 0) /\ lsize [@Take Z 5] (Some Infinity) = Some (Count 5) /\ lsize [@Drop Z 5] (Some Infinity) = Some Infinity /\ lsize [@Take Z 5] None = None /\ lsize [Select Z.even] (Some (Count 10)) = None.
Proof. repeat split; reflexivity. Qed.
Print Assumptions C132_size.

(** It is the one of Ruby in chains without with_index (refuted below). *)
Theorem C132_size_ruby_partial {V} : forall (p : list (stage V)) src,
  (forall off mk, ~ In (WithIndex off mk) p) -> lsize p src = ruby_size p src.
Proof. exact (size_ruby). Qed.
Example C132_size_ruby_example : ruby_size [Take 2; WithIndex 0 Z.add] (Some (Count 3)) = Some (Count 2).
Proof. repeat split; reflexivity. Qed.
Print Assumptions C132_size_ruby_partial.

(** False: the size of [1, 2, 3].lazy.with_index is nil. Ruby gives 3. *)
Theorem C132_size_refuted : ~ (forall (V : Type) (p : list (stage V)) src, lsize p src = ruby_size p src).
Proof. exact (with_index_bad). Qed.
Print Assumptions C132_size_refuted.
