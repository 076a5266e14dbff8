(** Property theorem C09 (the insertion-ordered map under Hash). *)
From Coq Require Import ZArith List Bool Arith Permutation.
From Verif Require Import MapSpec MapModel MapProofs.
Import ListNotations.

(** C09: for every key equality, every compatible hash function (constant ones
    included), every probing order and growth policy of the index table, every
    starting capacity and every history of allowed calls: no call panics, every
    call returns what the association list returns, and the final contents in
    iteration order are those of the association list, with no duplicate key. *)
Theorem C09_ordered_map : forall (K V : Type) (eqk : K -> K -> bool) (hash : K -> Z)
    (dead : K -> bool) (vis : Z -> Z -> bool) (ins : list (Z * nat) -> Z * nat -> list (Z * nat))
    (grow : nat -> nat) (dk : K) (dv : V),
  (forall h, vis h h = true) ->
  (forall l x, Permutation (ins l x) (x :: l)) ->
  (forall n, n <= grow n) ->
  (forall x y, eqk x y = true -> dead x = false /\ dead y = false) ->
  (forall x y, eqk x y = eqk y x) ->
  (forall x y z, eqk x y = true -> eqk y z = true -> eqk x z = true) ->
  (forall x y, eqk x y = true -> hash x = hash y) ->
  dead dk = true ->
  forall (os : list (op K V)) (n : nat),
  Forall (live_op dead) os -> all_allowed eqk os ([], false) ->
  exists c, run eqk vis ins grow hash dead dk dv os (c_with_capacity grow n)
              = Some (c, snd (spec_run eqk os ([], false)))
    /\ abs dead c = fst (fst (spec_run eqk os ([], false)))
    /\ ForallOrdPairs (fun a b => eqk (fst a) (fst b) = false) (abs dead c)
    /\ (linear c = true -> items (tbl c) = []).
Proof.
  exact (fun K V eqk hash dead vis ins grow dk dv h1 h2 h3 h4 h5 h6 h7 h8 os n =>
    ordered_map vis h1 ins h2 grow h3 eqk hash dead h4 h5 h6 h7 dk dv h8 os n).
Qed.
Print Assumptions C09_ordered_map.

(** Two hash codes for twelve keys, tombstones, moves and range removal. *)
Example C09_example :
  let r := run Nat.eqb (fun _ _ => true) (fun l x => x :: l) (fun n => 2 * n)
             (fun k => Z.of_nat (k mod 2)) (Nat.eqb 99) 99 0
             (map (fun k => Put k (10 * k)) (seq 1 12) ++
              [Put 3 7; Delete 2; LazyDelete 5; Get 6; LazyShift; Put 20 1; Compact;
               Move 0 3; Drain 1 3; SwapDelete 9; Reverse; Get 3; Get 2])
             (c_with_capacity (fun n => 2 * n) 0) in
  option_map (fun x => (abs (Nat.eqb 99) (fst x), skipn 12 (snd x))) r =
  Some ([(12, 120); (11, 110); (10, 100); (20, 1); (8, 80); (3, 7); (4, 40)],
        [[(3, 30)]; [(2, 20)]; [(5, 50)]; [(6, 60)]; [(1, 10)]; []; []; []; [(6, 60); (7, 70)]; [(9, 90)]; []; [(3, 7)]; []]).
Proof. vm_compute. reflexivity. Qed.
