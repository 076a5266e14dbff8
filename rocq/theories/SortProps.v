(** Property theorems C12, C13 and C45 (Array#sort, Array#sort!). *)
From Coq Require Import List Bool Arith Permutation Sorting.Sorted.
From Verif Require Import SortSpec SortModel SortProofs.
Import ListNotations.

(** C12: for every array and every comparison that answers a strict weak order on
    the elements (whatever else it does to its own state), sorting succeeds and the
    result is a permutation of the input, in order, equal elements in their
    original order. *)
Theorem C12_sorted_stable : forall (A St : Type) (cmp : St -> list A -> list A -> A -> A -> St * option bool)
    (P : St -> Prop) (lt : A -> A -> bool) (nil : A) (s : St) (l : list A),
  strict_weak_order (fun x => In x l) lt ->
  (forall s a b x y, P s -> In x l -> In y l -> exists s', cmp s a b x y = (s', Some (lt x y)) /\ P s') -> P s ->
  exists m, sort cmp nil s l = Ok m tt /\ P (st m)
    /\ Permutation l (arr m) /\ in_order lt (arr m) /\ stable (fun x => In x l) lt l (arr m).
Proof. exact @sort_ordered. Qed.
Print Assumptions C12_sorted_stable.

(** 45 pairs compared by their first component only; the second is the original
    position.  Long enough for runs, both merge directions and reversal. *)
Example C12_example :
  let lt (x y : nat * nat) := fst x <? fst y in
  let cmp (s : nat) (_ _ : list (nat * nat)) x y := (S s, Some (lt x y)) in
  let keys := [5;3;9;1;5;7;2;2;8;6;4;0;3;3;1; 9;8;7;6;5;4;3;2;1;0; 0;1;2;3;4;5;6;7;8;9;9;9; 4;1;4;1;4;1;4;1] in
  let l := combine keys (seq 0 (length keys)) in
  match sort cmp (0, 0) 0 l with
  | Ok m _ => map fst (arr m) = [0;0;0;1;1;1;1;1;1;1;1;2;2;2;2;3;3;3;3;3;4;4;4;4;4;4;4;5;5;5;5;6;6;6;7;7;7;8;8;8;9;9;9;9;9]
      /\ firstn 11 (map snd (arr m)) = [11;24;25;3;14;23;26;38;40;42;44] /\ 0 < st m
  | _ => False end.
Proof. vm_compute. repeat split; repeat constructor. Qed.

(** C13: for every array and every comparison whatsoever (its own state, its view
    of memory, inconsistent answers, errors): no access is out of bounds and every
    loop ends; on success the result is a permutation of the input; when the
    comparison raises, the error leaves sort in exactly the state of the raising
    call, nothing is called afterwards, and the array again holds a permutation of
    the input.  The comparison is only ever given elements of the input. *)
Theorem C13_permutation : forall (A St : Type) (cmp : St -> list A -> list A -> A -> A -> St * option bool)
    (P : St -> Prop) (l : list A),
  (forall s a b x y s' r, P s -> In x l -> In y l -> incl l (y :: a ++ b) -> cmp s a b x y = (s', Some r) -> P s') ->
  forall (nil : A) (s : St), P s ->
  match sort cmp nil s l with
  | Bad => False
  | Ok m _ => P (st m) /\ Permutation l (arr m)
  | Err m => (exists s1 a b x y, P s1 /\ In x l /\ In y l /\ incl l (y :: a ++ b) /\ cmp s1 a b x y = (st m, None))
             /\ Permutation l (arr m)
  end.
Proof. exact @sort_any. Qed.
Print Assumptions C13_permutation.

(** An inconsistent comparison that alternates, and one that raises in the middle
    of a merge (the 100th call): elements are neither lost nor duplicated. *)
Example C13_example :
  let alt (s : nat) (_ _ : list nat) (x y : nat) := (S s, Some (Nat.even s)) in
  let raise (s : nat) (_ _ : list nat) (x y : nat) := (S s, if s =? 99 then None else Some (x <? y)) in
  let l := [5;3;9;1;5;7;2;2;8;6;4;0;3;3;1; 9;8;7;6;5;4;3;2;1;0; 0;1;2;3;4;5;6;7;8;9;9;9; 4;1;4;1;4;1;4;1] in
  match sort alt 0 0 l, sort raise 0 0 l with
  | Ok m _, Err m' => st m' = 100 /\ firstn 4 (arr m) = [2;5;1;5] /\ firstn 4 (arr m') = [5;3;9;1]
      /\ map (count_occ Nat.eq_dec (arr m)) (seq 0 10) = [3;8;4;5;7;4;3;3;3;5]
      /\ map (count_occ Nat.eq_dec (arr m')) (seq 0 10) = [3;8;4;5;7;4;3;3;3;5]
  | _, _ => False end.
Proof. vm_compute. repeat split. Qed.

(** C45, false: while the comparison block runs, the element being inserted is in
    neither the array nor the scratch buffer - only in the block's own second
    argument.  A block that assigns to that parameter and then allocates lets the
    collector free an element that sort! afterwards writes back. *)
Theorem C45_rooted_during_sort_refuted : exists (l : list nat) (cmp : unit -> list nat -> list nat -> nat -> nat -> unit * option bool) m,
  sort (recording cmp) 0 (tt, []) l = Ok m tt
  /\ exists a b x y z, In (a, b, x, y) (snd (st m)) /\ In z l /\ ~ In z (a ++ b).
Proof.
  exists [2; 3; 1], (fun _ _ _ x y => (tt, Some (x <? y))). eexists. split; [vm_compute; reflexivity|].
  exists [1; 1; 3], [], 3, 2, 2. split; [left; reflexivity|]. split; [left; reflexivity|].
  intros [h|[h|[h|[]]]]; discriminate.
Qed.
Print Assumptions C45_rooted_during_sort_refuted.

(** C45, what holds: at every call, for every comparison and input, the array, the
    scratch buffer and the second argument together still contain every element. *)
Theorem C45_rooted_during_sort_partial : forall (A St : Type) (cmp : St -> list A -> list A -> A -> A -> St * option bool)
    (nil : A) (s : St) (l : list A),
  match sort (recording cmp) nil (s, []) l with
  | Bad => False
  | Ok m _ | Err m => Forall (fun '(a, b, x, y) => incl l (y :: a ++ b)) (snd (st m))
  end.
Proof. exact @sort_rooted. Qed.
Print Assumptions C45_rooted_during_sort_partial.

(** Merging 24 elements: calls are recorded while the array holds duplicates and
    the scratch buffer the originals. *)
Example C45_example :
  let cmp (_ : unit) (_ _ : list nat) (x y : nat) := (tt, Some (x <? y)) in
  let l := [12;13;14;15;16;17;18;19;20;21;22;23;0;1;2;3;4;5;6;7;8;9;10;11] in
  match sort (recording cmp) 0 (tt, []) l with
  | Ok m _ => arr m = seq 0 24 /\ nth_error (snd (st m)) 0 =
      Some ([0;1;2;3;4;5;6;7;8;9;10;23;0;1;2;3;4;5;6;7;8;9;10;11], [12;13;14;15;16;17;18;19;20;21;22;23], 11, 12)
  | _ => False end.
Proof. vm_compute. repeat split. Qed.
