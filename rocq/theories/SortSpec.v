(** What sorting means, independently of any algorithm. *)
From Coq Require Import List Bool Sorting.Sorted.
Import ListNotations.

Section S.
Context {A : Type} (D : A -> Prop) (lt : A -> A -> bool).
(** A strict weak order on [D]: what a consistent comparison block defines on
    the elements it is asked about. *)
Record strict_weak_order : Prop := {
  swo_irrefl : forall x, D x -> lt x x = false;
  swo_trans : forall x y z, D x -> D y -> D z -> lt x y = true -> lt y z = true -> lt x z = true;
  swo_incomp : forall x y z, D x -> D y -> D z -> lt x y = false -> lt y z = false -> lt x z = false }.
(** [x] and [y] compare as equal. *)
Definition same_rank (x y : A) : bool := negb (lt x y) && negb (lt y x).
(** No later element is less than an earlier one. *)
Definition in_order (l : list A) : Prop := StronglySorted (fun a b => lt b a = false) l.
(** Elements that compare equal keep their relative order. *)
Definition stable (before after : list A) : Prop :=
  forall x, D x -> filter (same_rank x) after = filter (same_rank x) before.
End S.

(** A comparator that also records what memory looked like at each call:
    (array, scratch, first argument, second argument). *)
Definition recording {A St} (cmp : St -> list A -> list A -> A -> A -> St * option bool)
    : St * list (list A * list A * A * A) -> list A -> list A -> A -> A -> (St * list (list A * list A * A * A)) * option bool :=
  fun s a b x y => let (s', r) := cmp (fst s) a b x y in ((s', (a, b, x, y) :: snd s), r).
