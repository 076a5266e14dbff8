(** What the Array methods should do, stated position by position.

    [get l k] is the element at position [k], [None] outside; [is l f] says
    that the list [l] is the function [f] on the positions from 0. *)
From Coq Require Import ZArith List Bool.
From Verif Require Import ArrModel.
Import ListNotations.
Open Scope Z_scope.

Section Spec.
Context {V : Type}.
Variable nil : V.

Definition get (l : list V) (k : Z) : option V :=
  if k <? 0 then None else nth_error l (Z.to_nat k).

Definition is (l : list V) (f : Z -> option V) : Prop :=
  forall k, 0 <= k -> get l k = f k.

(** A negative index counts from the end. *)
Definition norm (l : list V) (i : Z) : Z :=
  if i <? 0 then i + Z.of_nat (length l) else i.

Definition size (l : list V) : Z := Z.of_nat (length l).

Definition i64 (x : Z) : Prop := - 2 ^ 63 <= x < 2 ^ 63.
Definition i64o (o : option Z) : Prop := match o with Some x => i64 x | None => True end.

(** [self[i]] *)
Definition s_at (l : list V) (i : Z) : option V := get l (norm l i).

(** The [n] elements from [b], fewer at the end: nil when [b] is no position
    and not the end. *)
Definition s_sub (l : list V) (b n : Z) (r : @ret V) : Prop :=
  if (b <? 0) || (size l <? b) || (n <? 0) then r = RNil
  else exists vs, r = RA vs /\
       is vs (fun k => if k <? n then get l (b + k) else None).

(** First position and position after the last of a range. *)
Definition s_beg (l : list V) (r : rng) : Z :=
  match r_start r with None => 0 | Some s => norm l s end.
Definition s_end (l : list V) (r : rng) : Z :=
  match r_end r with
  | None => size l
  | Some e => if r_excl r then norm l e else norm l e + 1
  end.

(** [self[range]]: an end before the beginning selects nothing. *)
Definition s_range (l : list V) (r : rng) (x : @ret V) : Prop :=
  s_sub l (s_beg l r) (Z.max 0 (s_end l r - s_beg l r)) x.

(** Storing at position [j >= 0]: the gap before it is filled with nil. *)
Definition s_put (l : list V) (j : Z) (v : V) (l' : list V) : Prop :=
  is l' (fun k => if k =? j then Some v
                  else if k <? size l then get l k
                  else if k <? j then Some nil else None).

(** Replacing the [n] elements from [b] by [vs]: what follows them moves, and
    a gap before [b] is filled with nil. *)
Definition s_splice (l : list V) (b n : Z) (vs l' : list V) : Prop :=
  is l' (fun k => if k <? b then (if k <? size l then get l k else Some nil)
                  else if k <? b + size vs then get vs (k - b)
                  else get l (k - size vs + n)).

(** What the right-hand side of [self[b, n] =] stands for. *)
Definition s_rhs (l : list V) (h : @rhs V) : list V :=
  match h with
  | HSelf => l
  | HArr vs => vs
  | HVal v => [v]
  | HConv _ (Some vs) => vs
  | HConv v None => [v]
  end.

(** All elements without those from [b] to before [e]. *)
Definition s_cut (l : list V) (b e : Z) (l' : list V) : Prop :=
  is l' (fun k => if k <? b then get l k else get l (k - b + e)).

(** Rows become columns. *)
Definition s_transpose (rows cols : list (list V)) : Prop :=
  forall i j row, nth_error rows i = Some row ->
  forall col, nth_error cols j = Some col -> nth_error col i = nth_error row j.

(** All choices of one element per list, the last varying fastest. *)
Fixpoint cart (ls : list (list V)) : list (list V) :=
  match ls with
  | [] => [[]]
  | l :: rest => flat_map (fun v => map (cons v) (cart rest)) l
  end.

(** The last element satisfying a test. *)
Definition last_such (p : V -> bool) (l : list V) : option V := find p (rev l).

(** A test that, once true, stays true along the array. *)
Definition monotone (p : V -> bool) (l : list V) : Prop :=
  forall i j x y, (i <= j)%nat -> nth_error l i = Some x -> nth_error l j = Some y ->
  p x = true -> p y = true.

Fixpoint find_pos (p : V -> bool) (l : list V) : option Z :=
  match l with
  | [] => None
  | v :: r => if p v then Some 0
              else match find_pos p r with Some k => Some (k + 1) | None => None end
  end.

End Spec.

(** flatten: [flat h lv a xs] - the array [a], opened [lv] levels down (all
    the way without a level), reads [xs]. *)
Inductive flat (h : aheap) : option nat -> nat -> list el -> Prop :=
| flat_a lv a xs : flats h lv (h a) xs -> flat h lv a xs
with flats (h : aheap) : option nat -> list el -> list el -> Prop :=
| flats_nil lv : flats h lv [] []
| flats_leaf lv z vs xs : flats h lv vs xs -> flats h lv (Leaf z :: vs) (Leaf z :: xs)
| flats_stop b vs xs : flats h (Some O) vs xs -> flats h (Some O) (Ref b :: vs) (Ref b :: xs)
| flats_all b vs xs ys : flat h None b xs -> flats h None vs ys ->
    flats h None (Ref b :: vs) (xs ++ ys)
| flats_lv k b vs xs ys : flat h (Some k) b xs -> flats h (Some (S k)) vs ys ->
    flats h (Some (S k)) (Ref b :: vs) (xs ++ ys).

(** [b] is an element of [a]. *)
Definition edge (h : aheap) (a b : nat) : Prop := In (Ref b) (h a).
Inductive path (h : aheap) : nat -> nat -> Prop :=
| path_1 a b : edge h a b -> path h a b
| path_S a b c : edge h a b -> path h b c -> path h a c.
Definition reach (h : aheap) (a b : nat) : Prop := a = b \/ path h a b.
(** Some array that [a] contains contains itself. *)
Definition cyclic (h : aheap) (a : nat) : Prop := exists b, reach h a b /\ path h b b.
