(** Array's accesses written in Ruby: values_at, fetch_values, assoc, rassoc, tally.

    Modelled: /repo/monoruby/builtins/array.rb:219-225 (tally), 474-491 (fetch_values), 522-544 (assoc, rassoc),
    649-672 (values_at). Elements are of any type with a nil; in assoc, rassoc and tally they are Integers.
    Conversions with to_int are not modelled: indices are Integers. *)
From Coq Require Import ZArith List Bool.
Import ListNotations.
Local Open Scope Z_scope.

Section Values.
Variables (V : Type) (nil : V).

(** self[z] *)
Definition aref (l : list V) (z : Z) : V :=
  let i := if z <? 0 then z + Z.of_nat (length l) else z in
  if i <? 0 then nil else nth (Z.to_nat i) l nil.

(** A selector of values_at: an Integer, or a Range with its begin, its end and exclude_end?. *)
Inductive sel := Ix (z : Z) | Rg (b e : option Z) (x : bool).

(** while i <= e; result << self[i]; i += 1; end, with n rounds to come. *)
Fixpoint run (l : list V) (n : nat) (i : Z) : list V :=
  match n with O => [] | S n => aref l i :: run l n (i + 1) end.

(** One selector. *)
Definition value_sel (l : list V) (s : sel) : list V :=
  match s with
  | Ix z => [aref l z]
  | Rg b e x =>
      let size := Z.of_nat (length l) in
      let b := match b with None => 0 | Some b => b end in
      let endless := match e with None => true | Some _ => false end in
      let e := match e with None => size - 1 | Some e => e end in
      let b := if b <? 0 then b + size else b in
      let e := if e <? 0 then e + size else e in
      let e := if negb endless && x then e - 1 else e in
      if b <? 0 then [] else run l (Z.to_nat (e - b + 1)) b
  end.
Definition values_at (l : list V) (ss : list sel) : list V := flat_map (value_sel l) ss.

(** fetch_values with a block g; without one (None) fetch raises IndexError, which is None here. *)
Definition fetch (l : list V) (z : Z) : option V :=
  let size := Z.of_nat (length l) in
  if (z <? - size) || (size <=? z) then None else Some (aref l z).
Fixpoint fetch_values (g : option (Z -> V)) (l : list V) (ix : list Z) : option (list V) :=
  match ix with
  | [] => Some []
  | z :: r =>
      let size := Z.of_nat (length l) in
      let v := match g with
               | Some g => Some (if (z <? - size) || (size <=? z) then g z else aref l z)
               | None => fetch l z
               end in
      match v with
      | None => None
      | Some v => match fetch_values g l r with None => None | Some vs => Some (v :: vs) end
      end
  end.
End Values.

(** An element of the Array of assoc: an Array, an object whose to_ary answers an Array, nil or something else,
    or an object without to_ary. *)
Inductive elem := EArr (l : list Z) | EConv (l : list Z) | EConvNil | EConvOther | EPlain.

(** assoc is k = 0, rassoc k = 1. None is nil. *)
Fixpoint assoc_loop (k : nat) (key : Z) (es : list elem) : option (list Z) :=
  match es with
  | [] => None
  | e :: r =>
      match e with
      | EArr l | EConv l =>
          if Nat.ltb k (length l) && (nth k l 0 =? key) then Some l else assoc_loop k key r
      | EConvNil | EConvOther | EPlain => assoc_loop k key r
      end
  end.
Definition assoc (key : Z) (es : list elem) := assoc_loop 0 key es.
Definition rassoc (key : Z) (es : list elem) := assoc_loop 1 key es.

(** h[x] = (h[x] || 0) + 1 in a Hash in the order of insertion. *)
Fixpoint bump (x : Z) (h : list (Z * Z)) : list (Z * Z) :=
  match h with
  | [] => [(x, 1)]
  | (y, n) :: r => if y =? x then (y, n + 1) :: r else (y, n) :: bump x r
  end.
Definition tally (l : list Z) : list (Z * Z) := fold_left (fun h x => bump x h) l [].
