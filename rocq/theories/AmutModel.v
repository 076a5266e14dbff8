(** Array's iterators written in Ruby, with blocks that change the Array.

    Modelled: /repo/monoruby/builtins/array.rb:104-116 (reverse_each), 140-149 (map),
    464-472 (drop_while), 507-518 (rindex with a block). The block is a function of a state, the Array
    and the element; it answers the new state, the new Array and a value. n bounds the
    number of rounds of a loop that need not end. *)
From Coq Require Import List Bool Arith.
Import ListNotations.

Section Iter.
Variables (S V R : Type) (nil : V).

(** self[i] for i >= 0 *)
Definition at_ (l : list V) (i : nat) : V := nth i l nil.

(** res[i] = y for i at most the length. *)
Fixpoint put_at (l : list R) (i : nat) (y : R) : list R :=
  match l, i with
  | [], _ => [y]
  | _ :: r, O => y :: r
  | x :: r, Datatypes.S i => x :: put_at r i y
  end.

(** map; pad is nil. None: not done after n rounds. *)
Fixpoint map_loop (blk : S -> list V -> V -> S * list V * R) (n : nat) (s : S) (l : list V) (i : nat) (out : list R)
  : option (S * list V * list R) :=
  match n with
  | O => None
  | Datatypes.S n =>
      if i <? length l then
        match blk s l (at_ l i) with
        | (s', l', y) => map_loop blk n s' l' (i + 1) (put_at out i y)
        end
      else Some (s, l, out)
  end.
Definition map_ (pad : R) (blk : S -> list V -> V -> S * list V * R) (n : nat) (s : S) (l : list V) :=
  map_loop blk n s l 0 (repeat pad (length l)).

(** reverse_each: k elements are to come. The log has the elements given to the block. *)
Fixpoint rev_loop (blk : S -> list V -> V -> S * list V) (k : nat) (s : S) (l : list V) : S * list V * list V :=
  match k with
  | O => (s, l, [])
  | Datatypes.S i =>
      let v := at_ l i in
      match blk s l v with
      | (s', l') => match rev_loop blk i s' l' with (s'', l'', log) => (s'', l'', v :: log) end
      end
  end.
Definition reverse_each (blk : S -> list V -> V -> S * list V) (s : S) (l : list V) := rev_loop blk (length l) s l.

(** rindex: k is i + 1. *)
Fixpoint rindex_loop (blk : S -> list V -> V -> S * list V * bool) (n k : nat) (s : S) (l : list V)
  : option (S * list V * option nat) :=
  match n with
  | O => None
  | Datatypes.S n =>
      match k with
      | O => Some (s, l, None)
      | Datatypes.S i =>
          if length l <=? i then rindex_loop blk n (length l) s l
          else
            match blk s l (at_ l i) with
            | (s', l', true) => Some (s', l', Some i)
            | (s', l', false) => rindex_loop blk n i s' l'
            end
      end
  end.
Definition rindex (blk : S -> list V -> V -> S * list V * bool) (n : nat) (s : S) (l : list V) :=
  rindex_loop blk n (length l) s l.

(** drop_while: self[i, size - i] at the end, None is nil. *)
Fixpoint drop_loop (blk : S -> list V -> V -> S * list V * bool) (n : nat) (s : S) (l : list V) (i : nat)
  : option (S * list V * option (list V)) :=
  match n with
  | O => None
  | Datatypes.S n =>
      let stop s l := Some (s, l, if i <=? length l then Some (skipn i l) else None) in
      if i <? length l then
        match blk s l (at_ l i) with
        | (s', l', true) => drop_loop blk n s' l' (i + 1)
        | (s', l', false) => stop s' l'
        end
      else stop s l
  end.
Definition drop_while (blk : S -> list V -> V -> S * list V * bool) (n : nat) (s : S) (l : list V) := drop_loop blk n s l 0.
End Iter.
