(** Ruby's iterators, with blocks that change the Array. *)
From Coq Require Import List Bool Arith.
From Verif Require Import AmutModel.
Import ListNotations.

Section Ruby.
Variables (S V R : Type) (nil : V).

(** map pushes each answer. *)
Fixpoint ruby_map_loop (blk : S -> list V -> V -> S * list V * R) (n : nat) (s : S) (l : list V) (i : nat) (out : list R)
  : option (S * list V * list R) :=
  match n with
  | O => None
  | Datatypes.S n =>
      if i <? length l then
        match blk s l (nth i l nil) with (s', l', y) => ruby_map_loop blk n s' l' (i + 1) (out ++ [y]) end
      else Some (s, l, out)
  end.
Definition ruby_map (blk : S -> list V -> V -> S * list V * R) (n : nat) (s : S) (l : list V) := ruby_map_loop blk n s l 0 [].

(** reverse_each goes on at the end of what is left; k elements are to come. *)
Fixpoint ruby_rev_loop (blk : S -> list V -> V -> S * list V) (n k : nat) (s : S) (l : list V) : S * list V * list V :=
  match n, k with
  | Datatypes.S n, Datatypes.S i =>
      let v := nth i l nil in
      match blk s l v with
      | (s', l') => match ruby_rev_loop blk n (Nat.min i (length l')) s' l' with (s'', l'', log) => (s'', l'', v :: log) end
      end
  | _, _ => (s, l, [])
  end.
Definition ruby_reverse_each (blk : S -> list V -> V -> S * list V) (s : S) (l : list V) :=
  ruby_rev_loop blk (length l) (length l) s l.

(** rindex likewise. *)
Fixpoint ruby_rindex_loop (blk : S -> list V -> V -> S * list V * bool) (n k : nat) (s : S) (l : list V)
  : S * list V * option nat :=
  match n, k with
  | Datatypes.S n, Datatypes.S i =>
      match blk s l (nth i l nil) with
      | (s', l', true) => (s', l', Some i)
      | (s', l', false) => ruby_rindex_loop blk n (Nat.min i (length l')) s' l'
      end
  | _, _ => (s, l, None)
  end.
Definition ruby_rindex (blk : S -> list V -> V -> S * list V * bool) (s : S) (l : list V) :=
  ruby_rindex_loop blk (length l) (length l) s l.

(** drop_while answers an empty Array if nothing is left. *)
Fixpoint ruby_drop_loop (blk : S -> list V -> V -> S * list V * bool) (n : nat) (s : S) (l : list V) (i : nat)
  : option (S * list V * list V) :=
  match n with
  | O => None
  | Datatypes.S n =>
      if i <? length l then
        match blk s l (nth i l nil) with
        | (s', l', true) => ruby_drop_loop blk n s' l' (i + 1)
        | (s', l', false) => Some (s', l', skipn i l')
        end
      else Some (s, l, skipn i l)
  end.
Definition ruby_drop_while (blk : S -> list V -> V -> S * list V * bool) (n : nat) (s : S) (l : list V) :=
  ruby_drop_loop blk n s l 0.
End Ruby.

(** A block that does not shorten the Array. *)
Definition no_shorter {S V : Type} (blk : S -> list V -> V -> S * list V) : Prop :=
  forall s l v, length l <= length (snd (blk s l v)).
(** The same for blocks with an answer. *)
Definition no_shorter_ans {S V R : Type} (blk : S -> list V -> V -> S * list V * R) : Prop :=
  forall s l v, length l <= length (snd (fst (blk s l v))).
