(** String#succ (str_next, builtins/string.rs:1570-1713) on ASCII strings, as lists of code points. *)
From Coq Require Import List Bool ZArith.
Import ListNotations.
Open Scope Z_scope.

Inductive cat := Alpha | Digit | Other.
Definition cat_eqb (a b : cat) : bool := match a, b with Alpha, Alpha | Digit, Digit | Other, Other => true | _, _ => false end.
(** The general category of a character below 128 (1585-1596). *)
Definition category (c : Z) : cat :=
  if (48 <=? c) && (c <=? 57) then Digit
  else if ((65 <=? c) && (c <=? 90)) || ((97 <=? c) && (c <=? 122)) then Alpha else Other.
(** while next.category() == cat { next = next.pred() } *)
Fixpoint down (fuel : nat) (k : cat) (c : Z) : Z := match fuel with O => c | S n => if cat_eqb (category c) k then down n k (c - 1) else c end.
(** succ_char (1618-1634): the next character and whether it wrapped. *)
Definition succ_char (c : Z) : Z * bool :=
  let k := category c in
  if cat_eqb k (category (c + 1)) then (c + 1, false)
  else if cat_eqb k (category (c + 1 + 1)) then (c + 1 + 1, false)
  else (down 128 k c + 1, true).
(** The loop (1671-1701) over the characters from the right: [i] the length of the buffer, [st] the state (None is
    NotDetermined), [la] last_alnum; gives what is pushed, the carry and last_alnum. *)
Fixpoint loop (r : list Z) (i : nat) (carry finish pad : bool) (st : option cat) (la : nat) : list Z * bool * nat :=
  match r with
  | [] => ([], carry, la)
  | c :: r =>
      let push x '(o, cy, l) := (x :: o, cy, l) in
      if finish || negb carry then push c (loop r (S i) carry finish pad st la)
      else match category c with
           | Other => push c (loop r (S i) carry finish true st la)
           | k =>
               if pad && match st with Some q => negb (cat_eqb q k) | None => false end
               then push c (loop r (S i) carry true pad st la)
               else let st := if pad then st else Some k in
                    let '(next, wrapped) := succ_char c in
                    if wrapped then push next (loop r (S i) true false false st i) else push next (loop r (S i) false false false st la)
           end
  end.
Fixpoint insert (l : list Z) (n : nat) (x : Z) : list Z := match n, l with O, _ => x :: l | S n, a :: l => a :: insert l n x | S _, [] => [x] end.
Definition str_next (s : list Z) : list Z :=
  match rev s with
  | [] => []
  | c :: r =>
      if forallb (fun c => cat_eqb (category c) Other) (c :: r) then rev (c + 1 :: r)
      else let '(buf, carry, la) := loop (c :: r) 0 true false false None 0 in
           rev (if carry then let x := nth la buf 0 in insert buf (S la) (if cat_eqb (category x) Digit then fst (succ_char x) else x) else buf)
  end.
