(** Array combinatorics and binary search.

    Modelled: /repo/monoruby/builtins/array.rb:166-207 (bsearch), 282-325
    (combination), 327-368 (bsearch_index), 369-455 (permutation), 556-596
    (repeated_permutation), 598-646 (repeated_combination), the size blocks of
    their enumerators, and /repo/monoruby/src/builtins/array.rs:3658-3720
    (product, product_inner).

    Simplified: the argument n is an Integer already (to_int is not modelled);
    the generators yield lists of positions, [pick] turns them into elements
    of the copy taken at the start (pool); [loop do] without an exit runs on
    fuel, and the theorems say that enough fuel exists. *)
From Coq Require Import ZArith List Bool Lia.
Import ListNotations.
Local Open Scope nat_scope.

(** indices[i] = v for a position inside the array *)
Fixpoint set_nth (l : list nat) (i v : nat) : list nat :=
  match l, i with
  | [], _ => []
  | _ :: t, O => v :: t
  | x :: t, S j => x :: set_nth t j v
  end.

(** indices[i] for a position inside the array *)
Definition at_ (l : list nat) (i : nat) : nat := nth i l 0.

(** indices.map { |i| pool[i] } *)
Definition pick {A : Type} (pool : list A) (ind : list nat) : list (option A) :=
  map (nth_error pool) ind.

(** loop do … end around a step: the state is shown (yielded), then stepped;
    no next state is the break. *)
Fixpoint run {St : Type} (step : St -> option St) (out : St -> list nat)
    (fuel : nat) (st : St) : option (list (list nat)) :=
  match fuel with
  | O => None
  | S f =>
      match step st with
      | None => Some [out st]
      | Some st' => option_map (cons (out st)) (run step out f st')
      end
  end.

(* ------------------------------------------------------------------ *)
(** ** combination, array.rb:303-325 *)

(** i = n - 1; i -= 1 while i >= 0 && indices[i] == len - n + i
    (array.rb:317-318); [k] is i + 1. *)
Fixpoint comb_scan (ind : list nat) (len n k : nat) : option nat :=
  match k with
  | O => None
  | S i => if at_ ind i =? len - n + i then comb_scan ind len n i else Some i
  end.

(** (i + 1...n).each { |j| indices[j] = indices[j - 1] + 1 }
    (array.rb:321): [c] positions from [j] on. *)
Fixpoint comb_fill (ind : list nat) (j c : nat) : list nat :=
  match c with
  | O => ind
  | S c' => comb_fill (set_nth ind j (at_ ind (j - 1) + 1)) (S j) c'
  end.

(** array.rb:317-321 *)
Definition comb_step (len n : nat) (ind : list nat) : option (list nat) :=
  match comb_scan ind len n n with
  | None => None
  | Some i =>
      Some (comb_fill (set_nth ind i (at_ ind i + 1)) (i + 1) (n - (i + 1)))
  end.

(** What combination(n) yields for an array of length [len]
    (array.rb:307-323). *)
Definition combination (fuel len : nat) (n : Z) : option (list (list nat)) :=
  if (n =? 0)%Z then Some [[]]
  else if (n =? 1)%Z then Some (map (fun i => [i]) (seq 0 len))
  else if ((0 <? n) && (n <=? Z.of_nat len))%Z then
    let n := Z.to_nat n in
    run (comb_step len n) (fun ind => ind) fuel (seq 0 n)
  else Some [].

(** v = 1; 1.upto(k) { |i| v = v * (f i) / i } *)
Fixpoint mul_div (f : Z -> Z) (k : nat) : Z :=
  match k with
  | O => 1
  | S j => mul_div f j * f (Z.of_nat (S j)) / Z.of_nat (S j)
  end%Z.

(** The size of the enumerator of combination, array.rb:288-301 *)
Definition combination_size (len : nat) (k : Z) : Z :=
  let l := Z.of_nat len in
  if ((k <? 0) || (l <? k))%Z then 0%Z
  else if (k =? 0)%Z then 1%Z
  else
    let k := (if l - k <? k then l - k else k)%Z in
    mul_div (fun i => (l - k + i)%Z) (Z.to_nat k).

(* ------------------------------------------------------------------ *)
(** ** permutation, array.rb:391-455 *)

(** Move the index at i to the end (array.rb:410-413 and 436-438): the later
    ones move up by one place. *)
Definition move_last (ind : list nat) (i : nat) : list nat :=
  firstn i ind ++ skipn (S i) ind ++ [at_ ind i].

(** indices[i], indices[j] = indices[j], indices[i] *)
Definition swap (ind : list nat) (i j : nat) : list nat :=
  set_nth (set_nth ind i (at_ ind j)) j (at_ ind i).

(** (n - 1).downto(0) { |i| … } of array.rb:406-421 and 432-446 up to the
    yield; [k] is i + 1 and [now] the size of the receiver at that time. The
    index -cycles[i] counts from the end of indices: right as long as
    cycles[i] is at most the length of indices. *)
Fixpoint perm_scan (now : nat) (ind cyc : list nat) (k : nat)
  : option (list nat * list nat) :=
  match k with
  | O => None
  | S i =>
      let c := at_ cyc i - 1 in
      if c =? 0 then perm_scan now (move_last ind i) (set_nth cyc i (now - i)) i
      else Some (swap ind i (length ind - c), set_nth cyc i c)
  end.

(** The loop for a receiver that keeps its size. *)
Definition perm_step (len n : nat) (st : list nat * list nat)
  : option (list nat * list nat) :=
  perm_scan len (fst st) (snd st) n.

(** cycles = (size.downto(size - n + 1)).to_a *)
Definition cycles0 (len n : nat) : list nat := map (fun i => len - i) (seq 0 n).

(** indices[0, n] *)
Definition shown (n : nat) (st : list nat * list nat) : list nat :=
  firstn n (fst st).

(** What permutation(n) yields; None is permutation without argument. Both
    branches (n == size and not) are this one. *)
Definition permutation (fuel len : nat) (n : option Z) : option (list (list nat)) :=
  let n := match n with Some n => n | None => Z.of_nat len end in
  if (n =? 0)%Z then Some [[]]
  else if ((n <? 0) || (Z.of_nat len <? n))%Z then Some []
  else
    let n := Z.to_nat n in
    run (perm_step len n) (shown n) fuel (seq 0 len, cycles0 len n).

(** The same when the block changes the size of the receiver: [now t] is its
    size after the t-th yield. *)
Fixpoint perm_live (now : nat -> nat) (t n fuel : nat) (st : list nat * list nat)
  : option (list (list nat)) :=
  match fuel with
  | O => None
  | S f =>
      match perm_scan (now t) (fst st) (snd st) n with
      | None => Some [shown n st]
      | Some st' => option_map (cons (shown n st)) (perm_live now (S t) n f st')
      end
  end.

(** k.times { |i| v *= (len - i) } *)
Fixpoint falling (len : Z) (k : nat) : Z :=
  match k with
  | O => 1
  | S i => falling len i * (len - Z.of_nat i)
  end%Z.

(** The size of the enumerator of permutation, array.rb:378-390 *)
Definition permutation_size (len : nat) (n : option Z) : Z :=
  let l := Z.of_nat len in
  let k := match n with Some n => n | None => l end in
  if ((k <? 0) || (l <? k))%Z then 0%Z
  else if (k =? 0)%Z then 1%Z
  else falling l (Z.to_nat k).

(* ------------------------------------------------------------------ *)
(** ** repeated_permutation, array.rb:571-596 *)

(** while i >= 0 … end (array.rb:584-591); [k] is i + 1 *)
Fixpoint odo_scan (len : nat) (ind : list nat) (k : nat) : option (list nat) :=
  match k with
  | O => None
  | S i =>
      let ind := set_nth ind i (at_ ind i + 1) in
      if at_ ind i <? len then Some ind
      else odo_scan len (set_nth ind i 0) i
  end.

Definition repeated_permutation (fuel len : nat) (n : Z) : option (list (list nat)) :=
  if (n =? 0)%Z then Some [[]]
  else if len =? 0 then Some []
  else if (0 <? n)%Z then
    let n := Z.to_nat n in
    run (fun ind => odo_scan len ind n) (fun ind => ind) fuel (repeat 0 n)
  else Some [].

(** The size of its enumerator, array.rb:560-569 *)
Definition repeated_permutation_size (len : nat) (k : Z) : Z :=
  if (k <? 0)%Z then 0%Z else if (k =? 0)%Z then 1%Z else (Z.of_nat len ^ k)%Z.

(* ------------------------------------------------------------------ *)
(** ** repeated_combination, array.rb:619-646 *)

(** ((i + 1)...n).each { |j| indices[j] = indices[i] } *)
Fixpoint spread (ind : list nat) (i j c : nat) : list nat :=
  match c with
  | O => ind
  | S c' => spread (set_nth ind j (at_ ind i)) i (S j) c'
  end.

(** while i >= 0 … end (array.rb:633-641); [k] is i + 1 *)
Fixpoint rep_scan (len n : nat) (ind : list nat) (k : nat) : option (list nat) :=
  match k with
  | O => None
  | S i =>
      let ind := set_nth ind i (at_ ind i + 1) in
      if at_ ind i <? len then Some (spread ind i (i + 1) (n - (i + 1)))
      else rep_scan len n ind i
  end.

Definition repeated_combination (fuel len : nat) (n : Z) : option (list (list nat)) :=
  if (n =? 0)%Z then Some [[]]
  else if (n =? 1)%Z then Some (map (fun i => [i]) (seq 0 len))
  else if (0 <? len) && (0 <? n)%Z then
    let n := Z.to_nat n in
    run (fun ind => rep_scan len n ind n) (fun ind => ind) fuel (repeat 0 n)
  else Some [].

(** The size of its enumerator, array.rb:602-617 *)
Definition repeated_combination_size (len : nat) (k : Z) : Z :=
  let l := Z.of_nat len in
  if (k <? 0)%Z then 0%Z
  else if (k =? 0)%Z then 1%Z
  else if len =? 0 then 0%Z
  else mul_div (fun i => (l + k - i)%Z) (Z.to_nat k).

(* ------------------------------------------------------------------ *)
(** ** The block *)

(** What the block does with a row: returns, raises StopIteration, raises
    something else. *)
Inductive act := Go | Stop | Raise.

(** How the method ends: it returns, or an exception leaves it. *)
Inductive fin := Returned | Left (a : act).

(** The rows yielded one after another, [inside] telling whether the yield is
    inside [loop do]: Kernel#loop ends at a StopIteration
    (/repo/monoruby/src/builtins/kernel.rs:900-925). Result: the rows the
    block saw, and the end. *)
Fixpoint with_block (inside : bool) (b : list nat -> act) (rows : list (list nat))
  : list (list nat) * fin :=
  match rows with
  | [] => ([], Returned)
  | r :: rest =>
      match b r with
      | Go => let '(seen, e) := with_block inside b rest in (r :: seen, e)
      | Stop => ([r], if inside then Returned else Left Stop)
      | Raise => ([r], Left Raise)
      end
  end.

(** combination with a block: the yield of array.rb:315 is inside the loop,
    those of 308 and 310 are not. *)
Definition combination_block (fuel len : nat) (n : Z) (b : list nat -> act)
  : option (list (list nat) * fin) :=
  option_map (with_block (1 <? n)%Z b) (combination fuel len n).

(* ------------------------------------------------------------------ *)
(** ** product, array.rs:3658-3720 *)

(** The bound on the number of rows, array.rs:3679 *)
Definition product_limit : N := 1000000%N.

(** for l in &lists { total = checked_mul …; if total > 1_000_000 … }
    (array.rs:3675-3682). None: RangeError. Products beyond 2^64 are also
    beyond the limit. *)
Fixpoint product_check (total : N) (dims : list nat) : option N :=
  match dims with
  | [] => Some total
  | d :: r =>
      let t := (total * N.of_nat d)%N in
      if (product_limit <? t)%N then None else product_check t r
  end.

(** for i in (0..n).rev() { v[i] = arrays[i][k % d]; k /= d } with the
    lengths taken before (array.rs:3711-3715): the row and what is left of k;
    None is the index panic. *)
Fixpoint product_row {A : Type} (arrays : list (list A)) (dims : list nat) (k : nat)
  : option (list A) * nat :=
  match arrays, dims with
  | a :: ar, d :: dr =>
      let '(row, k) := product_row ar dr k in
      (match row, nth_error a (k mod d) with
       | Some row, Some x => Some (x :: row)
       | _, _ => None
       end, k / d)
  | _, _ => (Some [], k)
  end.

Inductive res (A : Type) := Val (a : A) | Err | Panic.
Arguments Val {A}. Arguments Err {A}. Arguments Panic {A}.

(** The rows from number [k] on; [live k] are the arrays when row k is made
    (the block of the earlier rows may have changed them). *)
Fixpoint product_rows {A : Type} (live : nat -> list (list A)) (dims : list nat)
    (k c : nat) : res (list (list A)) :=
  match c with
  | O => Val []
  | S c' =>
      match fst (product_row (live k) dims k) with
      | None => Panic
      | Some row =>
          match product_rows live dims (S k) c' with
          | Val rows => Val (row :: rows)
          | e => e
          end
      end
  end.

(** lhs.product( *lists); the arrays are [live 0] at the start. Whether a list
    is empty is looked at first in product_inner; the product is 0 then, too. *)
Definition product {A : Type} (live : nat -> list (list A)) : res (list (list A)) :=
  let dims := map (@length A) (live 0) in
  match product_check (N.of_nat (hd 0 dims)) (tl dims) with
  | None => Err
  | Some _ => product_rows live dims 0 (fold_right Nat.mul 1 dims)
  end.

(* ------------------------------------------------------------------ *)
(** ** bsearch_index and bsearch, array.rb:166-207 and 327-368 *)

(** What the block answers; of a number only its sign matters. *)
Inductive ans := ATrue | AFalse | ANil | ANum (z : Z) | AOther.

Inductive mode := FindMin | FindExact.

(** array.rb:178-186 *)
Definition mode_of (a : ans) : option mode :=
  match a with
  | ATrue | AFalse | ANil => Some FindMin
  | ANum _ => Some FindExact
  | AOther => None
  end.

Definition truthy (a : ans) : bool :=
  match a with AFalse | ANil => false | _ => true end.

(** One round (array.rb:188-205): the next bounds, or the place found, or an
    error: [<] is not defined for true and false, and does not compare other
    objects with 0. *)
Inductive turn := Low | High | Found | Bad.

Definition turn_of (m : mode) (a : ans) : turn :=
  match m with
  | FindMin => if truthy a then High else Low
  | FindExact =>
      match a with
      | ANil => Low
      | ANum z => if (z <? 0)%Z then Low else if (0 <? z)%Z then High else Found
      | _ => Bad
      end
  end.

(** while low < high; [f i] is the answer for element i *)
Fixpoint bs_loop (fuel size : nat) (f : nat -> ans) (low high : nat) (m : option mode)
  : option (res (option nat)) :=
  match fuel with
  | O => None
  | S fuel' =>
      if low <? high then
        let mid := (low + high) / 2 in
        match (match m with Some m => Some m | None => mode_of (f mid) end) with
        | None => Some Err
        | Some m =>
            match turn_of m (f mid) with
            | Low => bs_loop fuel' size f (mid + 1) high (Some m)
            | High => bs_loop fuel' size f low mid (Some m)
            | Found => Some (Val (Some mid))
            | Bad => Some Err
            end
        end
      else
        Some (Val (match m with
                   | Some FindMin => if low <? size then Some low else None
                   | _ => None
                   end))
  end.

(** bsearch_index; the fuel suffices (see the theorems) *)
Definition bsearch_index (size : nat) (f : nat -> ans) : option (res (option nat)) :=
  bs_loop (S size) size f 0 size None.

(** bsearch: the element instead of the index; self[low] is nil past the end *)
Definition bsearch {A : Type} (l : list A) (f : A -> ans) : option (res (option A)) :=
  match bsearch_index (length l)
          (fun i => match nth_error l i with Some x => f x | None => ANil end) with
  | Some (Val (Some i)) => Some (Val (nth_error l i))
  | Some (Val None) => Some (Val None)
  | Some Err => Some Err
  | Some Panic => Some Panic
  | None => None
  end.
