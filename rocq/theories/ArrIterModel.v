(** Array methods that call back into Ruby code while they walk the array.

    The callback may do anything to the array: it is a function from its own
    state, the present contents and the element it is given to a new state,
    new contents and an answer. *)
From Coq Require Import ZArith List Bool.
From Verif Require Import ArrModel.
Import ListNotations.
Open Scope Z_scope.

Inductive ans := Yes | No | Raise.

(** How a loop ends: it finished, the callback raised, the interpreter
    panicked, or the fuel of the model ran out. *)
Inductive out (A : Type) := Fin (a : A) | Raised (a : A) | Panics | Fuel.
Arguments Fin {A}. Arguments Raised {A}. Arguments Panics {A}. Arguments Fuel {A}.

Section It.
Context {S V : Type}.
Variable cb : S -> list V -> V -> S * list V * ans.

(** The loop that re-reads the length and the element at every turn:
    builtins/array.rs:474-509 count, 622-672 to_h, 1885-1915 inject with a
    block, 3240-3280 all?/any?, 4720-4750 find_index, and array.rb:94 each,
    119 each_with_index, 128 map!, 140 map.  [log] is what the callback was
    given, in order. *)
Fixpoint each_loop (n : nat) (s : S) (l : list V) (i : Z) (log : list V)
  : out (S * list V * list V) :=
  match n with
  | O => Fuel
  | Datatypes.S m =>
    if zlen l <=? i then Fin (s, l, log)
    else match at_ l i with
         | None => Panics
         | Some v =>
           match cb s l v with
           | (s1, l1, Raise) => Raised (s1, l1, log ++ [v])
           | (s1, l1, _) => each_loop m s1 l1 (i + 1) (log ++ [v])
           end
         end
  end.

(** builtins/array.rs:4743-4750 find_index with a block *)
Fixpoint index_loop (n : nat) (s : S) (l : list V) (i : Z) : out (S * list V * option Z) :=
  match n with
  | O => Fuel
  | Datatypes.S m =>
    if zlen l <=? i then Fin (s, l, None)
    else match at_ l i with
         | None => Panics
         | Some v =>
           match cb s l v with
           | (s1, l1, Raise) => Raised (s1, l1, None)
           | (s1, l1, Yes) => Fin (s1, l1, Some i)
           | (s1, l1, No) => index_loop m s1 l1 (i + 1)
           end
         end
  end.

(** builtins/array.rs:2862-2925 retain_with_block (delete_if, reject!,
    keep_if, select!, filter!).  [shift_down] is the copying loop of the
    error branch.  [ary.len() - del] wraps when the block emptied the array
    and [truncate] to the wrapped length changes nothing (the optimised
    build; the debug build panics there). *)
Fixpoint shift_down (n : nat) (l : list V) (j del : Z) : res (list V) :=
  match n with
  | O => Ok l
  | Datatypes.S m =>
    match at_ l j with
    | None => Panic
    | Some v => l1 <- put l (j - del) v ;; shift_down m l1 (j + 1) del
    end
  end.
Definition cut_back (l : list V) (del : Z) : list V :=
  if zlen l <? del then l else truncate l (zlen l - del).

Fixpoint retain_block (n : nat) (negate : bool) (s : S) (l : list V) (i del : Z)
  : out (S * list V * bool) :=
  match n with
  | O => Fuel
  | Datatypes.S m =>
    if zlen l <=? i then
      if 0 <? del then Fin (s, cut_back l del, true) else Fin (s, l, false)
    else match at_ l i with
         | None => Panics
         | Some v =>
           match cb s l v with
           | (s1, l1, Raise) =>
             if 0 <? del then
               match shift_down (Z.to_nat (zlen l1 - i)) l1 i del with
               | Ok l2 => Raised (s1, cut_back l2 del, true)
               | _ => Panics
               end
             else Raised (s1, l1, false)
           | (s1, l1, a) =>
             let keep := match a with Yes => negb negate | _ => negate end in
             if keep then
               if 0 <? del then
                 match at_ l1 i with
                 | None => Panics
                 | Some w =>
                   match put l1 (i - del) w with
                   | Ok l2 => retain_block m negate s1 l2 (i + 1) del
                   | _ => Panics
                   end
                 end
               else retain_block m negate s1 l1 (i + 1) del
             else retain_block m negate s1 l1 (i + 1) (del + 1)
           end
         end
  end.

(** The array (its index bounds known) as a slice iterator sees it.  Rust
    borrows the buffer at the start of the loop and reads it to the length of
    that time: builtins/array.rs:1840-1848 zip with a block, 2455-2470 and
    2491-2506 min and max, 2530-2570 minmax, 1957-1959 inject(sym).  A buffer
    is named by a number; an array that grows past its buffer gets another
    one (with at most 5 elements the elements are in the object itself, and
    its words are overwritten by the pointer and the length of the heap
    buffer).  Reading a buffer the array has left, or a position the array
    has given up, is [HUnsafe]: the words there are no live values. *)
Record hary := { h_id : nat; h_cont : list V }.
Inductive hout (A : Type) := HFin (a : A) | HRaised (a : A) | HUnsafe.
Arguments HFin {A}. Arguments HRaised {A}. Arguments HUnsafe {A}.

Variable hcb : S -> hary -> V -> S * hary * bool.

Fixpoint held_loop (n : nat) (s : S) (a : hary) (id : nat) (i : Z) (log : list V)
  : hout (S * hary * list V) :=
  match n with
  | O => HFin (s, a, log)
  | Datatypes.S m =>
    if negb (Nat.eqb id (h_id a)) then HUnsafe
    else match at_ (h_cont a) i with
         | None => HUnsafe
         | Some v =>
           match hcb s a v with
           | (s1, a1, true) => HRaised (s1, a1, log ++ [v])
           | (s1, a1, false) => held_loop m s1 a1 id (i + 1) (log ++ [v])
           end
         end
  end.
Definition held (s : S) (a : hary) (start : nat) : hout (S * hary * list V) :=
  held_loop (length (h_cont a) - start) s a (h_id a) (Z.of_nat start) [].

End It.
Arguments h_id {V}. Arguments h_cont {V}. Arguments Build_hary {V}.
Arguments HFin {A}. Arguments HRaised {A}. Arguments HUnsafe {A}.

Section Fill.
Context {S V : Type}.
(** builtins/array.rs:1628-1631 fill with a block: the callback is given the
    index and answers a value, or raises *)
Variable fcb : S -> list V -> Z -> S * list V * option V.
Fixpoint fill_block (n : nat) (s : S) (l : list V) (i : Z) : out (S * list V) :=
  match n with
  | O => Fin (s, l)
  | Datatypes.S m =>
    match fcb s l i with
    | (s1, l1, None) => Raised (s1, l1)
    | (s1, l1, Some v) =>
      match put l1 i v with
      | Ok l2 => fill_block m s1 l2 (i + 1)
      | _ => Panics
      end
    end
  end.
End Fill.

Section Prod.
Context {S V : Type}.
(** builtins/array.rs:3698-3723 and 3685-3690 product with a block: the
    lengths are taken once, the elements are read at every turn *)
Variable pcb : S -> list (list V) -> list V -> S * list (list V) * bool.
Fixpoint prod_at (rev_arrays : list (list V)) (rev_dims : list Z) (k : Z) (acc : list V)
  : res (list V) :=
  match rev_arrays, rev_dims with
  | a :: ra, d :: rd =>
    match at_ a (k mod d) with
    | None => Panic
    | Some v => prod_at ra rd (k / d) (v :: acc)
    end
  | _, _ => Ok acc
  end.
Fixpoint prod_block (n : nat) (s : S) (arrays : list (list V)) (dims : list Z) (k : Z)
  : out (S * list (list V)) :=
  match n with
  | O => Fin (s, arrays)
  | Datatypes.S m =>
    match prod_at (rev arrays) (rev dims) k [] with
    | Ok row =>
      match pcb s arrays row with
      | (s1, a1, true) => Raised (s1, a1)
      | (s1, a1, false) => prod_block m s1 a1 dims (k + 1)
      end
    | _ => Panics
    end
  end.
Definition product_block (s : S) (arrays : list (list V)) : out (S * list (list V)) :=
  let dims := map zlen arrays in
  let total := if existsb (fun d => d =? 0) dims then 0 else fold_left Z.mul dims 1 in
  prod_block (Z.to_nat total) s arrays dims 0.
End Prod.
