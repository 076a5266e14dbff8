(** Blocks given to the methods of Hash.

    Modelled: /repo/monoruby/builtins/hash.rb:297-338 (any?, all?, count) and 388-414
    (flat_map, min_by), with blocks of one and of two parameters. A block
    of two parameters takes apart a single pair; a block of one parameter takes
    the first of two arguments (the rule of Ruby for blocks that are
    not lambdas). Blocks are functions. *)
From Coq Require Import ZArith List Bool.
From Verif Require Import StructModel DataModel HrbModel.
Import ListNotations.
Local Open Scope Z_scope.

(** What a single parameter holds. *)
Inductive arg := Whole (k : Z) (v : val) | Only (k : Z).
Inductive block (A : Type) := One (f : arg -> A) | Two (f : Z -> val -> A).
Arguments One {A}. Arguments Two {A}.

(** yield([k, v]) *)
Definition yield_pair {A} (b : block A) (e : Z * val) : A :=
  match b with One f => f (Whole (fst e) (snd e)) | Two f => f (fst e) (snd e) end.
(** yield(k, v) *)
Definition yield_two {A} (b : block A) (e : Z * val) : A :=
  match b with One f => f (Only (fst e)) | Two f => f (fst e) (snd e) end.

(** any? and all? with a block, and without arguments *)
Fixpoint any_block (b : block bool) (h : hash) : bool :=
  match h with [] => false | e :: r => if yield_pair b e then true else any_block b r end.
Fixpoint all_block (b : block bool) (h : hash) : bool :=
  match h with [] => true | e :: r => if yield_pair b e then all_block b r else false end.
Definition any_plain (h : hash) : bool := match h with [] => false | _ => true end.

(** count: the block is asked first, then the argument; eq compares a pair with the argument. *)
Fixpoint tally (p : Z * val -> bool) (h : hash) (n : Z) : Z :=
  match h with [] => n | e :: r => tally p r (if p e then n + 1 else n) end.
Definition count (b : option (block bool)) (eq : option (Z * val -> bool)) (h : hash) : Z :=
  match b, eq with
  | Some b, _ => tally (yield_pair b) h 0
  | None, None => Z.of_nat (length h)
  | None, Some p => tally p h 0
  end.

(** flat_map: the answers of the block are Arrays, objects with to_ary, or others. *)
Inductive answer := AArr (l : list val) | AToAry (l : list val) | AVal (v : val).
Definition obj_of (l : list val) : val := VObj (Z.of_nat (length l)).
Fixpoint flat_loop (b : block answer) (h : hash) (out : list val) : list val :=
  match h with
  | [] => out
  | e :: r =>
      flat_loop b r (match yield_two b e with
                     | AArr l => out ++ l
                     | AToAry l => out ++ [obj_of l]
                     | AVal v => out ++ [v]
                     end)
  end.
Definition flat_map_block (b : block answer) (h : hash) : list val := flat_loop b h [].

(** min_by: the block gets two arguments. *)
Definition min_by_block (b : block Z) (h : hash) : res (option (Z * val)) := min_by (fun e => Some (yield_two b e)) h.
