(** String's methods written in Ruby.

    Modelled: /repo/monoruby/builtins/string.rb:7-17 (insert), 19-24 (concat), 27-32 (prepend), 34-41 (chop),
    50-57 (delete_suffix), 70-88 and 90-116 (partition and rpartition with a String). A String is a list of characters, which are
    Integers; encodings and conversions of arguments are not modelled. index, rindex, end_with?, [] and []= are native and are
    taken as Ruby says. *)
From Coq Require Import ZArith List Bool.
Import ListNotations.
Local Open Scope Z_scope.

Definition str := list Z.

(** insert; Bad z is IndexError with the index z in its message. *)
Inductive ins := Good (s : str) | Bad (z : Z).
Definition insert (s : str) (index : Z) (o : str) : ins :=
  let size := Z.of_nat (length s) in
  let index := if index <? 0 then size + 1 + index else index in
  if (index <? 0) || (size <? index) then Bad index
  else Good (firstn (Z.to_nat index) s ++ o ++ skipn (Z.to_nat index) s).

(** An argument of concat and prepend: the receiver itself, or another String. *)
Inductive arg := Self | Other (s : str).
Definition value (self : str) (a : arg) : str := match a with Self => self | Other s => s end.
Definition concat_ (s : str) (args : list arg) : str := fold_left (fun s a => s ++ value s a) args s.
Definition prepend (s : str) (args : list arg) : str := fold_left (fun s a => value s a ++ s) (rev args) s.

(** self[-1] and self[-2] are looked at in the reversed list. *)
Definition chop (s : str) : str :=
  match rev s with
  | [] => []
  | x :: y :: r => if (x =? 10) && (y =? 13) then rev r else rev (y :: r)
  | _ :: r => rev r
  end.

Fixpoint eqs (a b : str) : bool :=
  match a, b with
  | [], [] => true
  | x :: a, y :: b => (x =? y) && eqs a b
  | _, _ => false
  end.
Definition end_with (s suf : str) : bool :=
  Nat.leb (length suf) (length s) && eqs (skipn (length s - length suf) s) suf.
Definition delete_suffix (s suf : str) : str :=
  if end_with s suf then firstn (length s - length suf) s else s.

(** sep is at the beginning of s *)
Fixpoint starts (sep s : str) : bool :=
  match sep, s with
  | [], _ => true
  | x :: a, y :: b => (x =? y) && starts a b
  | _, _ => false
  end.
Fixpoint index (s sep : str) : option nat :=
  if starts sep s then Some O
  else match s with [] => None | _ :: r => option_map S (index r sep) end.
Fixpoint rindex (s sep : str) : option nat :=
  match s with
  | [] => if starts sep [] then Some O else None
  | _ :: r => match rindex r sep with
              | Some i => Some (S i)
              | None => if starts sep s then Some O else None
              end
  end.
Definition partition (s sep : str) : str * str * str :=
  match index s sep with
  | Some i => (firstn i s, sep, skipn (i + length sep) s)
  | None => (s, [], [])
  end.
Definition rpartition (s sep : str) : str * str * str :=
  match rindex s sep with
  | Some i => (firstn i s, sep, skipn (i + length sep) s)
  | None => ([], [], s)
  end.
