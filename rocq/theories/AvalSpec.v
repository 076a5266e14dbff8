(** What Ruby says of values_at, fetch_values, assoc, rassoc and tally. *)
From Coq Require Import ZArith List Bool.
From Verif Require Import AvalModel.
Import ListNotations.
Local Open Scope Z_scope.

(** The position that an index names, if there is one. *)
Definition position (len z : Z) : option nat :=
  if (0 <=? z) && (z <? len) then Some (Z.to_nat z)
  else if (- len <=? z) && (z <? 0) then Some (Z.to_nat (z + len)) else None.

Definition elem_at {V : Type} (nil : V) (l : list V) (z : Z) : V :=
  match position (Z.of_nat (length l)) z with Some p => nth p l nil | None => nil end.

(** The first position of a Range and the one after its last; None if it begins before the Array. *)
Definition range_from (len : Z) (b : option Z) : option Z :=
  match b with
  | None => Some 0
  | Some b => if 0 <=? b then Some b else if 0 <=? b + len then Some (b + len) else None
  end.
Definition range_to (len : Z) (e : option Z) (x : bool) : Z :=
  match e with
  | None => len
  | Some e => (if 0 <=? e then e else e + len) + (if x then 0 else 1)
  end.

(** One selector; None is RangeError. *)
Definition ruby_sel {V : Type} (nil : V) (l : list V) (s : sel) : option (list V) :=
  match s with
  | Ix z => Some [elem_at nil l z]
  | Rg b e x =>
      let len := Z.of_nat (length l) in
      match range_from len b with
      | None => None
      | Some from => Some (map (fun p => nth p l nil) (seq (Z.to_nat from) (Z.to_nat (range_to len e x - from))))
      end
  end.
Fixpoint ruby_values_at {V : Type} (nil : V) (l : list V) (ss : list sel) : option (list V) :=
  match ss with
  | [] => Some []
  | s :: r =>
      match ruby_sel nil l s, ruby_values_at nil l r with
      | Some a, Some b => Some (a ++ b)
      | _, _ => None
      end
  end.

(** fetch_values: the elements, or the block's answers; None is IndexError. *)
Definition fetched {V : Type} (nil : V) (g : option (Z -> V)) (l : list V) (z : Z) : option V :=
  match position (Z.of_nat (length l)) z, g with
  | Some p, _ => Some (nth p l nil)
  | None, Some g => Some (g z)
  | None, None => None
  end.

(** assoc and rassoc: the outer None is TypeError. *)
Fixpoint ruby_assoc (k : nat) (key : Z) (es : list elem) : option (option (list Z)) :=
  match es with
  | [] => Some None
  | EConvOther :: _ => None
  | (EArr l | EConv l) :: r =>
      match nth_error l k with
      | Some v => if v =? key then Some (Some l) else ruby_assoc k key r
      | None => ruby_assoc k key r
      end
  | _ :: r => ruby_assoc k key r
  end.

(** How often x is in l. *)
Definition times (x : Z) (l : list Z) : Z := Z.of_nat (count_occ Z.eq_dec l x).
(** The elements, each at its first place. *)
Fixpoint firsts (seen l : list Z) : list Z :=
  match l with
  | [] => []
  | x :: r => if existsb (Z.eqb x) seen then firsts seen r else x :: firsts (x :: seen) r
  end.
