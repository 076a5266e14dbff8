(** What lazy chains should give: what the methods of Enumerable give one after
    the other. *)
From Coq Require Import ZArith List Bool.
From Verif Require Import LazyModel.
Import ListNotations.
Local Open Scope Z_scope.

Fixpoint take_while {A} (p : A -> bool) (l : list A) : list A :=
  match l with [] => [] | x :: r => if p x then x :: take_while p r else [] end.
Fixpoint drop_while {A} (p : A -> bool) (l : list A) : list A :=
  match l with [] => [] | x :: r => if p x then drop_while p r else l end.
(** The first element of each key. *)
Fixpoint uniq {A K} (key : A -> K) (eqk : K -> K -> bool) (seen : list K) (l : list A) : list A :=
  match l with
  | [] => []
  | x :: r => if existsb (fun k => eqk k (key x)) seen then uniq key eqk seen r
              else x :: uniq key eqk (seen ++ [key x]) r
  end.
Fixpoint number {A B} (f : A -> Z -> B) (i : Z) (l : list A) : list B :=
  match l with [] => [] | x :: r => f x i :: number f (i + 1) r end.

(** The elements of an answer of flat_map: here, and in Ruby. *)
Definition flat {V} (a : answer V) : list V :=
  match a with AArray l => l | ALazy l => l | AToAry o _ => [o] | AOne o => [o] end.
Definition ruby_flat {V} (a : answer V) : list V :=
  match a with AArray l => l | ALazy l => l | AToAry _ l => l | AOne o => [o] end.

Definition eager1 {V} (st : stage V) (l : list V) : list V :=
  match st with
  | Map f => map f l
  | FlatMap f => flat_map (fun v => flat (f v)) l
  | Select p => filter p l
  | Reject p => filter (fun v => negb (p v)) l
  | FilterMap f => flat_map (fun v => match f v with Some w => [w] | None => [] end) l
  | Grep p f => map f (filter p l)
  | GrepV p f => map f (filter (fun v => negb (p v)) l)
  | Compact nilp => filter (fun v => negb (nilp v)) l
  | Uniq key eqk => uniq key eqk [] l
  | Take n => firstn (Z.to_nat n) l
  | TakeWhile p => take_while p l
  | Drop n => skipn (Z.to_nat n) l
  | DropWhile p => drop_while p l
  | WithIndex off mk => number mk off l
  | Zip row others => number (fun v i => row v (map (fun c => c (Z.to_nat i)) others)) 0 l
  end.

(** The last stage is the first of the list. *)
Fixpoint eager {V} (p : list (stage V)) (l : list V) : list V :=
  match p with [] => l | st :: up => eager1 st (eager up l) end.

(** take and drop refuse negative numbers. *)
Definition ok1 {V} (st : stage V) : Prop :=
  match st with Take n | Drop n => 0 <= n | _ => True end.
Definition ok {V} (p : list (stage V)) : Prop := Forall ok1 p.

(** The size that Ruby gives. *)
Fixpoint ruby_size {V} (p : list (stage V)) (src : option size) : option size :=
  match p with
  | [] => src
  | WithIndex _ _ :: up => ruby_size up src
  | st :: up => lsize [st] (ruby_size up src)
  end.
