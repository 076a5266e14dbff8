(** What a range of numbers contains, and the order in which Floats lie. *)
From Coq Require Import List Bool ZArith QArith.
From Verif Require Import RangeModel.
Import ListNotations.
Local Open Scope Q_scope.

Definition value (n : num) : option Q := match n with I z => Some (inject_Z z) | F q => Some q | _ => None end.
Definition from_ok (b : option num) (x : Q) : Prop :=
  match b with
  | None => True
  | Some (I z) => inject_Z z <= x
  | Some (F q) => q <= x
  | Some (Inf neg) => neg = true
  | Some NaN => False
  end.
Definition to_ok (e : option num) (ex : bool) (x : Q) : Prop :=
  match e with
  | None => True
  | Some (I z) => if ex then x < inject_Z z else x <= inject_Z z
  | Some (F q) => if ex then x < q else x <= q
  | Some (Inf neg) => neg = false
  | Some NaN => False
  end.
(** The number [x] lies in the range. *)
Definition inside (r : range) (x : Q) : Prop := from_ok (beg r) x /\ to_ok (fin r) (excl r) x.
Definition has (r : range) (z : Z) : Prop := inside r (inject_Z z).
Definition inhabited (r : range) : Prop := exists x, inside r x.
(** Both ends are finite numbers or absent. *)
Definition plain (n : option num) : bool := match n with None | Some (I _) | Some (F _) => true | _ => false end.
Definition finite (r : range) : bool := plain (beg r) && plain (fin r).

Local Open Scope Z_scope.
(** The block of a search for the least element: false below some point, true from there on. *)
Definition boolean (p : Z -> verdict) : Prop := forall z, p z = Sat \/ p z = Unsat.
Definition rising (p : Z -> verdict) : Prop := boolean p /\ forall x y, x <= y -> p x = Sat -> p y = Sat.
(** The block of a search for any element: positive below, zero inside and negative above some interval. *)
Definition rank (v : verdict) : Z := match v with Greater => 0 | Equal => 1 | _ => 2 end.
Definition signs (p : Z -> verdict) : Prop :=
  (forall z, p z = Greater \/ p z = Equal \/ p z = Less) /\ forall x y, x <= y -> rank (p x) <= rank (p y).
Definition between (b e : option Z) (ex : bool) (z : Z) : Prop :=
  match b with Some b => b <= z | None => True end /\
  match e with Some e => if ex then z < e else z <= e | None => True end.

(** The value of a finite Float, in units of the least one. *)
Definition mag (m : Z) : Z := if m <? 2 ^ 52 then m else (2 ^ 52 + m mod 2 ^ 52) * 2 ^ (m / 2 ^ 52 - 1).
Definition fval (bits : Z) : Z := if bits <? 2 ^ 63 then mag bits else - mag (bits - 2 ^ 63).
Definition float (bits : Z) : Prop := 0 <= bits < 2 ^ 64.

(** [n] numbers from [b] on in steps of [s] *)
Fixpoint run (b s : Z) (n : nat) : list Z := match n with O => [] | S n => b :: run (b + s) s n end.
(** A loop yields members in order from [b]; once it has ended it has yielded them all; until then one per round. *)
Definition walk (fuel : nat) (b s : Z) (member : Z -> Prop) (o : out) : Prop :=
  match o with
  | Raise => False
  | Done l => l = run b s (length l) /\ forall z, In z l <-> member z
  | More l => l = run b s fuel /\ forall z, In z l -> member z
  end.
Definition bounded (r : range) : Prop := exists m, forall z, has r z -> z <= m.
