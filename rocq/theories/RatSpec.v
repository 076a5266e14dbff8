(** Specification of Rational arithmetic, rounding and rationalize over Q. *)
From Coq Require Import ZArith QArith Qpower Qabs.
From Verif Require Import RatModel.
Open Scope Q_scope.

(** Lowest terms and the number denoted. *)
Definition lowest (r : rat) : Prop := (0 < den r)%Z /\ Z.gcd (num r) (den r) = 1%Z.
Definition qof (r : rat) : Q := num r # Z.to_pos (den r).

(** Expressions over Rationals. *)
Inductive expr :=
| EInt (i : Z)
| ERational (a b : Z)
| EAdd (x y : expr) | ESub (x y : expr) | EMul (x y : expr) | EDiv (x y : expr)
| ENeg (x : expr) | EAbs (x : expr)
| EPow (x : expr) (e : Z).
Fixpoint eval (x : expr) : res rat :=
  match x with
  | EInt i => new i 1
  | ERational a b => kernel_rational a b
  | EAdd x y => bind (eval x) (fun a => bind (eval y) (add a))
  | ESub x y => bind (eval x) (fun a => bind (eval y) (sub a))
  | EMul x y => bind (eval x) (fun a => bind (eval y) (mul a))
  | EDiv x y => bind (eval x) (fun a => bind (eval y) (div a))
  | ENeg x => bind (eval x) (fun a => Ok (neg a))
  | EAbs x => bind (eval x) (fun a => Ok (abs a))
  | EPow x e => bind (eval x) (fun a => pow a e)
  end.
(** [None]: division by zero somewhere. *)
Definition two (f : Q -> Q -> option Q) (x y : option Q) : option Q := match x, y with Some a, Some b => f a b | _, _ => None end.
Fixpoint qeval (x : expr) : option Q :=
  match x with
  | EInt i => Some (inject_Z i)
  | ERational a b => if Z.eqb b 0 then None else Some (inject_Z a / inject_Z b)
  | EAdd x y => two (fun a b => Some (a + b)) (qeval x) (qeval y)
  | ESub x y => two (fun a b => Some (a - b)) (qeval x) (qeval y)
  | EMul x y => two (fun a b => Some (a * b)) (qeval x) (qeval y)
  | EDiv x y => two (fun a b => if Qeq_bool b 0 then None else Some (a / b)) (qeval x) (qeval y)
  | ENeg x => option_map Qopp (qeval x)
  | EAbs x => option_map Qabs (qeval x)
  | EPow x e => match qeval x with
                | Some a => if (Qeq_bool a 0 && (e <? 0)%Z)%bool then None else Some (a ^ e)
                | None => None
                end
  end.
Fixpoint small_powers (x : expr) : Prop :=
  match x with
  | EInt _ | ERational _ _ => True
  | EAdd x y | ESub x y | EMul x y | EDiv x y => small_powers x /\ small_powers y
  | ENeg x | EAbs x => small_powers x
  | EPow x e => small_powers x /\ (- 2 ^ 32 < e < 2 ^ 32)%Z
  end.

(** The unit of rounding to [nd] decimal digits and its multiples. *)
Definition unit (nd : Z) : Q := 10 ^ (- nd).
Definition floor_of (u x y : Q) : Prop := (exists m : Z, y == inject_Z m * u) /\ y <= x /\ x < y + u.
Definition ceil_of (u x y : Q) : Prop := (exists m : Z, y == inject_Z m * u) /\ x <= y /\ y < x + u.
Definition trunc_of (u x y : Q) : Prop := (0 <= x -> floor_of u x y) /\ (x < 0 -> ceil_of u x y).
(** A nearest multiple; on a tie away from zero, toward zero or the even one. *)
Definition round_of (u x y : Q) (h : half) : Prop :=
  exists m : Z, y == inject_Z m * u /\ 2 * Qabs (x - y) <= u /\
    (2 * Qabs (x - y) == u -> match h with
                            | Up => Qabs x < Qabs y
                            | Down => Qabs y < Qabs x
                            | Even => Z.Even m
                            end).
(** Integer for nd <= 0, a Rational in lowest terms otherwise. *)
Definition shaped (nd : Z) (o : rounded) (P : Q -> Prop) : Prop :=
  match o with
  | RInt i => (nd <= 0)%Z /\ P (inject_Z i)
  | RRat r => (0 < nd)%Z /\ lowest r /\ P (qof r)
  end.

(** [y] is within [eps] of [x] and every such fraction p/q has a denominator and
    an absolute numerator at least as large. *)
Definition simplest (x eps : Q) (y : rat) : Prop :=
  lowest y /\ Qabs (qof y - x) <= eps /\
  forall (p : Z) (q : positive), Qabs ((p # q) - x) <= eps -> (den y <= Zpos q)%Z /\ (Z.abs (num y) <= Z.abs p)%Z.
