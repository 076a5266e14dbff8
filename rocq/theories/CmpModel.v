(** Model of Integer/Float comparison.
    Source: /repo/monoruby/src/executor/op.rs:14-45 ([bigint_cmp_float]),
    56-170 ([cmp_values!]), 238-270 ([eq_values_vis_raw]),
    790-830 ([compare_values_inner]).
    A finite double is a pair (m, e) standing for m*2^e; IEEE comparison and
    [trunc] are modelled by exact arithmetic on such pairs, [as f64] by
    round-to-nearest, ties to even, to 53 significant bits. *)
From Coq Require Import ZArith Bool.
From Verif Require Import IntModel.
Open Scope Z_scope.

Inductive flt := FNaN | FInf (neg : bool) | FFin (m e : Z).

(** Rust [z as f64] for an i64 (the result is an integer). *)
Definition as_f64 (z : Z) : Z :=
  let a := Z.abs z in
  if a <? 2 ^ 53 then z
  else
    let k := Z.log2 a - 52 in
    let q := a / 2 ^ k in
    let r := a mod 2 ^ k in
    let h := 2 ^ (k - 1) in
    let q' := if r <? h then q
              else if h <? r then q + 1
              else if Z.odd q then q + 1 else q in
    Z.sgn z * (q' * 2 ^ k).

(** [f64::partial_cmp] of an integral double with any double. *)
Definition f64_cmp (x : Z) (f : flt) : option comparison :=
  match f with
  | FNaN => None
  | FInf neg => Some (if neg then Gt else Lt)
  | FFin m e => Some (if 0 <=? e then x ?= m * 2 ^ e else x * 2 ^ (- e) ?= m)
  end.

(** [f64::trunc] followed by [BigInt::from_f64]. *)
Definition f64_trunc (m e : Z) : Z :=
  if 0 <=? e then m * 2 ^ e else Z.quot m (2 ^ (- e)).

(** [f - f.trunc()] scaled by 2^(-e): the fraction has the sign of this. *)
Definition f64_frac (m e : Z) : Z :=
  if 0 <=? e then 0 else m - Z.quot m (2 ^ (- e)) * 2 ^ (- e).

(** op.rs:14-45 [bigint_cmp_float]. *)
Definition bigint_cmp_float (b : Z) (f : flt) : option comparison :=
  match f with
  | FNaN => None
  | FInf neg => if neg then Some Gt else Some Lt
  | FFin m e =>
      match b ?= f64_trunc m e with
      | Gt => Some Gt
      | Lt => Some Lt
      | Eq => if 0 <? f64_frac m e then Some Lt
              else if f64_frac m e <? 0 then Some Gt else Some Eq
      end
  end.

(** The Integer/Float arms of [compare_values_inner] (op.rs:802-816);
    [cmp_values!] and [eq_values_vis_raw] apply their operator to the same
    comparison. *)
Definition int_cmp_float (n : num) (f : flt) : option comparison :=
  match n with
  | NFix z => f64_cmp (as_f64 z) f
  | NBig z => bigint_cmp_float z f
  end.
Definition float_cmp_int (f : flt) (n : num) : option comparison :=
  option_map CompOpp (int_cmp_float n f).

(** op.rs:96-106: the five operators on top of an ordering ([None]: NaN). *)
Inductive cop := Clt | Cle | Cgt | Cge | Ceq.
Definition apply_cop (o : cop) (c : option comparison) : bool :=
  match c, o with
  | None, _ => false
  | Some Lt, (Clt | Cle) => true
  | Some Eq, (Cle | Cge | Ceq) => true
  | Some Gt, (Cgt | Cge) => true
  | Some _, _ => false
  end.
Definition int_op_float (o : cop) (n : num) (f : flt) : bool := apply_cop o (int_cmp_float n f).
Definition float_op_int (o : cop) (f : flt) (n : num) : bool := apply_cop o (float_cmp_int f n).
