(** Numeric's division and step, written in Ruby.

    Modelled: /repo/monoruby/builtins/numeric.rb:96-120 (div, modulo, remainder), 130-132 (divmod) for numbers of one class whose
    values are rationals with exact operations, so that coerce in remainder changes nothing; and the loop of step for
    Integers, 186-205 (a step of 0) and 283-294. The arguments of step are taken as sorted out: a limit or none, and a step. *)
From Coq Require Import ZArith QArith Qround List Bool.
Import ListNotations.

(** div; None is ZeroDivisionError. *)
Definition div (a b : Q) : option Z := if Qeq_bool b 0 then None else Some (Qfloor (a / b)).
Definition modulo (a b : Q) : option Q :=
  match div a b with None => None | Some d => Some (a - b * inject_Z d) end.
Definition divmod (a b : Q) : option (Z * Q) :=
  match div a b, modulo a b with Some d, Some m => Some (d, m) | _, _ => None end.

Definition qlt (a b : Q) : bool := negb (Qle_bool b a).
Definition remainder (a b : Q) : option Q :=
  match modulo a b with
  | None => None
  | Some m =>
      if Qeq_bool m 0 then Some m
      else if (qlt a 0 && qlt 0 b) || (qlt 0 a && qlt b 0) then Some (m - b)
      else Some m
  end.

(** The values given to the block of step in at most n rounds, and whether the loop has ended. *)
Fixpoint step_loop (n : nat) (limit : option Z) (step i : Z) : list Z * bool :=
  match n with
  | O => ([], false)
  | S n =>
      let more := match limit with
                  | None => true
                  | Some l => if (0 <? step)%Z then (i <=? l)%Z else (l <=? i)%Z
                  end in
      if more then match step_loop n limit step (i + step) with (r, e) => (i :: r, e) end
      else ([], true)
  end.
(** None is ArgumentError. *)
Definition step (n : nat) (self : Z) (limit : option Z) (by_ : Z) : option (list Z * bool) :=
  if (by_ =? 0)%Z then None else Some (step_loop n limit by_ self).
