(** What random_number is to answer. *)
From Coq Require Import ZArith List Bool.
From Verif Require Import RndfModel.
Local Open Scope Z_scope.

(** The draws of k bytes. *)
Definition draw_of (k d : Z) : Prop := 0 <= d < 2 ^ (8 * k).

(** In Ruby an Integer that is not positive gives a Float. *)
Definition is_float (a : answer) : Prop := exists m, a = AFloat m /\ 0 <= m < 2 ^ 53.
