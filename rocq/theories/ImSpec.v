(** What Ruby promises about the Integer methods of ImModel, without looking
    at how they are computed. *)
From Coq Require Import ZArith Bool List.
From Verif Require Import IntModel ImModel.
Import ListNotations.
Open Scope Z_scope.

(** The call returns the Integer [z], in its canonical representation. *)
Definition is_int (n : num) (z : Z) : Prop := ival n = z /\ canonical n.
Definition returns (r : res num) (z : Z) : Prop := exists n, r = Ok n /\ is_int n z.

(** [x] consists of the [w] two's complement bits of [n] from position [s]
    on (positions below 0 read 0), followed by zeros. *)
Definition is_bits (n s w x : Z) : Prop :=
  forall i, 0 <= i -> Z.testbit x i = (i <? w) && Z.testbit n (s + i).
(** [x] consists of all the bits of [n] from position [s] on. *)
Definition is_tail (n s x : Z) : Prop :=
  forall i, 0 <= i -> Z.testbit x i = Z.testbit n (s + i).

(** [r] is the multiple of [d] next to [n] below, above, towards zero. *)
Definition is_floor_to (d n r : Z) : Prop := (d | r) /\ r <= n < r + d.
Definition is_ceil_to (d n r : Z) : Prop := (d | r) /\ r - d < n <= r.
Definition is_trunc_to (d n r : Z) : Prop :=
  (d | r) /\ Z.abs r <= Z.abs n < Z.abs r + d /\ 0 <= r * n.

(** [r] is a nearest multiple of [d], and of two equally near ones the one
    the mode asks for. *)
Definition is_round_to (h : half) (d n r : Z) : Prop :=
  exists q, r = q * d /\ 2 * Z.abs (n - r) <= d /\
    (2 * Z.abs (n - r) = d ->
     match h with
     | HUp => Z.abs n <= Z.abs r
     | HDown => Z.abs r <= Z.abs n
     | HEven => Z.even q = true
     end).

(** [k] is the number of bits of [n] without the sign bit. *)
Definition is_bit_length (n k : Z) : Prop :=
  0 <= k /\ - 2 ^ k <= n < 2 ^ k /\ (0 < k -> ~ (- 2 ^ (k - 1) <= n < 2 ^ (k - 1))).

(** Positional value of a list of digits, least significant first. *)
Fixpoint value_of (base : Z) (ds : list Z) : Z :=
  match ds with [] => 0 | d :: ds => d + base * value_of base ds end.
(** The digits of [n]: in range, worth [n], no leading zero. *)
Definition is_digits (base n : Z) (ds : list Z) : Prop :=
  Forall (fun d => 0 <= d < base) ds /\ value_of base ds = n /\
  (ds = [0] \/ last ds 0 <> 0).

(** Integer square root. *)
Definition is_isqrt (n r : Z) : Prop := 0 <= r /\ r * r <= n < (r + 1) * (r + 1).
