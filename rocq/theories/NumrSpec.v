(** What the divisions and step of Numeric are to answer. *)
From Coq Require Import ZArith QArith List Bool.
From Verif Require Import NumrModel.
Import ListNotations.

(** A number between 0 and b, b left out. *)
Definition between (r b : Q) : Prop := (0 <= r /\ r < b) \/ (b < r /\ r <= 0).
(** Not of the opposite sign of a. *)
Definition along (r a : Q) : Prop := (0 <= a -> 0 <= r) /\ (a <= 0 -> r <= 0).
(** Nearer to 0 than b. *)
Definition nearer (r b : Q) : Prop := (0 < b -> - b < r /\ r < b) /\ (b < 0 -> b < r /\ r < - b).

(** How many values there are from a to l by s, both ways. *)
Definition steps (a l s : Z) : nat :=
  Z.to_nat (if (0 <? s)%Z then (l - a) / s + 1 else (a - l) / (- s) + 1).
(** The first n of a, a + s, ... *)
Definition progression (a s : Z) (n : nat) : list Z := map (fun k => (a + Z.of_nat k * s)%Z) (seq 0 n).
