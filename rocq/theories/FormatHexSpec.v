(** Numbers in base 16. *)
From Coq Require Import List Bool ZArith.
From Verif Require Import FormatModel FormatSpec FormatHexModel.
Import ListNotations.
Open Scope Z_scope.

(** A float as [(2^52 + r) * 2^e / 2^52], [0 <= r < 2^52]; its value times [2^1074] is given by the fields. *)
Definition scaled (raw m : Z) : Z := if raw =? 0 then m else (2 ^ 52 + m) * 2 ^ (raw - 1).
Definition finite (raw m : Z) : Prop := 0 <= raw < 2047 /\ 0 <= m < 2 ^ 52 /\ (raw <> 0 \/ m <> 0).
(** The number written, [worth 16 (lead :: ds) / 16^|ds|], against [s / 2^52]: both times [2^52 * 16^|ds|]. *)
Definition off (lead : Z) (ds : list Z) (s : Z) : Z := worth 16 (lead :: ds) * 2 ^ 52 - s * 16 ^ len ds.
(** The carry runs out of the digits. *)
Definition runs_out (m : Z) (prec : option Z) : bool :=
  match prec with Some p => (0 <? p) && (p <? 13) && forallb (Z.eqb 15) (firstn (Z.to_nat p) (fixed 13 m)) && (8 <=? nth (Z.to_nat p) (fixed 13 m) 0) | None => false end.
(** Reading such a text. *)
Definition unhex (c : Z) : Z := if c <=? 57 then c - 48 else if c <=? 70 then c - 55 else c - 87.
Definition is_hex (c : Z) : bool := (48 <=? c) && (c <=? 57) || (65 <=? c) && (c <=? 70) || (97 <=? c) && (c <=? 102).
Fixpoint hex_span (l : text) : text * text :=
  match l with c :: r => if is_hex c then let '(a, b) := hex_span r in (c :: a, b) else ([], l) | [] => ([], []) end.
Definition read_hex (upper : bool) (t : text) : option (Z * list Z * Z) :=
  match t with
  | 48 :: x :: l :: r =>
      if negb (x =? if upper then 88 else 120) || existsb (fun c => if upper then (97 <=? c) && (c <=? 122) else (65 <=? c) && (c <=? 90)) t then None
      else let '(ds, r) := match r with 46 :: r => hex_span r | _ => ([], r) end in
           match r with
           | p :: s :: r => if p =? (if upper then 80 else 112) then Some (unhex l, map unhex ds, (if s =? 45 then -1 else 1) * worth 10 (map unhex r)) else None
           | _ => None
           end
  | _ => None
  end.
