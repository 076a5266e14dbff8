(** What a Ruby program expects from value words: the values themselves,
    with no reference to any bit encoding. *)
From Coq Require Import ZArith List.
Open Scope Z_scope.

(** The values that may sit in one machine word: the three singletons, small
    integers, symbols, floats kept inline, and references to heap cells. *)
Inductive rvalue :=
| VNil | VTrue | VFalse
| VInt (z : Z)
| VSym (n : Z)
| VFloat (bits : Z)
| VRef (addr : Z).

(** The ranges named in the property: 63-bit integers, symbol numbers below
    2^32, 8-byte aligned non-null addresses, 64-bit float patterns. *)
Definition rvalue_ok (v : rvalue) : Prop :=
  match v with
  | VNil | VTrue | VFalse => True
  | VInt z => - 2 ^ 62 <= z < 2 ^ 62
  | VSym n => 0 <= n < 2 ^ 32
  | VFloat b => 0 <= b < 2 ^ 64
  | VRef a => 0 < a < 2 ^ 64 /\ a mod 8 = 0
  end.

(** Ruby's truth test. *)
Definition truthy (v : rvalue) : bool :=
  match v with VNil | VFalse => false | _ => true end.
