(** Values as Hash keys: what must hold of eql? and the digest. *)
From Coq Require Import ZArith List Bool.
Import ListNotations.

(** A value, as far as eql? and the digest look at it.  Cyclic containers, and
    objects with their own eql?/hash methods, are not represented. *)
Inductive kval :=
| Packed (w : Z)               (* immediate: the tagged word *)
| Big (n : Z)                  (* BIGNUM *)
| HFloat (bits : Z)            (* heap FLOAT, as its 64 bits *)
| Str (bytes : list Z)
| Arr (l : list kval)
| Rng (a b : kval) (excl : bool)
| Hsh (l : list (kval * kval)) (* pairs in insertion order *)
| Obj (id : Z).                (* object inheriting Kernel#hash and eql? *)

(** Digest law: eql? values feed the same digest, so a table keyed on one finds
    it with the other. *)
Definition digest_law {T} (eql : kval -> kval -> bool) (stream : kval -> T) (dom : kval -> Prop) : Prop :=
  forall x y, dom x -> dom y -> eql x y = true -> stream x = stream y.

(** No Hash with two or more pairs anywhere inside. *)
Fixpoint small (v : kval) : bool :=
  match v with
  | Arr l => forallb small l
  | Rng a b _ => small a && small b
  | Hsh [] => true
  | Hsh [(k, x)] => small k && small x
  | Hsh _ => false
  | _ => true
  end.
