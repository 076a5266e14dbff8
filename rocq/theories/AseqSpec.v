(** Arithmetic progressions, and the part of an array a stepped range names. *)
From Coq Require Import ZArith Bool List Floats.SpecFloat.
From Verif Require Import IntModel ImSpec AseqModel.
Import ListNotations.
Open Scope Z_scope.

Definition fixnum (z : Z) : Prop := - 2 ^ 62 <= z < 2 ^ 62.

(** [x] has not passed the end. *)
Definition within (s : Z) (excl : bool) (x e : Z) : Prop :=
  if 0 <? s then (if excl then x < e else x <= e) else (if excl then e < x else e <= x).
(** The progression has exactly [n] terms up to the end. *)
Definition is_count (b e s : Z) (excl : bool) (n : Z) : Prop :=
  0 <= n /\ forall k, 0 <= k -> (k < n <-> within s excl (b + k * s) e).

(** The [n] terms from index [start] on. *)
Definition terms (b s start n : Z) : list Z :=
  map (fun k => b + (start + Z.of_nat k) * s) (seq 0 (Z.to_nat n)).

(** A list of Integer objects with the given values. *)
Definition are_ints (r : ares (list aval)) (zs : list Z) : Prop :=
  exists l, r = AOk l /\ Forall2 (fun v z => exists n, v = AI n /\ is_int n z) l zs.

(** A sequence of fixnums. *)
Definition fixseq (b : Z) (e : option Z) (s : Z) (excl : bool) : aseq :=
  mkseq (Some (AI (NFix b))) (option_map (fun e => AI (NFix e)) e) (AI (NFix s)) excl.

(** ** Slices *)

(** Negative positions count from the end. *)
Definition pos (len x : Z) : Z := if x <? 0 then x + len else x.
(** The span of positions: lowest, and one above the highest. *)
Definition span_lo (len : Z) (b e : option Z) (s : Z) (excl : bool) : Z :=
  if 0 <? s then match b with Some b => pos len b | None => 0 end
  else match e with Some e => pos len e + (if excl then 1 else 0) | None => 0 end.
Definition span_hi (len : Z) (b e : option Z) (s : Z) (excl : bool) : Z :=
  if 0 <? s then match e with Some e => pos len e + (if excl then 0 else 1) | None => len end
  else match b with Some b => pos len b + 1 | None => len end.

(** [r] holds the elements of [l] at [lo], [lo+s], ... below [hi], or at
    [hi-1], [hi-1+s], ... down to [lo]. *)
Definition picks {A} (l : list A) (lo hi s : Z) (r : list A) : Prop :=
  forall k, let p := (if 0 <? s then lo else hi - 1) + Z.of_nat k * s in
    nth_error r k = if (lo <=? p) && (p <? hi) then nth_error l (Z.to_nat p) else None.

Definition slice_spec {A} (l : list A) (lo hi s : Z) (r : picked A) : Prop :=
  let len := Z.of_nat (length l) in
  let strict := 1 <? Z.abs s in
  if (lo <? 0) || (len <? lo) then r = if strict then PErr ARange else PNil
  else if strict && (len <? hi - lo) then r = PErr ARange
  else exists l', r = Picked l' /\ picks l lo (Z.min hi len) s l'.

Definition opt_fixnum (o : option Z) : Prop := match o with Some z => fixnum z | None => True end.
Definition aval_ok (v : option aval) : Prop := match v with Some (AI n) => canonical n | _ => True end.
(** A descending sequence that excludes its end must name it, and not as -1:
    in those cases (as in CRuby) the code names another span. *)
Definition plain_end (e : option Z) (s : Z) (excl : bool) : Prop :=
  s < 0 -> excl = true -> exists z, e = Some z /\ z <> -1.

(** ** Floats with a block: not beyond the end. *)
Definition beyond (u e d : spec_float) : bool :=
  if f_lt f_zero u then f_lt e d else f_lt u f_zero && f_lt d e.
(** What may be yielded at position [k]: the [k]-th term, not beyond the end
    (nor the end when that is excluded), or the end itself, last, when the
    term is beyond it. *)
Definition yields (b e u : spec_float) (excl : bool) (l : list spec_float) : Prop :=
  forall k d, nth_error l k = Some d ->
  let t := f_add b (f_mul (f_of_Z (Z.of_nat k)) u) in
  (d = t /\ beyond u e d = false /\ (excl = true -> SFeqb d e = false)) \/
  (d = e /\ excl = false /\ beyond u e t = true /\ length l = S k).
