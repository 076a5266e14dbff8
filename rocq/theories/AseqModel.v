(** Model of Enumerator::ArithmeticSequence and of stepping with a block.
    Sources: /repo/monoruby/src/builtins/arithmetic_sequence.rs:244-800
    ([value_is_zero], [to_f64], [term_at], [finite_count], [fixnum_count],
    [float_count], [size], [first], [last], [build_terms], [index_op]),
    /repo/monoruby/builtins/arithmetic_sequence.rb:87-126 ([to_a], [each]),
    /repo/monoruby/builtins/range.rb:750-845 ([__range_step_numeric]; with
    [exclude_end?] false it is also the block form of Numeric#step,
    numeric.rb:219-296).

    Endpoints and steps are Integers and Floats; [generic_count] and
    [term_at_generic] (Rational, user classes) are not reached by these.
    Floats are SpecFloat's binary64; [BigInt::to_f64] is taken to round
    correctly.  Running out of memory in [Vec::with_capacity] is not
    modelled. *)
From Coq Require Import ZArith Bool List Floats.SpecFloat.
From Verif Require Import IntModel.
Import ListNotations.
Open Scope Z_scope.

Inductive aval := AI (n : num) | AF (f : spec_float).

Record aseq := mkseq { sbeg : option aval; send : option aval; sstep : aval; sexcl : bool }.

Inductive aerr := AArg | AType | ARange.
Inductive ares (A : Type) := AOk (a : A) | AErr (e : aerr).
Arguments AOk {A} _. Arguments AErr {A} _.

(** ** Doubles *)

Definition f_of_Z (z : Z) : spec_float := binary_normalize 53 1024 z 0 false.
Definition f_add := SFadd 53 1024.
Definition f_sub := SFsub 53 1024.
Definition f_mul := SFmul 53 1024.
Definition f_div := SFdiv 53 1024.
Definition f_zero : spec_float := S754_zero false.
Definition f_lt (a b : spec_float) : bool := SFltb a b.
Definition f_le (a b : spec_float) : bool := SFleb a b.
Definition f_nan (f : spec_float) : bool := match f with S754_nan => true | _ => false end.
Definition f_inf (f : spec_float) : bool := match f with S754_infinity _ => true | _ => false end.

(** The greatest integer below a finite double; 0 for the others. *)
Definition f_floor (f : spec_float) : Z :=
  match f with
  | S754_finite s m e =>
      let v := if s then Zneg m else Zpos m in
      if 0 <=? e then v * 2 ^ e else v / 2 ^ (- e)
  | _ => 0
  end.
(** [f.floor() as i64]: saturating. *)
Definition floor_i64 (f : spec_float) : Z :=
  match f with
  | S754_infinity s => if s then I64_MIN else I64_MAX
  | _ => Z.max I64_MIN (Z.min I64_MAX (f_floor f))
  end.

(** [to_f64]: arithmetic_sequence.rs:264-271. *)
Definition to_f (v : aval) : spec_float :=
  match v with AI n => f_of_Z (ival n) | AF f => f end.

(** arithmetic_sequence.rs:244-251. *)
Definition is_zero (v : aval) : bool :=
  match v with
  | AI n => ival n =? 0
  | AF f => match f with S754_zero _ => true | _ => false end
  end.

(** ** Counting *)

Inductive count := Finite (n : Z) | Infinite.

(** i128 arithmetic on i64 operands does not wrap. *)
Definition fixnum_count (b e s : Z) (excl : bool) : count :=
  let diff := e - b in
  if ((0 <? s) && (diff <? 0)) || ((s <? 0) && (0 <? diff)) then Finite 0
  else
    let n := Z.quot diff s in
    let last := b + n * s in
    let over := if 0 <? s then e <=? last else last <=? e in
    let n := if excl && over then n - 1 else n in
    if n <? 0 then Finite 0 else Finite (Z.min (n + 1) I64_MAX).

Definition float_count (b e s : spec_float) (excl : bool) : count :=
  if f_inf s then
    let ok := if f_lt f_zero s then (if excl then f_lt b e else f_le b e)
              else (if excl then f_lt e b else f_le e b) in
    Finite (if ok then 1 else 0)
  else
    let diff := f_sub e b in
    if (f_lt f_zero s && f_lt diff f_zero) || (f_lt s f_zero && f_lt f_zero diff) then Finite 0
    else
      let nf := f_div diff s in
      if f_nan nf || f_lt nf f_zero then Finite 0
      else if f_inf nf then Infinite
      else
        let n := floor_i64 nf in
        let last := f_add b (f_mul (f_of_Z n) s) in
        let over := if f_lt f_zero s then f_le e last else f_le last e in
        let n := if excl && over then wrap64 (n - 1) else n in
        if n <? 0 then Finite 0 else Finite (Z.min (n + 1) I64_MAX).

(** arithmetic_sequence.rs:325-346: [try_fixnum] of all three, else f64. *)
Definition finite_count (b e s : aval) (excl : bool) : count :=
  match b, e, s with
  | AI (NFix b), AI (NFix e), AI (NFix s) => fixnum_count b e s excl
  | _, _, _ => float_count (to_f b) (to_f e) (to_f s) excl
  end.

(** arithmetic_sequence.rs:283-303. *)
Definition term_at (b : aval) (i : Z) (s : aval) : aval :=
  match b, s with
  | AI (NFix b), AI (NFix s) => AI (value_bigint (b + i * s))
  | _, _ => AF (f_add (to_f b) (f_mul (f_of_Z i) (to_f s)))
  end.

Definition indices (start n : Z) : list Z :=
  map (fun k => start + Z.of_nat k) (seq 0 (Z.to_nat n)).
Definition build_terms (b s : aval) (start n : Z) : list aval :=
  map (fun i => term_at b i s) (indices start n).

(** arithmetic_sequence.rs:482-498; [None] is Float::INFINITY. *)
Definition size (q : aseq) : ares (option Z) :=
  if is_zero (sstep q) then AErr AArg
  else match sbeg q, send q with
       | Some b, Some e =>
           match finite_count b e (sstep q) (sexcl q) with
           | Finite n => AOk (Some n)
           | Infinite => AOk None
           end
       | _, _ => AOk None
       end.

(** arithmetic_sequence.rs:526-561, with an argument. *)
Definition first_n (q : aseq) (n : Z) : ares (list aval) :=
  if n <? 0 then AErr AArg
  else if n =? 0 then AOk []
  else if is_zero (sstep q) then AErr AType
  else match sbeg q with
       | None => AErr AArg
       | Some b =>
           let take := match send q with
                       | None => n
                       | Some e => match finite_count b e (sstep q) (sexcl q) with
                                   | Infinite => n
                                   | Finite c => Z.min n c
                                   end
                       end in
           AOk (build_terms b (sstep q) 0 take)
       end.

(** arithmetic_sequence.rs:573-617: the count shared by both forms, then
    [last] ([None] is nil) and [last(n)]. *)
Definition last_count (q : aseq) : ares (aval * Z) :=
  if is_zero (sstep q) then AErr AType
  else match send q, sbeg q with
       | None, _ => AErr ARange
       | _, None => AErr AType
       | Some e, Some b =>
           match finite_count b e (sstep q) (sexcl q) with
           | Finite c => AOk (b, c)
           | Infinite => AErr ARange
           end
       end.
Definition last_term (q : aseq) : ares (option aval) :=
  match last_count q with
  | AErr e => AErr e
  | AOk (b, c) => if c =? 0 then AOk None else AOk (Some (term_at b (c - 1) (sstep q)))
  end.
Definition last_n (q : aseq) (n : Z) : ares (list aval) :=
  match last_count q with
  | AErr e => AErr e
  | AOk (b, c) =>
      if n <? 0 then AErr AArg
      else if (c =? 0) || (n =? 0) then AOk []
      else let n := Z.min n c in AOk (build_terms b (sstep q) (c - n) n)
  end.

(** ** each and to_a: Ruby's operators *)

(** [i * s] and [b + p] (numeric.rs; exact on Integers, C04-C06). *)
Definition r_mul (i : Z) (s : aval) : aval :=
  match s with
  | AI n => AI (value_bigint (i * ival n))
  | AF f => AF (f_mul (f_of_Z i) f)
  end.
Definition r_add (a b : aval) : aval :=
  match a, b with
  | AI x, AI y => AI (value_bigint (ival x + ival y))
  | _, _ => AF (f_add (to_f a) (to_f b))
  end.
Definition ruby_term (b : aval) (i : Z) (s : aval) : aval := r_add b (r_mul i s).

(** arithmetic_sequence.rb:91-97. *)
Definition to_a (q : aseq) : ares (list aval) :=
  match size q with
  | AErr e => AErr e
  | AOk None => AErr ARange
  | AOk (Some n) =>
      match sbeg q with
      | Some b => AOk (map (fun i => ruby_term b i (sstep q)) (indices 0 n))
      | None => AErr AType
      end
  end.
(** arithmetic_sequence.rb:104-126: the first [fuel] values yielded. *)
Definition each (fuel : nat) (q : aseq) : ares (list aval) :=
  if is_zero (sstep q) then AErr AType
  else match sbeg q with
       | None => AErr AArg
       | Some b =>
           let all k := AOk (map (fun i => ruby_term b i (sstep q)) (indices 0 k)) in
           match send q, size q with
           | _, AErr e => AErr e
           | Some _, AOk (Some n) => all (Z.min n (Z.of_nat fuel))
           | _, _ => all (Z.of_nat fuel)
           end
       end.

(** ** Stepping with a block *)

(** Integer endpoints: [while i <= e; yield i; i += s; end] and its three
    variants; the first [fuel] values. *)
Definition in_bound (s : Z) (excl : bool) (i e : Z) : bool :=
  if 0 <? s then (if excl then i <? e else i <=? e)
  else (if excl then e <? i else e <=? i).
Fixpoint int_loop (fuel : nat) (i s : Z) (e : option Z) (excl : bool) : list Z :=
  match fuel with
  | O => []
  | S fuel =>
      if match e with None => true | Some e => in_bound s excl i e end
      then i :: int_loop fuel (i + s) s e excl
      else []
  end.

Definition f_abs (f : spec_float) : spec_float := SFabs f.
Definition EPSILON : spec_float := S754_finite false (2 ^ 52)%positive (-104).
Definition half : spec_float := S754_finite false (2 ^ 52)%positive (-53).

(** range.rb:781-806: index of the last value, then the loop with clamping. *)
Definition step_index (b e u : spec_float) : Z :=
  let n := f_div (f_sub e b) u in
  let err := f_mul (f_div (f_add (f_add (f_abs b) (f_abs e)) (f_abs (f_sub e b))) (f_abs u)) EPSILON in
  let err := if f_lt half err then half else err in
  f_floor (f_add n err).
Fixpoint float_loop (fuel : nat) (i n : Z) (b e u : spec_float) (excl : bool) : list spec_float :=
  match fuel with
  | O => []
  | S fuel =>
      if n <? i then []
      else
        let d := f_add b (f_mul (f_of_Z i) u) in
        if (f_lt f_zero u && f_lt e d) || (f_lt u f_zero && f_lt d e)
        then (if excl then [] else [e])
        else if excl && SFeqb d e then []
        else d :: float_loop fuel (i + 1) n b e u excl
  end.
Definition float_free (fuel : nat) (b u : spec_float) : list spec_float :=
  map (fun i => f_add b (f_mul (f_of_Z i) u)) (indices 0 (Z.of_nat fuel)).
Definition float_step (fuel : nat) (b : spec_float) (e : option spec_float) (u : spec_float) (excl : bool)
  : list spec_float :=
  if f_inf u then
    match e with
    | None => [b]
    | Some e => if (if f_lt f_zero u then (if excl then f_lt b e else f_le b e)
                    else (if excl then f_lt e b else f_le e b))
                then [b] else []
    end
  else match e with
       | None => float_free fuel b u
       | Some e =>
           let n := f_div (f_sub e b) u in
           if f_nan n || f_lt n f_zero then []
           else if f_inf n then float_free fuel b u
           else float_loop fuel 0 (step_index b e u) b e u excl
       end.

(** The values given to the block. *)
Definition step_block (fuel : nat) (q : aseq) : ares (list aval) :=
  if is_zero (sstep q) then AErr AArg
  else match sbeg q, sstep q, send q with
       | None, _, _ => AErr AArg
       | Some (AI b), AI s, None =>
           AOk (map (fun z => AI (value_bigint z)) (int_loop fuel (ival b) (ival s) None (sexcl q)))
       | Some (AI b), AI s, Some (AI e) =>
           AOk (map (fun z => AI (value_bigint z)) (int_loop fuel (ival b) (ival s) (Some (ival e)) (sexcl q)))
       | Some b, s, e =>
           AOk (map AF (float_step fuel (to_f b) (option_map to_f e) (to_f s) (sexcl q)))
       end.

(** ** aseq[array] *)

(** Outcome of [index_op]; [Wild] is a read outside the array by
    [get_unchecked] or a panic of the slice. *)
Inductive picked (A : Type) := Picked (l : list A) | PNil | PErr (e : aerr) | Wild.
Arguments Picked {A} _. Arguments PNil {A}. Arguments PErr {A} _. Arguments Wild {A}.

Definition get {A} (l : list A) (i : Z) : option A :=
  if i <? 0 then None else nth_error l (Z.to_nat i).
(** The copying loop: [n] reads from [j] in steps of [s]. *)
Fixpoint stride {A} (l : list A) (j s : Z) (n : nat) : option (list A) :=
  match n with
  | O => Some []
  | S n => match get l j with
           | None => None
           | Some a => option_map (cons a) (stride l (wrap64 (j + s)) s n)
           end
  end.
(** [slice[a..b]]. *)
Definition slice {A} (l : list A) (a b : Z) : option (list A) :=
  if (0 <=? a) && (a <=? b) && (b <=? Z.of_nat (length l))
  then Some (firstn (Z.to_nat (b - a)) (skipn (Z.to_nat a) l)) else None.
Definition pick {A} (o : option (list A)) : picked A :=
  match o with Some l => Picked l | None => Wild end.

(** arithmetic_sequence.rs:661-790 after the conversions: [b], [e] are
    fixnums or nil, [s] a fixnum. *)
Definition index_core {A} (l : list A) (b e : option Z) (s : Z) (excl : bool) : picked A :=
  let alen := Z.of_nat (length l) in
  let '(b, e, excl) :=
    if s <? 0 then
      match excl, e with
      | true, Some e => (Some (wrap64 (e + 1)), b, false)
      | _, _ => (e, b, excl)
      end
    else (b, e, excl) in
  let excl := match e with None => false | Some _ => excl end in
  let beg := match b with Some b => b | None => 0 end in
  let fin := match e with Some e => e | None => -1 end in
  let strict := 1 <? Z.abs s in
  let out := if strict then PErr ARange else PNil in
  let beg := if beg <? 0 then wrap64 (beg + alen) else beg in
  if beg <? 0 then out
  else
    let fin := if fin <? 0 then wrap64 (fin + alen) else fin in
    let fin := if excl then fin else wrap64 (fin + 1) in
    if alen <? beg then out
    else if strict && (alen <? wrap64 (fin - beg)) then PErr ARange
    else
      let fin := if strict then fin else Z.min fin alen in
      let len := Z.max (wrap64 (fin - beg)) 0 in
      let len := if (alen <? len) || (alen <? wrap64 (beg + len)) then wrap64 (alen - beg) else len in
      if len =? 0 then Picked []
      else if s =? 1 then pick (slice l beg (wrap64 (beg + len)))
      else if s =? -1 then pick (option_map (@rev A) (slice l beg (wrap64 (beg + len))))
      else
        let s_eff := if (s <? 0) && (s <? - len) then - len else s in
        let ustep := Z.abs s_eff in
        let n := Z.quot (wrap64 (wrap64 (len + ustep) - 1)) ustep in
        let j := wrap64 (beg + (if 0 <? s_eff then 0 else len - 1)) in
        pick (stride l j s_eff (Z.to_nat n)).

Definition coerce_idx (v : option aval) : option (option Z) :=
  match v with
  | None => Some None
  | Some (AI (NFix z)) => Some (Some z)
  | Some _ => None
  end.
Definition index_op {A} (q : aseq) (l : list A) : picked A :=
  if is_zero (sstep q) then Picked []
  else match sstep q with
       | AI (NFix s) =>
           match coerce_idx (sbeg q), coerce_idx (send q) with
           | Some b, Some e => index_core l b e s (sexcl q)
           | _, _ => PErr AType
           end
       | _ => PErr AType
       end.
