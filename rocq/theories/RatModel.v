(** Model of monoruby/src/value/rvalue/rational.rs and the arithmetic,
    comparison, power and rounding methods of builtins/numeric/rational.rs,
    Kernel#Rational on Integers (kernel.rs) and Rational#rationalize
    (builtins/rational.rb).  BigInt is Z; its [/] and [%] are Z.quot and Z.rem;
    [as u32] and i64 negation wrap explicitly. *)
From Coq Require Import ZArith List Bool.
Open Scope Z_scope.

Record rat := mkrat { num : Z; den : Z }.
Inductive res (A : Type) := Ok (x : A) | DivZero | ArgErr | Panic.
Arguments Ok {A} x. Arguments DivZero {A}. Arguments ArgErr {A}. Arguments Panic {A}.
Definition bind {A B} (x : res A) (f : A -> res B) : res B :=
  match x with Ok a => f a | DivZero => DivZero | ArgErr => ArgErr | Panic => Panic end.

(** rational.rs:23-46 [new], [normalize]; a zero denominator panics. *)
Definition new (n d : Z) : res rat :=
  if d =? 0 then Panic
  else
    let n' := if d <? 0 then - n else n in
    let d' := if d <? 0 then - d else d in
    let g := Z.gcd n' d' in
    if g =? 1 then Ok (mkrat n' d') else Ok (mkrat (Z.quot n' g) (Z.quot d' g)).

(** rational.rs:101-173 *)
Definition to_i (r : rat) : Z := Z.quot (num r) (den r).
Definition is_zero (r : rat) : bool := num r =? 0.
Definition is_negative (r : rat) : bool := num r <? 0.
Definition neg (r : rat) : rat := mkrat (- num r) (den r).
Definition abs (r : rat) : rat := mkrat (if num r <? 0 then - num r else num r) (den r).
Definition add (r s : rat) : res rat := new (num r * den s + num s * den r) (den r * den s).
Definition sub (r s : rat) : res rat := new (num r * den s - num s * den r) (den r * den s).
Definition mul (r s : rat) : res rat := new (num r * num s) (den r * den s).
Definition div (r s : rat) : res rat :=
  if num s =? 0 then DivZero else new (num r * den s) (den r * num s).
Definition cmp (r s : rat) : comparison := num r * den s ?= num s * den r.
Definition eq (r s : rat) : bool := (num r =? num s) && (den r =? den s).

(** kernel.rs:2817-2844 [Rational(a, b)] on Integers. *)
Definition kernel_rational (a b : Z) : res rat := bind (new a 1) (fun x => bind (new b 1) (div x)).

(** builtins/numeric/rational.rs:122-160: [==] and [!=] with an Integer.  A
    small Integer is a Fixnum, any other one a BigInt; [ne] has no BigInt arm. *)
Definition fixnum (x : Z) : bool := (- 2 ^ 62 <=? x) && (x <? 2 ^ 62).
Definition eq_int (r : rat) (i : Z) : bool := (den r =? 1) && (num r =? i).
Definition ne_int (r : rat) (i : Z) : bool := if fixnum i then negb ((den r =? 1) && (num r =? i)) else true.
(** :162-190 [<=>] with an Integer. *)
Definition cmp_int (r : rat) (i : Z) : res comparison := bind (new i 1) (fun o => Ok (cmp r o)).

Definition u32 (x : Z) : Z := x mod 2 ^ 32.
Definition w64 (x : Z) : Z := (x + 2 ^ 63) mod 2 ^ 64 - 2 ^ 63.
(** builtins/numeric/rational.rs:420-463 [pow_by_integer]. *)
Definition pow (r : rat) (e : Z) : res rat :=
  if e =? 0 then new 1 1
  else if is_zero r then (if e <? 0 then DivZero else new 0 1)
  else if (num r =? 1) && (den r =? 1) then new 1 1
  else if (num r =? -1) && (den r =? 1) then new (if Z.rem e 2 =? 0 then 1 else -1) 1
  else if (e <? - 2 ^ 63) || (2 ^ 63 <=? e) then ArgErr
  else if 0 <=? e then let k := u32 e in new (num r ^ k) (den r ^ k)
  else let k := u32 (w64 (- e)) in new (den r ^ k) (num r ^ k).

(** *** Rounding, rational.rs:175-353 *)
(** [while t % p == 0 { t /= p; c += 1 }]; [n] bounds the iterations. *)
Fixpoint strip (n : nat) (p t c : Z) : Z * Z :=
  match n with
  | O => (t, c)
  | S n' => if Z.rem t p =? 0 then strip n' p (Z.quot t p) (c + 1) else (t, c)
  end.
Definition fuel (d : Z) : nat := S (Z.to_nat (Z.log2 d)).
Definition ndigits_sufficient (r : rat) (nd : Z) : bool :=
  if den r =? 1 then true
  else
    let (t, _) := strip (fuel (den r)) 2 (den r) 0 in
    let (t, _) := strip (fuel t) 5 t 0 in
    if negb (t =? 1) then false
    else
      let (t, d2) := strip (fuel (den r)) 2 (den r) 0 in
      let (_, d5) := strip (fuel t) 5 t 0 in
      Z.max d2 d5 <=? nd.
(** RationalFloorResult *)
Inductive rounded := RInt (i : Z) | RRat (r : rat).
Definition ten (nd : Z) : Z := 10 ^ u32 nd.
Definition rat_of (n d : Z) : res rounded := bind (new n d) (fun r => Ok (RRat r)).
(** [div_floor] is Z.div. *)
Definition rational_floor (r : rat) (nd : Z) : res rounded :=
  if nd =? 0 then Ok (RInt (num r / den r))
  else if 0 <? nd then
    if ndigits_sufficient r nd then Ok (RRat r)
    else rat_of (num r * ten nd / den r) (ten nd)
  else
    let d := ten (w64 (- nd)) in
    Ok (RInt (Z.quot (num r) (den r) / d * d)).
Definition rational_ceil (r : rat) (nd : Z) : res rounded :=
  if nd =? 0 then Ok (RInt (- ((- num r) / den r)))
  else if 0 <? nd then
    if ndigits_sufficient r nd then Ok (RRat r)
    else rat_of (- ((- (num r * ten nd)) / den r)) (ten nd)
  else
    let d := ten (w64 (- nd)) in
    Ok (RInt (- ((- Z.quot (num r) (den r)) / d) * d)).
Definition rational_truncate (r : rat) (nd : Z) : res rounded :=
  if nd =? 0 then Ok (RInt (Z.quot (num r) (den r)))
  else if 0 <? nd then
    if ndigits_sufficient r nd then Ok (RRat r)
    else rat_of (Z.quot (num r * ten nd) (den r)) (ten nd)
  else
    let d := ten (w64 (- nd)) in
    Ok (RInt (Z.quot (Z.quot (num r) (den r)) d * d)).
(** [None] (no half: keyword) behaves as [Up]. *)
Inductive half := Up | Down | Even.
(** :277-310, the ndigits = 0 branch. *)
Definition round0 (r : rat) (h : half) : Z :=
  if den r =? 1 then num r
  else
    let q := Z.quot (num r) (den r) in
    let d := Z.abs (Z.rem (num r) (den r) * 2) in
    let a := Z.abs (den r) in
    if a <? d then (if 0 <=? num r then q + 1 else q)
    else if d <? a then (if 0 <=? num r then q else q)
    else match h with
         | Down => q
         | Even => if Z.rem q 2 =? 0 then q else if 0 <=? num r then q + 1 else q - 1
         | Up => if 0 <=? num r then q + 1 else q - 1
         end.
(** :322-351, the ndigits < 0 branch on the truncated integer. *)
Definition round_int (i d : Z) (h : half) : Z :=
  let q := Z.quot i d in
  let b := Z.abs (Z.rem i d * 2) in
  if Z.abs d <? b then (if 0 <=? i then (q + 1) * d else (q - 1) * d)
  else if b <? Z.abs d then q * d
  else match h with
       | Down => q * d
       | Even => if Z.rem q 2 =? 0 then q * d else if 0 <=? i then (q + 1) * d else (q - 1) * d
       | Up => if 0 <=? i then (q + 1) * d else (q - 1) * d
       end.
Definition rational_round (r : rat) (nd : Z) (h : half) : res rounded :=
  if nd =? 0 then Ok (RInt (round0 r h))
  else if 0 <? nd then
    if ndigits_sufficient r nd then Ok (RRat r)
    else bind (new (num r * ten nd) (den r)) (fun s => rat_of (round0 s h) (ten nd))
  else Ok (RInt (round_int (Z.quot (num r) (den r)) (ten (w64 (- nd))) h)).

(** *** Simplest rational: Float#rationalize with a tolerance, rational.rs:381-436 *)
(** :449-458 [div_ceil_bigint]. *)
Definition div_ceil (a b : Z) : Z :=
  if b =? 0 then 1
  else
    let q := Z.quot a b in let r := Z.rem a b in
    if (r =? 0) || ((r <? 0) && (b <? 0)) || ((0 <? r) && (0 <? b)) then (if r =? 0 then q else q + 1) else q.
(** The search loop; [n] bounds the iterations, [None] = not finished. *)
Fixpoint search (n : nat) (lo hi : rat) (p0 q0 p1 q1 : Z) : option (res rat) :=
  match n with
  | O => None
  | S n' =>
      let pm := p0 + p1 in let qm := q0 + q1 in
      match new pm qm with
      | Ok med =>
          match cmp med lo with
          | Lt => let k := div_ceil (num lo * qm - pm * den lo) (p1 * den lo - num lo * q1) in
                  search n' lo hi (p0 + k * p1) (q0 + k * q1) p1 q1
          | c => match (match c with Gt => cmp med hi | _ => Eq end) with
                 | Gt => let k := div_ceil (pm * den hi - num hi * qm) (num hi * q0 - p0 * den hi) in
                         search n' lo hi p0 q0 (p1 + k * p0) (q1 + k * q0)
                 | _ => Some (new pm qm)
                 end
          end
      | e => Some e
      end
  end.
(** The part after the sign has been handled. *)
Definition simplest_pos (n : nat) (v eps : rat) : option (res rat) :=
  match sub v eps, add v eps, new 0 1 with
  | Ok lo, Ok hi, Ok zero =>
      match cmp hi zero with
      | Lt => Some (Ok zero)
      | _ => search n (match cmp lo zero with Lt => zero | _ => lo end) hi 0 1 1 0
      end
  | _, _, _ => Some Panic
  end.
Definition find_simplest (n : nat) (v eps : rat) : option (res rat) :=
  let e := abs eps in
  if is_negative v then
    match new (- num v) (den v) with
    | Ok p => match simplest_pos n p (abs e) with
              | Some (Ok r) => Some (Ok (neg r))
              | x => x
              end
    | _ => Some Panic
    end
  else simplest_pos n v e.

(** *** Rational#rationalize, builtins/rational.rb:89-118, on a Rational
    tolerance.  The bounds [p0 ..] are Integers; [k] is computed with Rational
    arithmetic and [ceil]. *)
Definition of_int (i : Z) : res rat := new i 1.
Definition ceil_int (r : rat) : Z := - ((- num r) / den r).
Fixpoint rb_search (n : nat) (lo hi : rat) (p0 q0 p1 q1 : Z) : option (res rat) :=
  match n with
  | O => None
  | S n' =>
      let pm := p0 + p1 in let qm := q0 + q1 in
      match kernel_rational pm qm with
      | Ok med =>
          match cmp med lo with
          | Lt =>
              match bind (of_int qm) (fun q => bind (mul lo q) (fun a => bind (of_int pm) (fun p => bind (sub a p) (fun top =>
                    bind (of_int q1) (fun q' => bind (mul lo q') (fun b => bind (of_int p1) (fun p' => bind (sub p' b) (fun bot =>
                    bind (div top bot) (fun x => Ok (ceil_int x)))))))))) with
              | Ok k => rb_search n' lo hi (p0 + k * p1) (q0 + k * q1) p1 q1
              | DivZero => Some DivZero | ArgErr => Some ArgErr | Panic => Some Panic
              end
          | _ =>
              match cmp med hi with
              | Gt =>
                  match bind (of_int qm) (fun q => bind (mul hi q) (fun a => bind (of_int pm) (fun p => bind (sub p a) (fun top =>
                        bind (of_int q0) (fun q' => bind (mul hi q') (fun b => bind (of_int p0) (fun p' => bind (sub b p') (fun bot =>
                        bind (div top bot) (fun x => Ok (ceil_int x)))))))))) with
                  | Ok k => rb_search n' lo hi p0 q0 (p1 + k * p0) (q1 + k * q0)
                  | DivZero => Some DivZero | ArgErr => Some ArgErr | Panic => Some Panic
                  end
              | _ => Some (kernel_rational pm qm)
              end
          end
      | e => Some e
      end
  end.
Definition rb_pos (n : nat) (v eps : rat) : option (res rat) :=
  match sub v eps, add v eps with
  | Ok lo, Ok hi =>
      match cmp lo (mkrat 0 1) with
      | Gt => rb_search n lo hi 0 1 1 0
      | _ => Some (kernel_rational 0 1)
      end
  | _, _ => Some Panic
  end.
Definition rb_rationalize (n : nat) (v eps : rat) : option (res rat) :=
  if is_negative v then
    match rb_pos n (neg v) (abs (abs eps)) with
    | Some (Ok r) => Some (Ok (neg r))
    | x => x
    end
  else rb_pos n v (abs eps).
