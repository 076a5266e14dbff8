(** Range over numbers (builtins/range.rs, builtins/range.rb): membership, iteration, extremes and binary search. *)
From Coq Require Import List Bool ZArith QArith Qround.
Import ListNotations.
Local Open Scope Z_scope.

(** An Integer, a finite Float (its value), an infinity or NaN. Integer and Float compare exactly (C08). *)
Inductive num := I (z : Z) | F (q : Q) | Inf (neg : bool) | NaN.
Definition cmp (a b : num) : option comparison :=
  match a, b with
  | NaN, _ | _, NaN => None
  | Inf n, Inf m => Some (if Bool.eqb n m then Eq else if n then Lt else Gt)
  | Inf n, _ => Some (if n then Lt else Gt)
  | _, Inf n => Some (if n then Gt else Lt)
  | I a, I b => Some (Z.compare a b)
  | I a, F b => Some (Qcompare (inject_Z a) b)
  | F a, I b => Some (Qcompare a (inject_Z b))
  | F a, F b => Some (Qcompare a b)
  end.
Record range := mkR { beg : option num; fin : option num; excl : bool }.
Definition gt (c : comparison) : bool := match c with Gt => true | _ => false end.
Definition ge (c : comparison) : bool := match c with Lt => false | _ => true end.
Definition lt (c : comparison) : bool := match c with Lt => true | _ => false end.
Definition le (c : comparison) : bool := match c with Gt => false | _ => true end.

(** try_fixnum (value/rvalue/range.rs:89-96); a fixnum has 63 bits *)
Definition small (z : Z) : bool := (-(2 ^ 62) <=? z) && (z <? 2 ^ 62).
Definition try_fixnum (r : range) : option (Z * Z) :=
  match beg r, fin r with
  | Some (I b), Some (I e) => if small b && small e then Some (b, if excl r then e else e + 1) else None
  | _, _ => None
  end.

(** __cover_val_q (range.rb:650-668) *)
Definition cover_val (r : range) (v : num) : bool :=
  match beg r with
  | Some b => match cmp b v with None => false | Some c => negb (gt c) end
  | None => true
  end &&
  match fin r with
  | Some e => match cmp v e with None => false | Some c => negb (if excl r then ge c else gt c) end
  | None => true
  end.
(** __range_empty_q (723-730) *)
Definition empty_q (r : range) : bool :=
  match beg r, fin r with
  | Some b, Some e => match cmp b e with None => true | Some c => if excl r then ge c else gt c end
  | _, _ => false
  end.
(** overlap? (394-428) *)
Definition overlap (s o : range) : bool :=
  if empty_q s then false else if empty_q o then false else
  if (match fin s, beg o with
      | Some e, Some b => match cmp e b with None => true | Some c => if excl s then le c else lt c end
      | _, _ => false
      end) then false
  else if (match fin o, beg s with
      | Some e, Some b => match cmp e b with None => true | Some c => if excl o then le c else lt c end
      | _, _ => false
      end) then false
  else true.

(** max without arguments or block for numbers (range.rb:329-356, range.rs:842-884) *)
Inductive ans (A : Type) := Val (a : A) | Nil | Err.
Arguments Val {A}. Arguments Nil {A}. Arguments Err {A}.
Definition max (r : range) : ans num :=
  match fin r with
  | None => Err
  | Some e =>
      let last := if excl r then match e with I i => Val (I (i - 1)) | _ => Err end else Val e in
      match beg r with
      | None => last
      | Some b => match cmp b e with
                  | Some Gt => Nil
                  | Some Eq => if excl r then Nil else Val e
                  | _ => last
                  end
      end
  end.
(** min (range.rb:306-316, range.rs:767-788) *)
Definition min (r : range) : ans num :=
  match beg r with
  | None => Err
  | Some b => match fin r with
              | None => Val b
              | Some e => match cmp b e with Some Gt => Nil | Some Eq => if excl r then Nil else Val b | _ => Val b end
              end
  end.
(** __cover_range_q (671-721) *)
Definition cover_range (s v : range) : bool :=
  if (match beg v, beg s with None, Some _ => true | _, _ => false end) then false
  else if (match fin v, fin s with None, Some _ => true | _, _ => false end) then false
  else if (match beg v, fin v with
           | Some b, Some e => match cmp b e with None => true | Some c => if excl v then negb (lt c) else gt c end
           | _, _ => false end) then false
  else if (match beg v with Some b => negb (cover_val s b) | None => false end) then false
  else
    match (match fin v, fin s with
           | Some ve, Some se => cmp se ve
           | Some _, None => Some Gt
           | _, _ => Some Eq
           end) with
    | None => false
    | Some c =>
        if Bool.eqb (excl s) (excl v) then ge c
        else if excl s then gt c
        else if ge c then true
        else match max v, fin s with
             | Val m, Some se => match cmp se m with None => false | Some c => ge c end
             | _, _ => false
             end
    end.

(** * Iteration. [Done]: the loop has ended; [More]: it has yielded so much and goes on. *)
Inductive out := Done (l : list Z) | More (l : list Z) | Raise.
Definition cons_out (z : Z) (o : out) : out := match o with Done l => Done (z :: l) | More l => More (z :: l) | Raise => Raise end.
(** while i <= last *)
Fixpoint up (fuel : nat) (i last : Z) : out :=
  match fuel with O => More [] | S f => if i <=? last then cons_out i (up f (i + 1) last) else Done [] end.
Fixpoint up_forever (fuel : nat) (i : Z) : out := match fuel with O => More [] | S f => cons_out i (up_forever f (i + 1)) end.
(** The loop with <=> and succ (range.rb:84-108) *)
Fixpoint up_cmp (fuel : nat) (i : Z) (e : num) (ex : bool) : out :=
  match fuel with
  | O => More []
  | S f =>
      match cmp (I i) e with
      | None => Done []
      | Some c => if (if ex then ge c else gt c) then Done []
                  else cons_out i (if negb ex && (match c with Eq => true | _ => false end) then Done [] else up_cmp f (i + 1) e ex)
      end
  end.
(** each (range.rb:4-112) *)
Definition each (fuel : nat) (r : range) : out :=
  match beg r with
  | Some (I b) =>
      match fin r with
      | None => up_forever fuel b
      | Some (I e) => up fuel b (if excl r then e - 1 else e)
      | Some e => up_cmp fuel b e (excl r)
      end
  | _ => Raise
  end.
(** to_a (range.rb:969-974) *)
Definition to_a (fuel : nat) (r : range) : out := match fin r with None => Raise | _ => each fuel r end.
Fixpoint down (fuel : nat) (i b : Z) : out :=
  match fuel with O => More [] | S f => if b <=? i then cons_out i (down f (i - 1) b) else Done [] end.
Fixpoint down_forever (fuel : nat) (i : Z) : out := match fuel with O => More [] | S f => cons_out i (down_forever f (i - 1)) end.
(** reverse_each with a block (114-181) *)
Definition reverse_each (fuel : nat) (r : range) : out :=
  let go top := match beg r with None => down_forever fuel top | Some (I b) => down fuel top b | _ => Raise end in
  match fin r with
  | Some (I e) => go (if excl r then e - 1 else e)
  | Some (F q) => let top := Qfloor q in go (if excl r && Qeq_bool q (inject_Z top) then top - 1 else top)
  | _ => Raise
  end.
(** size (1011-1042); None is Float::INFINITY *)
Definition size (r : range) : ans (option Z) :=
  match beg r with
  | Some (I b) =>
      match fin r with
      | None => Val None
      | Some (I e) => let d := e - b in Val (Some (if d <? 0 then 0 else if excl r then d else d + 1))
      | Some (Inf neg) => Val (if neg then Some 0 else None)
      | Some _ => Err
      end
  | _ => Err
  end.
(** The methods written in Rust for fixnums only (range.rs:236-262, 587-658, 897-932): last, map, flat_map, all? and count *)
Definition ints (b : Z) (n : nat) : list Z := map (fun k => b + Z.of_nat k) (seq 0 n).
Definition elements (r : range) : ans (list Z) := match try_fixnum r with Some (b, e) => Val (ints b (Z.to_nat (e - b))) | None => Err end.
Definition last (r : range) (n : Z) : ans (list Z) :=
  match fin r with
  | None => Err
  | Some _ =>
      if n <? 0 then Err else
      match try_fixnum r with
      | Some (b, e) => let len := Z.max (e - b) 0 in let skip := if len <=? n then 0 else len - n in
                       Val (skipn (Z.to_nat skip) (ints b (Z.to_nat (e - b))))
      | None => Err
      end
  end.
Definition count (r : range) : ans (option Z) :=
  match beg r, fin r with
  | None, _ | _, None => Val None
  | _, _ => match try_fixnum r with Some (b, e) => Val (Some (if b <? e then e - b else 0)) | None => Err end
  end.
(** first(n) (range.rs:192-226, range.rb:384-392): by index, or walking each and breaking after n *)
Definition yields (o : out) : list Z := match o with Done l | More l => l | Raise => [] end.
Definition first (r : range) (n : Z) : ans (list Z) :=
  match beg r with
  | None => Err
  | Some _ =>
      if n <? 0 then Err else
      match try_fixnum r with
      | Some (b, e) => Val (firstn (Z.to_nat n) (ints b (Z.to_nat (e - b))))
      | None => if n =? 0 then Val [] else match each (Z.to_nat n) r with Raise => Err | o => Val (yields o) end
      end
  end.
(** max(n) for an Integer end (range.rb:357-379); for other ends of numbers the range is made an Array first *)
Definition max_n (fuel : nat) (r : range) (n : Z) : out :=
  match fin r with
  | Some (I e) =>
      if n <? 0 then Raise else
      let hi := if excl r then e - 1 else e in
      let lo := hi - n + 1 in
      match beg r with
      | None => down fuel hi lo
      | Some b => match cmp b (I hi) with
                  | None | Some Gt => Done []
                  | _ => down fuel hi (match b with I b => if lo <? b then b else lo | _ => lo end)
                  end
      end
  | _ => Raise
  end.
(** step with a block, all three Integers (range.rb:814-846) *)
Fixpoint stepping (fuel : nat) (i e s : Z) (ex : bool) : out :=
  match fuel with
  | O => More []
  | S f => if (if 0 <? s then (if ex then i <? e else i <=? e) else (if ex then e <? i else e <=? i)) then cons_out i (stepping f (i + s) e s ex) else Done []
  end.

(** * bsearch *)
Inductive verdict := Sat | Unsat | Equal | Greater | Less.
Inductive found := Found (z : Z) | Nothing | Running.
Definition half (lo hi : Z) : Z := lo + (hi - lo) / 2.
(** The search loop (range.rb:566-586) *)
Fixpoint search (fuel : nat) (p : Z -> verdict) (lo hi : Z) (sat : option Z) : found :=
  match fuel with
  | O => Running
  | S f =>
      if lo <=? hi then
        let mid := half lo hi in
        match p mid with
        | Equal => Found mid
        | Sat => search f p lo (mid - 1) (Some mid)
        | Less => search f p lo (mid - 1) sat
        | Greater | Unsat => search f p (mid + 1) hi sat
        end
      else match sat with Some z => Found z | None => Nothing end
  end.
(** The doubling loops (531-561) *)
Fixpoint probe_down (fuel : nat) (p : Z -> verdict) (hi step : Z) : option Z :=
  match fuel with
  | O => None
  | S f => match p (hi - step) with Unsat | Greater => Some (hi - step) | _ => probe_down f p hi (step * 2) end
  end.
Fixpoint probe_up (fuel : nat) (p : Z -> verdict) (b step : Z) : option Z :=
  match fuel with
  | O => None
  | S f => match p (b + step) with Sat | Equal | Less => Some (b + step) | _ => probe_up f p b (step * 2) end
  end.
(** __bsearch_int (518-587) *)
Definition bsearch (fuel : nat) (p : Z -> verdict) (b e : option Z) (ex : bool) : found :=
  let hi := option_map (fun e => if ex then e - 1 else e) e in
  match b, hi with
  | None, None => Nothing
  | Some b, Some hi => if hi <? b then Nothing else search fuel p b hi None
  | None, Some hi => match probe_down fuel p hi 1 with Some b => search fuel p b hi None | None => Running end
  | Some b, None => match probe_up fuel p b 1 with Some hi => search fuel p b hi None | None => Running end
  end.
(** __bsearch_float (589-648): a Float is its 64 bits *)
Definition to_key (bits : Z) : Z := if bits <? 2 ^ 63 then bits + 2 ^ 63 else 2 ^ 64 - 1 - bits.
Definition from_key (k : Z) : Z := if 2 ^ 63 <=? k then k - 2 ^ 63 else 2 ^ 64 - 1 - k.
(** Floats other than NaN compare as their signed magnitudes. *)
Definition signed (bits : Z) : Z := if bits <? 2 ^ 63 then bits else 2 ^ 63 - bits.
Definition bsearch_float (fuel : nat) (p : Z -> verdict) (b e : Z) (ex : bool) : found :=
  if signed e <? signed b then Nothing
  else if ex && (signed b =? signed e) then Nothing else
  let lo := to_key b in
  let hi := to_key e - (if ex then 1 else 0) in
  if hi <? lo then Nothing
  else match search fuel (fun k => p (from_key k)) lo hi None with Found k => Found (from_key k) | r => r end.
