(** Model of monoruby/src/globals/prng.rs, builtins/random.rs, the integer and
    Float-range parts of Kernel#rand (builtins/kernel.rs) and Array#shuffle /
    #sample (builtins/array.rs).  u32 values are Z in [0, 2^32); every operation
    that can leave that interval is reduced explicitly. *)
From Coq Require Import ZArith List Bool Floats.SpecFloat.
Import ListNotations.
Open Scope Z_scope.

Definition M32 : Z := 4294967296.
Definition w32 (x : Z) : Z := x mod M32.
Definition w64 (x : Z) : Z := (x + 2 ^ 63) mod 2 ^ 64 - 2 ^ 63.

(** *** Mersenne Twister, prng.rs:11-93 *)
Record mt := mkmt { words : list Z; mti : nat }.
Definition at_ (l : list Z) (i : nat) : Z := nth i l 0.
Fixpoint put (l : list Z) (i : nat) (x : Z) : list Z :=
  match l, i with [], _ => [] | _ :: t, O => x :: t | h :: t, S i' => h :: put t i' x end.
Definition MT_N : nat := 624.
Definition MT_M : nat := 397.
(** prng.rs:24-34 [init_genrand]. *)
Fixpoint genrand_from (k : nat) (i : Z) (prev : Z) : list Z :=
  match k with
  | O => []
  | S k' => let x := w32 (w32 (1812433253 * Z.lxor prev (Z.shiftr prev 30)) + i) in x :: genrand_from k' (i + 1) x
  end.
Definition init_genrand (seed : Z) : mt := mkmt (seed :: genrand_from (MT_N - 1) 1 seed) MT_N.
(** prng.rs:36-73 [new_with_key].  The wrap of [i]: after the last slot, slot 0
    takes its value and [i] restarts at 1. *)
Definition bump (l : list Z) (i : nat) : list Z * nat :=
  if (MT_N <=? S i)%nat then (put l 0 (at_ l (MT_N - 1)), 1%nat) else (l, S i).
Fixpoint key1 (k : nat) (key : list Z) (l : list Z) (i j : nat) : list Z * nat :=
  match k with
  | O => (l, i)
  | S k' =>
      let p := at_ l (i - 1) in
      let x := w32 (w32 (Z.lxor (at_ l i) (w32 (Z.lxor p (Z.shiftr p 30) * 1664525)) + at_ key j) + Z.of_nat j) in
      let (l, i) := bump (put l i x) i in
      key1 k' key l i (if (length key <=? S j)%nat then O else S j)
  end.
Fixpoint key2 (k : nat) (l : list Z) (i : nat) : list Z * nat :=
  match k with
  | O => (l, i)
  | S k' =>
      let p := at_ l (i - 1) in
      let x := w32 (Z.lxor (at_ l i) (w32 (Z.lxor p (Z.shiftr p 30) * 1566083941)) - Z.of_nat i) in
      let (l, i) := bump (put l i x) i in
      key2 k' l i
  end.
Definition new_with_key (key : list Z) : mt :=
  let (l, i) := key1 (Nat.max MT_N (length key)) key (words (init_genrand 19650218)) 1 0 in
  let (l, _) := key2 (MT_N - 1) l i in
  mkmt (put l 0 2147483648) MT_N.
(** prng.rs:75-93 [next_u32]: the three loops that regenerate the block are one
    loop over [kk] with the index of the other word taken modulo 624. *)
Definition twist1 (l : list Z) (kk : nat) : list Z :=
  let y := Z.lor (Z.land (at_ l kk) 2147483648) (Z.land (at_ l (if (MT_N <=? S kk)%nat then O else S kk)) 2147483647) in
  let o := if (MT_N <=? kk + MT_M)%nat then (kk + MT_M - MT_N)%nat else (kk + MT_M)%nat in
  put l kk (Z.lxor (Z.lxor (at_ l o) (Z.shiftr y 1)) (if Z.odd y then 2567483615 else 0)).
Definition twist (l : list Z) : list Z := fold_left twist1 (seq 0 MT_N) l.
Definition temper (y : Z) : Z :=
  let y := Z.lxor y (Z.shiftr y 11) in
  let y := Z.lxor y (Z.land (w32 (Z.shiftl y 7)) 2636928640) in
  let y := Z.lxor y (Z.land (w32 (Z.shiftl y 15)) 4022730752) in
  Z.lxor y (Z.shiftr y 18).
Definition next_u32 (g : mt) : Z * mt :=
  let g := if (MT_N <=? mti g)%nat then mkmt (twist (words g)) 0 else g in
  (temper (at_ (words g) (mti g)), mkmt (words g) (S (mti g))).

(** prng.rs:112-142 [seed_words], [to_le_digits] (:243-256): little-endian base
    2^32 digits of a non-negative integer, at least one; [n] bounds the length. *)
Fixpoint le_digits (n : nat) (x : Z) : list Z :=
  match n with
  | O => [x]
  | S n' => if x <? M32 then [x] else x mod M32 :: le_digits n' (x / M32)
  end.
Definition to_digits (x : Z) : list Z := le_digits (Z.to_nat (Z.log2 x)) x.
(** prng.rs:144-153 [build_mt]. *)
Definition build_mt (seed : Z) : mt :=
  match to_digits (Z.abs seed) with
  | [w] => init_genrand w
  | ws => new_with_key ws
  end.

(** prng.rs:163-170 [make_mask]. *)
Definition make_mask (x : Z) : Z :=
  let x := Z.lor x (Z.shiftr x 1) in
  let x := Z.lor x (Z.shiftr x 2) in
  let x := Z.lor x (Z.shiftr x 4) in
  let x := Z.lor x (Z.shiftr x 8) in
  Z.lor x (Z.shiftr x 16).

(** *** Draws from any source of 32-bit words *)
Section G.
Variable G : Type.
Variable next : G -> Z * G.

(** prng.rs:189-219 [limited_rand_into]: one pass of the loop.  [lims] is most
    significant digit first, and so is the result; [None] is "retry". *)
Fixpoint pass (lims : list Z) (mask : Z) (boundary : bool) (g : G) (cnt : Z) : option (list Z) * G * Z :=
  match lims with
  | [] => (Some [], g, cnt)
  | lim :: t =>
      let mask := if mask =? 0 then make_mask lim else 4294967295 in
      if mask =? 0 then
        let '(d, g, c) := pass t mask boundary g cnt in (option_map (cons 0) d, g, c)
      else
        let (w, g) := next g in
        let r := Z.land w mask in
        if boundary && (lim <? r) then (None, g, cnt + 1)
        else
          let '(d, g, c) := pass t mask (boundary && negb (r <? lim)) g (cnt + 1) in
          (option_map (cons r) d, g, c)
  end.
(** The retry loop; [n] bounds the number of passes, [None] = not finished yet. *)
Fixpoint limited (n : nat) (lims : list Z) (g : G) (cnt : Z) : option (list Z * G * Z) :=
  match n with
  | O => None
  | S n' =>
      match pass lims 0 true g cnt with
      | (Some d, g, c) => Some (d, g, c)
      | (None, g, c) => limited n' lims g c
      end
  end.
Definition value (d : list Z) : Z := fold_left (fun a x => a * M32 + x) d 0.
(** prng.rs:231-241 [ulong_limited]. *)
Definition ulong_limited (n : nat) (max : Z) (g : G) (cnt : Z) : option (Z * G * Z) :=
  if max =? 0 then Some (0, g, cnt)
  else
    let lo := Z.land max 4294967295 in let hi := Z.shiftr max 32 in
    match limited n (if hi =? 0 then [lo] else [hi; lo]) g cnt with
    | Some (d, g, c) => Some (value d, g, c)
    | None => None
    end.
(** prng.rs:267-272 [rand_int]. *)
Definition rand_int (n : nat) (max : Z) (g : G) (cnt : Z) : option (Z * G * Z) :=
  match limited n (rev (to_digits (max - 1))) g cnt with
  | Some (d, g, c) => Some (value d, g, c)
  | None => None
  end.
(** prng.rs:156-161 [next_real]: [(a * 2^26 + b) * 2^-53], exact in double
    arithmetic since the integer is below 2^53; the integer is returned. *)
Definition next_real (g : G) (cnt : Z) : Z * G * Z :=
  let (a, g) := next g in
  let (b, g) := next g in
  (Z.shiftr a 5 * 67108864 + Z.shiftr b 6, g, cnt + 2).
(** prng.rs:313-321 [next_real_inclusive], again the integer. *)
Definition next_real_inclusive (g : G) : Z * G :=
  let (a, g) := next g in
  let (b, g) := next g in
  (Z.shiftr ((a * M32 + b) * (2 ^ 53 + 1)) 64, g).
(** prng.rs:97-107 [fill_bytes]. *)
Definition le_bytes (w : Z) : list Z := [w mod 256; w / 256 mod 256; w / 65536 mod 256; w / 16777216 mod 256].
Fixpoint fill_bytes (n : nat) (size : nat) (g : G) : list Z * G :=
  match n with
  | O => ([], g)
  | S n' =>
      match size with
      | O => ([], g)
      | S _ => let (w, g) := next g in
               let (r, g) := fill_bytes n' (size - 4) g in
               (firstn size (le_bytes w) ++ r, g)
      end
  end.

(** *** Kernel#rand and Random#rand with an Integer range, kernel.rs:1755-1763,
    random.rs:338-351.  [None] = nil. *)
Definition kernel_range (n : nat) (s e : Z) (excl : bool) (g : G) (cnt : Z) : option (option Z * G * Z) :=
  let span := w64 (w64 (e - s) + if excl then 0 else 1) in
  if span <=? 0 then Some (None, g, cnt)
  else match ulong_limited n (span - 1) g cnt with
       | Some (r, g, c) => Some (Some (s + r), g, c)
       | None => None
       end.
Definition fixnum (x : Z) : bool := (- 2 ^ 62 <=? x) && (x <? 2 ^ 62).
Definition random_range (n : nat) (s e : Z) (excl : bool) (g : G) (cnt : Z) : option (option Z * G * Z) :=
  let span := w64 (w64 (e - s) + if excl then 0 else 1) in
  if span <=? 0 then Some (None, g, cnt)
  else match rand_int n span g cnt with
       | Some (v, g, c) => Some (Some (s + if fixnum v then v else 0), g, c)
       | None => None
       end.
(** kernel.rs:1765-1781: Float endpoints, doubles as SpecFloat. *)
Definition real (k : Z) : spec_float := binary_normalize 53 1024 k (-53) false.
Definition kernel_float_range (s e : spec_float) (excl : bool) (g : G) : option spec_float * G :=
  if SFltb e s || (excl && SFleb e s) then (None, g)
  else if SFeqb e s then (Some s, g)
  else
    let '(k, g) := if excl then let '(k, g, _) := next_real g 0 in (k, g) else next_real_inclusive g in
    (Some (SFadd 53 1024 s (SFmul 53 1024 (real k) (SFsub 53 1024 e s))), g).
End G.

(** *** Random instances: seed and number of words drawn, random.rs:32-66 *)
Fixpoint skip (n : nat) (g : mt) : mt := match n with O => g | S n' => skip n' (snd (next_u32 g)) end.
Definition mt_at (seed cnt : Z) : mt := skip (Z.to_nat cnt) (build_mt seed).

(** Calls on a generator. *)
Inductive call := RandF | RandI (max : Z) | RandR (s e : Z) (excl : bool) | Bytes (size : nat) | Upto (maxes : list Z).
Inductive answer := AReal (k : Z) | AInt (x : Z) | ABytes (l : list Z) | ANil | AErr | AIdx (l : list Z).
Section C.
Variable G : Type.
Variable next : G -> Z * G.
Variable n : nat.
(** random.rs:88-105 [RandomDraw]: several draws in one session. *)
Fixpoint draws (maxes : list Z) (g : G) (cnt : Z) : option (list Z * G * Z) :=
  match maxes with
  | [] => Some ([], g, cnt)
  | m :: t => match ulong_limited G next n m g cnt with
              | None => None
              | Some (x, g, c) => match draws t g c with None => None | Some (l, g, c) => Some (x :: l, g, c) end
              end
  end.
(** random.rs:316-385 [inst_rand_op], :452-480 [instance_bytes]. *)
Definition do_call (c : call) (g : G) (cnt : Z) : option (answer * G * Z) :=
  match c with
  | RandF => let '(k, g, c) := next_real G next g cnt in Some (AReal k, g, c)
  | RandI max => if max <=? 0 then Some (AErr, g, cnt)
                 else match rand_int G next n max g cnt with Some (x, g, c) => Some (AInt x, g, c) | None => None end
  | RandR s e excl => match random_range G next n s e excl g cnt with
                      | Some (Some x, g, c) => Some (AInt x, g, c)
                      | Some (None, g, c) => Some (ANil, g, c)
                      | None => None
                      end
  | Bytes size => let (l, g) := fill_bytes G next size size g in Some (ABytes l, g, cnt + Z.of_nat ((size + 3) / 4))
  | Upto maxes => match draws maxes g cnt with Some (l, g, c) => Some (AIdx l, g, c) | None => None end
  end.
End C.
(** random.rs:46-58 [load_state] and the write-back: a count that is not a
    fixnum would be read as 0. *)
Record random := mkrandom { r_seed : Z; r_cnt : Z }.
Definition load (r : random) : mt * Z :=
  let c := if fixnum (r_cnt r) then r_cnt r else 0 in (mt_at (r_seed r) c, c).
Definition inst_call (n : nat) (c : call) (r : random) : option (answer * random) :=
  let (g, cnt) := load r in
  match do_call mt next_u32 n c g cnt with
  | Some (a, _, cnt') => Some (a, mkrandom (r_seed r) cnt')
  | None => None
  end.
Fixpoint inst_run (n : nat) (cs : list call) (r : random) : option (list answer * random) :=
  match cs with
  | [] => Some ([], r)
  | c :: t => match inst_call n c r with
              | None => None
              | Some (a, r) => match inst_run n t r with None => None | Some (l, r) => Some (a :: l, r) end
              end
  end.
(** random.rs:302-314 [rand] with an argument whose to_int uses the same
    generator: the state is loaded before the conversion and written after. *)
Definition inst_nested (n : nat) (inner : list call) (max : Z) (r : random) : option (list answer * answer * random) :=
  let (g, cnt) := load r in
  match inst_run n inner r with
  | None => None
  | Some (l, _) =>
      match do_call mt next_u32 n (RandI max) g cnt with
      | Some (a, _, cnt') => Some (l, a, mkrandom (r_seed r) cnt')
      | None => None
      end
  end.

(** *** Array#shuffle and #sample *)
Section S.
Variable A St : Type.
(** array.rs:4332-4345 [rand_upto]: a draw below [max]; it may run Ruby code
    (duck-typed generator) and so change the array, or raise ([None]). *)
Variable draw : nat -> St -> list A -> option nat * St * list A.
Inductive outcome := Done | Raised | Modified | OutOfBounds.
Definition swap (l : list A) (i j : nat) : option (list A) :=
  match nth_error l i, nth_error l j with
  | Some x, Some y => Some (map (fun p => if Nat.eqb (fst p) i then y else if Nat.eqb (fst p) j then x else snd p) (combine (seq 0 (length l)) l))
  | _, _ => None
  end.
(** array.rs:4405-4428 [shuffle_inner]; [i] counts down. *)
Fixpoint shuffle_loop (guard : option nat) (i : nat) (s : St) (l : list A) : outcome * St * list A :=
  match i with
  | O => (Done, s, l)
  | S i' =>
      match i' with
      | O => (Done, s, l)
      | S _ =>
          match draw (S i') s l with
          | (None, s, l) => (Raised, s, l)
          | (Some j, s, l) =>
              if match guard with Some len => negb (Nat.eqb (length l) len) | None => false end then (Modified, s, l)
              else match swap l i' j with
                   | None => (OutOfBounds, s, l)
                   | Some l => shuffle_loop guard i' s l
                   end
          end
      end
  end.
Definition shuffle (reenters : bool) (s : St) (l : list A) : outcome * St * list A :=
  shuffle_loop (if reenters then Some (length l) else None) (length l) s l.

Inductive picked := Picked (l : list A) | PRaised | POutOfBounds.
Definition at_all (l : list A) (idx : list nat) : picked :=
  match fold_right (fun i r => match nth_error l i, r with Some x, Some t => Some (x :: t) | _, _ => None end) (Some []) idx with
  | Some r => Picked r
  | None => POutOfBounds
  end.
(** array.rs:4505-4510: [n] draws from [len], [len - 1], ... *)
Fixpoint roll (n len : nat) (s : St) (l : list A) : option (list nat) * St * list A :=
  match n with
  | O => (Some [], s, l)
  | S n' =>
      match draw len s l with
      | (None, s, l) => (None, s, l)
      | (Some r, s, l) =>
          match roll n' (len - 1) s l with
          | (Some t, s, l) => (Some (r :: t), s, l)
          | (None, s, l) => (None, s, l)
          end
      end
  end.
(** array.rs:4586-4598: lift [k] over the sorted indices already taken. *)
Fixpoint lift (k : nat) (sorted : list nat) : nat * list nat :=
  match sorted with
  | [] => (k, [k])
  | x :: t => if (x <=? k)%nat then let (k', t') := lift (S k) t in (k', x :: t') else (k, k :: sorted)
  end.
Fixpoint lift_all (rnds sorted : list nat) : list nat :=
  match rnds with
  | [] => []
  | k :: t => let (k', sorted) := lift k sorted in k' :: lift_all t sorted
  end.
(** array.rs:4634-4641: partial Fisher-Yates over a copy. *)
Fixpoint partial_shuffle (n i len : nat) (s : St) (l copy : list A) : option (list A) * bool :=
  match n with
  | O => (Some copy, false)
  | S n' =>
      match draw (len - i) s l with
      | (None, s, l) => (None, false)
      | (Some r, s, l) => match swap copy i (r + i) with
                          | None => (None, true)
                          | Some copy => partial_shuffle n' (S i) len s l copy
                          end
      end
  end.
(** array.rs:4605-4632: the same over a sparse map of swaps. *)
Definition look (m : list (nat * nat)) (i : nat) : nat := match find (fun p => Nat.eqb (fst p) i) m with Some p => snd p | None => i end.
Fixpoint sparse (picks : list nat) (i : nat) (m : list (nat * nat)) : list nat :=
  match picks with
  | [] => []
  | j :: t => look m j :: sparse t (S i) ((j, look m i) :: m)
  end.
Fixpoint add_from (i : nat) (rs : list nat) : list nat := match rs with [] => [] | r :: t => (r + i)%nat :: add_from (S i) t end.
(** array.rs:4566-4574 *)
Definition memo_threshold (len : nat) : nat :=
  let z := Z.of_nat len in
  Z.to_nat (if z <? 2560 then z / 128 else if z <? 5120 then z / 64 else if z <? 10240 then z / 32 else z / 16).
(** array.rs:4483-4642 [sample_inner] with a count ([n] already converted and not negative). *)
Definition sample (n : nat) (s : St) (l : list A) : picked :=
  let len := length l in
  let n := Nat.min n len in
  match (if (n <=? 10)%nat then roll n len s l else (Some [], s, l)) with
  | (None, _, _) => PRaised
  | (Some rnds, s, l) =>
      let shrunk := (length l <? len)%nat in
      let len := length l in
      if shrunk && (n <=? 10)%nat && existsb (fun r => (len <=? r)%nat) (firstn n rnds) then Picked []
      else
        let n := Nat.min n len in
        match n with
        | O => Picked []
        | 1%nat => at_all l [nth 0 rnds 0]%nat
        | 2%nat => let i := nth 0 rnds 0%nat in let j := nth 1 rnds 0%nat in
                   at_all l [i; if (i <=? j)%nat then S j else j]
        | 3%nat =>
            let i := nth 0 rnds 0%nat in let j := nth 1 rnds 0%nat in let k := nth 2 rnds 0%nat in
            let '(j, lo, hi) := if (i <=? j)%nat then (S j, i, S j) else (j, j, i) in
            let k := if (lo <=? k)%nat then (if (hi <=? S k)%nat then S (S k) else S k) else k in
            at_all l [i; j; k]
        | _ =>
            if (n <=? 10)%nat then at_all l (lift_all (firstn n rnds) [])
            else if (n <=? memo_threshold len / 2)%nat then
              match roll n len s l with
              | (None, _, _) => PRaised
              | (Some rs, s, l) =>
                  let picks := add_from 0 rs in
                  let len := length l in
                  let n := if (len <=? fold_right Nat.max 0 picks)%nat then O else Nat.min n len in
                  at_all l (sparse (firstn n picks) 0 [])
              end
            else match partial_shuffle n 0 len s l l with
                 | (Some c, _) => Picked (firstn n c)
                 | (None, true) => POutOfBounds
                 | (None, false) => PRaised
                 end
        end
  end.
End S.
