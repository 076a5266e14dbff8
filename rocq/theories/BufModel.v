(** IO::Buffer (value/rvalue/io_buffer.rs, builtins/io_buffer.rs): storage, slices, strings behind buffers, typed values.
    Offsets and sizes inside the process are natural numbers; arguments are Integers of 64 bits. *)
From Coq Require Import List Bool ZArith Arith.
Import ListNotations.

(** BufStorage (io_buffer.rs:14-36). [Map] is a file mapping, its bytes taken as memory of the process; [Str] names a String;
    [Slice] names the buffer it was cut from. *)
Inductive storage := Null | Owned (l : list Z) | Map (l : list Z) | Str (s o : nat) | Slice (p o : nat).
(** IoBufferInner (74-79); of the flags only READONLY and PRIVATE *)
Record buf := mkB { sto : storage; size : nat; ro : bool; priv : bool; locked : bool }.
Definition null : buf := mkB Null 0 false false false.
Definition owned (l : list Z) (ro priv : bool) : buf := mkB (Owned l) (length l) ro priv false.

(** The buffers, the newest first; the number of a buffer is the count of those before it. A slice is newer than what it was cut from. *)
Definition heap := list buf.
Fixpoint get (h : heap) (i : nat) : option buf :=
  match h with [] => None | b :: t => if i =? length t then Some b else get t i end.
Fixpoint put (h : heap) (i : nat) (b : buf) : heap :=
  match h with [] => [] | c :: t => if i =? length t then b :: t else c :: put t i b end.
Definition cut (l : list Z) (o n : nat) : list Z := firstn n (skipn o l).
Definition patch (l : list Z) (o : nat) (d : list Z) : list Z := firstn o l ++ d ++ skipn (o + length d) l.
Fixpoint set_nth (ss : list (list Z)) (s : nat) (l : list Z) : list (list Z) :=
  match ss with [] => [] | x :: r => match s with O => l :: r | S s => x :: set_nth r s l end end.

(** read_bytes (147-175); None is the bounds error *)
Fixpoint read (ss : list (list Z)) (h : heap) (i : nat) : option (list Z) :=
  match h with
  | [] => None
  | b :: t =>
      if i =? length t then
        match sto b with
        | Null => Some []
        | Owned l => Some l
        | Map l => Some (firstn (Nat.min (size b) (length l)) l)
        | Str s o => match nth_error ss s with Some l => if o + size b <=? length l then Some (cut l o (size b)) else None | None => None end
        | Slice p o => match read ss t p with Some l => if o + size b <=? length l then Some (cut l o (size b)) else None | None => None end
        end
      else read ss t i
  end.
(** write_at (181-222): a plain slice of a Vec panics, the others check *)
Inductive wres := WOk (ss : list (list Z)) (h : heap) | WErr | WPanic.
Fixpoint write (ss : list (list Z)) (h : heap) (i o : nat) (d : list Z) : wres :=
  match h with
  | [] => WErr
  | b :: t =>
      if i =? length t then
        match sto b with
        | Null => WOk ss h
        | Owned l => if o + length d <=? length l then WOk ss (mkB (Owned (patch l o d)) (size b) (ro b) (priv b) (locked b) :: t) else WPanic
        | Map l => if o + length d <=? length l then WOk ss (mkB (Map (patch l o d)) (size b) (ro b) (priv b) (locked b) :: t) else WErr
        | Str s base => match nth_error ss s with
                        | Some l => if base + o + length d <=? length l then WOk (set_nth ss s (patch l (base + o) d)) h else WErr
                        | None => WErr
                        end
        | Slice p base => match write ss t p (base + o) d with WOk ss t => WOk ss (b :: t) | r => r end
        end
      else match write ss t i o d with WOk ss t => WOk ss (b :: t) | r => r end
  end.

(** * Typed values (io_buffer.rs:116-216). A Float is its bits; converting them is the processor's. *)
Inductive kind := Unsigned | Signed | Bits.
Local Open Scope Z_scope.
Fixpoint from_le (l : list Z) : Z := match l with [] => 0 | b :: l => b + 256 * from_le l end.
Definition decode (l : list Z) (k : kind) (big : bool) : Z :=
  let raw := from_le (if big then rev l else l) in
  let bits := 8 * Z.of_nat (length l) in
  match k with
  | Signed => if 2 ^ (bits - 1) <=? raw then raw - 2 ^ bits else raw
  | _ => raw
  end.
Fixpoint to_le (n : nat) (v : Z) : list Z := match n with O => [] | S n => v mod 256 :: to_le n (v / 256) end.
Definition i64_fits (z : Z) : bool := (-(2 ^ 63) <=? z) && (z <? 2 ^ 63).
(** None: the RangeError of coerce_to_int_i64 *)
Definition encode (n : nat) (k : kind) (big : bool) (v : Z) : option (list Z) :=
  let bytes := let l := to_le n (v mod 2 ^ 64) in if big then rev l else l in
  match k with Bits => Some bytes | _ => if i64_fits v then Some bytes else None end.

(** * The methods *)
Record world := mkW { strs : list (list Z); bufs : heap }.
Inductive ans := ANil | AInt (z : Z) | ABytes (l : list Z) | AInts (l : list Z) | ABuf (i : nat) | ABool (b : bool).
Inductive res := Val (a : ans) | Err | Panic.
Inductive bop := And | Or | Xor.
Inductive source := Bytes (l : list Z) | Same (s : nat).
Inductive op :=
  | New (n : Z) (ro : bool)                               (** IO::Buffer.new with INTERNAL or MAPPED, perhaps READONLY *)
  | For (s : nat)                                         (** IO::Buffer.for without a block *)
  | ForBegin (s : nat) (frozen : bool) | ForEnd (i : nat) (** with a block *)
  | MapFile (l : list Z) (priv ro : bool)
  | Free (i : nat) | Transfer (i : nat) | Resize (i : nat) (n : Z) | SliceOf (i : nat) (off : Z) (len : option Z) | Dup (i : nat)
  | GetString (i : nat) (off : Z) (len : option Z)
  | SetString (i : nat) (src : source) (off soff : Z) (slen : option Z)
  | GetValue (i : nat) (n : nat) (k : kind) (big : bool) (off : Z)
  | SetValue (i : nat) (n : nat) (k : kind) (big : bool) (off v : Z)
  | Values (i : nat) (n : nat) (k : kind) (big : bool) (off : Z) (count : option Z)
  | Clear (i : nat) (v off : Z) (len : option Z)
  | Compare (i j : nat) | Bit (f : bop) (i m : nat) | BitIn (f : bop) (i m : nat) | Not (i : nat) | NotIn (i : nat)
  | Lock (i : nat) | Unlock (i : nat)                     (** entering and leaving the block of locked *)
  | StrSet (s : nat) (l : list Z).                        (** other code changes a String *)

(** offset_length (646-687) *)
Definition offset_length (size : nat) (off : Z) (len : option Z) : option (nat * nat) :=
  if off <? 0 then None else if Z.of_nat size <? off then None
  else let l := match len with Some l => l | None => Z.of_nat size - off end in
       if l <? 0 then None else if Z.of_nat size <? off + l then None else Some (Z.to_nat off, Z.to_nat l).
Definition bit (f : bop) (a b : Z) : Z := match f with And => Z.land a b | Or => Z.lor a b | Xor => Z.lxor a b end.
(** bitwise_bytes (1192-1200) *)
Definition bitwise (f : bop) (l m : list Z) : list Z :=
  map (fun '(i, b) => bit f b (nth (Nat.modulo i (length m)) m 0)) (combine (seq 0 (length l)) l).
Fixpoint lex (a b : list Z) : Z :=
  match a, b with [], [] => 0 | [], _ => -1 | _, [] => 1 | x :: a, y :: b => if x <? y then -1 else if y <? x then 1 else lex a b end.
(** each_values (278-309), the decoded values *)
Fixpoint each (fuel : nat) (l : list Z) (n : nat) (k : kind) (big : bool) (off : nat) (count : option nat) : list Z :=
  match fuel with
  | O => []
  | S fuel =>
      if (off + n <=? length l)%nat then
        match count with
        | Some O => []
        | _ => decode (cut l off n) k big :: each fuel l n k big (off + n) (match count with Some (S c) => Some c | c => c end)
        end
      else []
  end.
(** The loop of set_byte calls when the String written to is the one read from: later bytes are read after earlier writes. *)
Fixpoint smear (l : list Z) (from to n : nat) : list Z :=
  match n with O => l | S n => smear (patch l to [nth from l 0]) (S from) (S to) n end.
Definition push (w : world) (b : buf) : world * res := (mkW (strs w) (b :: bufs w), Val (ABuf (length (bufs w)))).
Definition wrote (w : world) (r : wres) (a : ans) : world * res :=
  match r with WOk ss h => (mkW ss h, Val a) | WErr => (w, Err) | WPanic => (w, Panic) end.
Definition with_buf (w : world) (i : nat) (f : buf -> world * res) : world * res := match get (bufs w) i with Some b => f b | None => (w, Err) end.
Definition with_bytes (w : world) (i : nat) (f : list Z -> world * res) : world * res :=
  match read (strs w) (bufs w) i with Some l => f l | None => (w, Err) end.
Definition set_buf (w : world) (i : nat) (b : buf) : world := mkW (strs w) (put (bufs w) i b).

Definition step (w : world) (o : op) : world * res :=
  match o with
  | New n ro => if n <? 0 then (w, Err) else push w (if n =? 0 then null else owned (repeat 0 (Z.to_nat n)) ro false)
  | For s =>
      match nth_error (strs w) s with
      | Some l => push (mkW (strs w ++ [l]) (bufs w)) (mkB (Str (length (strs w)) 0) (length l) true false false)
      | None => (w, Err)
      end
  | ForBegin s frozen =>
      match nth_error (strs w) s with Some l => push w (mkB (Str s 0) (length l) frozen false false) | None => (w, Err) end
  | ForEnd i => with_buf w i (fun _ => (set_buf w i null, Val ANil))
  | MapFile l priv ro => if Z.of_nat (length l) =? 0 then (w, Err) else push w (mkB (Map l) (length l) ro priv false)
  | Free i => with_buf w i (fun b => if locked b then (w, Err) else (set_buf w i null, Val (ABuf i)))
  | Transfer i => with_buf w i (fun b => if locked b then (w, Err) else push (set_buf w i (mkB Null 0 (ro b) (priv b) false)) b)
  | Resize i n =>
      with_buf w i (fun b =>
      if locked b then (w, Err) else if n <? 0 then (w, Err) else
      match sto b with
      | Str _ _ | Slice _ _ => (w, Err)
      | _ =>
          if (match sto b with Map _ => negb (priv b) | _ => false end) then (w, Err) else
          with_bytes w i (fun l =>
          let n := Z.to_nat n in
          let l := firstn n l ++ repeat 0 (n - length l) in
          let b' := match sto b with Null => owned l false false | _ => owned l (ro b) (priv b) end in
          (set_buf w i (match n with O => null | _ => b' end), Val (ABuf i)))
      end)
  | SliceOf i off len =>
      with_buf w i (fun b =>
      match offset_length (size b) off len with
      | None => (w, Err)
      | Some (o, n) =>
          match sto b with
          | Null => push w null
          | Str s base => push w (mkB (Str s (base + o)) n (ro b) false false)
          | _ => push w (mkB (Slice i o) n (ro b) false false)
          end
      end)
  | Dup i => with_buf w i (fun b => push w (match sto b with Map l => mkB (Owned l) (size b) (ro b) (priv b) (locked b) | _ => b end))
  | GetString i off len =>
      with_buf w i (fun b => with_bytes w i (fun l =>
      match offset_length (size b) off len with Some (o, n) => (w, Val (ABytes (cut l o n))) | None => (w, Err) end))
  | SetString i src off soff slen =>
      with_buf w i (fun b =>
      if ro b then (w, Err) else with_bytes w i (fun _ =>
      match (match src with Bytes l => Some l | Same s => nth_error (strs w) s end) with
      | None => (w, Err)
      | Some l =>
          if off <? 0 then (w, Err) else
          let so := Z.max 0 soff in
          let sl := match slen with Some n => Z.max 0 n | None => Z.max 0 (Z.of_nat (length l) - so) end in
          let from := Z.to_nat (Z.min so (Z.of_nat (length l))) in
          let upto := Z.to_nat (Z.min (so + sl) (Z.of_nat (length l))) in
          let d := cut l from (upto - from) in
          if Z.of_nat (size b) <? off then (w, Err)
          else if Z.of_nat (size b) <? off + Z.of_nat (length d) then (w, Err)
          else
            let o := Z.to_nat off in
            match sto b, src with
            | Str s base, Same s' =>
                if (s =? s')%nat then (mkW (set_nth (strs w) s (smear l from (base + o) (length d))) (bufs w), Val (AInt (Z.of_nat (length d))))
                else wrote w (write (strs w) (bufs w) i o d) (AInt (Z.of_nat (length d)))
            | _, _ => wrote w (write (strs w) (bufs w) i o d) (AInt (Z.of_nat (length d)))
            end
      end))
  | GetValue i n k big off =>
      with_buf w i (fun b =>
      let off := Z.max 0 off in
      if Z.of_nat (size b) <? off + Z.of_nat n then (w, Err)
      else with_bytes w i (fun l => (w, Val (AInt (decode (cut l (Z.to_nat off) n) k big)))))
  | SetValue i n k big off v =>
      with_buf w i (fun b =>
      if ro b then (w, Err) else
      let off := Z.max 0 off in
      if Z.of_nat (size b) <? off + Z.of_nat n then (w, Err)
      else match encode n k big v with
           | None => (w, Err)
           | Some d => wrote w (write (strs w) (bufs w) i (Z.to_nat off) d) (AInt (off + Z.of_nat n))
           end)
  | Values i n k big off count =>
      with_bytes w i (fun l =>
      let off := Z.max 0 off in
      if Z.of_nat (length l) <? off then (w, Val (AInts []))
      else (w, Val (AInts (each (S (length l)) l n k big (Z.to_nat off) (option_map (fun c => Z.to_nat (Z.max 0 c)) count)))))
  | Clear i v off len =>
      with_buf w i (fun b =>
      if ro b then (w, Err) else
      match offset_length (size b) off len with
      | None => (w, Err)
      | Some (o, n) => wrote w (write (strs w) (bufs w) i o (repeat (v mod 256) n)) (ABuf i)
      end)
  | Compare i j => with_bytes w i (fun a => with_bytes w j (fun b => (w, Val (AInt (lex a b)))))
  | Bit f i m =>
      with_bytes w m (fun m => if (length m =? 0)%nat then (w, Err) else with_bytes w i (fun l => push w (owned (bitwise f l m) false false)))
  | BitIn f i m =>
      with_bytes w m (fun m => if (length m =? 0)%nat then (w, Err) else with_buf w i (fun b => if ro b then (w, Err) else
      with_bytes w i (fun l => wrote w (write (strs w) (bufs w) i 0 (bitwise f l m)) (ABuf i))))
  | Not i => with_bytes w i (fun l => push w (owned (map (fun b => 255 - b) l) false false))
  | NotIn i => with_buf w i (fun b => if ro b then (w, Err) else with_bytes w i (fun l => wrote w (write (strs w) (bufs w) i 0 (map (fun b => 255 - b) l)) (ABuf i)))
  | Lock i => with_buf w i (fun b => if locked b then (w, Err) else (set_buf w i (mkB (sto b) (size b) (ro b) (priv b) true), Val ANil))
  | Unlock i => with_buf w i (fun b => (set_buf w i (mkB (sto b) (size b) (ro b) (priv b) false), Val ANil))
  | StrSet s l => (mkW (set_nth (strs w) s l) (bufs w), Val ANil)
  end.
Fixpoint run (w : world) (l : list op) : world := match l with [] => w | o :: l => run (fst (step w o)) l end.
