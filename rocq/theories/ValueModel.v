(** Model of monoruby's tagged 64-bit value words.
    Source: /repo/monoruby/src/value.rs. *)
From Coq Require Import ZArith Bool List.
From Verif Require Import ValueSpec.
Open Scope Z_scope.

(** 64-bit words are integers in [0, 2^64). *)
Definition word64 : Z := 2 ^ 64.
Definition is_word (w : Z) : Prop := 0 <= w < word64.

(** Bitwise complement of a u64 ([!c] in Rust). *)
Definition not64 (c : Z) : Z := word64 - 1 - c.

(** [x << n] on u64 (wrapping, n < 64). *)
Definition shl64 (x n : Z) : Z := Z.shiftl x n mod word64.

(** value.rs:27-30 *)
Definition NIL_VALUE : Z := 4.
Definition FALSE_VALUE : Z := 20.
Definition TRUE_VALUE : Z := 28.
Definition TAG_SYMBOL : Z := 12.
(** value.rs:32  [(0b1000 << 60) | 0b10] *)
Definition FLOAT_ZERO : Z := Z.lor (Z.shiftl 8 60) 2.

(** The bit pattern of an i64 ([num as u64]). *)
Definition u64_of_i64 (z : Z) : Z := z mod word64.
(** [u as i64]: reinterpret a u64 as two's complement. *)
Definition i64_of_u64 (u : Z) : Z := if u <? 2 ^ 63 then u else u - word64.

(** value.rs:962-965 [Value::is_i63] *)
Definition is_i63 (num : Z) : bool :=
  let u := u64_of_i64 num in
  let top := Z.lxor (Z.shiftr u 62) (Z.shiftr u 63) in
  Z.land top 1 =? 0.

(** value.rs:3403-3405 [Immediate::fixnum]: [(num << 1) as u64 | 0b1] *)
Definition enc_fixnum (num : Z) : Z := Z.lor (shl64 (u64_of_i64 num) 1) 1.

(** value.rs:3407-3409 [Immediate::symbol] *)
Definition enc_symbol (id : Z) : Z := Z.lor (shl64 id 32) TAG_SYMBOL.

(** [u64::rotate_left(3)] / [u64::rotate_right(3)] *)
Definition rotl3 (x : Z) : Z := Z.lor (shl64 x 3) (Z.shiftr x 61).
Definition rotr3 (x : Z) : Z := Z.lor (Z.shiftr x 3) (shl64 x 61).

(** [f == 0.0] on a bit pattern: both zeros, nothing else. *)
Definition f64_eq_zero (bits : Z) : bool := (bits =? 0) || (bits =? 2 ^ 63).
(** [f64::is_sign_negative] on a bit pattern. *)
Definition f64_sign_negative (bits : Z) : bool := Z.testbit bits 63.

(** value.rs:3411-3426 [Immediate::flonum]: the inline encoding of a float,
    [None] when it has to go to the heap. *)
Definition enc_flonum (bits : Z) : option Z :=
  if f64_eq_zero bits then
    if f64_sign_negative bits then None else Some FLOAT_ZERO
  else
    let exp := Z.land (Z.shiftr bits 60) 7 + 1 in
    if Z.land exp 6 =? 4 then Some (Z.lor (Z.land (rotl3 bits) (not64 1)) 2)
    else None.

(** value.rs:2331-2333, 2341-2347 *)
Definition is_fixnum (w : Z) : bool := Z.land w 1 =? 1.
Definition try_fixnum (w : Z) : option Z :=
  if is_fixnum w then Some (Z.shiftr (i64_of_u64 w) 1) else None.

(** value.rs:2378-2380, 2395-2410 *)
Definition is_flonum (w : Z) : bool := Z.land w 3 =? 2.
Definition as_flonum (u : Z) : Z :=
  if u =? FLOAT_ZERO then 0
  else
    let bit := 2 - Z.land (Z.shiftr u 63) 1 in
    rotr3 (Z.lor (Z.land u (not64 3)) bit).
Definition try_flonum (w : Z) : option Z :=
  if is_flonum w then Some (as_flonum w) else None.

(** value.rs:2194-2196 [Value::is_packed_value] *)
Definition is_packed_value (w : Z) : bool := negb (Z.land w 7 =? 0).

(** value.rs:2465-2479 *)
Definition is_symbol (w : Z) : bool := Z.land w 255 =? TAG_SYMBOL.
Definition try_symbol (w : Z) : option Z :=
  if is_symbol w then Some (Z.shiftr w 32) else None.

(** value.rs:912-914 [Value::as_bool] *)
Definition as_bool (w : Z) : bool := negb (Z.land w (not64 16) =? NIL_VALUE).

(** What a word denotes.  [RRef a] is a heap cell at address [a]; its
    contents live in a separate heap. *)
Inductive RV :=
| RInvalid | RNil | RBool (b : bool) | RFixnum (z : Z) | RFloat (bits : Z)
| RSymbol (id : Z) | RRef (addr : Z) | RUnreachable.

(** value.rs:1525-1546 [Value::unpack]; the heap dispatch of [rv.unpack()] is
    left to the caller ([RRef]).  [RUnreachable] stands for [unreachable!]. *)
Definition unpack (w : Z) : RV :=
  match try_fixnum w with
  | Some i => RFixnum i
  | None =>
    match try_flonum w with
    | Some f => RFloat f
    | None =>
      if w =? 0 then RInvalid
      else if negb (is_packed_value w) then RRef w
      else match try_symbol w with
           | Some id => RSymbol id
           | None =>
             if w =? NIL_VALUE then RNil
             else if w =? TRUE_VALUE then RBool true
             else if w =? FALSE_VALUE then RBool false
             else RUnreachable
           end
    end
  end.

(** Heap of boxed floats: address -> bits (rvalue.rs [as_float] stores the
    f64 unchanged). *)
Definition fheap := Z -> option Z.

(** value.rs:1028-1034 [Value::float]: box at address [addr] when needed. *)
Definition store_float (h : fheap) (addr bits : Z) : Z * fheap :=
  match enc_flonum bits with
  | Some w => (w, h)
  | None => (addr, fun a => if a =? addr then Some bits else h a)
  end.

(** value.rs:2412-2423 [Value::try_float] *)
Definition read_float (h : fheap) (w : Z) : option Z :=
  match try_flonum w with
  | Some f => Some f
  | None => if is_packed_value w then None else h w
  end.

(** The word the runtime produces for a value (value.rs:3384-3447 and the
    constructors at 917-1050).  [None] when the value does not get an inline
    word (floats that are boxed). *)
Definition word_of (v : rvalue) : option Z :=
  match v with
  | VNil => Some NIL_VALUE
  | VTrue => Some TRUE_VALUE
  | VFalse => Some FALSE_VALUE
  | VInt z => Some (enc_fixnum z)
  | VSym n => Some (enc_symbol n)
  | VFloat b => enc_flonum b
  | VRef a => Some a
  end.

(** The denotation computed by [unpack], in the specification's vocabulary.
    [None] for the null word and the [unreachable!] branch. *)
Definition value_of (w : Z) : option rvalue :=
  match unpack w with
  | RInvalid | RUnreachable => None
  | RNil => Some VNil
  | RBool true => Some VTrue
  | RBool false => Some VFalse
  | RFixnum z => Some (VInt z)
  | RFloat b => Some (VFloat b)
  | RSymbol n => Some (VSym n)
  | RRef a => Some (VRef a)
  end.

(** Heap of boxed integers. *)
Definition iheap := Z -> option Z.
(** value.rs:997-1003 [Value::integer]: an i64 either inline or boxed. *)
Definition store_integer (h : iheap) (addr num : Z) : Z * iheap :=
  if is_i63 num then (enc_fixnum num, h)
  else (addr, fun a => if a =? addr then Some num else h a).
(** Reading an Integer back: fixnum first, heap bignum otherwise
    (value.rs:1525-1546 with rvalue.rs's BIGNUM arm). *)
Definition read_integer (h : iheap) (w : Z) : option Z :=
  match try_fixnum w with
  | Some z => Some z
  | None => if is_packed_value w then None else h w
  end.
