(** Model of the machine-code sequences that the interpreter and the JIT emit
    for Integer operators on inline (fixnum) operands.
    Sources: /repo/monoruby/src/codegen/arch/x86_64/compile/binary_op.rs,
    /repo/monoruby/src/codegen/arch/x86_64/vmgen.rs,
    /repo/monoruby/src/codegen/arch/aarch64/compile/binary_op.rs.

    A register holds an i64; every instruction result is wrapped ([wrap64]).
    [jo] jumps when the exact signed result does not fit ([oflow]).  A jump to
    [deopt] (or to the interpreter's [generic] label) hands the original
    operands to the generic path (IntModel); it is the outcome [Deopt]. *)
From Coq Require Import ZArith Bool.
From Verif Require Import IntModel.
Open Scope Z_scope.

Inductive aout := Reg (w : Z) | Deopt.

(** Tagged fixnum: value.rs:3403 [(n << 1) | 1]. *)
Definition tag (n : Z) : Z := 2 * n + 1.

Definition oflow (z : Z) : bool := negb (in_i64 z).

(** [lzcntq] / [leading_zeros] of the 64-bit pattern of a signed register. *)
Definition lzcnt (w : Z) : Z :=
  if w <? 0 then 0 else if w =? 0 then 64 else 63 - Z.log2 w.

(** x86_64/compile/binary_op.rs:23-37 [BinOpK::Add]; also vmgen.rs:1422-1429
    ([subb] of a register whose low bit is set does not borrow);
    aarch64 binary_op.rs:15-21. *)
Definition asm_add (l r : Z) : aout :=
  let l1 := wrap64 (l - 1) in
  if oflow (l1 + r) then Deopt else Reg (wrap64 (l1 + r)).

(** x86_64 binary_op.rs:55-70 [BinOpK::Sub]; vmgen.rs:1431-1438;
    aarch64 binary_op.rs:22-26. *)
Definition asm_sub (l r : Z) : aout :=
  if oflow (l - r) then Deopt else Reg (wrap64 (wrap64 (l - r) + 1)).

(** x86_64 binary_op.rs:38-54 [BinOpK::Mul]; aarch64:34-48 ([smulh] test). *)
Definition asm_mul (l r : Z) : aout :=
  let r1 := Z.shiftr r 1 in
  let l1 := wrap64 (l - 1) in
  if oflow (l1 * r1) then Deopt else Reg (Z.lor (wrap64 (l1 * r1)) 1).

(** x86_64 binary_op.rs:71-107 [BinOpK::Div]; aarch64:54-74.  [idiv]/[sdiv]
    of two untagged fixnums truncates and cannot trap (the divisor is
    non-zero and the dividend is at least -2^62). *)
Definition asm_div (l r : Z) : aout :=
  let b := Z.shiftr r 1 in
  if b =? 0 then Deopt
  else
    let a := Z.shiftr l 1 in
    let q := Z.quot a b in let m := Z.rem a b in
    let q' := if b <? 0 then (if m <=? 0 then q else wrap64 (q - 1))
              else (if m <? 0 then wrap64 (q - 1) else q) in
    Reg (Z.lor (wrap64 (Z.shiftl q' 1)) 1).

(** x86_64 binary_op.rs:199-235 [gen_int_rem]. *)
Definition asm_rem (l r : Z) : aout :=
  let b := Z.shiftr r 1 in
  if b =? 0 then Deopt
  else
    let a := Z.shiftr l 1 in
    let m := Z.rem a b in
    let m' := if b <? 0 then (if m <=? 0 then m else wrap64 (m + b))
              else (if m <? 0 then wrap64 (m + b) else m) in
    Reg (Z.lor (wrap64 (Z.shiftl m' 1)) 1).

(** x86_64 binary_op.rs:112-124: [orq], [andq], [xorq; addq 1]. *)
Definition asm_or (l r : Z) : aout := Reg (Z.lor l r).
Definition asm_and (l r : Z) : aout := Reg (Z.land l r).
Definition asm_xor (l r : Z) : aout := Reg (wrap64 (Z.lxor l r + 1)).

(** x86_64 binary_op.rs:138-165 [integer_binop_imm]; [imm] is [2k]. *)
Definition asm_add_imm (l k : Z) : aout :=
  if oflow (l + 2 * k) then Deopt else Reg (wrap64 (l + 2 * k)).
Definition asm_sub_imm (l k : Z) : aout :=
  if oflow (l - 2 * k) then Deopt else Reg (wrap64 (l - 2 * k)).

(** x86_64 binary_op.rs:174-190 [integer_double]. *)
Definition asm_double (r : Z) : aout :=
  if oflow (r + r) then Deopt else Reg (wrap64 (wrap64 (r + r) - 1)).

(** x86_64/compile/mod.rs:729-740 [FixnumNeg]; vmgen.rs:1376-1398. *)
Definition asm_neg (r : Z) : aout :=
  let v := Z.shiftr r 1 in
  if oflow (- v) then Deopt
  else let v1 := wrap64 (- v) in
       if oflow (v1 + v1) then Deopt else Reg (Z.lor (wrap64 (v1 + v1)) 1).

(** x86_64/compile/mod.rs:742-750 [FixnumBitNot]. *)
Definition asm_bitnot (r : Z) : aout :=
  Reg (Z.lor (wrap64 (Z.shiftl (Z.lnot (Z.shiftr r 1)) 1)) 1).

(** x86_64/compile/mod.rs:443-449 [IntegerSucc]. *)
Definition asm_succ (r : Z) : aout :=
  if oflow (r + 2) then Deopt else Reg (wrap64 (r + 2)).

(** x86_64 binary_op.rs:686-702 [shift_under] followed by [orq rdi, 1]. *)
Definition asm_under (l : Z) : Z := if l <? 0 then Z.lor (-1) 1 else Z.lor 0 1.

(** x86_64 binary_op.rs:717-743 [gen_shr].  [c] is the tagged count. *)
Definition asm_shr (l c : Z) : aout :=
  let k := Z.shiftr c 1 in
  if k <? 0 then
    let k' := wrap64 (- k) in
    if lzcnt l <? k' then Deopt                       (* jgt deopt *)
    else Reg (Z.lor (wrap64 (Z.shiftl (wrap64 (l - 1)) k')) 1)
  else if 64 <=? k then Reg (asm_under l)
  else Reg (Z.lor (Z.shiftr l k) 1).

(** x86_64 binary_op.rs:798-827 [gen_shl]. *)
Definition asm_shl (l c : Z) : aout :=
  let k := Z.shiftr c 1 in
  if k <? 0 then
    let k' := wrap64 (- k) in
    if 64 <=? k' then Reg (asm_under l) else Reg (Z.lor (Z.shiftr l k') 1)
  else if lzcnt l <=? k then Deopt                    (* jle deopt *)
  else Reg (Z.lor (wrap64 (Z.shiftl (wrap64 (l - 1)) k)) 1).

(** x86_64 binary_op.rs:887-897 [gen_shl_rhs_imm], constant count 0 <= k < 64. *)
Definition asm_shl_rhs_imm (l k : Z) : aout :=
  if lzcnt l <=? k then Deopt
  else Reg (Z.lor (wrap64 (Z.shiftl (wrap64 (l - 1)) k)) 1).

(** x86_64 binary_op.rs:840-873 [gen_shl_lhs_imm] is [asm_shl] with the
    operand known at compile time (same comparison, [jge]). *)

(** x86_64 binary_op.rs:745-763 [gen_shr_imm], constant count k >= 0. *)
Definition asm_shr_imm (l k : Z) : aout :=
  if 64 <=? k then Reg (if l <? 0 then tag (-1) else tag 0)
  else Reg (Z.lor (Z.shiftr l k) 1).

(** x86_64/compile/builtin.rs:1091-1097 [emit_shl_overflow_zero]. *)
Definition asm_shl_overflow_zero (l : Z) : aout := if l =? tag 0 then Reg (tag 0) else Deopt.

(** x86_64 binary_op.rs:776-782 [gen_bit_index_imm], constant index n >= 0. *)
Definition asm_bit_index (l n : Z) : aout :=
  Reg (Z.lor (Z.land (Z.shiftr l (Z.min n 63)) 2) 1).

(** aarch64 binary_op.rs:147-161, 166-203, 210-247: left shift with a
    shift-back test instead of [lzcnt]. *)
Definition a64_shl_k (l k : Z) : aout :=
  if 64 <=? k then Deopt
  else let l1 := wrap64 (l - 1) in
       let s := wrap64 (Z.shiftl l1 k) in
       if Z.shiftr s k =? l1 then Reg (Z.lor s 1) else Deopt.
Definition a64_shr (l c : Z) : aout :=
  let k := Z.shiftr c 1 in
  if k <? 0 then a64_shl_k l (wrap64 (- k))
  else if 64 <=? k then Reg (asm_under l)
  else Reg (Z.lor (Z.shiftr l k) 1).
Definition a64_shl (l c : Z) : aout :=
  let k := Z.shiftr c 1 in
  if k <? 0 then
    let k' := wrap64 (- k) in
    if 64 <=? k' then Reg (asm_under l) else Reg (Z.lor (Z.shiftr l k') 1)
  else a64_shl_k l k.

(** Compile-time folding: codegen/jitgen/state/binop.rs:70-101 and
    builtins/numeric/integer.rs:705-764.  [None] means "not folded". *)
Definition check_fixnum (z : Z) : option Z := if fits_i63 z then Some z else None.
Definition fold_arith (f : Z -> Z -> Z) (a b : Z) : option Z :=
  match checked (f a b) with Some r => check_fixnum r | None => None end.
Definition fold_div (a b : Z) : option Z :=
  if b =? 0 then None
  else match ruby_div_i64 a b with Some q => check_fixnum q | None => None end.
Definition fold_shl_pos (a k : Z) : option Z :=
  if a =? 0 then Some 0
  else if 63 <=? k then None
  else let r := wrap64 (Z.shiftl a k) in
       if (Z.shiftr r k =? a) && fits_i63 r then Some r else None.
Definition fold_shr_pos (a k : Z) : Z :=
  if 64 <=? k then (if 0 <=? a then 0 else -1) else Z.shiftr a k.
Definition fold_shr (a n : Z) : option Z :=
  if 0 <=? n then Some (fold_shr_pos a n) else fold_shl_pos a (- n).
Definition fold_shl (a n : Z) : option Z :=
  if 0 <=? n then fold_shl_pos a n else Some (fold_shr_pos a (- n)).
