(** Property theorems C43 (compiled Integer operators). *)
From Coq Require Import ZArith Bool Lia.
From Verif Require Import IntSpec IntModel FixAsmModel FixAsmProofs.
Open Scope Z_scope.

(** C43 is false: in compiled code -2^62 / -1 answers -2^62 (x86_64 and
    aarch64), and on x86_64 1 >> -62 answers -2^62, while the interpreter's
    generic operators answer 2^62. *)
Theorem C43_compiled_integer_refuted :
  (exists a b w z, fixr a /\ fixr b /\ asm_div (tag a) (tag b) = Reg w /\
     div_values (NFix a) (NFix b) = Val z /\ z <> NFix (Z.shiftr w 1)) /\
  (exists a b w z, fixr a /\ fixr b /\ asm_shr (tag a) (tag b) = Reg w /\
     shr_values (NFix a) (NFix b) = Val z /\ z <> NFix (Z.shiftr w 1)).
Proof. exact compiled_refuted. Qed.
Print Assumptions C43_compiled_integer_refuted.

(** C43 for + - * (general and constant operand), x+x, succ, unary minus, ~,
    &, |, ^ : whenever the machine code does not leave to the generic path it
    answers exactly what the generic path answers. *)
Theorem C43_compiled_arith_partial : forall a b, fixr a -> fixr b ->
  agrees (asm_add (tag a) (tag b)) (Val (add_values (NFix a) (NFix b))) /\
  agrees (asm_sub (tag a) (tag b)) (Val (sub_values (NFix a) (NFix b))) /\
  agrees (asm_mul (tag a) (tag b)) (Val (mul_values (NFix a) (NFix b))) /\
  agrees (asm_add_imm (tag a) b) (Val (add_values (NFix a) (NFix b))) /\
  agrees (asm_sub_imm (tag a) b) (Val (sub_values (NFix a) (NFix b))) /\
  agrees (asm_or (tag a) (tag b)) (Val (bit_values Z.lor (NFix a) (NFix b))) /\
  agrees (asm_and (tag a) (tag b)) (Val (bit_values Z.land (NFix a) (NFix b))) /\
  agrees (asm_xor (tag a) (tag b)) (Val (bit_values Z.lxor (NFix a) (NFix b))) /\
  agrees (asm_double (tag a)) (Val (add_values (NFix a) (NFix a))) /\
  agrees (asm_succ (tag a)) (Val (add_values (NFix a) (NFix 1))) /\
  agrees (asm_neg (tag a)) (Val (neg_value (NFix a))) /\
  agrees (asm_bitnot (tag a)) (Val (bitnot_value (NFix a))).
Proof. exact agrees_arith. Qed.
Print Assumptions C43_compiled_arith_partial.

(** The same for / and %; the one excluded pair is the refuted one. *)
Theorem C43_compiled_div_partial : forall a b, fixr a -> fixr b ->
  (~ (a = - 2 ^ 62 /\ b = -1) ->
     agrees (asm_div (tag a) (tag b)) (div_values (NFix a) (NFix b))) /\
  agrees (asm_rem (tag a) (tag b)) (rem_values (NFix a) (NFix b)).
Proof. exact (fun a b ha hb => conj (agrees_div a b ha hb) (agrees_rem a b ha hb)). Qed.
Print Assumptions C43_compiled_div_partial.

(** The same for shifts by a variable count; x86_64 >> excludes the one
    negative count per receiver for which it is wrong. *)
Theorem C43_compiled_shift_partial : forall a n, fixr a -> fixr n ->
  agrees (asm_shl (tag a) (tag n)) (shl_values (NFix a) (NFix n)) /\
  agrees (a64_shl (tag a) (tag n)) (shl_values (NFix a) (NFix n)) /\
  agrees (a64_shr (tag a) (tag n)) (shr_values (NFix a) (NFix n)) /\
  ((n < 0 -> - n <> lzcnt (tag a)) ->
     agrees (asm_shr (tag a) (tag n)) (shr_values (NFix a) (NFix n))).
Proof. exact agrees_shifts. Qed.
Print Assumptions C43_compiled_shift_partial.

(** Shifts by a constant count, and Integer#[] with a constant index. *)
Theorem C43_compiled_const_shift : forall a k, fixr a ->
  (0 <= k < 64 ->
    agrees (asm_shl_rhs_imm (tag a) k) (shl_values (NFix a) (NFix k)) /\
    agrees (asm_shr_imm (tag a) k) (shr_values (NFix a) (NFix k))) /\
  (fixr k -> 64 <= k ->
    agrees (asm_shl_overflow_zero (tag a)) (shl_values (NFix a) (NFix k)) /\
    agrees (asm_shr_imm (tag a) k) (shr_values (NFix a) (NFix k))) /\
  (0 <= k -> asm_bit_index (tag a) k = Reg (tag (Z.b2z (Z.testbit a k)))).
Proof.
  exact (fun a k h => conj (agrees_const_shift a k h)
    (conj (agrees_const_shift_big a k h) (asm_bit_index_ok a k h))).
Qed.
Print Assumptions C43_compiled_const_shift.

(** Constants folded at compile time are the generic answers. *)
Theorem C43_constant_folding : forall a b, fixr a -> fixr b ->
  fold_agrees (fold_arith Z.add a b) (Val (add_values (NFix a) (NFix b))) /\
  fold_agrees (fold_arith Z.sub a b) (Val (sub_values (NFix a) (NFix b))) /\
  fold_agrees (fold_arith Z.mul a b) (Val (mul_values (NFix a) (NFix b))) /\
  fold_agrees (fold_div a b) (div_values (NFix a) (NFix b)) /\
  fold_agrees (fold_shl a b) (shl_values (NFix a) (NFix b)) /\
  fold_agrees (fold_shr a b) (shr_values (NFix a) (NFix b)).
Proof. exact fold_agrees_arith. Qed.
Print Assumptions C43_constant_folding.

Example C43_example :
  asm_add (tag 5) (tag (-7)) = Reg (tag (-2))
  /\ asm_add (tag (2 ^ 62 - 1)) (tag 1) = Deopt
  /\ asm_mul (tag (2 ^ 31)) (tag (- 2 ^ 31)) = Reg (tag (- 2 ^ 62))
  /\ asm_mul (tag (2 ^ 31)) (tag (2 ^ 31)) = Deopt
  /\ asm_div (tag (-7)) (tag 2) = Reg (tag (-4))
  /\ asm_rem (tag (-7)) (tag 2) = Reg (tag 1)
  /\ asm_shr (tag 1) (tag (-61)) = Reg (tag (2 ^ 61))
  /\ asm_shr (tag (-5)) (tag 1) = Reg (tag (-3))
  /\ a64_shr (tag 1) (tag (-62)) = Deopt
  /\ asm_neg (tag (- 2 ^ 62)) = Deopt
  /\ fold_shl 3 60 = Some (3 * 2 ^ 60) /\ fold_shl 3 61 = None.
Proof. repeat split; reflexivity. Qed.
