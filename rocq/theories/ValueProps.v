(** Property theorems C01-C03 (value words). *)
From Coq Require Import ZArith Bool List Lia.
From Verif Require Import ValueSpec ValueModel ValueProofs.
Open Scope Z_scope.

(** C01: every immediate and every heap reference has a word, that word
    decodes to it, and no other value (floats included) has the same word. *)
Theorem C01_immediates_keep_identity : forall v,
  rvalue_ok v -> is_float v = false ->
  exists w, word_of v = Some w /\ is_word w /\ value_of w = Some v
    /\ forall v', rvalue_ok v' -> word_of v' = Some w -> v' = v.
Proof. exact immediate_identity. Qed.
Print Assumptions C01_immediates_keep_identity.

Example C01_example :
  rvalue_ok (VInt (- 2 ^ 62)) /\ word_of (VInt (- 2 ^ 62)) = Some (2 ^ 63 + 1)
  /\ value_of (2 ^ 63 + 1) = Some (VInt (- 2 ^ 62))
  /\ rvalue_ok (VSym 4294967295) /\ value_of (4294967295 * 2 ^ 32 + 12) = Some (VSym 4294967295).
Proof. repeat split; try reflexivity; cbn; lia. Qed.

(** C01, Integers: any i64 stored through [Value::integer] reads back, and it
    is kept inline exactly when it fits 63 bits. *)
Theorem C01_integer_store_read : forall h addr z,
  - 2 ^ 63 <= z < 2 ^ 63 -> 0 < addr < word64 -> addr mod 8 = 0 ->
  (let (w, h') := store_integer h addr z in read_integer h' w = Some z) /\
  (snd (store_integer h addr z) = h /\ fst (store_integer h addr z) <> addr
     <-> - 2 ^ 62 <= z < 2 ^ 62).
Proof. exact integer_store_read. Qed.
Print Assumptions C01_integer_store_read.

Example C01_integer_example :
  fst (store_integer (fun _ => None) 64 (2 ^ 62)) = 64
  /\ fst (store_integer (fun _ => None) 64 (2 ^ 62 - 1)) = 2 ^ 63 - 1.
Proof. split; reflexivity. Qed.

(** C02 is false: 2^-255 (bits 0x3000000000000000) reads back as 0.0. *)
Theorem C02_float_roundtrip_refuted : exists h addr bits,
  is_word bits /\ 0 < addr < word64 /\ addr mod 8 = 0 /\
  let (w, h') := store_float h addr bits in read_float h' w <> Some bits.
Proof. exact float_refuted. Qed.
Print Assumptions C02_float_roundtrip_refuted.

(** C02, everything else: a float reads back bit for bit if and only if it is
    not that single pattern.  (The full property would have no exception.) *)
Theorem C02_float_roundtrip_partial : forall h addr bits,
  is_word bits -> addr mod 8 = 0 -> 0 < addr < word64 ->
  (let (w, h') := store_float h addr bits in read_float h' w = Some bits)
  <-> bits <> 3458764513820540928.
Proof. exact float_exact. Qed.
Print Assumptions C02_float_roundtrip_partial.

(** 1.0 is inline, -0.0 is boxed, a NaN with payload is boxed; all read back. *)
Example C02_example :
  enc_flonum 4607182418800017408 = Some (2 ^ 63 + (4607182418800017408 mod 2 ^ 60) * 8 + 2)
  /\ enc_flonum (2 ^ 63) = None /\ enc_flonum 9221120237041090577 = None
  /\ (let (w, h) := store_float (fun _ => None) 64 (2 ^ 63) in read_float h w) = Some (2 ^ 63).
Proof. repeat split; reflexivity. Qed.

(** C03: the conditional branch test agrees with Ruby truthiness. *)
Theorem C03_truthiness : forall v w,
  rvalue_ok v -> word_of v = Some w -> as_bool w = truthy v.
Proof. exact as_bool_truthy. Qed.
Print Assumptions C03_truthiness.

(** C03 for raw words: only the two words of nil and false are falsy. *)
Theorem C03_truthiness_words : forall w,
  is_word w -> (as_bool w = false <-> w = NIL_VALUE \/ w = FALSE_VALUE).
Proof. exact as_bool_spec. Qed.
Print Assumptions C03_truthiness_words.

Example C03_example :
  as_bool NIL_VALUE = false /\ as_bool FALSE_VALUE = false /\ as_bool TRUE_VALUE = true
  /\ as_bool (enc_fixnum 0) = true /\ as_bool FLOAT_ZERO = true.
Proof. repeat split; reflexivity. Qed.
