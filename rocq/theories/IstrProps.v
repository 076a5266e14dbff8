(** C66: Integer#to_s, String#to_i and Kernel#Integer. *)
From Coq Require Import ZArith Bool String Ascii List.
From Verif Require Import IntModel ImModel ImSpec IstrModel IstrSpec IstrProofs IstrBadProofs.
Import ListNotations.
Open Scope Z_scope.

(** [n.to_s(base)] is the numeral of [n], for every Integer and base. *)
Theorem C66_to_s : forall self base, 2 <= base <= 36 ->
  exists t, int_to_s self (NFix base) = Ok t /\ is_numeral base (ival self) t.
Proof. exact int_to_s_ok. Qed.
Print Assumptions C66_to_s.

(** Printing then parsing is the identity. *)
Theorem C66_roundtrip_to_i : forall self base t, 2 <= base <= 36 ->
  int_to_s self (NFix base) = Ok t -> returns (str_to_i t (NFix base)) (ival self).
Proof. exact roundtrip_to_i. Qed.
Print Assumptions C66_roundtrip_to_i.

Theorem C66_roundtrip_integer : forall self base t, 2 <= base <= 36 ->
  int_to_s self (NFix base) = Ok t -> returns (kernel_integer_base t (NFix base)) (ival self).
Proof. exact roundtrip_integer. Qed.
Print Assumptions C66_roundtrip_integer.

Theorem C66_roundtrip_auto : forall self t, int_to_s self (NFix 10) = Ok t ->
  returns (kernel_integer_base t (NFix 0)) (ival self) /\ returns (str_to_i t (NFix 0)) (ival self).
Proof. exact roundtrip_auto. Qed.
Print Assumptions C66_roundtrip_auto.

(** [to_i] reads the longest run of digits after blanks, sign and prefix. *)
Theorem C66_to_i : forall base ws sg neg t ds rest, 2 <= base <= 36 -> Forall space ws -> is_sign sg neg ->
  run base t ds -> stops base rest -> no_prefix base (t ++ rest) ->
  returns (str_to_i (ws ++ sg ++ t ++ rest) (NFix base)) (signed neg (number base ds)).
Proof. exact to_i_run. Qed.
Print Assumptions C66_to_i.

Theorem C66_to_i_prefix : forall base ws sg neg p t ds rest, 2 <= base <= 36 -> Forall space ws ->
  is_sign sg neg -> In p (prefixes base) -> run base t ds -> stops base rest ->
  returns (str_to_i (ws ++ sg ++ p ++ t ++ rest) (NFix base)) (signed neg (number base ds)).
Proof. exact to_i_prefix. Qed.
Print Assumptions C66_to_i_prefix.

(** Without digits it is 0 (partial: only if what follows is not a blank). *)
Theorem C66_to_i_none_partial : forall base ws sg neg rest, 2 <= base <= 36 -> Forall space ws -> is_sign sg neg ->
  (match rest with [] => True | c :: _ => is_ws c = false /\ (forall d, ~ digit_of base c d) end) ->
  (sg = [] -> no_sign rest) ->
  no_prefix base rest ->
  returns (str_to_i (ws ++ sg ++ rest) (NFix base)) 0.
Proof. exact to_i_none. Qed.
Print Assumptions C66_to_i_none_partial.

Theorem C66_gap_refuted : ~ (forall base sg neg rest, 2 <= base <= 36 -> is_sign sg neg -> sg <> [] ->
  no_digit base rest -> no_prefix base rest -> returns (str_to_i (sg ++ rest) (NFix base)) 0).
Proof. exact gap_bad. Qed.
Print Assumptions C66_gap_refuted.

Theorem C66_two_signs_refuted : str_to_i (str "+ -5") (NFix 10) = Ok (NFix 5).
Proof. exact gap_sign_bad. Qed.
Print Assumptions C66_two_signs_refuted.

Theorem C66_prefix_gap_refuted : ~ (forall base p rest, 2 <= base <= 36 -> In p (prefixes base) ->
  no_digit base rest -> returns (str_to_i (p ++ rest) (NFix base)) 0).
Proof. exact prefix_gap_bad. Qed.
Print Assumptions C66_prefix_gap_refuted.

Theorem C66_nbsp_refuted : ~ (forall base s, 2 <= base <= 36 ->
  no_space s -> no_digit base s -> no_sign s -> no_prefix base s ->
  returns (str_to_i s (NFix base)) 0).
Proof. exact nbsp_bad. Qed.
Print Assumptions C66_nbsp_refuted.

(** [Integer(s, base)] accepts the grammar and nothing else, up to Unicode
    blanks and prefixes of other bases. *)
Theorem C66_integer_partial : forall base ws sg neg p t ds ws',
  2 <= base <= 36 -> Forall space ws -> Forall space ws' -> is_sign sg neg ->
  (p = [] /\ (forall b, no_prefix b t)) \/ In p (prefixes base) -> run base t ds ->
  returns (kernel_integer_base (ws ++ sg ++ p ++ t ++ ws') (NFix base)) (signed neg (number base ds)).
Proof. exact integer_given. Qed.
Print Assumptions C66_integer_partial.

(** Without a base, the prefix chooses it, or a leading zero, or it is 10. *)
Theorem C66_integer_auto : forall base ws sg neg p t ds ws',
  2 <= base <= 36 -> Forall space ws -> Forall space ws' -> is_sign sg neg -> run base t ds ->
  In p (prefixes base) \/
  (base = 10 /\ p = [] /\ (t = [48] \/ hd 0 t <> 48)) ->
  returns (kernel_integer_base (ws ++ sg ++ p ++ t ++ ws') (NFix 0)) (signed neg (number base ds)).
Proof. exact integer_auto. Qed.
Print Assumptions C66_integer_auto.

Theorem C66_integer_octal : forall ws sg neg t ds ws',
  Forall space ws -> Forall space ws' -> is_sign sg neg -> run 8 t ds ->
  returns (kernel_integer_base (ws ++ sg ++ 48 :: t ++ ws') (NFix 0)) (signed neg (number 8 ds)).
Proof. exact integer_octal. Qed.
Print Assumptions C66_integer_octal.

Theorem C66_integer_sound_partial : forall s base v, 2 <= base <= 36 -> kernel_integer s base = Ok v ->
  exists ws sg neg p t ds ws', s = ws ++ sg ++ p ++ t ++ ws' /\
    Forall (fun c => is_ws c = true) ws /\ Forall (fun c => is_ws c = true) ws' /\ is_sign sg neg /\
    (p = [] \/ In p (prefixes base)) /\ run base t ds /\ is_int v (signed neg (number base ds)).
Proof. exact kernel_sound. Qed.
Print Assumptions C66_integer_sound_partial.

Theorem C66_integer_nbsp_refuted : ~ (forall s v, kernel_integer_base s (NFix 10) = Ok v ->
  no_space s -> no_sign s -> ~ no_digit 10 s).
Proof. exact integer_nbsp_bad. Qed.
Print Assumptions C66_integer_nbsp_refuted.

Theorem C66_foreign_prefix_refuted : ~ (forall base t ds, 2 <= base <= 36 -> run base t ds -> no_prefix base t ->
  returns (kernel_integer_base t (NFix base)) (number base ds)).
Proof. exact foreign_prefix_bad. Qed.
Print Assumptions C66_foreign_prefix_refuted.

Theorem C66_underscore_refuted :
  ~ (forall t v, kernel_integer_base t (NFix 0) = Ok v ->
       kernel_integer_base (filter (fun c => negb (c =? 95)) t) (NFix 0) = Ok v) /\
  ~ (forall t ds, run 10 t ds -> str_to_i t (NFix 0) = str_to_i (filter (fun c => negb (c =? 95)) t) (NFix 0)).
Proof. exact underscore_bad. Qed.
Print Assumptions C66_underscore_refuted.

Example C66_ex :
  int_to_s (NBig (-(2 ^ 70))) (NFix 16) = Ok (str "-400000000000000000") /\
  str_to_i (str " -0xFf_0g") (NFix 16) = Ok (NFix (-4080)) /\
  kernel_integer_base (str " +0b1010 ") (NFix 0) = Ok (NFix 10) /\
  kernel_integer_base (str "1__0") (NFix 10) = Err ArgErr /\
  str_to_i (str "99999999999999999999") (NFix 10) = Ok (NBig 99999999999999999999).
Proof. repeat split. Qed.
