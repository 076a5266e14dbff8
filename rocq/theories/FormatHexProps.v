(** C106: floats in base 16. *)
From Coq Require Import List Bool ZArith.
From Verif Require Import FormatModel FormatSpec FormatHexModel FormatHexSpec FormatHexProofs.
Import ListNotations.
Open Scope Z_scope.

(** Without a precision, or with 13 digits and more, the text stands for the float itself, with no zero at the end or with
    exactly the digits asked for. *)
Theorem C106_exact : forall raw m prec upper, finite raw m -> match prec with Some p => 13 <= p <= 65535 | None => True end ->
  exists t ds e r, hex_float raw m prec upper = Ok t /\ read_hex upper t = Some (1, ds, e) /\ worth 16 (1 :: ds) * 2 ^ 52 = r * 16 ^ len ds
    /\ 2 ^ 52 <= r < 2 ^ 53 /\ -1074 <= e <= 1023 /\ r * 2 ^ (e + 1074) = scaled raw m * 2 ^ 52
    /\ match prec with Some p => len ds = p | None => ds <> [] -> last ds 0 <> 0 end.
Proof. exact hex_exact. Qed.
Print Assumptions C106_exact.
(** 0.1 and the least float *)
Example C106_example : hex_float 1019 (0x999999999999a) None false = Ok [48; 120; 49; 46; 57; 57; 57; 57; 57; 57; 57; 57; 57; 57; 57; 57; 97; 112; 45; 52]
  /\ hex_float 0 1 None true = Ok [48; 88; 49; 80; 45; 49; 48; 55; 52] /\ finite 0 1.
Proof. split; [vm_compute; reflexivity|]. split; [vm_compute; reflexivity|]. split; [split; [discriminate|reflexivity]|]. split; [split; [discriminate|reflexivity]|right; discriminate]. Qed.

(** With fewer digits it is at most half a unit of the last digit away, unless a carry runs out of digits that are all f. *)
Theorem C106_nearest_partial : forall raw m p upper, finite raw m -> 0 <= p < 13 -> runs_out (snd (normal raw m)) (Some p) = false ->
  exists t lead ds e r, hex_float raw m (Some p) upper = Ok t /\ read_hex upper t = Some (lead, ds, e) /\ Z.abs (worth 16 (lead :: ds) * 2 ^ 52 - r * 16 ^ len ds) <= 2 ^ 51
    /\ 2 ^ 52 <= r < 2 ^ 53 /\ -1074 <= e <= 1023 /\ r * 2 ^ (e + 1074) = scaled raw m * 2 ^ 52 /\ len ds = p.
Proof. exact hex_near. Qed.
Print Assumptions C106_nearest_partial.
(** 0.1 with two digits *)
Example C106_nearest_example : hex_float 1019 (0x999999999999a) (Some 2) false = Ok [48; 120; 49; 46; 57; 97; 112; 45; 52] /\ runs_out 0x999999999999a (Some 2) = false.
Proof. split; vm_compute; reflexivity. Qed.
(** Then it is far away: 1.984375 with one digit is written 0x1.0p+0. *)
Theorem C106_nearest_refuted : ~ (forall raw m p upper t lead ds e, finite raw m -> 0 <= p < 13 ->
  hex_float raw m (Some p) upper = Ok t -> read_hex upper t = Some (lead, ds, e) -> Z.abs (off lead ds (2 ^ 52 + snd (normal raw m))) <= 2 ^ 51).
Proof.
  intros H. destruct hex_bad as (F & E & R & B). specialize (H 1023 0xfc00000000000 1 false _ 1 [0] 0 F ltac:(split; [discriminate|reflexivity]) E R).
  change (snd (normal 1023 0xfc00000000000)) with 0xfc00000000000 in H. apply (Z.lt_irrefl (2 ^ 51)). eapply Z.lt_le_trans; [exact B|exact H].
Qed.
Print Assumptions C106_nearest_refuted.
