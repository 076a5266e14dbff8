(** UTF-8, RFC 3629 / Unicode D92: what the valid byte sequences are. *)
From Coq Require Import ZArith List Bool.
Import ListNotations.
Open Scope Z_scope.

(** A Unicode scalar value. *)
Definition scalar (c : Z) : Prop := 0 <= c < 55296 \/ 57344 <= c <= 1114111.

(** Its UTF-8 encoding. *)
Definition enc_utf8 (c : Z) : list Z :=
  if c <? 128 then [c]
  else if c <? 2048 then [192 + c / 64; 128 + c mod 64]
  else if c <? 65536 then [224 + c / 4096; 128 + (c / 64) mod 64; 128 + c mod 64]
  else [240 + c / 262144; 128 + (c / 4096) mod 64; 128 + (c / 64) mod 64; 128 + c mod 64].

(** A byte string is valid when it is the concatenation of such encodings. *)
Definition utf8_valid (b : list Z) : Prop := exists cs, Forall scalar cs /\ b = concat (map enc_utf8 cs).
