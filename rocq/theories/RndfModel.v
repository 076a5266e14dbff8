(** Random::Formatter#random_number, which SecureRandom inherits.

    Modelled: /repo/monoruby/builtins/random.rb:19-47. bytes(k) gives any Integer below 256**k; the Integers that it gives
    in the rounds of the loop are a list. A Float answer is its numerator over 2**53. *)
From Coq Require Import ZArith List Bool.
Import ListNotations.
Local Open Scope Z_scope.

(** Integer#bit_length of z >= 0 *)
Definition bit_length (z : Z) : Z := if z =? 0 then 0 else Z.log2 z + 1.
Definition bits (n : Z) : Z := bit_length (n - 1).
Definition nbytes (n : Z) : Z := (bits n + 7) / 8.
Definition mask (n : Z) : Z := Z.shiftl 1 (bits n) - 1.

(** One round: Some v is the answer, None is another round. *)
Definition round (n draw : Z) : option Z :=
  let v := Z.land draw (mask n) in
  if v <? n then Some v else None.
(** The loop on the draws; None if they do not suffice. *)
Fixpoint sample (n : Z) (draws : list Z) : option Z :=
  match draws with
  | [] => None
  | d :: r => match round n d with Some v => Some v | None => sample n r end
  end.

(** (bytes(8).unpack1("Q>") >> 11), over 2**53 *)
Definition float_num (draw : Z) : Z := Z.shiftr draw 11.

(** random_number(n) for an Integer n. *)
Inductive answer := AInt (v : Z) | AFloat (num : Z) | AArgumentError | AMore.
Definition random_number (n : Z) (draws : list Z) : answer :=
  if n <? 0 then AArgumentError
  else if n =? 0 then match draws with d :: _ => AFloat (float_num d) | [] => AMore end
  else match sample n draws with Some v => AInt v | None => AMore end.
