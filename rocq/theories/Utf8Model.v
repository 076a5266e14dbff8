(** [std::str::from_utf8] and [String::from_utf8_lossy]: the Rust library
    functions behind every "is this a str" test of the interpreter.  The table of
    second bytes is the one of the library documentation ([core::str::validations]). *)
From Coq Require Import ZArith List Bool.
Import ListNotations.
Open Scope Z_scope.

Definition cont (b : Z) : bool := (128 <=? b) && (b <=? 191).
Definition between (lo hi b : Z) : bool := (lo <=? b) && (b <=? hi).

(** Allowed second byte after the lead [b0] of a three-byte sequence. *)
Definition second3 (b0 b1 : Z) : bool :=
  if b0 =? 224 then between 160 191 b1 else if b0 =? 237 then between 128 159 b1 else cont b1.
(** … and of a four-byte sequence. *)
Definition second4 (b0 b1 : Z) : bool :=
  if b0 =? 240 then between 144 191 b1 else if b0 =? 244 then between 128 143 b1 else cont b1.

(** One step at a non-empty input: [(true, n)] when its first [n] bytes are one
    character, [(false, n)] when its first [n] bytes are a maximal ill-formed
    prefix (what [Utf8Chunks] replaces by one U+FFFD). *)
Definition utf8_step (b : list Z) : bool * nat :=
  match b with
  | [] => (false, 1%nat)
  | b0 :: r =>
      if b0 <? 128 then (true, 1%nat)
      else if between 194 223 b0 then
        match r with b1 :: _ => if cont b1 then (true, 2%nat) else (false, 1%nat) | [] => (false, 1%nat) end
      else if between 224 239 b0 then
        match r with
        | b1 :: r1 => if second3 b0 b1 then
            match r1 with b2 :: _ => if cont b2 then (true, 3%nat) else (false, 2%nat) | [] => (false, 2%nat) end
            else (false, 1%nat)
        | [] => (false, 1%nat) end
      else if between 240 244 b0 then
        match r with
        | b1 :: r1 => if second4 b0 b1 then
            match r1 with
            | b2 :: r2 => if cont b2 then
                match r2 with b3 :: _ => if cont b3 then (true, 4%nat) else (false, 3%nat) | [] => (false, 3%nat) end
                else (false, 2%nat)
            | [] => (false, 2%nat) end
            else (false, 1%nat)
        | [] => (false, 1%nat) end
      else (false, 1%nat)
  end.

Fixpoint utf8_ok_fuel (fuel : nat) (b : list Z) : bool :=
  match b with
  | [] => true
  | _ => match fuel with
         | O => false
         | S f => let '(ok, n) := utf8_step b in ok && utf8_ok_fuel f (skipn n b)
         end
  end.
(** [std::str::from_utf8(b).is_ok()].  Every step consumes a byte, so [length b]
    steps are enough. *)
Definition utf8_ok (b : list Z) : bool := utf8_ok_fuel (length b) b.

Fixpoint utf8_lossy_fuel (fuel : nat) (b : list Z) : list Z :=
  match b with
  | [] => []
  | _ => match fuel with
         | O => []
         | S f => let '(ok, n) := utf8_step b in
                  (if ok then firstn n b else [239; 191; 189]) ++ utf8_lossy_fuel f (skipn n b)
         end
  end.
(** [String::from_utf8_lossy]. *)
Definition utf8_lossy (b : list Z) : list Z := utf8_lossy_fuel (length b) b.
