(** Ruby's integer literals in strings, as a grammar. *)
From Coq Require Import ZArith Bool String Ascii List.
From Verif Require Import IntModel ImModel ImSpec IstrModel.
Import ListNotations.
Open Scope Z_scope.

(** Character [c] is the digit [d] of the base, in either case. *)
Definition digit_of (base c d : Z) : Prop :=
  (48 <= c <= 57 /\ d = c - 48 \/ 97 <= c <= 122 /\ d = c - 87 \/ 65 <= c <= 90 /\ d = c - 55)
  /\ d < base.

(** Digits with single underscores between them. *)
Inductive run (base : Z) : list Z -> list Z -> Prop :=
| run_one c d : digit_of base c d -> run base [c] [d]
| run_digit c d t ds : digit_of base c d -> run base t ds -> run base (c :: t) (d :: ds)
| run_us c d t ds : digit_of base c d -> run base t ds -> run base (c :: 95 :: t) (d :: ds).

(** What follows does not continue the run. *)
Definition stops (base : Z) (rest : list Z) : Prop :=
  match rest with
  | [] => True
  | c :: rest' => (forall d, ~ digit_of base c d) /\
      (c = 95 -> match rest' with [] => True | c' :: _ => forall d, ~ digit_of base c' d end)
  end.

(** Positional value, most significant digit first. *)
Fixpoint number (base : Z) (ds : list Z) : Z :=
  match ds with [] => 0 | d :: ds => d * base ^ Z.of_nat (length ds) + number base ds end.

(** Optional base prefixes: 0x, 0b, 0o, 0d. *)
Definition prefixes (base : Z) : list (list Z) :=
  if base =? 16 then [[48; 120]; [48; 88]]
  else if base =? 2 then [[48; 98]; [48; 66]]
  else if base =? 8 then [[48; 111]; [48; 79]]
  else if base =? 10 then [[48; 100]; [48; 68]]
  else [].
Definition no_prefix (base : Z) (s : list Z) : Prop :=
  forall p r, In p (prefixes base) -> s <> p ++ r.

Definition space (c : Z) : Prop := 9 <= c <= 13 \/ c = 32.
Definition is_sign (sg : list Z) (neg : bool) : Prop :=
  (sg = [] /\ neg = false) \/ (sg = [43] /\ neg = false) \/ (sg = [45] /\ neg = true).
Definition signed (neg : bool) (n : Z) : Z := if neg then - n else n.

(** [t] is the usual numeral of [v]: lower case, no leading zero. *)
Definition is_numeral (base v : Z) (t : list Z) : Prop :=
  exists body ds, t = (if v <? 0 then [45] else []) ++ body /\
    Forall2 (fun c d => digit_of base c d /\ ~ 65 <= c <= 90) body ds /\
    number base ds = Z.abs v /\ body <> [] /\ (body = [48] \/ hd 0 body <> 48).

(** A literal as its characters. *)
Fixpoint str (s : string) : list Z :=
  match s with
  | EmptyString => []
  | String c s => Z.of_N (N_of_ascii c) :: str s
  end.

(** The text does not begin with a digit. *)
Definition no_digit (base : Z) (s : list Z) : Prop :=
  match s with [] => True | c :: _ => forall d, ~ digit_of base c d end.
Definition no_sign (s : list Z) : Prop :=
  match s with [] => True | c :: _ => c <> 43 /\ c <> 45 end.
Definition no_space (s : list Z) : Prop :=
  match s with [] => True | c :: _ => ~ space c end.
