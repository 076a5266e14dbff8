(** What Ruby promises of Time. *)
From Coq Require Import List Bool ZArith.
From Verif Require Import TimeModel.
Import ListNotations.
Open Scope Z_scope.

(** * The calendar: what the next second shows *)
Definition ruby_leap (y : Z) : bool := if y mod 400 =? 0 then true else if y mod 100 =? 0 then false else y mod 4 =? 0.
Definition ruby_month (y m : Z) : Z := nth (Z.to_nat (m - 1)) [31; if ruby_leap y then 29 else 28; 31; 30; 31; 30; 31; 31; 30; 31; 30; 31] 0.
Definition next_day (x : Z * Z * Z) : Z * Z * Z :=
  let '(y, m, d) := x in if d <? ruby_month y m then (y, m, d + 1) else if m <? 12 then (y, m + 1, 1) else (y + 1, 1, 1).
Definition tick (f : fields) : fields :=
  let '(x, (h, mi, s)) := f in
  if s <? 59 then (x, (h, mi, s + 1)) else if mi <? 59 then (x, (h, mi + 1, 0)) else if h <? 23 then (x, (h + 1, 0, 0)) else (next_day x, (0, 0, 0)).
Fixpoint after (n : nat) (f : fields) : fields := match n with O => f | S k => tick (after k f) end.
Definition midnight (y m d : Z) : fields := (y, m, d, (0, 0, 0)).
Definition seconds (day h mi s : Z) : nat := Z.to_nat ((day - 1) * 86400 + h * 3600 + mi * 60 + s).
Definition in_month (mon day h mi : Z) : Prop := 1 <= mon <= 12 /\ 1 <= day <= 31 /\ 0 <= h <= 23 /\ 0 <= mi <= 59.

(** * Instants *)
(** [v] is the number of whole nanoseconds in [n]/[d] seconds *)
Definition whole_ns (n d v : Z) : Prop := v * d <= n * 1000000000 < (v + 1) * d.
Definition good (t : tm) : Prop := 0 <= ns t < 1000000000 /\ MIN_SEC <= ts t <= MAX_SEC.
Definition instant (t : tm) : Z := ts t * 1000000000 + ns t.
Definition same_place (t u : tm) : Prop := utc t = utc u /\ off t = off u.
(** The year on the clock *)
Definition year_of (t : tm) : Z := let '(y, _, _, _) := fields_of (ts t + off t) in y.
(** A zone shows the clock reading [w] at some instant. *)
Definition shown (z : zone) (w : Z) : Prop := exists s, s + z s = w.
(** CRuby's Marshal payload: two words of four bytes, the lowest first, of the fields in UTC. *)
Fixpoint word (l : list Z) : Z := match l with [] => 0 | b :: l => b + 256 * word l end.
Definition ruby_payload (t : tm) (l : list Z) : Prop :=
  let '(y, mo, d, (h, mi, s)) := fields_of (ts t) in
  length l = 8%nat /\ (forall b, In b l -> 0 <= b <= 255) /\
  word (firstn 4 l) = 2147483648 + (if utc t then 1073741824 else 0) + (y - 1900) * 16384 + (mo - 1) * 1024 + d * 32 + h /\
  word (skipn 4 l) = mi * 67108864 + s * 1048576 + ns t / 1000.

(** * Texts *)
Definition ruby_digit (n : Z) : Z := 48 + n.
Definition ruby_two (n : Z) : list Z := [ruby_digit (n / 10); ruby_digit (n mod 10)].
Inductive form := HH | HHMM | HHcMM | HHMMSS | HHcMMcSS.
(** The offsets Ruby reads: a sign and one of five forms *)
Definition offset_text (neg : bool) (h m s : Z) (f : form) : list Z :=
  (if neg then 45 else 43) ::
  match f with
  | HH => ruby_two h
  | HHMM => ruby_two h ++ ruby_two m
  | HHcMM => ruby_two h ++ 58 :: ruby_two m
  | HHMMSS => ruby_two h ++ ruby_two m ++ ruby_two s
  | HHcMMcSS => ruby_two h ++ 58 :: ruby_two m ++ 58 :: ruby_two s
  end.
Definition offset_value (neg : bool) (h m s : Z) (f : form) : Z :=
  (if neg then -1 else 1) * match f with HH => h * 3600 | HHMM | HHcMM => h * 3600 + m * 60 | _ => h * 3600 + m * 60 + s end.
(** [w] digits, the first [w] decimals of [n] billionths *)
Fixpoint decimals (w : nat) (n : Z) : list Z :=
  match w with O => [] | S k => (48 + n * 10 / 1000000000) :: decimals k ((n * 10) mod 1000000000) end.
(** The letters: A to M without J are one to twelve hours ahead, N to Y behind, Z is UTC. *)
Fixpoint index_of (c : Z) (l : list Z) (i : Z) : option Z := match l with [] => None | x :: l => if x =? c then Some i else index_of c l (i + 1) end.
Definition letter_hours (c : Z) : option Z :=
  match index_of c [65; 66; 67; 68; 69; 70; 71; 72; 73; 75; 76; 77] 1 with
  | Some h => Some h
  | None => match index_of c [78; 79; 80; 81; 82; 83; 84; 85; 86; 87; 88; 89] 1 with Some h => Some (- h) | None => if c =? 90 then Some 0 else None end
  end.
Definition no_colons (l : list Z) : list Z := filter (fun c => negb (c =? 58)) l.
