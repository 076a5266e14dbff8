(** Ruby's successor: letters and digits form a number, each in its own alphabet. *)
From Coq Require Import List Bool ZArith.
Import ListNotations.
Open Scope Z_scope.

(** The first character and the size of the alphabet of a letter or digit. *)
Definition alphabet (c : Z) : option (Z * Z) :=
  if (48 <=? c) && (c <=? 57) then Some (48, 10)
  else if (65 <=? c) && (c <=? 90) then Some (65, 26)
  else if (97 <=? c) && (c <=? 122) then Some (97, 26) else None.
Definition numeric (c : Z) : bool := (48 <=? c) && (c <=? 57).
Definition alnum (c : Z) : bool := match alphabet c with Some _ => true | None => false end.
(** The number of characters from the right that take part: up to the last letter or digit, where other characters between
    two of them are passed over only from letter to letter and from digit to digit. [last]: is the one to the right a digit. *)
Fixpoint reach (last : option bool) (near : bool) (r : list Z) (i best : nat) : nat :=
  match r with
  | [] => best
  | c :: r =>
      if alnum c
      then if near || match last with Some k => eqb k (numeric c) | None => true end then reach (Some (numeric c)) true r (S i) (S i) else best
      else reach last false r (S i) best
  end.
(** The number they write, from the right, and how many numbers there are. *)
Fixpoint value (r : list Z) : Z := match r with [] => 0 | c :: r => match alphabet c with Some (f, n) => (c - f) + n * value r | None => value r end end.
Fixpoint capacity (r : list Z) : Z := match r with [] => 1 | c :: r => match alphabet c with Some (_, n) => n * capacity r | None => capacity r end end.
(** Another number in the same alphabets. *)
Fixpoint write (r : list Z) (v : Z) : list Z :=
  match r with [] => [] | c :: r => match alphabet c with Some (f, n) => f + v mod n :: write r (v / n) | None => c :: write r v end end.
(** What is put in front when they do not suffice. *)
Definition extra (c : Z) : Z := if numeric c then 49 else match alphabet c with Some (f, _) => f | None => c end.
Definition ruby_succ (s : list Z) : list Z :=
  match rev s with
  | [] => []
  | c :: r =>
      if existsb alnum s
      then let n := reach None false (c :: r) 0 0 in
           let part := firstn n (c :: r) in
           rev (write part (value part + 1) ++ (if value part + 1 =? capacity part then [extra (last part 0)] else []) ++ skipn n (c :: r))
      else rev (c + 1 :: r)
  end.
(** Where the code agrees: the string ends with a letter or digit, or the last of them is not the end of its alphabet or has
    another one before it. *)
Fixpoint settled (r : list Z) : bool :=
  match r with
  | [] => true
  | c :: q => match alphabet c with
              | None => settled q
              | Some (f, n) => negb (c =? f + n - 1) || match q with [] => true | d :: _ => alnum d end
              end
  end.
Definition fair (s : list Z) : bool := match rev s with [] => true | c :: r => alnum c || settled (c :: r) end.
Definition ascii (s : list Z) : bool := forallb (fun c => (0 <=? c) && (c <? 127)) s.
