(** Ruby's character sets. *)
From Coq Require Import List Bool ZArith.
From Verif Require Import TrModel.
Import ListNotations.
Open Scope Z_scope.

(** What a set is made of: single characters and ranges. A backslash makes the next character a plain one at the beginning of
    a range, not at its end. *)
Inductive item := One (c : Z) | Span (a b : Z).
Fixpoint items (fuel : nat) (l : chars) : list item :=
  match fuel, l with
  | S n, c :: r =>
      let '(c, r) := match r with x :: q => if c =? 92 then (x, q) else (c, r) | [] => (c, r) end in
      match r with
      | d :: e :: q => if d =? 45 then Span c e :: items n q else One c :: items n r
      | _ => One c :: items n r
      end
  | _, _ => []
  end.
Definition items_of (l : chars) : list item := items (length l) l.
Definition fine (i : item) : bool := match i with One _ => true | Span a b => a <=? b end.
Definition members (i : item) : chars := match i with One c => [c] | Span a b => between a b end.
Definition listed (l : chars) : chars := concat (map members (items_of l)).
Definition valid (l : chars) : bool := forallb fine (items_of l).
(** No range ends with a backslash. *)
Definition plain (l : chars) : bool := forallb (fun i => match i with Span _ b => negb (b =? 92) | One _ => true end) (items_of l).
(** A caret before something else turns the set around. *)
Definition turned (l : chars) : bool := match l with c :: _ :: _ => c =? 94 | _ => false end.
Definition inside (l : chars) : chars := if turned l then tl l else l.
Definition in_set (l : chars) (c : Z) : bool := match l with [] => false | _ => xorb (in_list c (listed (inside l))) (turned l) end.
Definition good_set (l : chars) : bool := valid (inside l).

(** tr: the last place of a character in the list counts, the last replacement repeats. The replacement has no caret. *)
Definition replacement (from to : chars) (c : Z) : option Z :=
  let fs := listed (inside from) in let ts := listed to in
  if turned from then if in_list c fs then None else Some (last ts 0)
  else match find (fun p => fst p =? c) (rev (combine fs (ts ++ repeat (last ts 0) (length fs)))) with Some p => Some (snd p) | None => None end.
(** A range behind the replacements that are needed is not looked at. *)
Fixpoint readable (n : nat) (l : list item) : bool :=
  match n, l with S _, i :: r => fine i && readable (n - length (members i)) r | _, _ => true end.
Definition good_to (from to : chars) : bool := if turned from then valid to else readable (length (listed (inside from))) (items_of to).
(** tr_s leaves out a translated character behind a translated one that became the same. *)
Definition kept (squeeze : bool) (before now : option Z) : bool :=
  match before, now with Some q, Some r => negb (squeeze && (q =? r)) | _, _ => true end.
Definition ruby_tr (s from to : chars) (squeeze : bool) : option (chars * bool) :=
  match s, to with
  | [], _ => Some ([], false)
  | _, [] => if good_set from then Some (filter (fun c => negb (in_set from c)) s, existsb (in_set from) s) else None
  | _, _ =>
      if good_set from && good_to from to
      then let marks := map (replacement from to) s in
           Some (map (fun p => match snd (fst p) with Some r => r | None => snd p end)
                   (filter (fun p => kept squeeze (fst (fst p)) (snd (fst p))) (combine (combine (None :: marks) marks) s)),
                 existsb (fun m => match m with Some _ => true | None => false end) marks)
      else None
  end.
Definition ruby_count (s : chars) (args : list chars) : option Z :=
  if forallb good_set args then Some (Z.of_nat (length (filter (fun c => forallb (fun a => in_set a c) args) s))) else None.
Definition ruby_delete (s : chars) (args : list chars) : option chars :=
  match s with
  | [] => Some []
  | _ => if forallb good_set args then Some (filter (fun c => negb (forallb (fun a => in_set a c) args)) s) else None
  end.
(** A character behind the same one is left out when it is in the sets. *)
Definition ruby_squeeze (s : chars) (args : list chars) : option chars :=
  if forallb good_set args
  then Some (map snd (filter (fun p => negb (match fst p with Some q => q =? snd p | None => false end && forallb (fun a => in_set a (snd p)) args))
                             (combine (None :: map Some s) s)))
  else None.
(** Where the code agrees. *)
Definition chars_ok (l : chars) : bool := forallb (fun c => 0 <=? c) l.
Definition plain_set (l : chars) : bool := plain (inside l).
Definition caretless (l : chars) : bool := negb (turned l).
