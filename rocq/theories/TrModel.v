(** String#tr, tr_s, delete, count and squeeze (builtins/string.rs:6342-7295). A string is the list of its characters as
    numbers: code points in UTF-8; in other encodings an ASCII byte is itself and every other character some number from 128. *)
From Coq Require Import List Bool ZArith.
Import ListNotations.
Open Scope Z_scope.

Definition chars := list Z.
(** char::from_u32 *)
Definition scalar (c : Z) : bool := (0 <=? c) && (c <? 0x110000) && negb ((0xD800 <=? c) && (c <=? 0xDFFF)).
Definition between (lo hi : Z) : chars := filter scalar (map (fun k => lo + Z.of_nat k) (seq 0 (Z.to_nat (hi - lo + 1)))).
(** expand_tr_spec without the caret (6739-6788); [None] is the ArgumentError. *)
Definition escaped (c : Z) (r : chars) : Z * chars := if c =? 92 then match r with x :: r => (x, r) | [] => (92, []) end else (c, r).
Fixpoint expand (fuel : nat) (l : chars) : option chars :=
  match fuel with
  | O => None
  | S n =>
      match l with
      | [] => Some []
      | c :: r =>
          let '(ch, r) := escaped c r in
          match r with
          | d :: e :: r' =>
              if d =? 45
              then let '(en, r) := escaped e r' in
                   if en <? ch then None else match expand n r with Some t => Some (between ch en ++ t) | None => None end
              else match expand n r with Some t => Some (ch :: t) | None => None end
          | _ => match expand n r with Some t => Some (ch :: t) | None => None end
          end
      end
  end.
Definition caret (l : chars) : bool * chars := match l with c :: x :: r => if c =? 94 then (true, x :: r) else (false, l) | _ => (false, l) end.
Definition expand_spec (l : chars) : option (chars * bool) :=
  let '(neg, l) := caret l in match expand (S (length l)) l with Some t => Some (t, neg) | None => None end.
(** A bitmap of 128 bits in two words. *)
Definition bits := (Z * Z)%type.
Definition set_bit (m : bits) (b : Z) : bits := if b / 64 =? 0 then (Z.lor (fst m) (2 ^ (b mod 64)), snd m) else (fst m, Z.lor (snd m) (2 ^ (b mod 64))).
Definition get_bit (m : bits) (b : Z) : bool := negb (Z.land (if b / 64 =? 0 then fst m else snd m) (2 ^ (b mod 64)) =? 0).
Definition ascii (l : chars) : bool := forallb (fun c => c <? 128) l.
Definition bitmap (l : chars) : bits := fold_left set_bit l (0, 0).

(** A loop over the receiver: translated, deleted or kept, with the last translated character (6679-6731, 6866-6996). *)
Inductive act := Keep | Drop | Put (r : Z).
Fixpoint walk (squeeze : bool) (f : Z -> act) (last : option Z) (s : chars) : chars * bool :=
  match s with
  | [] => ([], false)
  | c :: s =>
      match f c with
      | Keep => let '(o, ch) := walk squeeze f None s in (c :: o, ch)
      | Drop => let '(o, _) := walk squeeze f None s in (o, true)
      | Put r => let '(o, _) := walk squeeze f (Some r) s in
                 (if squeeze && match last with Some l => r =? l | None => false end then o else r :: o, true)
      end
  end.
(** tr_build_map (6796-6820): an ordered map, a later pair replaces the value. *)
Fixpoint put (m : list (Z * Z)) (k v : Z) : list (Z * Z) :=
  match m with [] => [(k, v)] | (a, b) :: r => if a =? k then (a, v) :: r else (a, b) :: put r k v end.
Fixpoint find_in (m : list (Z * Z)) (k : Z) : option Z := match m with [] => None | (a, b) :: r => if a =? k then Some b else find_in r k end.
Fixpoint pairs (i : nat) (from to : chars) (last : Z) : list (Z * Z) :=
  match from with [] => [] | c :: from => (c, match nth_error to i with Some r => r | None => last end) :: pairs (S i) from to last end.
Inductive trmap := MMap (m : list (Z * Z)) | MDelete (l : chars) (neg : bool) | MNeg (l : chars) (r : Z).
Definition build (from to : chars) : option trmap :=
  match expand_spec from with
  | None => None
  | Some (fs, neg) =>
      match to with
      | [] => Some (MDelete fs neg)
      | _ => match expand_spec to with
             | None => None
             | Some (ts, _) => let l := last ts 0 in
                               Some (if neg then MNeg fs l else MMap (fold_left (fun m p => put m (fst p) (snd p)) (pairs 0 fs ts l) []))
             end
      end
  end.
Definition in_list (c : Z) (l : chars) : bool := existsb (Z.eqb c) l.
Definition act_of (m : trmap) (c : Z) : act :=
  match m with
  | MMap m => match find_in m c with Some r => Put r | None => Keep end
  | MDelete l neg => if xorb (in_list c l) neg then Drop else Keep
  | MNeg l r => if in_list c l then Keep else Put r
  end.
(** tr_translate (6940-6996); tr_translate_bytes (6866-6934): other characters than ASCII are looked up as U+FFFF. *)
Definition translate (s from to : chars) (squeeze : bool) : option (chars * bool) :=
  match build from to with Some m => Some (walk squeeze (act_of m) None s) | None => None end.
Definition translate_bytes (s from to : chars) (squeeze : bool) : option (chars * bool) :=
  match build from to with Some m => Some (walk squeeze (fun c => act_of m (if c <? 128 then c else 0xFFFF)) None s) | None => None end.
(** ascii_tr_translate (6631-6737): [None] is an error, [Some None] when it does not apply. *)
Definition table (ps : list (Z * Z)) (c : Z) : option Z := fold_left (fun t p => if fst p =? c then Some (snd p) else t) ps None.
Definition fast (s from to : chars) (squeeze : bool) : option (option (chars * bool)) :=
  if negb (ascii s) then Some None
  else match expand_spec from with
       | None => None
       | Some (fs, neg) =>
           if negb (ascii fs) then Some None
           else match to with
                | [] => let m := bitmap fs in Some (Some (walk squeeze (fun c => if xorb (get_bit m c) neg then Drop else Keep) None s))
                | _ => match expand_spec to with
                       | None => None
                       | Some (ts, _) =>
                           if negb (ascii ts) then Some None
                           else let l := last ts 0 in
                                Some (Some (if neg then let m := bitmap fs in walk squeeze (fun c => if get_bit m c then Keep else Put l) None s
                                            else walk squeeze (fun c => match table (pairs 0 fs ts l) c with Some r => Put r | None => Keep end) None s))
                       end
                end
       end.
(** tr and tr_s (6466-6588): the text and whether anything was translated. [utf8]: the receiver is UTF-8 or US-ASCII. *)
Definition tr (utf8 : bool) (s from to : chars) (squeeze : bool) : option (chars * bool) :=
  match fast s from to squeeze with
  | None => None
  | Some (Some r) => Some r
  | Some None => if utf8 then translate s from to squeeze else translate_bytes s from to squeeze
  end.

(** Charset (7239-7295). *)
Record charset := mkC { low : bits; high : chars; neg_of : bool; empty : bool }.
Definition parse (l : chars) : option charset :=
  match l with
  | [] => Some (mkC (0, 0) [] false true)
  | _ => match expand_spec l with
         | Some (t, neg) => Some (mkC (bitmap (filter (fun c => c <? 128) t)) (filter (fun c => negb (c <? 128)) t) neg false)
         | None => None
         end
  end.
Definition has_char (s : charset) (c : Z) : bool :=
  if empty s then false else xorb (if c <? 128 then get_bit (low s) c else in_list c (high s)) (neg_of s).
Definition has_byte (s : charset) (b : Z) : bool := if empty s then false else xorb (get_bit (low s) b) (neg_of s).
Fixpoint parse_all (l : list chars) : option (list charset) :=
  match l with
  | [] => Some []
  | x :: r => match parse x, parse_all r with Some a, Some b => Some (a :: b) | _, _ => None end
  end.
(** The test of one character in each of the three paths. *)
Definition test (utf8 : bool) (s : chars) (sets : list charset) (c : Z) : bool :=
  if utf8 then if ascii s then forallb (fun t => has_byte t c) sets else forallb (fun t => has_char t c) sets
  else if c <? 128 then forallb (fun t => has_byte t c) sets else forallb (fun t => has_char t 0xFFFF) sets.
Definition count (utf8 : bool) (s : chars) (args : list chars) : option Z :=
  match parse_all args with Some sets => Some (Z.of_nat (length (filter (test utf8 s sets) s))) | None => None end.
Definition delete (utf8 : bool) (s : chars) (args : list chars) : option chars :=
  match parse_all args with Some sets => Some (filter (fun c => negb (test utf8 s sets c)) s) | None => None end.
(** squeeze_compute (7098-7176) *)
Fixpoint squeezing (f : Z -> bool) (prev : option Z) (s : chars) : chars :=
  match s with
  | [] => []
  | c :: s => if f c && match prev with Some p => c =? p | None => false end then squeezing f prev s else c :: squeezing f (Some c) s
  end.
Definition squeeze (utf8 : bool) (s : chars) (args : list chars) : option chars :=
  match parse_all args with
  | Some sets => Some (squeezing (fun c => match args with [] => true | _ => test utf8 s sets c end) None s)
  | None => None
  end.
