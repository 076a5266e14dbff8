(** What sprintf means in Ruby. *)
From Coq Require Import List Bool ZArith.
From Verif Require Import FormatModel.
Import ListNotations.
Open Scope Z_scope.

(** The number that digits stand for, the first is the highest. *)
Definition worth (base : Z) (l : list Z) : Z := fold_left (fun n d => n * base + d) l 0.
(** The least power [base^j], [j] at least [k], that is not below [a]. *)
Fixpoint power_above (fuel : nat) (base a k : Z) : Z :=
  match fuel with
  | O => k
  | S n => if a <=? base ^ k then k else power_above n base a (k + 1)
  end.
(** A negative number [-a] with infinitely many digits [base-1] in front: written with just one of them. *)
Definition complement (base a : Z) : list Z :=
  let j := power_above (S (Z.to_nat (Z.log2 a))) base a 0 in digs base (base ^ (j + 1) - a).

(** Spaces up to the width, counted in characters. *)
Definition spaces (t : text) (width : Z) (left : bool) : text :=
  let p := pad 32 (width - len t) in if left then t ++ p else p ++ t.
Definition starts_zero (t : text) : bool := match t with 48 :: _ => true | _ => false end.
(** Bases, digits, signs (plus wins over space) and marks as Ruby's documentation lists them. *)
Definition ruby_base (c : conv) : Z := match c with CDec => 10 | CBin _ => 2 | COct => 8 | CHex _ => 16 end.
Definition ruby_digit (upper : bool) (d : Z) : Z :=
  nth (Z.to_nat d) ([48; 49; 50; 51; 52; 53; 54; 55; 56; 57] ++ if upper then [65; 66; 67; 68; 69; 70] else [97; 98; 99; 100; 101; 102]) 0.
Definition ruby_sign (neg : bool) (f : flags) : text :=
  match neg, plus f, space f with true, _, _ => [45] | false, true, _ => [43] | false, false, true => [32] | _, _, _ => [] end.
Definition ruby_mark (c : conv) : text :=
  match c with CBin false => [48; 98] | CBin true => [48; 66] | CHex false => [48; 120] | CHex true => [48; 88] | _ => [] end.
(** An integer. With a sign, or for a negative number in base 2, 8 or 16 without plus and space as its complement behind two
    dots. The precision is the least number of digits (with the dots); zeros up to the width only when there is none. *)
Definition ruby_int (c : conv) (v : Z) (f : flags) (width : Z) (prec : option Z) : text :=
  let base := ruby_base c in
  let upper := match c with CHex u => u | _ => false end in
  let signed := match c with CDec => true | _ => plus f || space f end in
  let dots := (v <? 0) && negb signed in
  let ds := if dots then complement base (- v) else if (v =? 0) && match prec with Some 0 => true | _ => false end then [] else digs base (Z.abs v) in
  let ds := map (ruby_digit upper) ds in
  let fill := if dots then ruby_digit upper (base - 1) else 48 in
  let sign := if dots then [46; 46] else ruby_sign (v <? 0) f in
  let mark := if sharp f && negb (v =? 0) then ruby_mark c else [] in
  let least := match prec with
               | Some p => if dots then p - 2 else p
               | None => if zero f && negb (minus f) then width - len sign - len mark else 0
               end in
  let ds := pad fill (least - len ds) ++ ds in
  let ds := match c with COct => if sharp f && negb dots && negb (starts_zero ds) then 48 :: ds else ds | _ => ds end in
  spaces (if dots then mark ++ sign ++ ds else sign ++ mark ++ ds) width (minus f).
(** Text: at most as many characters as the precision says. *)
Definition ruby_text (t : text) (f : flags) (width : Z) (prec : option Z) : text :=
  spaces (match prec with Some p => firstn (Z.to_nat p) t | None => t end) width (minus f).

(** Where the code gives that. *)
Definition given (p : option Z) : bool := match p with Some _ => true | None => false end.
Definition fair_int (c : conv) (v : Z) (f : flags) (width : Z) (prec : option Z) : bool :=
  negb (zero f && minus f)    (* settled by the reader of directives *)
  && negb (zero f && given prec)
  && negb (zero f && (65535 <? width))
  && match c, prec with
     | COct, Some p => negb (sharp f && (v <? 0) && (plus f || space f) && (len (digs 8 (- v)) <? p))
     | CBin _, Some p | CHex _, Some p => negb (sharp f && (v =? 0) && (1 <? p))
     | _, _ => true
     end.
Definition ascii (t : text) : bool := forallb (fun c => (0 <=? c) && (c <? 128)) t.

(** A format: text, percent signs, directives. *)
Inductive amount := ANone | ANum (n : Z) | ANext | ANth (n : Z).
(** Where the number of the argument stands: before the flags, after them, or after the precision. *)
Inductive place := First | AfterFlags | Last.
Record dir := mkD { fl : list Z; width_of : amount; prec_of : option amount; index : option (Z * place); last_char : Z }.
Inductive piece := PText (c : Z) | PPercent | PDir (d : dir).
Definition decimal (n : Z) : text := numeral 10 false n.
Definition idx (d : dir) (p : place) : text :=
  match index d with
  | Some (n, q) => if match p, q with First, First | AfterFlags, AfterFlags | Last, Last => true | _, _ => false end then decimal n ++ [36] else []
  | None => []
  end.
Definition amount_text (a : amount) : text :=
  match a with ANone => [] | ANum n => decimal n | ANext => [42] | ANth n => 42 :: decimal n ++ [36] end.
Definition dir_text (d : dir) : text :=
  idx d First ++ fl d ++ idx d AfterFlags ++ amount_text (width_of d)
  ++ match prec_of d with Some a => 46 :: amount_text a | None => [] end ++ idx d Last ++ [last_char d].
Definition render1 (p : piece) : text := match p with PText c => [c] | PPercent => [37; 37] | PDir d => 37 :: dir_text d end.
Definition render (l : list piece) : text := concat (map render1 l).
(** What is written has to be read again as itself: a width does not begin with zero; an index stands behind the precision
    only when a star with its own number stands before. *)
Definition good_flag (c : Z) : bool := existsb (Z.eqb c) [48; 45; 43; 32; 35].
Definition int_max := 2147483647.
Definition good_num (n : Z) : bool := (0 <? n) && (n <=? int_max).
Definition good_amount (a : amount) (prec : bool) : bool :=
  match a with ANone | ANext => true | ANum n => good_num n || (prec && (n =? 0)) | ANth n => good_num n end.
Definition good_dir (d : dir) : bool :=
  forallb good_flag (fl d) && good_amount (width_of d) false
  && match prec_of d with Some a => good_amount a true | None => true end
  && match index d with
     | Some (n, p) => good_num n
                      && match p with
                         | First => true
                         | AfterFlags => true
                         | Last => match prec_of d, width_of d with
                                   | Some (ANth _), _ | None, ANth _ => true
                                   | _, _ => false
                                   end
                         end
     | None => true
     end
  && conversion (last_char d).
Definition good_piece (p : piece) : bool := match p with PText c => negb (c =? 37) | PPercent => true | PDir d => good_dir d end.

(** The meaning. [Range]: a width or precision from an argument that is no C int; Ruby raises. *)
Inductive sout := SOk (t : text) | SErr | SRange | SPanic.
Section Meaning.
Variable value : Type.
Variable star : value -> option Z.
Variable convert : Z -> flags -> Z -> option Z -> value -> out.
(** Numbered arguments, or one after the other; not both. *)
Inductive mode := Free | Seq (n : nat) | Num.
Definition get (vs : list value) (m : mode) (n : option Z) : option (value * mode) :=
  match n, m with
  | Some n, (Free | Num) => match nth_error vs (Z.to_nat (n - 1)) with Some v => Some (v, Num) | None => None end
  | None, Free => match vs with v :: _ => Some (v, Seq 1) | [] => None end
  | None, Seq k => match nth_error vs k with Some v => Some (v, Seq (S k)) | None => None end
  | _, _ => None
  end.
Definition has (c : Z) (d : dir) : bool := existsb (Z.eqb c) (fl d).
(** A width or a precision: no value, out of range, or the number. *)
Inductive got := GErr | GRange | GNum (z : option Z) (m : mode).
Definition amount_of (vs : list value) (m : mode) (a : amount) : got :=
  match a with
  | ANone => GNum None m
  | ANum n => GNum (Some n) m
  | ANext | ANth _ =>
      match get vs m (match a with ANth n => Some n | _ => None end) with
      | Some (v, m) => match star v with
                       | Some z => if (- int_max <=? z) && (z <=? int_max) then GNum (Some z) m else GRange
                       | None => GErr
                       end
      | None => GErr
      end
  end.
Definition or_zero (z : option Z) : Z := match z with Some z => z | None => 0 end.
(** The number of the value is looked up before or after those of width and precision: the same. *)
Definition value_of (vs : list value) (m : mode) (d : dir) : option (value * mode) := get vs m (match index d with Some (n, _) => Some n | None => None end).
Definition meaning (vs : list value) (m : mode) (d : dir) : sout * mode :=
  match amount_of vs m (width_of d) with
  | GErr => (SErr, m)
  | GRange => (SRange, m)
  | GNum w m =>
      let left := has 45 d || (or_zero w <? 0) in
      match match prec_of d with Some a => amount_of vs m a | None => GNum None m end with
      | GErr => (SErr, m)
      | GRange => (SRange, m)
      | GNum p m =>
          let p := match prec_of d with
                   | None => None
                   | Some _ => if or_zero p <? 0 then None else Some (or_zero p)
                   end in
          match value_of vs m d with
          | Some (v, m) =>
              let f := mkFl (has 48 d && negb left) left (has 43 d) (has 32 d && negb (has 43 d)) (has 35 d) in
              (match convert (last_char d) f (Z.abs (or_zero w)) p v with Ok t => SOk t | Err => SErr | Panic => SPanic end, m)
          | None => (SErr, m)
          end
      end
  end.
Fixpoint means (vs : list value) (m : mode) (l : list piece) : sout :=
  match l with
  | [] => SOk []
  | PText c :: l => match means vs m l with SOk t => SOk (c :: t) | o => o end
  | PPercent :: l => match means vs m l with SOk t => SOk (37 :: t) | o => o end
  | PDir d :: l => match meaning vs m d with
                   | (SOk t, m) => match means vs m l with SOk u => SOk (t ++ u) | o => o end
                   | (o, _) => o
                   end
  end.
Definition shown (o : out) : sout := match o with Ok t => SOk t | Err => SErr | Panic => SPanic end.
End Meaning.
