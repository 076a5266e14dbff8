(** sprintf: the directives and their arguments, integers in every base, the padding of text.
    monoruby/src/executor/format.rs.
    A text is the list of its code points. [Panic]: Rust's formatting refuses a width above 65535. *)
From Coq Require Import List Bool ZArith.
Import ListNotations.
Open Scope Z_scope.

Notation text := (list Z).
Inductive out := Ok (t : text) | Err | Panic.
Definition bind (x : out) (k : text -> out) : out := match x with Ok t => k t | _ => x end.
Definition len {A} (l : list A) : Z := Z.of_nat (length l).
Definition pad (c n : Z) : text := repeat c (Z.to_nat n).

(** Rust's {} {:b} {:o} {:x} {:X} of a number that is not negative: its digits. *)
Fixpoint digs_loop (fuel : nat) (base n : Z) (acc : list Z) : list Z :=
  match fuel with
  | O => acc
  | S f => let acc := n mod base :: acc in if n / base =? 0 then acc else digs_loop f base (n / base) acc
  end.
Definition digs (base n : Z) : list Z := digs_loop (S (Z.to_nat (Z.log2 n))) base n [].
Definition dchar (upper : bool) (d : Z) : Z := if d <? 10 then 48 + d else (if upper then 55 else 87) + d.
Definition numeral (base : Z) (upper : bool) (n : Z) : text := map (dchar upper) (digs base n).

(** format!("{:0>w$}"): zeros in front up to [w] characters. *)
Definition zeros_to (w : Z) (t : text) : out := if 65535 <? w then Panic else Ok (pad 48 (w - len t) ++ t).
Definition utf8_len (c : Z) : Z := if c <? 128 then 1 else if c <? 2048 then 2 else if c <? 65536 then 3 else 4.
(** str::len. *)
Definition bytes (t : text) : Z := fold_right (fun c n => utf8_len c + n) 0 t.
(** apply_width (format.rs:283-293) *)
Definition apply_width (t : text) (width : Z) (left : bool) : text :=
  if width <=? bytes t then t
  else let p := pad 32 (width - bytes t) in if left then t ++ p else p ++ t.
(** apply_int_precision (format.rs:258-280) *)
Definition int_precision (t : text) (prec : option Z) : text :=
  match prec with
  | None => t
  | Some p =>
      let '(sign, ds) := match t with 45 :: r => ([45], r) | _ => ([], t) end in
      if (p =? 0) && (match ds with [48] => true | _ => false end) then sign
      else if p <=? bytes ds then t
      else sign ++ pad 48 (p - bytes ds) ++ ds
  end.
Record flags := mkFl { zero : bool; minus : bool; plus : bool; space : bool; sharp : bool }.
(** The sign in front of a number (format.rs:309-317). *)
Definition sign_of (neg : bool) (f : flags) : text := if neg then [45] else if plus f then [43] else if space f then [32] else [].
(** format_integer_with_flags (format.rs:296-327) *)
Definition int_with_flags (t : text) (f : flags) (width : Z) : out :=
  let '(neg, ds) := match t with 45 :: r => (true, r) | _ => (false, t) end in
  let s := sign_of neg f in
  let body := s ++ ds in
  if zero f && (bytes body <? width) then bind (zeros_to (width - bytes s) ds) (fun t => Ok (s ++ t))
  else Ok (apply_width body width (minus f)).
(** format_int_with_prefix (format.rs:694-722) *)
Definition int_with_prefix (neg : bool) (ds prefix : text) (f : flags) (width : Z) : out :=
  let s := sign_of neg f in
  let body := s ++ prefix ++ ds in
  if zero f && (bytes body <? width) then bind (zeros_to (width - bytes s - bytes prefix) ds) (fun t => Ok (s ++ prefix ++ t))
  else Ok (apply_width body width (minus f)).
(** neg_tc_minimal_from_abs (format.rs:610-646), on the digits' values: complement of each digit, plus one, from the right. *)
Fixpoint plus_one (base : Z) (l : list Z) : list Z * Z :=
  match l with
  | [] => ([], 1)
  | d :: r => let '(r', c) := plus_one base r in ((d + c) mod base :: r', (d + c) / base)
  end.
Fixpoint trim (fill : Z) (l : list Z) : list Z := match l with d :: r => if d =? fill then trim fill r else l | [] => [] end.
Definition neg_minimal (base : Z) (abs : list Z) : list Z :=
  let fill := base - 1 in
  fill :: trim fill (fst (plus_one base (map (fun d => fill - d) abs))).
(** format_neg_tc (format.rs:652-686); [d.insert(0, fill)] in a loop. *)
Definition neg_tc (abs : list Z) (base : Z) (upper : bool) (prec : option Z) (prefix : text) (f : flags) (width : Z) : out :=
  let fill := dchar upper (base - 1) in
  let ds := map (dchar upper) (neg_minimal base abs) in
  let ds := match prec with Some p => pad fill (Z.max (bytes ds) (p - 2) - bytes ds) ++ ds | None => ds end in
  let total := bytes prefix + 2 + bytes ds in
  if zero f && negb (minus f) && (total <? width) then Ok (prefix ++ [46; 46] ++ pad fill (width - total) ++ ds)
  else Ok (apply_width (prefix ++ [46; 46] ++ ds) width (minus f)).

Inductive conv := CDec | CBin (upper : bool) | COct | CHex (upper : bool).
Definition base_of (c : conv) : Z := match c with CDec => 10 | CBin _ => 2 | COct => 8 | CHex _ => 16 end.
Definition upper_of (c : conv) : bool := match c with CHex u => u | _ => false end.
Definition mark_of (c : conv) : text :=
  match c with CDec => [] | CBin u => [48; if u then 66 else 98] | COct => [48] | CHex u => [48; if u then 88 else 120] end.
Definition is_zero_text (t : text) : bool := match t with [] | [48] => true | _ => false end.
(** The integer directives (format.rs:1384-1575). *)
Definition format_int (c : conv) (v : Z) (f : flags) (width : Z) (prec : option Z) : out :=
  match c with
  | CDec => int_with_flags (int_precision ((if v <? 0 then [45] else []) ++ numeral 10 false (Z.abs v)) prec) f width
  | _ =>
      let digits := numeral (base_of c) (upper_of c) (Z.abs v) in
      if v <? 0
      then if plus f || space f
           then int_with_prefix true (int_precision digits prec) (if sharp f then mark_of c else []) f width
           else neg_tc (digs (base_of c) (Z.abs v)) (base_of c) (match c with CBin u | CHex u => u | _ => false end) prec
                       (match c with COct => [] | _ => if sharp f then mark_of c else [] end) f width
      else let digits := int_precision digits prec in
           let prefix := match c with
                         | COct => if sharp f then match digits with 48 :: _ => [] | _ => [48] end else []
                         | _ => if sharp f && negb (is_zero_text digits) then mark_of c else []
                         end in
           int_with_prefix false digits prefix f width
  end.
(** %s and %p with the text already made (format.rs:1357-1383). *)
Definition format_text (t : text) (f : flags) (width : Z) (prec : option Z) : text :=
  let t := match prec with Some p => if p <? len t then firstn (Z.to_nat p) t else t | None => t end in
  apply_width t width (minus f).

(** The directives (format.rs:803-1327). What an argument is converted to is a parameter: [star] is coerce_to_integer of a
    width, [convert] the conversion named by the last character. *)
Section Directives.
Variable value : Type.
Variable star : value -> option Z.
Variable convert : Z -> flags -> Z -> option Z -> value -> out.
Definition digit (c : Z) : bool := (48 <=? c) && (c <=? 57).
Fixpoint span (l : text) : text * text :=
  match l with c :: r => if digit c then let '(a, b) := span r in (c :: a, b) else ([], l) | [] => ([], []) end.
(** try_positional (format.rs:904-928); a release build wraps around. *)
Definition wrapped (l : text) : Z := fold_left (fun n c => (n * 10 + (c - 48)) mod 2 ^ 64) l 0.
Definition positional (l : text) : option (Z * text) :=
  match l with
  | c :: _ => if digit c && negb (c =? 48)
              then match span l with (ds, 36 :: r) => Some (wrapped ds, r) | _ => None end
              else None
  | [] => None
  end.
Record args := mkA { next : nat; numbered : bool; unnumbered : bool }.
(** mark_numbered and the bounds (format.rs:936-944), mark_unnumbered and the next argument (1299-1308). *)
Definition take_nth (l : list value) (a : args) (n : Z) : option (value * args) :=
  if unnumbered a then None
  else if (n =? 0) || (len l <? n) then None
  else match nth_error l (Z.to_nat (n - 1)) with Some v => Some (v, mkA (next a) true (unnumbered a)) | None => None end.
Definition take_next (l : list value) (a : args) : option (value * args) :=
  if numbered a then None
  else match nth_error l (next a) with Some v => Some (v, mkA (S (next a)) (numbered a) true) | None => None end.
Definition flag (c : Z) (f : flags) : option flags :=
  match c with
  | 48 => Some (mkFl true (minus f) (plus f) (space f) (sharp f))
  | 45 => Some (mkFl (zero f) true (plus f) (space f) (sharp f))
  | 43 => Some (mkFl (zero f) (minus f) true (space f) (sharp f))
  | 32 => Some (mkFl (zero f) (minus f) (plus f) true (sharp f))
  | 35 => Some (mkFl (zero f) (minus f) (plus f) (space f) true)
  | _ => None
  end.
(** The loops of the parser end with an error when the text ends. *)
Fixpoint read_flags (l : text) (f : flags) : option (flags * text) :=
  match l with
  | [] => None
  | c :: r => match flag c f with Some f => read_flags r f | None => Some (f, l) end
  end.
Fixpoint read_num (l : text) (n : Z) : option (Z * text) :=
  match l with
  | [] => None
  | c :: r => if digit c then let n := n * 10 + (c - 48) in if n <? 2 ^ 64 then read_num r n else None else Some (n, l)
  end.
Definition fixnum (z : Z) : bool := (- 2 ^ 62 <=? z) && (z <? 2 ^ 62).
(** The argument behind a star, with its number or the next. *)
Definition read_star (vs : list value) (a : args) (l : text) : option (Z * args * text) :=
  match match positional l with
        | Some (n, r) => match take_nth vs a n with Some (v, a) => Some (v, a, r) | None => None end
        | None => match take_next vs a with Some (v, a) => Some (v, a, l) | None => None end
        end with
  | Some (v, a, r) => match star v, r with
                      | Some z, _ :: _ => if fixnum z then Some (z, a, r) else None
                      | _, _ => None
                      end
  | None => None
  end.
(** Left alignment overrides the zeros, plus the space (format.rs:1036-1043). *)
Definition settle (f : flags) : flags := mkFl (zero f && negb (minus f)) (minus f) (plus f) (space f && negb (plus f)) (sharp f).
Definition read_width (vs : list value) (a : args) (f : flags) (l : text) : option (Z * flags * args * text) :=
  match l with
  | 42 :: r => match read_star vs a r with
               | Some (z, a, r) => if z <? 0 then Some (- z, mkFl false true (plus f) (space f) (sharp f), a, r) else Some (z, f, a, r)
               | None => None
               end
  | _ => match read_num l 0 with Some (n, r) => Some (n, f, a, r) | None => None end
  end.
Definition read_prec (vs : list value) (a : args) (l : text) : option (option Z * args * text) :=
  match l with
  | 46 :: 42 :: r => match read_star vs a r with
                     | Some (z, a, r) => Some (if z <? 0 then None else Some z, a, r)
                     | None => None
                     end
  | 46 :: r => match read_num r 0 with Some (n, r) => Some (Some n, a, r) | None => None end
  | _ => Some (None, a, l)
  end.
(** A number of an argument, unless there is one already; the text may not end there. *)
Definition read_index (vs : list value) (a : args) (v : option value) (l : text) : option (option value * args * text) :=
  match v with
  | Some _ => Some (v, a, l)
  | None => match positional l with
            | Some (n, r) => match take_nth vs a n, r with Some (v, a), _ :: _ => Some (Some v, a, r) | _, _ => None end
            | None => Some (None, a, l)
            end
  end.
(** c s p d i u b B o x X f e E g G a A *)
Definition conversion (c : Z) : bool := existsb (Z.eqb c) [99; 115; 112; 100; 105; 117; 98; 66; 111; 120; 88; 102; 101; 69; 103; 71; 97; 65].
Definition plain_flags := mkFl false false false false false.
(** One directive behind its percent sign. *)
Definition directive (vs : list value) (a : args) (l : text) : option (out * args * text) :=
  match read_index vs a None l with
  | None => None
  | Some (v, a, l) =>
      match read_flags l plain_flags with
      | None => None
      | Some (f, l) =>
          match read_index vs a v l with
          | None => None
          | Some (v, a, l) =>
              match read_width vs a (settle f) l with
              | None => None
              | Some (w, f, a, l) =>
                  match read_prec vs a l with
                  | None => None
                  | Some (p, a, l) =>
                      match read_index vs a v l with
                      | Some (v, a, c :: l) =>
                          if conversion c
                          then match match v with Some v => Some (v, a) | None => take_next vs a end with
                               | Some (v, a) => Some (convert c f w p v, a, l)
                               | None => None
                               end
                          else None
                      | _ => None
                      end
                  end
              end
          end
      end
  end.
Fixpoint format (fuel : nat) (vs : list value) (a : args) (l : text) : out :=
  match fuel with
  | O => Err
  | S n =>
      match l with
      | [] => Ok []
      | 37 :: [] => Err
      | 37 :: 37 :: r => bind (format n vs a r) (fun t => Ok (37 :: t))
      | 37 :: r => match directive vs a r with
                   | Some (Ok t, a, r) => bind (format n vs a r) (fun u => Ok (t ++ u))
                   | Some (o, _, _) => o
                   | None => Err
                   end
      | c :: r => bind (format n vs a r) (fun t => Ok (c :: t))
      end
  end.
Definition sprintf (l : text) (vs : list value) : out := format (S (length l)) vs (mkA O false false) l.
End Directives.
