(** Marshal.dump and Marshal.load: monoruby/src/builtins/marshal.rs.

    Object graphs.  A heap is a list of objects and an address an index into it;
    a reference is [VRef].  nil, true, false, Integers of 63 bits, the Floats with
    an inline encoding and Symbols are immediate ([Value::id] is then the value).
    A Symbol is the key it is interned under: the string table ([SStr]) or the byte
    table ([SByt]) of IdModel.v; C18 proves that the keys are the identities.
    Classes are identified by their path; the class of a String, Array or Hash is
    [None] for the builtin class itself.

    Not modelled: the user protocols (marshal_dump, _dump, and 'U' 'u' 'd' on the
    reading side), Struct, Range, Exception, Class and Module objects, Complex and
    Rational, extended objects ('e'), Hash default procs (dumped as no default),
    the load proc and [freeze:], the port and level arguments, and the exhaustion
    of the native stack by deep nesting.  Reading one of these tags gives
    [NotModelled]. *)
From Coq Require Import String Ascii ZArith List Bool.
From Verif Require Import Utf8Model IdModel EncModel.
From Verif Require ValueModel.
Import ListNotations.
Open Scope Z_scope.

(** * Graphs *)
Inductive sym := SStr (b : list Z) | SByt (b : list Z) (e : encoding).
Definition sym_dec (x y : sym) : {x = y} + {x <> y}.
Proof. decide equality; [apply bytes_dec | apply enc_dec | apply bytes_dec]. Defined.

Inductive val := VNil | VBool (b : bool) | VFix (n : Z) | VFlo (bits : Z) | VSym (s : sym) | VRef (a : nat).

Inductive obj :=
| OBig (n : Z)
| OFlo (bits : Z)
| OStr (cls : option (list Z)) (b : list Z) (e : encoding) (iv : list (sym * val))
| OArr (cls : option (list Z)) (l : list val) (iv : list (sym * val))
| OHash (cls : option (list Z)) (l : list (val * val)) (dflt : option val) (cbi : bool) (iv : list (sym * val))
| OObj (cls : list Z) (iv : list (sym * val))
| OReg (src : list Z) (opt : Z) (e : encoding) (iv : list (sym * val)).

Definition heap := list obj.

(** Equality of [Value::id]. *)
Definition same_id (x y : val) : bool :=
  match x, y with
  | VNil, VNil => true
  | VBool a, VBool b => Bool.eqb a b
  | VFix a, VFix b => a =? b
  | VFlo a, VFlo b => a =? b
  | VSym a, VSym b => if sym_dec a b then true else false
  | VRef a, VRef b => Nat.eqb a b
  | _, _ => false
  end.

(** [iter().position(..)]. *)
Fixpoint position {A} (p : A -> bool) (l : list A) (i : Z) : option Z :=
  match l with [] => None | x :: t => if p x then Some i else position p t (i + 1) end.

(** * Integers *)
Definition u8 (x : Z) : Z := x mod 256.
Definition to_i32 (x : Z) : Z := let u := x mod 2 ^ 32 in if u <? 2 ^ 31 then u else u - 2 ^ 32.
(** [i32 as usize]. *)
Definition to_usize (x : Z) : Z := x mod 2 ^ 64.
(** [len() as i32]. *)
Definition len_i32 {A} (l : list A) : Z := to_i32 (Z.of_nat (length l)).

Fixpoint le_bytes (k : nat) (x : Z) : list Z :=
  match k with O => [] | S k' => u8 x :: le_bytes k' (x / 256) end.
Fixpoint of_le (l : list Z) : Z := match l with [] => 0 | b :: r => b + 256 * of_le r end.

(** 1209-1244 [marshal_write_fixnum]. *)
Definition w_fixnum (n : Z) : list Z :=
  if n =? 0 then [0]
  else if (0 <? n) && (n <=? 122) then [u8 (n + 5)]
  else if (n <? 0) && (-123 <=? n) then [u8 (n - 5)]
  else if 0 <? n then
    let len := if n <=? 0xff then 1 else if n <=? 0xffff then 2 else if n <=? 0xffffff then 3 else 4 in
    len :: le_bytes (Z.to_nat len) n
  else
    let len := if -0x100 <=? n then 1 else if -0x10000 <=? n then 2 else if -0x1000000 <=? n then 3 else 4 in
    u8 (- len) :: le_bytes (Z.to_nat len) n.

(** num-bigint [to_bytes_le] of a magnitude: no leading zero byte, [0] for zero. *)
Definition mag_bytes (m : Z) : list Z := le_bytes (Z.to_nat (Z.log2 m / 8 + 1)) m.

(** 1249-1262 [marshal_write_bignum]. *)
Definition w_bignum (n : Z) : list Z :=
  let le := mag_bytes (Z.abs n) in
  let words := (Z.of_nat (length le) + 1) / 2 in
  [108] ++ [if n <? 0 then 45 else 43] ++ w_fixnum (to_i32 words) ++ le
  ++ (if Z.of_nat (length le) mod 2 =? 0 then [] else [0]).

(** * Floats *)
Definition f_nan (b : Z) : bool := 0x7ff0000000000000 <? Z.land b 0x7fffffffffffffff.
Definition f_inf (b : Z) : bool := Z.land b 0x7fffffffffffffff =? 0x7ff0000000000000.
Definition NAN : Z := 0x7ff8000000000000.
Definition INF : Z := 0x7ff0000000000000.
Definition NEG_INF : Z := 0xfff0000000000000.
Definition NEG_ZERO : Z := 0x8000000000000000.

(** The outcome of a read: a value, a Ruby exception, a Rust panic. *)
Inductive res (A : Type) := Ok (a : A) | Raise | Panic | NotModelled | Fuel.
Arguments Ok {A} _. Arguments Raise {A}. Arguments Panic {A}. Arguments NotModelled {A}. Arguments Fuel {A}.

Section Marshal.
(** [float_to_marshal_string] of a finite non-zero float (FtextModel.v) and
    [str::parse::<f64>]. *)
Variables (fmt : Z -> list Z) (prs : list Z -> option Z).
(** The paths of the classes whose instances are plain objects, and of the
    subclasses of String, Array and Hash. *)
Variables (plain sub : list Z -> bool).
(** [eql?] of two Arrays, two Hashes or two Regexps. *)
Variable deep : heap -> nat -> nat -> bool.

(** 1381-1402 [marshal_write_float]. *)
Definition float_text (b : Z) : list Z :=
  if ValueModel.f64_eq_zero b then (if ValueModel.f64_sign_negative b then bs "-0" else bs "0")
  else if f_inf b then (if ValueModel.f64_sign_negative b then bs "-inf" else bs "inf")
  else if f_nan b then bs "nan"
  else fmt b.
Definition w_float (b : Z) : list Z :=
  [102] ++ w_fixnum (len_i32 (float_text b)) ++ float_text b.

(** * The writer
    Its state is the symbol table and the object link table. *)
Definition wst : Type := list sym * list val.
Definition W : Type := wst -> option (list Z * wst).
Definition wput (l : list Z) : W := fun st => Some (l, st).
Definition wseq (a b : W) : W := fun st =>
  match a st with
  | None => None
  | Some (x, st1) => match b st1 with None => None | Some (y, st2) => Some (x ++ y, st2) end
  end.
Infix ";;" := wseq (at level 61, right associativity).

Definition sym_bytes (s : sym) : list Z := match s with SStr b => b | SByt b _ => b end.
(** [id.symbol_encoding().unwrap_or(Utf8)]. *)
Definition sym_enc (s : sym) : encoding := match s with SStr _ => Utf8 | SByt _ e => e end.
(** [get_name]. *)
Definition sym_name (s : sym) : list Z := match s with SStr b => b | SByt b _ => utf8_lossy b end.

(** 1421-1450 [marshal_write_symbol]: the look-up, and the plain form. *)
Definition w_symlink (s : sym) (k : W) : W := fun st =>
  match position (fun x => if sym_dec x s then true else false) (fst st) 0 with
  | Some i => Some ([59] ++ w_fixnum (to_i32 i), st)
  | None => k st
  end.
Definition push_sym (s : sym) : W := fun st => Some ([], (fst st ++ [s], snd st)).
Definition w_symbol0 (s : sym) : W :=
  w_symlink s (wput ([58] ++ w_fixnum (len_i32 (sym_bytes s)) ++ sym_bytes s) ;; push_sym s).

(** 1474-1488 [marshal_write_encoding_ivar_pair]; its symbols are ASCII, so
    [marshal_write_symbol] does not recur. *)
Definition w_enc_pair (e : encoding) : W :=
  match e with
  | Utf8 | UsAscii | Ascii8 =>
      w_symbol0 (SStr (bs "E")) ;; wput [match e with Utf8 => 84 | _ => 70 end]
  | _ =>
      w_symbol0 (SStr (bs "encoding")) ;;
      wput ([34] ++ w_fixnum (len_i32 (enc_name e)) ++ enc_name e)
  end.

Definition ascii (b : list Z) : bool := forallb (fun x => x <? 128) b.

(** 1421-1450 [marshal_write_symbol]. *)
Definition w_symbol (s : sym) : W :=
  if ascii (sym_bytes s) || (if enc_dec (sym_enc s) Ascii8 then true else false) then w_symbol0 s
  else w_symlink s
    (wput ([73; 58] ++ w_fixnum (len_i32 (sym_bytes s)) ++ sym_bytes s) ;; push_sym s ;;
     wput (w_fixnum 1) ;; w_enc_pair (sym_enc s)).

(** 1597-1607 [marshal_emit_link] and the same test in the RV::Object arm: a
    back-reference, or a new slot and the body. *)
Definition w_linked (v : val) (body : W) : W := fun st =>
  match position (fun x => same_id x v) (snd st) 0 with
  | Some i => Some ([64] ++ w_fixnum (to_i32 i), st)
  | None => body (fst st, snd st ++ [v])
  end.

Fixpoint w_list {A} (d : A -> W) (l : list A) : W :=
  match l with [] => wput [] | x :: t => d x ;; w_list d t end.

(** 1552-1583 [marshal_write_extended_and_class], for objects with no extension
    and a named class. *)
Definition w_class (c : option (list Z)) : W :=
  match c with None => wput [] | Some name => wput [67] ;; w_symbol (SStr name) end.

Definition w_ivars (d : val -> W) (iv : list (sym * val)) : W :=
  w_list (fun p => w_symbol (fst p) ;; d (snd p)) iv.

(** 1492-1506 [marshal_write_ivar_block], when there are any. *)
Definition w_ivar_block (d : val -> W) (iv : list (sym * val)) : W :=
  match iv with [] => wput [] | _ => wput (w_fixnum (len_i32 iv)) ;; w_ivars d iv end.
Definition w_I (iv : list (sym * val)) : W := match iv with [] => wput [] | _ => wput [73] end.

(** The body of an object, 1810-2200. *)
Definition w_body (d : val -> W) (o : obj) : W :=
  match o with
  | OBig n => wput (w_bignum n)
  | OFlo b => wput (w_float b)
  | OStr c b e iv =>
      let he := match e with Ascii8 => false | _ => true end in
      let count := (if he then 1 else 0) + Z.of_nat (length iv) in
      (if 0 <? count then wput [73] else wput []) ;; w_class c ;;
      wput ([34] ++ w_fixnum (len_i32 b) ++ b) ;;
      (if 0 <? count then
         wput (w_fixnum (to_i32 count)) ;; (if he then w_enc_pair e else wput []) ;; w_ivars d iv
       else wput [])
  | OArr c l iv =>
      w_I iv ;; w_class c ;; wput ([91] ++ w_fixnum (len_i32 l)) ;; w_list d l ;; w_ivar_block d iv
  | OHash c l df cbi iv =>
      w_I iv ;; w_class c ;;
      (if cbi then wput [67] ;; w_symbol (SStr (bs "Hash")) else wput []) ;;
      wput ([match df with Some _ => 125 | None => 123 end] ++ w_fixnum (len_i32 l)) ;;
      w_list (fun p => d (fst p) ;; d (snd p)) l ;;
      match df with Some x => d x | None => wput [] end ;;
      w_ivar_block d iv
  | OObj c iv =>
      wput [111] ;; w_symbol (SStr c) ;; wput (w_fixnum (len_i32 iv)) ;; w_ivars d iv
  | OReg src opt e iv =>
      wput ([73; 47] ++ w_fixnum (len_i32 src) ++ src ++ [opt]) ;;
      wput (w_fixnum (to_i32 (1 + Z.of_nat (length iv)))) ;; w_enc_pair e ;; w_ivars d iv
  end.

(** 1757-2200 [marshal_dump_value].  A BigInt in the range of 30-bit integers is
    written as one (1786-1795).  [None]: a dangling reference or no fuel. *)
Definition in30 (n : Z) : bool := (-0x40000000 <=? n) && (n <=? 0x3fffffff).
Fixpoint dump_value (fuel : nat) (h : heap) (v : val) : W :=
  match fuel with
  | O => fun _ => None
  | S n =>
      match v with
      | VNil => wput [48]
      | VBool true => wput [84]
      | VBool false => wput [70]
      | VFix k => if in30 k then wput ([105] ++ w_fixnum (to_i32 k)) else wput (w_bignum k)
      | VFlo b => w_linked v (wput (w_float b))
      | VSym s => w_symbol s
      | VRef a =>
          match nth_error h a with
          | None => fun _ => None
          | Some (OBig k) =>
              if in30 k then wput ([105] ++ w_fixnum k) else w_linked v (w_body (dump_value n h) (OBig k))
          | Some o => w_linked v (w_body (dump_value n h) o)
          end
      end
  end.

(** 42-95 [Marshal.dump(obj)]. *)
Definition dump (fuel : nat) (h : heap) (v : val) : option (list Z) :=
  option_map (fun r => [4; 8] ++ fst r) (dump_value fuel h v ([], [])).

(** * The reader *)

(** 144-175 [MarshalReader]: [rest] is [data[pos..]]. *)
Record rst := mkr { pos : Z; rest : list Z; rsyms : list sym; robjs : list val; rheap : heap }.
Definition R (A : Type) : Type := rst -> res (A * rst).
Definition ret {A} (a : A) : R A := fun s => Ok (a, s).
Definition bind {A B} (m : R A) (k : A -> R B) : R B := fun s =>
  match m s with
  | Ok (a, s1) => k a s1
  | Raise => Raise | Panic => Panic | NotModelled => NotModelled | Fuel => Fuel
  end.
Notation "x <- m ; k" := (bind m (fun x => k)) (at level 61, m at next level, right associativity).

(** 178-185. *)
Definition read_byte : R Z := fun s =>
  match rest s with
  | [] => Raise
  | b :: r => Ok (b, mkr (pos s + 1) r (rsyms s) (robjs s) (rheap s))
  end.
(** 187-194; [n] is a usize.  In a release build [self.pos + n] wraps, and a slice
    whose end is before its start panics; in a debug build the addition panics. *)
Definition read_bytes (n : Z) : R (list Z) := fun s =>
  let e := (pos s + n) mod 2 ^ 64 in
  if pos s + Z.of_nat (length (rest s)) <? e then Raise
  else if e <? pos s then Panic
  else let k := Z.to_nat n in
       Ok (firstn k (rest s), mkr (pos s + n) (skipn k (rest s)) (rsyms s) (robjs s) (rheap s)).

(** 204-241 [read_fixnum]. *)
Definition read_fixnum : R Z :=
  b0 <- read_byte ;
  let b := if b0 <? 128 then b0 else b0 - 256 in
  if b =? 0 then ret 0
  else if 0 <? b then
    if b <=? 4 then l <- read_bytes b ; ret (to_i32 (of_le l)) else ret (b - 5)
  else if -4 <=? b then
    l <- read_bytes (- b) ; ret (to_i32 (2 ^ 32 - 256 ^ (- b) + of_le l))
  else ret (b + 5).

(** [read_fixnum()? as usize] followed by [read_bytes]. *)
Definition read_blob : R (list Z) := n <- read_fixnum ; read_bytes (to_usize n).

(** 1412-1419 [intern_symbol_bytes]. *)
Definition intern (b : list Z) (e : encoding) : sym :=
  match e with
  | Utf8 | UsAscii => if utf8_ok b then SStr b else SByt b e
  | _ => SByt b e
  end.

Definition push_rsym (x : sym) : R unit := fun s =>
  Ok (tt, mkr (pos s) (rest s) (rsyms s ++ [x]) (robjs s) (rheap s)).
Definition push_robj (v : val) : R unit := fun s =>
  Ok (tt, mkr (pos s) (rest s) (rsyms s) (robjs s ++ [v]) (rheap s)).
Definition alloc (o : obj) : R nat := fun s =>
  Ok (length (rheap s), mkr (pos s) (rest s) (rsyms s) (robjs s) (rheap s ++ [o])).
Definition update (a : nat) (f : obj -> obj) : R unit := fun s =>
  match nth_error (rheap s) a with
  | None => Panic
  | Some o => Ok (tt, mkr (pos s) (rest s) (rsyms s) (robjs s) (set_nth (rheap s) a (f o)))
  end.

(** 244-258 [read_new_symbol]. *)
Definition read_new_symbol : R sym :=
  b <- read_blob ;
  let s := intern b (if ascii b then UsAscii else Ascii8) in
  _ <- push_rsym s ; ret s.

(** [self.symbols.get(idx)]. *)
Definition read_sym_ref : R sym :=
  n <- read_fixnum ;
  fun s => if to_usize n <? Z.of_nat (length (rsyms s)) then
             match nth_error (rsyms s) (Z.to_nat (to_usize n)) with Some x => Ok (x, s) | None => Raise end
           else Raise.

(** Un-reading the byte just read: the reader [m] starts at the byte itself. *)
Definition peek {A} (k : Z -> R A) : R A := fun s =>
  match rest s with [] => Raise | b :: _ => k b s end.
Definition skip {A} (m : R A) : R A := _ <- read_byte ; m.

Section Step.
Variable rd : R val.   (* read_value_inner one level down *)

(** 263-289 [read_symbol]. *)
Definition read_symbol : R sym :=
  peek (fun tag =>
    if tag =? 58 then skip read_new_symbol
    else if tag =? 59 then skip read_sym_ref
    else if tag =? 73 then v <- rd ; match v with VSym s => ret s | _ => fun _ => Raise end
    else fun _ => Raise).

(** A [for _ in 0..n] loop of readers; every round reads at least one byte, so the
    remaining bytes bound the number of rounds. *)
Fixpoint times_fuel {A} (fuel : nat) (n : Z) (acc : A) (f : A -> R A) : R A :=
  if n <=? 0 then ret acc
  else match fuel with
       | O => fun _ => Fuel
       | S k => a <- f acc ; times_fuel k (n - 1) a f
       end.
Definition times {A} (n : Z) (acc : A) (f : A -> R A) : R A := fun s =>
  times_fuel (S (length (rest s))) n acc f s.

(** [is_rstring_inner]: the bytes of a String. *)
Definition string_bytes (v : val) : R (option (list Z)) := fun s =>
  Ok (match v with
      | VRef a => match nth_error (rheap s) a with Some (OStr _ b _ _) => Some b | _ => None end
      | _ => None
      end, s).
Definition named_enc (v : val) (e : encoding) : R encoding :=
  b <- string_bytes v ;
  ret match b with
      | Some n => match enc_find n with Some e' => e' | None => Ascii8 end
      | None => e
      end.

(** 806-851 [read_encoding_ivars]. *)
Definition enc_ivar (acc : encoding * list (sym * val)) : R (encoding * list (sym * val)) :=
  s <- read_symbol ;
  if bytes_dec (sym_name s) (bs "E") then
    peek (fun b =>
      if b =? 84 then skip (ret (Utf8, snd acc))
      else if b =? 70 then skip (ret (UsAscii, snd acc))
      else v <- rd ; e <- named_enc v (fst acc) ; ret (e, snd acc))
  else if bytes_dec (sym_name s) (bs "encoding") then
    v <- rd ; e <- named_enc v (fst acc) ; ret (e, snd acc)
  else v <- rd ; ret (fst acc, snd acc ++ [(s, v)]).
Definition read_enc_ivars : R (encoding * list (sym * val)) :=
  n <- read_fixnum ; times (to_usize n) (Ascii8, []) enc_ivar.

(** [globals.set_ivar]. *)
Fixpoint put_ivar (iv : list (sym * val)) (s : sym) (v : val) : list (sym * val) :=
  match iv with
  | [] => [(s, v)]
  | (s', v') :: t => if sym_dec s' s then (s', v) :: t else (s', v') :: put_ivar t s v
  end.
Definition obj_ivar (s : sym) (v : val) (o : obj) : obj :=
  match o with
  | OStr c b e iv => OStr c b e (put_ivar iv s v)
  | OArr c l iv => OArr c l (put_ivar iv s v)
  | OHash c l d i iv => OHash c l d i (put_ivar iv s v)
  | OObj c iv => OObj c (put_ivar iv s v)
  | OReg r p e iv => OReg r p e (put_ivar iv s v)
  | OBig _ | OFlo _ => o
  end.
(** Instance variables on an immediate or a number are not modelled. *)
Definition set_ivar (x : val) (s : sym) (v : val) : R unit :=
  match x with VRef a => update a (obj_ivar s v) | _ => fun _ => NotModelled end.
Fixpoint set_ivars (x : val) (iv : list (sym * val)) : R unit :=
  match iv with [] => ret tt | (s, v) :: t => _ <- set_ivar x s v ; set_ivars x t end.

(** [Value::bigint] (value.rs:1058-1064) and [Value::float] (1028-1034). *)
Definition new_int (n : Z) : R val :=
  if (- 2 ^ 63 <=? n) && (n <? 2 ^ 63) && ValueModel.is_i63 n then ret (VFix n)
  else a <- alloc (OBig n) ; ret (VRef a).
Definition new_float (b : Z) : R val :=
  match ValueModel.enc_flonum b with Some _ => ret (VFlo b) | None => a <- alloc (OFlo b) ; ret (VRef a) end.

(** 427-441 [read_bignum]. *)
Definition read_bignum : R val :=
  sg <- read_byte ;
  n <- read_fixnum ;
  l <- read_bytes ((to_usize n * 2) mod 2 ^ 64) ;
  v <- new_int (if sg =? 45 then - of_le l else of_le l) ;
  _ <- push_robj v ; ret v.

Fixpoint upto_nul (l : list Z) : list Z := match l with [] => [] | b :: r => if b =? 0 then [] else b :: upto_nul r end.

(** 445-471 [read_float]. *)
Definition text_float (t : list Z) : option Z :=
  if bytes_dec t (bs "inf") then Some INF
  else if bytes_dec t (bs "-inf") then Some NEG_INF
  else if bytes_dec t (bs "nan") then Some NAN
  else if bytes_dec t (bs "-0") then Some NEG_ZERO
  else if bytes_dec t (bs "0") then Some 0
  else prs t.
Definition read_float : R val :=
  l <- read_blob ;
  let t := upto_nul l in
  if utf8_ok t then
    match text_float t with
    | Some b => v <- new_float b ; _ <- push_robj v ; ret v
    | None => fun _ => Raise
    end
  else fun _ => Raise.

Definition new_obj (o : obj) : R val := a <- alloc o ; _ <- push_robj (VRef a) ; ret (VRef a).

(** 475-489 [read_raw_string(Ascii8)]. *)
Definition read_raw_string : R val := b <- read_blob ; new_obj (OStr None b Ascii8 []).

(** 598-613 [read_array]; [Vec::with_capacity] panics when the size in bytes
    exceeds isize::MAX. *)
Definition arr_push (v : val) (o : obj) : obj := match o with OArr c l iv => OArr c (l ++ [v]) iv | _ => o end.
Definition read_array : R val :=
  n <- read_fixnum ;
  if 2 ^ 60 <=? to_usize n then fun _ => Panic
  else
    a <- alloc (OArr None [] []) ; _ <- push_robj (VRef a) ;
    _ <- times (to_usize n) tt (fun _ => v <- rd ; update a (arr_push v)) ;
    ret (VRef a).

(** value.rs:475-552 [Value::eql] on two keys of a Hash.  Plain objects have the
    identity of BasicObject#eql?. *)
Definition eql_key (h : heap) (x y : val) : bool :=
  same_id x y ||
  match x, y with
  | VRef a, VRef b =>
      match nth_error h a, nth_error h b with
      | Some (OBig m), Some (OBig n) => m =? n
      | Some (OFlo m), Some (OFlo n) => negb (f_nan m) && (m =? n)
      | Some (OStr _ s _ _), Some (OStr _ t _ _) => if bytes_dec s t then true else false
      | Some (OArr _ _ _), Some (OArr _ _ _) => deep h a b
      | Some (OHash _ _ _ _ _), Some (OHash _ _ _ _ _) => deep h a b
      | Some (OReg _ _ _ _), Some (OReg _ _ _ _) => deep h a b
      | _, _ => false
      end
  | _, _ => false
  end.
(** hash.rs:1269 [HashmapInner::insert] into a Hash compared by eql?; C09 and C10
    prove that the table behaves as this list of pairs. *)
Fixpoint hash_put (h : heap) (l : list (val * val)) (k v : val) : list (val * val) :=
  match l with
  | [] => [(k, v)]
  | (k', v') :: t => if eql_key h k' k then (k', v) :: t else (k', v') :: hash_put h t k v
  end.
Definition hash_ins (k v : val) (h : heap) (o : obj) : obj :=
  match o with OHash c l d i iv => OHash c (hash_put h l k v) d i iv | _ => o end.
Definition set_default (d : val) (o : obj) : obj :=
  match o with OHash c l _ i iv => OHash c l (Some d) i iv | _ => o end.
Definition get_heap : R heap := fun s => Ok (rheap s, s).

(** 627-651 [read_hash_inner]. *)
Definition read_hash (has_default : bool) : R val :=
  n <- read_fixnum ;
  a <- alloc (OHash None [] None false []) ; _ <- push_robj (VRef a) ;
  _ <- times (to_usize n) tt (fun _ => k <- rd ; v <- rd ; h <- get_heap ; update a (hash_ins k v h)) ;
  (if has_default then d <- rd ; _ <- update a (set_default d) ; ret (VRef a) else ret (VRef a)).

(** 657-753 [read_user_object], for the classes of plain objects.  The instance
    variables are set after all of them are read. *)
Definition read_user_object : R val :=
  c <- read_symbol ;
  n <- read_fixnum ;
  if plain (sym_name c) then
    a <- alloc (OObj (sym_name c) []) ; _ <- push_robj (VRef a) ;
    iv <- times (to_usize n) [] (fun acc => s <- read_symbol ; v <- rd ; ret (acc ++ [(s, v)])) ;
    _ <- set_ivars (VRef a) iv ;
    ret (VRef a)
  else fun _ => NotModelled.

(** 932-961 [read_user_class]: the name is looked up as one constant of Object. *)
Fixpoint has_colons (l : list Z) : bool :=
  match l with
  | 58 :: ((58 :: _) as t) => true
  | _ :: t => has_colons t
  | [] => false
  end.
Definition set_class (c : list Z) (o : obj) : obj :=
  match o with
  | OStr _ b e iv => OStr (Some c) b e iv
  | OArr _ l iv => OArr (Some c) l iv
  | OHash _ l d i iv => OHash (Some c) l d i iv
  | _ => o
  end.
Definition set_identity (o : obj) : obj := match o with OHash c l d _ iv => OHash c l d true iv | _ => o end.
Definition is_hash (v : val) : R bool := fun s =>
  Ok (match v with VRef a => match nth_error (rheap s) a with Some (OHash _ _ _ _ _) => true | _ => false end
      | _ => false end, s).
Definition read_user_class : R val :=
  c <- read_symbol ;
  v <- rd ;
  let name := sym_name c in
  hs <- is_hash v ;
  match v with
  | VRef a =>
      if bytes_dec name (bs "Hash") then
        (if hs then _ <- update a set_identity ; ret v else fun _ => NotModelled)
      else if has_colons name then fun _ => Raise
      else if sub name then _ <- update a (set_class name) ; ret v
      else fun _ => Raise
  | _ => fun _ => NotModelled
  end.

(** 971-996 [read_regexp], for a source the regexp compiler accepts; the object
    is not entered into the link table. *)
Definition read_regexp : R val :=
  b <- read_blob ; o <- read_byte ;
  a <- alloc (OReg (utf8_lossy b) o Utf8 []) ; ret (VRef a).

(** 495-594 [read_ivar_wrapped]. *)
Definition any_ivar (x : val) (u : unit) : R unit :=
  s <- read_symbol ; v <- rd ;
  if bytes_dec (sym_name s) (bs "E") then ret tt
  else if bytes_dec (sym_name s) (bs "encoding") then ret tt
  else set_ivar x s v.
Definition put_rsym (i : nat) (x : sym) : R unit := fun s =>
  Ok (tt, mkr (pos s) (rest s) (set_nth (rsyms s) i x) (robjs s) (rheap s)).
Definition count_rsyms : R nat := fun s => Ok (length (rsyms s), s).
Definition read_ivar_wrapped : R val :=
  peek (fun tag =>
    if tag =? 34 then skip (
      b <- read_blob ;
      ei <- read_enc_ivars ;
      v <- new_obj (OStr None b (fst ei) []) ;
      _ <- set_ivars v (snd ei) ; ret v)
    else if tag =? 58 then skip (
      b <- read_blob ;
      i <- count_rsyms ;
      _ <- push_rsym (SStr []) ;
      ei <- read_enc_ivars ;
      let s := intern b (fst ei) in
      _ <- put_rsym i s ; ret (VSym s))
    else if tag =? 117 then fun _ => NotModelled
    else
      v <- rd ;
      n <- read_fixnum ;
      _ <- times (to_usize n) tt (any_ivar v) ;
      ret v).

(** 330-423 [read_value_inner]. *)
Definition read_step : R val :=
  tag <- read_byte ;
  if tag =? 48 then ret VNil
  else if tag =? 84 then ret (VBool true)
  else if tag =? 70 then ret (VBool false)
  else if tag =? 105 then n <- read_fixnum ; ret (VFix n)
  else if tag =? 108 then read_bignum
  else if tag =? 102 then read_float
  else if tag =? 58 then s <- read_new_symbol ; ret (VSym s)
  else if tag =? 59 then s <- read_sym_ref ; ret (VSym s)
  else if tag =? 34 then read_raw_string
  else if tag =? 73 then read_ivar_wrapped
  else if tag =? 91 then read_array
  else if tag =? 123 then read_hash false
  else if tag =? 125 then read_hash true
  else if tag =? 64 then
    n <- read_fixnum ;
    (fun s => if to_usize n <? Z.of_nat (length (robjs s)) then
                match nth_error (robjs s) (Z.to_nat (to_usize n)) with Some v => Ok (v, s) | None => Raise end
              else Raise)
  else if tag =? 111 then read_user_object
  else if tag =? 67 then read_user_class
  else if tag =? 47 then read_regexp
  else if existsb (Z.eqb tag) [117; 85; 100; 101; 83; 99; 109; 77] then fun _ => NotModelled
  else fun _ => Raise.
End Step.

Fixpoint read_value (fuel : nat) : R val :=
  match fuel with O => fun _ => Fuel | S n => read_step (read_value n) end.

(** 103-138 [Marshal.load(source)]: the value and the heap it lives in. *)
Definition load (data : list Z) : res (val * heap) :=
  match data with
  | b0 :: b1 :: d =>
      if (b0 =? 4) && (b1 =? 8) then
        match read_value (S (length d)) (mkr 0 d [] [] []) with
        | Ok (v, s) => Ok (v, rheap s)
        | Raise => Raise | Panic => Panic | NotModelled => NotModelled | Fuel => Fuel
        end
      else Raise
  | _ => Raise
  end.
End Marshal.
