(** The identifier table (symbols): monoruby/src/id_table.rs, and the four places
    of the interpreter that turn a String or source text into a Symbol.

    Bytes are integers; a Rust [String] is its list of bytes (UTF-8 by the type's
    invariant, which the model does not need).  A [HashMap] is an association list
    with the newest entry in front.  Ids are [NonZeroU32]. *)
From Coq Require Import String Ascii ZArith List Bool.
From Verif Require Import Utf8Model.
Import ListNotations.
Open Scope Z_scope.

(** The bytes of an ASCII literal of the Rust source. *)
Definition bs (s : string) : list Z := map (fun a => Z.of_N (N_of_ascii a)) (list_ascii_of_string s).

(** value/rvalue/string.rs:166-219 [Encoding]. *)
Inductive encoding :=
| Ascii8 | Utf8 | UsAscii | Utf16Le | Utf16Be | Utf32Le | Utf32Be
| Iso8859 (n : Z) | EucJp | Sjis (n : Z) | Iso2022Jp | Other (n : Z) | NamedByte (n : Z).
Definition enc_dec (x y : encoding) : {x = y} + {x <> y}.
Proof. decide equality; apply Z.eq_dec. Defined.
(** string.rs:295-305 [is_ascii_compatible]. *)
Definition ascii_compatible (e : encoding) : bool :=
  match e with Utf16Le | Utf16Be | Utf32Le | Utf32Be | Iso2022Jp | Other _ => false | _ => true end.

Definition bytes_dec (x y : list Z) : {x = y} + {x <> y} := list_eq_dec Z.eq_dec x y.
Definition key_dec (x y : list Z * encoding) : {x = y} + {x <> y}.
Proof. decide equality; [apply enc_dec | apply bytes_dec]. Defined.

(** id_table.rs:14-18. *)
Inductive ident_name := NUtf8 (s : list Z) | NBytes (b : list Z).
(** [as_bytes], 30-35. *)
Definition name_bytes (n : ident_name) : list Z := match n with NUtf8 s => s | NBytes b => b end.
(** [Display], 64-71: what [format!("{}", name)] prints. *)
Definition name_display (n : ident_name) : list Z :=
  match n with NUtf8 s => s | NBytes b => utf8_lossy b end.

(** id_table.rs:440-457. *)
Record table := mk {
  rev : list (list Z * Z);
  revb : list ((list Z * encoding) * Z);
  names : list ident_name;
  encs : list (Z * encoding)
}.

Fixpoint lookup {K V} (dec : forall x y : K, {x = y} + {x <> y}) (k : K) (m : list (K * V)) : option V :=
  match m with [] => None | (k', v) :: m' => if dec k k' then Some v else lookup dec k m' end.

(** [table[id - 1]]; [None] is the index panic. *)
Definition name_of (t : table) (id : Z) : option ident_name :=
  if 1 <=? id then nth_error (names t) (Z.to_nat (id - 1)) else None.

(** [IdentId::from(self.table.len() as u32 + 1)]: the cast truncates, the addition
    overflows (a panic in debug builds; 0 in release builds, on which
    [NonZeroU32::new(0).unwrap()] panics). *)
Definition fresh (t : table) : option Z :=
  let n := Z.of_nat (length (names t)) mod 2 ^ 32 + 1 in if n =? 2 ^ 32 then None else Some n.

Fixpoint set_nth {A} (l : list A) (i : nat) (x : A) : list A :=
  match l, i with
  | [], _ => []
  | _ :: r, O => x :: r
  | y :: r, S j => y :: set_nth r j x
  end.

(** id_table.rs:556-559 [set_id]. *)
Definition set_id (t : table) (s : list Z) (id : Z) : table :=
  mk ((s, id) :: rev t) (revb t) (set_nth (names t) (Z.to_nat (id - 1)) (NUtf8 s)) (encs t).

(** id_table.rs:467-549: the reserved names with their constants (183-262). *)
Definition presets : list (string * Z) := [
  ("initialize", 1); ("Object", 2); ("new", 3); ("name", 4); ("+", 5); ("-", 6); ("*", 7); ("/", 8); ("%", 9);
   ("**", 10); ("<<", 11); (">>", 12); ("|", 13); ("&", 14); ("^", 15); ("~", 16); ("-@", 17); ("+@", 18);
   ("==", 19); ("!=", 20); (">", 21); (">=", 22); ("<", 23); ("<=", 24); ("<=>", 25); ("===", 26); ("=~", 27);
   ("[]", 28); ("[]=", 29); ("...", 30); ("to_s", 31); ("to_proc", 32); ("method_missing", 33); ("each", 34);
   ("map", 35); ("/alias_method", 36); ("/enum", 37); ("/name", 38); ("/main", 39); ("float_second", 40);
   ("second", 41); ("float_millisecond", 42); ("millisecond", 43); ("float_microsecond", 44); ("microsecond",
   45); ("nanosecond", 46); ("Encoding", 47); ("UTF_8", 48); ("ASCII_8BIT", 49); ("/encoding", 50); ("to_ary",
   51); ("to_a", 52); ("allocate", 53); ("method_added", 54); ("hash", 55); ("eql?", 56); ("to_str", 57);
   ("to_path", 58); ("singleton_method_added", 59); ("method_removed", 60); ("method_undefined", 61);
   ("const_added", 62); ("inherited", 63); ("append_features", 64); ("extend_object", 65); ("extended", 66);
   ("included", 67); ("prepended", 68); ("!~", 69); ("!", 70); ("inspect", 71); ("singleton_method_removed",
   72); ("singleton_method_undefined", 73); ("to_int", 74); ("to_f", 75); ("initialize_copy", 76);
   ("initialize_clone", 77); ("initialize_dup", 78); ("respond_to_missing?", 79) ]%string.
(** id_table.rs:289-306 [SPECIAL_  ("$?", 80); ("$<", 81); ("$FILENAME", 82); ("$/", 83); ("$-0", 84); ("$\", 85); ("$,", 86); ("$;", 87);
   ("$.", 88); ("$stdout", 89); ("$stderr", 90); ("$VERBOSE", 91); ("$-v", 92); ("$-w", 93); ("$0", 94);
   ("$PROGRAM_NAME", 95)]. *)
Definition special_gvars : list (string * Z) := [
  ("$?", 80); ("$<", 81); ("$FILENAME", 82); ("$/", 83); ("$-0", 84); ("$\", 85); ("$,", 86); ("$;", 87);
   ("$.", 88); ("$stdout", 89); ("$stderr", 90); ("$VERBOSE", 91); ("$-v", 92); ("$-w", 93); ("$0", 94);
   ("$PROGRAM_NAME", 95) ]%string.
(** 309-312 [is_special_gvar]. *)
Definition is_special_gvar (id : Z) : bool := (80 <=? id) && (id <=? 95).

(** id_table.rs:460-554 [IdentifierTable::new]: 100 slots filled with "" and then
    overwritten by the reserved names. *)
Definition new : table :=
  fold_left (fun t p => set_id t (bs (fst p)) (snd p)) (presets ++ special_gvars)
    (mk [] [] (repeat (NUtf8 []) 100) []).

(** Results: [None] is a panic (the write lock is then poisoned, so no later
    request is served). *)
(** id_table.rs:561-571 [get_id], 573-583 [get_id_from_string] (the same code on an
    owned string). *)
Definition get_id (t : table) (s : list Z) : option (table * Z) :=
  match lookup bytes_dec s (rev t) with
  | Some id => Some (t, id)
  | None =>
      match fresh t with
      | None => None
      | Some id => Some (mk ((s, id) :: rev t) (revb t) (names t ++ [NUtf8 s]) (encs t), id)
      end
  end.

(** id_table.rs:585-598 [get_id_from_bytes]. *)
Definition get_id_from_bytes (t : table) (b : list Z) (e : encoding) : option (table * Z) :=
  match lookup key_dec (b, e) (revb t) with
  | Some id => Some (t, id)
  | None =>
      match fresh t with
      | None => None
      | Some id => Some (mk (rev t) (((b, e), id) :: revb t) (names t ++ [NBytes b]) ((id, e) :: encs t), id)
      end
  end.

(** id_table.rs:609-612 [add_ivar_prefix], 619-622 [add_assign_postfix]. *)
Definition add_ivar_prefix (t : table) (id : Z) : option (table * Z) :=
  match name_of t id with None => None | Some n => get_id t (bs "@" ++ name_display n) end.
Definition add_assign_postfix (t : table) (id : Z) : option (table * Z) :=
  match name_of t id with None => None | Some n => get_id t (name_display n ++ bs "=") end.

(** The requests a running program makes, in any order. *)
Inductive request :=
| RStr (s : list Z) | RBytes (b : list Z) (e : encoding) | RIvar (id : Z) | RAssign (id : Z).
Definition serve (t : table) (r : request) : option (table * Z) :=
  match r with
  | RStr s => get_id t s
  | RBytes b e => get_id_from_bytes t b e
  | RIvar id => add_ivar_prefix t id
  | RAssign id => add_assign_postfix t id
  end.
Fixpoint run (t : table) (rs : list request) : option table :=
  match rs with
  | [] => Some t
  | r :: rs' => match serve t r with None => None | Some (t', _) => run t' rs' end
  end.

(** The public [IdentId::get_id] (id_table.rs:349-359): a lookup under the shared
    lock in the table [t1]; on a miss the exclusive lock is taken later, in the
    table [t2] that other threads may have extended meanwhile. *)
Definition get_id_locked (t1 t2 : table) (s : list Z) : option (table * Z) :=
  match lookup bytes_dec s (rev t1) with
  | Some id => Some (t2, id)
  | None => get_id t2 s
  end.

(** [bytes.is_ascii()]. *)
Definition is_ascii (b : list Z) : bool := forallb (fun x => x <? 128) b.

(** builtins/string.rs:5582-5608 [String#to_sym]; value.rs:1783-1799 re-interns a
    chilled string with the same code. *)
Definition to_sym (t : table) (b : list Z) (src : encoding) : option (table * Z) :=
  let canon := if is_ascii b && ascii_compatible src then UsAscii else src in
  match canon with
  | UsAscii | Utf8 => if utf8_ok b then get_id t b else get_id_from_bytes t b Ascii8
  | _ => get_id_from_bytes t b canon
  end.

(** value.rs:947-952 [symbol_from_source_str]: a symbol literal. *)
Definition symbol_literal (t : table) (s : list Z) (src : encoding) : option (table * Z) :=
  if is_ascii s || match src with Utf8 | UsAscii => true | _ => false end
  then get_id t s else get_id_from_bytes t s src.

(** value.rs:2357-2373 [try_symbol_or_string] on a String: the identifier named by
    a String argument ([define_method], [send], [instance_variable_get], …).
    [is_str] (2946-2957, string.rs:1644-1664) succeeds on valid UTF-8 whatever the
    declared encoding. *)
Definition named_by_string (t : table) (b : list Z) (e : encoding) : option (table * Z) :=
  if utf8_ok b then get_id t b else get_id_from_bytes t b e.

(** builtins/marshal.rs:1412-1419 [intern_symbol_bytes]. *)
Definition marshal_intern (t : table) (b : list Z) (e : encoding) : option (table * Z) :=
  match e with
  | Utf8 | UsAscii => if utf8_ok b then get_id t b else get_id_from_bytes t b e
  | _ => get_id_from_bytes t b e
  end.

(** builtins/symbol.rs:53-73 [Symbol#to_s] (also [Symbol#name], 88-108): the bytes
    and the encoding of the resulting String. *)
Definition sym_to_s (t : table) (id : Z) : option (list Z * encoding) :=
  match name_of t id with
  | None => None
  | Some n =>
      let dflt := match n with NUtf8 s => if is_ascii s then UsAscii else Utf8 | NBytes _ => Ascii8 end in
      Some (name_bytes n, match lookup Z.eq_dec id (encs t) with Some e => e | None => dflt end)
  end.

(** id_table.rs:432-437 [all_symbols]. *)
Definition all_symbols (t : table) : list Z := map Z.of_nat (seq 1 (length (names t))).
