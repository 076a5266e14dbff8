(** JSON: the native parser and generator (monoruby/src/builtins/json.rs) and the
    Ruby generator behind pretty_generate, dump, fast_generate and to_json
    (monoruby/stdlib/json/ext/generator.rb, monoruby/stdlib/json.rb).

    Texts are lists of bytes.  The cursor [pos] is the list of bytes that are left.
    Error messages are not modelled: every failure of the native parser is a
    RuntimeError (json.rs:15).  The stack is unbounded.  Oracles: [dtoa], the dtoa
    crate's formatter; [rd], [str::parse::<f64>]; [fto_s], Float#to_s; [recode],
    String#encode to UTF-8 from another encoding.  A Float is its 64 bits. *)
From Coq Require Import ZArith List Bool.
From Verif Require Import IstrModel Utf8Model.
From Verif Require ValueModel MarshalModel Utf8Spec.
Import ListNotations.
Open Scope Z_scope.

(** ** Values *)

(** What a JSON text says, and what the parser builds. *)
Inductive jv : Type :=
| JNull | JTrue | JFalse
| JInt (z : Z)
| JFlo (b : Z)
| JStr (b : list Z)
| JArr (l : list jv)
| JObj (l : list (list Z * jv)).

(** What the generators are given.  [RStr e b]: a String of the bytes [b] in encoding
    [e], 0 for UTF-8.  [ROther t]: a value of any other class; [t] is its to_s (one
    text for the Rust-level and the Ruby-level to_s; true of a Symbol). *)
Inductive rv : Type :=
| RNil | RTrue | RFalse
| RInt (z : Z)
| RFlo (b : Z)
| RStr (e : Z) (b : list Z)
| RArr (l : list rv)
| RHash (l : list (rv * rv))
| ROther (t : list Z).

Definition is_i63 (z : Z) : bool := (- 2 ^ 62 <=? z) && (z <? 2 ^ 62).
Definition is_i64 (z : Z) : bool := (- 2 ^ 63 <=? z) && (z <? 2 ^ 63).

(** Decimal text of an Integer ([i64::to_string], Integer#to_s). *)
Definition dec_text (z : Z) : list Z :=
  if z <? 0 then 45 :: fmt_base (- z) 10 else fmt_base z 10.

Definition t_null := [110; 117; 108; 108].
Definition t_true := [116; 114; 117; 101].
Definition t_false := [102; 97; 108; 115; 101].
Definition t_nan := [78; 97; 78].
Definition t_inf := [73; 110; 102; 105; 110; 105; 116; 121].

(** ** The native parser *)

(** [Some value] with the cursor behind it; [None]; the fuel ran out (never, JsonProofs). *)
Inductive pres (A : Type) : Type := POk (a : A) (rest : list Z) | PErr | PFuel.
Arguments POk {A}. Arguments PErr {A}. Arguments PFuel {A}.

Definition is_space (c : Z) : bool := (c =? 32) || (c =? 9) || (c =? 10) || (c =? 13).
(** 69-76. *)
Fixpoint skip_ws (s : list Z) : list Z :=
  match s with c :: r => if is_space c then skip_ws r else s | [] => [] end.

(** One digit of [u32::from_str_radix(_, 16)]. *)
Definition hexd (c : Z) : option Z :=
  if (48 <=? c) && (c <=? 57) then Some (c - 48)
  else if (97 <=? c) && (c <=? 102) then Some (c - 87)
  else if (65 <=? c) && (c <=? 70) then Some (c - 55) else None.
Fixpoint hexs (l : list Z) (a : Z) : option Z :=
  match l with [] => Some a | c :: r => match hexd c with Some d => hexs r (16 * a + d) | None => None end end.
(** 196-204 [parse_unicode_escape]: four bytes given to [u32::from_str_radix], which
    skips a leading plus sign.  (Bytes of 128 and more are no digits, so the
    [from_utf8] in between changes nothing.) *)
Definition hex4 (s : list Z) : option (Z * list Z) :=
  match s with
  | a :: b :: c :: d :: r =>
      option_map (fun v => (v, r)) (if a =? 43 then hexs [b; c; d] 0 else hexs [a; b; c; d] 0)
  | _ => None
  end.

Definition fffd := [239; 191; 189].
(** [char::from_u32]; [String::push] appends its UTF-8. *)
Definition push_char (c : Z) : option (list Z) :=
  if ((0 <=? c) && (c <? 55296)) || ((57344 <=? c) && (c <=? 1114111)) then Some (Utf8Spec.enc_utf8 c) else None.

(** 145-168: what a backslash-u at [s] (behind the u) pushes. *)
Definition unescape_u (s : list Z) : option (list Z * list Z) :=
  match hex4 s with
  | None => None
  | Some (cp, r) =>
      if (55296 <=? cp) && (cp <=? 56319) then
        match r with
        | 92 :: 117 :: r1 =>
            match hex4 r1 with
            | None => None
            | Some (low, r2) =>
                if (56320 <=? low) && (low <=? 57343) then
                  option_map (fun p => (p, r2)) (push_char (65536 + Z.shiftl (cp - 55296) 10 + (low - 56320)))
                else Some (fffd, r2)
            end
        | _ => Some (fffd, r)
        end
      else option_map (fun p => (p, r)) (push_char cp)
  end.

(** 133-174: what the escape with the letter [e] pushes; [s] is behind [e].  An
    unknown escape pushes a backslash and [e as char], the code point [e]. *)
Definition unescape (e : Z) (s : list Z) : option (list Z * list Z) :=
  if e =? 34 then Some ([34], s)
  else if e =? 92 then Some ([92], s)
  else if e =? 47 then Some ([47], s)
  else if e =? 98 then Some ([8], s)
  else if e =? 102 then Some ([12], s)
  else if e =? 110 then Some ([10], s)
  else if e =? 114 then Some ([13], s)
  else if e =? 116 then Some ([9], s)
  else if e =? 117 then unescape_u s
  else Some (92 :: Utf8Spec.enc_utf8 e, s).

(** 121-194 [parse_string_raw] behind the opening quote.  [from_utf8(remaining)] and
    [valid_up_to] only matter for the first character of what remains. *)
Fixpoint pstr (fuel : nat) (s acc : list Z) : pres (list Z) :=
  match fuel with
  | O => PFuel
  | S f =>
      match s with
      | [] => PErr
      | c :: r =>
          if c =? 34 then POk acc r
          else if c =? 92 then
            match r with
            | [] => PErr
            | e :: r1 => match unescape e r1 with
                         | Some (p, r2) => pstr f r2 (acc ++ p)
                         | None => PErr
                         end
            end
          else if 128 <=? c then
            match utf8_step s with
            | (true, n) => pstr f (skipn n s) (acc ++ firstn n s)
            | (false, _) => pstr f r (acc ++ fffd)
            end
          else pstr f r (acc ++ [c])
      end
  end.
Definition pstring (s : list Z) : pres (list Z) := pstr (S (length s)) s [].

Definition isdig (c : Z) : bool := (48 <=? c) && (c <=? 57).
Fixpoint span (p : Z -> bool) (s : list Z) : list Z * list Z :=
  match s with
  | c :: r => if p c then (c :: fst (span p r), snd (span p r)) else ([], s)
  | [] => ([], [])
  end.
(** The Integer a digit string writes. *)
Definition dnum (l : list Z) : Z := be_value 10 (map (fun c => c - 48) l).

Section Native.
Variable rd : list Z -> option Z.

(** 212-226, the integer part; then 228-239, the fraction; then 241-254, the
    exponent.  Each gives the bytes it passed. *)
Definition p_int (s : list Z) : option (list Z * list Z) :=
  match s with
  | [] => None
  | c :: r => if c =? 48 then Some ([48], r)
              else if (49 <=? c) && (c <=? 57) then Some (c :: fst (span isdig r), snd (span isdig r))
              else None
  end.
Definition p_frac (s : list Z) : option (list Z * list Z) :=
  match s with
  | c :: r => if c =? 46 then
                match span isdig r with ([], _) => None | (d, r1) => Some (46 :: d, r1) end
              else Some ([], s)
  | [] => Some ([], s)
  end.
Definition p_exp (s : list Z) : option (list Z * list Z) :=
  match s with
  | c :: r =>
      if (c =? 101) || (c =? 69) then
        let '(sg, r1) := match r with g :: r0 => if (g =? 43) || (g =? 45) then ([g], r0) else ([], r) | [] => ([], r) end in
        match span isdig r1 with ([], _) => None | (d, r2) => Some (c :: sg ++ d, r2) end
      else Some ([], s)
  | [] => Some ([], s)
  end.

(** 206-270 [parse_number]: an Integer in the range of i64, else a Float. *)
Definition pnum (s : list Z) : pres jv :=
  let '(sg, s0) := match s with c :: r => if c =? 45 then ([45], r) else ([], s) | [] => ([], s) end in
  match p_int s0 with
  | None => PErr
  | Some (i, s1) =>
      match p_frac s1 with
      | None => PErr
      | Some (fr, s2) =>
          match p_exp s2 with
          | None => PErr
          | Some (ex, s3) =>
              let float := match rd (sg ++ i ++ fr ++ ex) with Some b => POk (JFlo b) s3 | None => PErr end in
              match fr ++ ex with
              | [] => let z := match sg with [] => dnum i | _ => - dnum i end in
                      if is_i64 z then POk (JInt z) s3 else float
              | _ => float
              end
          end
      end
  end.

(** [src[pos..].starts_with(expected)] (332-341), with what is behind it. *)
Fixpoint strip (p s : list Z) : option (list Z) :=
  match p, s with
  | [], _ => Some s
  | x :: p', y :: s' => if x =? y then strip p' s' else None
  | _, _ => None
  end.
Definition plit (t : list Z) (v : jv) (s : list Z) : pres jv :=
  match strip t s with Some r => POk v r | None => PErr end.

(** [RubyMap::insert]: Strings of the same bytes are the same key. *)
Definition beq (a b : list Z) : bool := if list_eq_dec Z.eq_dec a b then true else false.
Fixpoint hput (k : list Z) (v : jv) (l : list (list Z * jv)) : list (list Z * jv) :=
  match l with
  | [] => [(k, v)]
  | (k', v') :: r => if beq k k' then (k', v) :: r else (k', v') :: hput k v r
  end.

(** 94-114 [parse_value]; 305-330 the loop of [parse_array]; 272-303 that of [parse_object]. *)
Fixpoint pval (fuel : nat) (s : list Z) : pres jv :=
  match fuel with
  | O => PFuel
  | S f =>
      match skip_ws s with
      | [] => PErr
      | c :: r =>
          if c =? 34 then
            match pstring r with POk b r1 => POk (JStr b) r1 | PErr => PErr | PFuel => PFuel end
          else if c =? 123 then
            match skip_ws r with
            | 125 :: r1 => POk (JObj []) r1
            | r1 => pobj f r1 []
            end
          else if c =? 91 then
            match skip_ws r with
            | 93 :: r1 => POk (JArr []) r1
            | r1 => parr f r1 []
            end
          else if c =? 116 then plit t_true JTrue (c :: r)
          else if c =? 102 then plit t_false JFalse (c :: r)
          else if c =? 110 then plit t_null JNull (c :: r)
          else if (c =? 45) || isdig c then pnum (c :: r)
          else PErr
      end
  end
with parr (fuel : nat) (s : list Z) (acc : list jv) : pres jv :=
  match fuel with
  | O => PFuel
  | S f =>
      match pval f s with
      | POk v r =>
          match skip_ws r with
          | 44 :: r1 => parr f r1 (acc ++ [v])
          | 93 :: r1 => POk (JArr (acc ++ [v])) r1
          | _ => PErr
          end
      | PErr => PErr
      | PFuel => PFuel
      end
  end
with pobj (fuel : nat) (s : list Z) (acc : list (list Z * jv)) : pres jv :=
  match fuel with
  | O => PFuel
  | S f =>
      match skip_ws s with
      | 34 :: r =>
          match pstring r with
          | POk k r1 =>
              match skip_ws r1 with
              | 58 :: r2 =>
                  match pval f r2 with
                  | POk v r3 =>
                      match skip_ws r3 with
                      | 44 :: r4 => pobj f r4 (hput k v acc)
                      | 125 :: r4 => POk (JObj (hput k v acc)) r4
                      | _ => PErr
                      end
                  | PErr => PErr
                  | PFuel => PFuel
                  end
              | _ => PErr
              end
          | PErr => PErr
          | PFuel => PFuel
          end
      | _ => PErr
      end
  end.

(** 10-16 [String.__json_parse], what JSON.parse(source) is (json.rb:66-74): what is
    behind the value is not looked at. *)
Definition json_parse (src : list Z) : pres jv := pval (2 * length src + 1) src.
End Native.

(** ** The native generator *)

(** [format!("{:04x}")] of a code point below 65536. *)
Definition hex_char (d : Z) : Z := if d <? 10 then 48 + d else 87 + d.
Definition hex4_text (c : Z) : list Z :=
  [hex_char (Z.shiftr c 12 mod 16); hex_char (Z.shiftr c 8 mod 16); hex_char (Z.shiftr c 4 mod 16); hex_char (c mod 16)].
(** 593-605.  The loop is over characters; one of 128 and more is copied, and so are its bytes. *)
Definition esc_native (c : Z) : list Z :=
  if c =? 34 then [92; 34]
  else if c =? 92 then [92; 92]
  else if c =? 10 then [92; 110]
  else if c =? 13 then [92; 114]
  else if c =? 9 then [92; 116]
  else if c =? 8 then [92; 98]
  else if c =? 12 then [92; 102]
  else if c <? 32 then [92; 117] ++ hex4_text c
  else [c].
(** 590-608 [generate_string]. *)
Definition gen_string (b : list Z) : list Z := [34] ++ concat (map esc_native b) ++ [34].

(** [buf.push(',')] before every entry but the first. *)
Fixpoint join (sep : list Z) (l : list (list Z)) : list Z :=
  match l with
  | [] => []
  | [x] => x
  | x :: r => x ++ sep ++ join sep r
  end.

Section Generate.
Variable dtoa : Z -> list Z.

(** value.rs:1598-1604, 1586-1596 [Value::to_s], of what can be a key.  For an Array
    or Hash key its inspect text: not modelled, the empty text. *)
Definition rust_to_s (v : rv) : list Z :=
  match v with
  | RNil => []
  | RTrue => t_true
  | RFalse => t_false
  | RInt z => dec_text z
  | RFlo b => dtoa b
  | RStr _ b => utf8_lossy b
  | RArr _ | RHash _ => []
  | ROther t => t
  end.

(** 347-399 [generate].  [is_str] (value.rs:2946) looks at the bytes only. *)
Fixpoint gen (v : rv) : list Z :=
  match v with
  | RNil => t_null
  | RTrue => t_true
  | RFalse => t_false
  | RInt z => if is_i63 z then dec_text z else gen_string (rust_to_s v)
  | RFlo b => if MarshalModel.f_nan b then t_nan
              else if MarshalModel.f_inf b then
                (if ValueModel.f64_sign_negative b then 45 :: t_inf else t_inf)
              else dtoa b
  | RStr _ b => if utf8_ok b then gen_string b else gen_string (rust_to_s v)
  | RArr l => [91] ++ join [44] (map gen l) ++ [93]
  | RHash l => [123] ++ join [44] (map (fun p => gen_string (rust_to_s (fst p)) ++ [58] ++ gen (snd p)) l) ++ [125]
  | ROther t => gen_string t
  end.
End Generate.

(** ** The Ruby generator *)

(** JSON::Generator::State (generator.rb:91-283). *)
Record state := {
  s_indent : list Z; s_space : list Z; s_space_before : list Z;
  s_object_nl : list Z; s_array_nl : list Z;
  s_allow_nan : bool; s_ascii_only : bool; s_script_safe : bool; s_strict : bool;
  s_max_nesting : Z }.
(** 141-157 [State.new]; json.rb:45-59. *)
Definition default_state : state :=
  {| s_indent := []; s_space := []; s_space_before := []; s_object_nl := []; s_array_nl := [];
     s_allow_nan := false; s_ascii_only := false; s_script_safe := false; s_strict := false; s_max_nesting := 100 |}.
Definition fast_state : state :=
  {| s_indent := []; s_space := []; s_space_before := []; s_object_nl := []; s_array_nl := [];
     s_allow_nan := false; s_ascii_only := false; s_script_safe := false; s_strict := false; s_max_nesting := 0 |}.
Definition pretty_state : state :=
  {| s_indent := [32; 32]; s_space := [32]; s_space_before := []; s_object_nl := [10]; s_array_nl := [10];
     s_allow_nan := false; s_ascii_only := false; s_script_safe := false; s_strict := false; s_max_nesting := 0 |}.

Inductive gerr := NestingError | GeneratorError | EncodingError | NoMethodError.
Inductive gres := GOk (t : list Z) | GErr (e : gerr).

(** [MAP] (3-38). *)
Definition esc_map (c : Z) : list Z :=
  if c =? 8 then [92; 98]
  else if c =? 9 then [92; 116]
  else if c =? 10 then [92; 110]
  else if c =? 12 then [92; 102]
  else if c =? 13 then [92; 114]
  else if c <? 32 then [92; 117; 48; 48] ++ [hex_char (c / 16); hex_char (c mod 16)]
  else if c =? 34 then [92; 34]
  else if c =? 92 then [92; 92]
  else [c].
(** [SCRIPT_SAFE_MAP] (42-46): a slash too. *)
Definition esc_byte (safe : bool) (c : Z) : list Z :=
  if safe && (c =? 47) then [92; 47] else esc_map c.

(** 52-61 [utf8_to_json]: [gsub!] on the bytes.  U+2028 and U+2029 are the three
    bytes 226, 128, 168 and 169. *)
Fixpoint utf8_to_json (safe : bool) (b : list Z) : list Z :=
  match b with
  | [] => []
  | c :: r =>
      match r with
      | 128 :: x :: r2 =>
          if safe && (c =? 226) && ((x =? 168) || (x =? 169)) then
            [92; 117; 50; 48; 50; if x =? 168 then 56 else 57] ++ utf8_to_json safe r2
          else esc_byte safe c ++ utf8_to_json safe r
      | _ => esc_byte safe c ++ utf8_to_json safe r
      end
  end.

(** The UTF-16BE code units of a code point in hexadecimal, each behind a backslash
    and u (75-78: [encode], [unpack('H*')] and a [gsub!]). *)
Definition utf16_text (c : Z) : list Z :=
  if c <? 65536 then [92; 117] ++ hex4_text c
  else [92; 117] ++ hex4_text (55296 + (c - 65536) / 1024) ++ [92; 117] ++ hex4_text (56320 + (c - 65536) mod 1024).
(** The code point of one UTF-8 character. *)
Definition code_point (b : list Z) : Z :=
  match b with
  | [a] => a
  | [a; x] => (a - 192) * 64 + (x - 128)
  | [a; x; y] => (a - 224) * 4096 + (x - 128) * 64 + (y - 128)
  | [a; x; y; z] => (a - 240) * 262144 + (x - 128) * 4096 + (y - 128) * 64 + (z - 128)
  | _ => 0
  end.
(** 63-86 [utf8_to_json_ascii], of valid UTF-8: the runs of multibyte characters the
    second [gsub!] finds are taken character by character. *)
Fixpoint utf8_to_json_ascii (fuel : nat) (safe : bool) (b : list Z) : list Z :=
  match fuel with
  | O => []
  | S f =>
      match b with
      | [] => []
      | c :: r =>
          if c <? 128 then esc_byte safe c ++ utf8_to_json_ascii f safe r
          else match utf8_step b with
               | (true, n) => utf16_text (code_point (firstn n b)) ++ utf8_to_json_ascii f safe (skipn n b)
               | (false, _) => []
               end
      end
  end.

Section Ruby.
Variables (fto_s : Z -> list Z) (recode : Z -> list Z -> option (list Z)).

(** 489-505 [String#to_json]. *)
Definition str_to_json (st : state) (e : Z) (b : list Z) : gres :=
  let quote t := GOk ([34] ++ t ++ [34]) in
  let text t := if s_ascii_only st then quote (utf8_to_json_ascii (length t) (s_script_safe st) t)
                else quote (utf8_to_json (s_script_safe st) t) in
  if e =? 0 then (if utf8_ok b then text b else GErr GeneratorError)
  else match recode e b with Some t => text t | None => GErr EncodingError end.

(** Ruby's to_s of what can be a key, with its encoding. *)
Definition key_to_s (v : rv) : Z * list Z :=
  match v with
  | RNil => (0, [])
  | RTrue => (0, t_true)
  | RFalse => (0, t_false)
  | RInt z => (0, dec_text z)
  | RFlo b => (0, fto_s b)
  | RStr e b => (e, b)
  | RArr _ | RHash _ => (0, [])
  | ROther t => (0, t)
  end.

(** 460-480 [Float#to_json]. *)
Definition flo_to_json (st : state) (b : Z) : gres :=
  if MarshalModel.f_inf b || MarshalModel.f_nan b then
    (if s_allow_nan st then GOk (fto_s b) else GErr GeneratorError)
  else GOk (fto_s b).

Fixpoint times (n : nat) (s : list Z) : list Z := match n with O => [] | S n => s ++ times n s end.

(** Results one after another; the first exception stops. *)
Fixpoint each (l : list gres) : list (list Z) + gerr :=
  match l with
  | [] => inl []
  | GErr e :: _ => inr e
  | GOk t :: r => match each r with inl ts => inl (t :: ts) | inr e => inr e end
  end.
Definition then_ (a : gres) (k : list Z -> gres) : gres := match a with GOk t => k t | GErr e => GErr e end.

(** A value inside an Array or Hash that is of none of the JSON classes: no to_json
    (json.rb:168-209 gives it to those classes only), so [String(value)] between quotes. *)
Definition other_inside (st : state) (t : list Z) : gres :=
  if s_strict st then GErr GeneratorError else GOk ([34] ++ t ++ [34]).

(** 325-455 and json.rb:168-209: to_json(state) with [d] = state.depth.  [top] says
    whether it is called on the object itself, where a class without to_json fails. *)
Fixpoint to_json (st : state) (top : bool) (d : nat) (v : rv) : gres :=
  match v with
  | RNil => GOk t_null
  | RTrue => GOk t_true
  | RFalse => GOk t_false
  | RInt z => GOk (dec_text z)
  | RFlo b => flo_to_json st b
  | RStr e b => str_to_json st e b
  | ROther t => if top then GErr NoMethodError else other_inside st t
  | RArr l =>
      if negb (s_max_nesting st =? 0) && (s_max_nesting st <? Z.of_nat d + 1) then GErr NestingError
      else match l with
           | [] => GOk [91; 93]
           | _ =>
               let ind k := match s_array_nl st with [] => [] | _ => times k (s_indent st) end in
               match each (map (fun x => then_ (to_json st false (S d) x) (fun t => GOk (ind (S d) ++ t))) l) with
               | inr e => GErr e
               | inl ts => GOk ([91] ++ s_array_nl st ++ join ([44] ++ s_array_nl st) ts ++ s_array_nl st ++ ind d ++ [93])
               end
           end
  | RHash l =>
      if negb (s_max_nesting st =? 0) && (s_max_nesting st <? Z.of_nat d + 1) then GErr NestingError
      else match l with
           | [] => GOk [123; 125]
           | _ =>
               let ind k := match s_object_nl st with [] => [] | _ => times k (s_indent st) end in
               let one p :=
                 let '(e, k) := key_to_s (fst p) in
                 then_ (str_to_json st e k) (fun kt =>
                 then_ (to_json st false (S d) (snd p)) (fun vt =>
                 GOk (ind (S d) ++ kt ++ s_space_before st ++ [58] ++ s_space st ++ vt))) in
               match each (map one l) with
               | inr e => GErr e
               | inl ts => GOk ([123] ++ s_object_nl st ++ join ([44] ++ s_object_nl st) ts ++ s_object_nl st ++ ind d ++ [125])
               end
           end
  end.

(** 313-327 [fast_serialize_string]. *)
Definition fast_string (e : Z) (b : list Z) : gres :=
  let text t := GOk ([34] ++ concat (map esc_map t) ++ [34]) in
  if e =? 0 then (if utf8_ok b then text b else GErr GeneratorError)
  else match recode e b with
       | Some t => if utf8_ok t then text t else GErr GeneratorError
       | None => GErr EncodingError
       end.
(** 281-311 [generate_json]. *)
Fixpoint generate_json (st : state) (v : rv) : gres :=
  match v with
  | RHash l =>
      match each (map (fun p =>
          let '(e, k) := key_to_s (fst p) in
          then_ (fast_string e k) (fun kt => then_ (generate_json st (snd p)) (fun vt => GOk (kt ++ [58] ++ vt)))) l) with
      | inr e => GErr e
      | inl ts => GOk ([123] ++ join [44] ts ++ [125])
      end
  | RArr l =>
      match each (map (generate_json st) l) with
      | inr e => GErr e
      | inl ts => GOk ([91] ++ join [44] ts ++ [93])
      end
  | RStr e b => fast_string e b
  | RInt z => GOk (dec_text z)
  | RNil => GOk t_null
  | RTrue => GOk t_true
  | RFalse => GOk t_false
  | RFlo b => flo_to_json st b
  | ROther _ => GErr NoMethodError
  end.

(** 266-277 [State#generate], with state.depth 0. *)
Definition is_nil (l : list Z) : bool := match l with [] => true | _ => false end.
Definition state_generate (st : state) (v : rv) : gres :=
  let r := if is_nil (s_indent st) && is_nil (s_space st) && is_nil (s_space_before st) && is_nil (s_object_nl st)
              && is_nil (s_array_nl st) && negb (s_ascii_only st) && negb (s_script_safe st)
              && (s_max_nesting st =? 0) && negb (s_strict st)
           then generate_json st v else to_json st true 0 v in
  match r with GOk t => if utf8_ok t then GOk t else GErr GeneratorError | GErr e => GErr e end.

(** json.rb:90-95 JSON.generate without options, 97-101 fast_generate, 106-110
    pretty_generate, 115-127 dump (its options are {}, so the defaults). *)
Definition pretty_generate := state_generate pretty_state.
Definition fast_generate := state_generate fast_state.
Definition json_dump := state_generate default_state.
End Ruby.
