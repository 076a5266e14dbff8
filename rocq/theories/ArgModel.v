(** Model of how the arguments of a call are put into the parameter slots of
    the callee's frame:

    - monoruby/src/codegen/runtime/args.rs (the interpreter, the helpers of
      compiled code, the invokers used by builtin methods);
    - monoruby/src/globals/store/iseq.rs:1219-1496 (ParamsInfo);
    - monoruby/src/globals/store/function.rs:1258-1500, 1552-1622 (FuncInfo,
      apply_args, forwarded_deferred_layout, is_simple_call);
    - monoruby/src/codegen/jitgen/compile/method_call.rs:2035-2178
      (set_arguments, the inline argument setup of compiled calls) and
      monoruby/src/codegen/jitgen/state/slot.rs:1795-1848 (what the compiler
      believes the slots hold);
    - monoruby/src/bytecodegen/method_call/arguments.rs:339-359 (keyword_arg)
      and monoruby/src/parser/prism_backend.rs:2956-3058 (the order in which
      keywords and double splats are kept).

    Simplifications:
    - a value is nil, an Array with its elements, a Hash with its entries and
      its ruby2_keywords flag, or some other object known by a number; object
      identity is not modelled (so [dup] is the identity up to the flag);
    - Hash keys are symbols or other objects compared by identity; a Hash is
      the list of its entries in insertion order (C09 proves the real one is);
    - [#to_ary] (with its [respond_to?] gate) is an arbitrary function given
      from outside; it may raise;
    - the operand of a double splat is nil or a Hash (coerce_hash_splat_args,
      args.rs:658-697, is assumed to have run without raising);
    - parameter slot numbers are [usize] in the code and [nat] here, without
      the 16 bit limit of SlotId; slot [i] here is SlotId [i+1];
    - the [**rest] slot comes right after the keyword slots and the [*rest]
      slot right after the optional ones (store.rs:1590-1690 lays them out so;
      new_native, iseq.rs:1325-1357, too);
    - error messages are not modelled, only their kind and what they list. *)

From Coq Require Import ZArith List Bool Lia.
Import ListNotations.

Definition name := Z.

Inductive key := KSym (n : name) | KObj (z : Z).

Definition key_eqb (a b : key) : bool :=
  match a, b with
  | KSym x, KSym y => Z.eqb x y
  | KObj x, KObj y => Z.eqb x y
  | _, _ => false
  end.

Inductive value :=
| VNil
| VObj (z : Z)
| VArr (l : list value)
| VHash (flag : bool) (h : list (key * value)).

Definition hash := list (key * value).

(** HashmapInner::get, insert, remove (value/rvalue/hash.rs), on the list of
    the entries. *)
Fixpoint hget (h : hash) (k : key) : option value :=
  match h with
  | [] => None
  | (k', v) :: h => if key_eqb k' k then Some v else hget h k
  end.

Fixpoint hput (h : hash) (k : key) (v : value) : hash :=
  match h with
  | [] => [(k, v)]
  | (k', v') :: h => if key_eqb k' k then (k', v) :: h else (k', v') :: hput h k v
  end.

Fixpoint hdel (h : hash) (k : key) : hash :=
  match h with
  | [] => []
  | (k', v') :: h => if key_eqb k' k then h else (k', v') :: hdel h k
  end.

Definition hput_all (h : hash) (l : hash) : hash :=
  fold_left (fun h e => hput h (fst e) (snd e)) l h.

(** ** Parameters: ParamsInfo and the flags of FuncInfo

    [p_rest] is [None] without a rest parameter, [Some false] for [*rest] and
    [Some true] for the trailing comma of [|a,|] (rest_is_implicit). A keyword
    carries whether it is required (kw_names and kw_required, iseq.rs:1241-1246;
    the real list may be shorter, a missing entry counts as optional). *)
Record params := {
  p_req : nat; p_opt : nat; p_rest : option bool; p_post : nat;
  p_kws : list (name * bool); p_kwrest : bool; p_forbid : bool;
  p_block : bool; p_r2k : bool }.

Definition is_rest (p : params) : bool :=
  match p_rest p with Some _ => true | None => false end.

Definition is_explicit_rest (p : params) : bool :=
  match p_rest p with Some false => true | _ => false end.

Definition reqopt (p : params) : nat := p_req p + p_opt p.
Definition min_args (p : params) : nat := p_req p + p_post p.
Definition max_args (p : params) : nat := p_req p + p_opt p + p_post p.
Definition total_pos (p : params) : nat := max_args p + (if is_rest p then 1 else 0).

(** kw_reg_pos (iseq.rs:1468-1471) and the slot of [**rest]. *)
Definition kw_base (p : params) : nat := total_pos p.
Definition kwrest_slot (p : params) : nat := total_pos p + length (p_kws p).

(** FuncInfo::no_keyword (function.rs:1300-1302). *)
Definition no_keyword (p : params) : bool :=
  match p_kws p with [] => negb (p_kwrest p) | _ => false end.

(** FuncInfo::single_arg_expand (function.rs:1451-1453). *)
Definition single_arg_expand (p : params) : bool := p_block p && (1 <? total_pos p)%nat.

(** ParamsInfo::is_simple (iseq.rs:1488-1495); block parameters are not
    modelled. *)
Definition is_simple (p : params) : bool :=
  (p_opt p =? 0)%nat && (p_post p =? 0)%nat && negb (is_rest p) && no_keyword p.

(** ** The callee's frame

    A slot holds whatever was on the stack before, or the null word (Rust's
    [None]: the prologue of the callee runs the default), or a value. *)
Inductive cell := Junk | Unset | Val (v : value).

Definition frame := list cell.

Inductive err :=
| EArity (given : nat)            (* wrong number of arguments *)
| ENoKw                           (* no keywords accepted *)
| EMissing (l : list name)        (* missing keywords *)
| EUnknown (l : list key)         (* unknown keywords *)
| EType.                          (* raised by #to_ary or by its result *)

(** [UB] is a read or write outside the frame or the argument area, or a
    subtraction of [usize] going below 0. *)
Inductive res (A : Type) := Ok (a : A) | Err (e : err) | UB.
Arguments Ok {A} a.
Arguments Err {A} e.
Arguments UB {A}.

Definition bind {A B} (r : res A) (k : A -> res B) : res B :=
  match r with Ok a => k a | Err e => Err e | UB => UB end.
Notation "'let!' x := r 'in' k" := (bind r (fun x => k)) (at level 200, x pattern).

Fixpoint set_at (f : frame) (i : nat) (c : cell) : option frame :=
  match f, i with
  | [], _ => None
  | _ :: f, O => Some (c :: f)
  | x :: f, S i => option_map (cons x) (set_at f i c)
  end.

Definition put (f : frame) (i : nat) (c : cell) : res frame :=
  match set_at f i c with Some f => Ok f | None => UB end.

(** Slots [s .. s+n-1], slot [i] with [g i]; [None] is a bad read. *)
Fixpoint put_range (f : frame) (s n : nat) (g : nat -> option cell) : res frame :=
  match n with
  | O => Ok f
  | S n =>
      match g s with
      | None => UB
      | Some c => let! f := put f s c in put_range f (S s) n g
      end
  end.

(** [fill] of fill_positional_args (args.rs:966-968). *)
Definition fill (f : frame) (s e : nat) (c : cell) : res frame :=
  if (e <? s)%nat then UB else put_range f s (e - s) (fun _ => Some c).

(** The argument area: [src z] is the word at offset [z] from the pointer. *)
Definition memory := Z -> option value.

Definition up (l : list value) : memory :=
  fun z => if (z <? 0)%Z then None else nth_error l (Z.to_nat z).
Definition down (l : list value) : memory :=
  fun z => if (0 <? z)%Z then None else nth_error l (Z.to_nat (- z)).

Definition read (src : memory) (upward : bool) (i : nat) : option value :=
  src (if upward then Z.of_nat i else - Z.of_nat i)%Z.

(** [memcpy] (args.rs:970-987): the arguments [s .. e-1] to the slots from
    [ofs]. *)
Definition memcpy (f : frame) (ofs : nat) (src : memory) (s e : nat) (upward : bool) : res frame :=
  put_range f ofs (e - s) (fun j => option_map Val (read src upward (s + (j - ofs)))).

Fixpoint read_seq (src : memory) (z : Z) (n : nat) : option (list value) :=
  match n with
  | O => Some []
  | S n => match src z, read_seq src (z + 1) n with
           | Some v, Some l => Some (v :: l)
           | _, _ => None
           end
  end.

(** The slice put into the rest Array (args.rs:1067-1083): read upwards, or
    read from the lowest address and reversed. *)
Definition read_rest (src : memory) (s e : nat) (upward : bool) : option (list value) :=
  if upward then read_seq src (Z.of_nat s) (e - s)
  else option_map (@rev value) (read_seq src (- Z.of_nat e + 1) (e - s)).

(** The four cases of fill_positional_args before the copying
    (args.rs:1010-1062): the frame with the unfilled slots set, and the two
    copied ranges and the range of the rest parameter. *)
Definition plan (p : params) (f : frame) (n : nat)
  : res (frame * (nat * (nat * nat)) * (nat * (nat * nat)) * (nat * nat)) :=
  let opt_pos := p_req p in
  let rest_pos := reqopt p in
  let post_pos := reqopt p + (if is_rest p then 1 else 0) in
  let end_pos := total_pos p in
  if (n <=? p_req p)%nat then
    let! f := fill f n opt_pos (Val VNil) in
    let! f := fill f opt_pos rest_pos Unset in
    let! f := fill f post_pos end_pos (Val VNil) in
    Ok (f, (0, (0, n)), (n, (n, n)), (n, n))
  else if (n <=? min_args p)%nat then
    let! f := fill f opt_pos rest_pos Unset in
    let args_num := n - opt_pos in
    let! f := fill f (post_pos + args_num) end_pos (Val VNil) in
    Ok (f, (0, (0, opt_pos)), (post_pos, (opt_pos, n)), (n, n))
  else if (n <=? max_args p)%nat then
    let args_num := n - p_req p - p_post p in
    let! f := fill f (opt_pos + args_num) rest_pos Unset in
    Ok (f, (0, (0, opt_pos + args_num)), (post_pos, (opt_pos + args_num, n)), (n, n))
  else if is_rest p then
    if (n + post_pos <? end_pos)%nat then UB
    else
      let m := n + post_pos - end_pos in
      Ok (f, (0, (0, rest_pos)), (post_pos, (m, n)), (rest_pos, m))
  else
    Ok (f, (0, (0, rest_pos)), (post_pos, (rest_pos, end_pos)), (rest_pos, rest_pos)).

(** fill_positional_args (args.rs:959-1089). *)
Definition fill_positional (p : params) (f : frame) (src : memory) (n : nat) (upward : bool)
  : res frame :=
  if negb (p_block p)
     && ((n <? min_args p)%nat || ((max_args p <? n)%nat && negb (is_explicit_rest p)))
  then Err (EArity n)
  else
    let! (f, s0, s1, r) := plan p f n in
    let! f := memcpy f (fst s0) src (fst (snd s0)) (snd (snd s0)) upward in
    let! f := memcpy f (fst s1) src (fst (snd s1)) (snd (snd s1)) upward in
    if is_rest p then
      match read_rest src (fst r) (snd r) upward with
      | Some l => put f (reqopt p) (Val (VArr l))
      | None => UB
      end
    else Ok f.

(** fill_positional_args1 and fill_positional_args2 (args.rs:944-957). *)
Definition fill_slice (p : params) (f : frame) (l : list value) : res frame :=
  fill_positional p f (up l) (length l) true.
Definition fill_slots (p : params) (f : frame) (src : memory) (n : nat) : res frame :=
  fill_positional p f src n false.

(** ** Call sites

    What the source says: positional arguments, each splatted or not, and the
    keyword part in source order. *)
Inductive kwarg := KLit (n : name) (v : value) | KSplat (h : option hash).

(** CallSiteInfo (store.rs:1985-2026): [kw_args] maps a name to the number of
    the slot holding its value, in order of first appearance. *)
Record site := {
  s_pos : list value; s_splat : list nat;
  s_kw_args : list (name * nat); s_kw_slots : list value;
  s_hsplat : list (option hash); s_forwarding : bool }.

Fixpoint im_put (m : list (name * nat)) (k : name) (i : nat) : list (name * nat) :=
  match m with
  | [] => [(k, i)]
  | (k', i') :: m => if Z.eqb k' k then (k', i) :: m else (k', i') :: im_put m k i
  end.

Fixpoint im_get (m : list (name * nat)) (k : name) : option nat :=
  match m with
  | [] => None
  | (k', i) :: m => if Z.eqb k' k then Some i else im_get m k
  end.

Fixpoint lits (l : list kwarg) : list (name * value) :=
  match l with
  | [] => []
  | KLit n v :: l => (n, v) :: lits l
  | KSplat _ :: l => lits l
  end.

Fixpoint splats (l : list kwarg) : list (option hash) :=
  match l with
  | [] => []
  | KLit _ _ :: l => splats l
  | KSplat h :: l => h :: splats l
  end.

(** keyword_arg (arguments.rs:339-359): the literals first, in order, then the
    double splats (collect_call_arg, prism_backend.rs:3022-3058, has put them
    into two lists). *)
Fixpoint im_fill (m : list (name * nat)) (i : nat) (l : list (name * value)) : list (name * nat) :=
  match l with
  | [] => m
  | (n, _) :: l => im_fill (im_put m n i) (S i) l
  end.

Fixpoint splat_positions (i : nat) (l : list (value * bool)) : list nat :=
  match l with
  | [] => []
  | (_, b) :: l => (if b then [i] else []) ++ splat_positions (S i) l
  end.

Definition compile_site (pos : list (value * bool)) (kws : list kwarg) (fwd : bool) : site :=
  {| s_pos := map fst pos; s_splat := splat_positions 0 pos;
     s_kw_args := im_fill [] 0 (lits kws); s_kw_slots := map snd (lits kws);
     s_hsplat := splats kws; s_forwarding := fwd |}.

(** CallSiteInfo::kw_may_exists (store.rs:2030-2032). *)
Definition kw_may_exists (s : site) : bool :=
  match s_kw_args s, s_hsplat s with [], [] => false | _, _ => true end.

(** The value of a literal keyword: [caller_lfp.register(kw_pos + i).unwrap()]. *)
Definition kw_value (s : site) (i : nat) : res value :=
  match nth_error (s_kw_slots s) i with Some v => Ok v | None => UB end.

(** any_keyword_passed (args.rs:1195-1215). *)
Definition any_keyword_passed (s : site) : bool :=
  match s_kw_args s with
  | [] => existsb (fun h => match h with Some (_ :: _) => true | _ => false end) (s_hsplat s)
  | _ => true
  end.

(** The literal keywords as entries, in the order of the map. *)
Fixpoint lit_entries (s : site) (m : list (name * nat)) : res hash :=
  match m with
  | [] => Ok []
  | (n, i) :: m =>
      let! v := kw_value s i in
      let! r := lit_entries s m in
      Ok ((KSym n, v) :: r)
  end.

Definition put_splats (h : hash) (l : list (option hash)) : hash :=
  fold_left (fun h o => match o with None => h | Some x => hput_all h x end) l h.

(** The excess keywords of a callee taking none (args.rs:757-794). *)
Definition excess (p : params) (s : site) : res (option value) :=
  if no_keyword p && kw_may_exists s then
    let! ls := lit_entries s (s_kw_args s) in
    match put_splats (hput_all [] ls) (s_hsplat s) with
    | [] => Ok None
    | h => Ok (Some (VHash (p_r2k p) h))
    end
  else Ok None.

Definition is_array (v : value) : bool := match v with VArr _ => true | _ => false end.

(** check_single_arg_expand (args.rs:627-652). *)
Definition check_expand (splat : list nat) (pos : list value) (ex : option value)
  : option (list value) :=
  match pos, ex with
  | [v], None =>
      match splat, v with
      | [], VArr l => Some l
      | [0%nat], VArr [VArr l] => Some l
      | _, _ => None
      end
  | [], Some (VArr l) => Some l
  | _, _ => None
  end.

(** block_arg_to_ary (args.rs:586-625): the outcome of [respond_to?] and
    [#to_ary] on a value that is not an Array. *)
Inductive to_ary := TNone | TArr (l : list value) | TRaise.

Definition r2k_hash (v : value) : bool := match v with VHash b _ => b | _ => false end.
Definition unflag (v : value) : value := match v with VHash _ h => VHash false h | _ => v end.

(** The loop of args.rs:882-899. *)
Fixpoint expand_splats (i : nat) (splat : list nat) (pos : list value) : list value :=
  match pos with
  | [] => []
  | v :: pos =>
      (if existsb (Nat.eqb i) splat then
         match v with VArr l => l | VNil => [] | _ => [v] end
       else [v]) ++ expand_splats (S i) splat pos
  end.

(** The slice without its last value, and that value ([head @ .., last]). *)
Definition split_last (l : list value) : option (list value * value) :=
  match rev l with
  | [] => None
  | v :: r => Some (rev r, v)
  end.

(** ** Keywords *)

Definition cell_of (o : option value) : cell := match o with Some v => Val v | None => Unset end.

Definition declared (p : params) (n : name) : bool :=
  existsb (fun e => Z.eqb (fst e) n) (p_kws p).

(** ordinary_keyword (args.rs:1339-1372). *)
Fixpoint ordinary (s : site) (f : frame) (i : nat) (kws : list (name * bool)) (used : nat)
  : res (frame * nat) :=
  match kws with
  | [] => Ok (f, used)
  | (n, _) :: kws =>
      match im_get (s_kw_args s) n with
      | None => let! f := put f i Unset in ordinary s f (S i) kws used
      | Some j =>
          let! v := kw_value s j in
          let! f := put f i (Val v) in ordinary s f (S i) kws (S used)
      end
  end.

Definition ordinary_keyword (p : params) (f : frame) (s : site) : res (frame * list key) :=
  let! (f, used) := ordinary s f (kw_base p) (p_kws p) 0 in
  if (used <? length (s_kw_args s))%nat && negb (p_kwrest p) then
    Ok (f, map (fun e => KSym (fst e)) (filter (fun e => negb (declared p (fst e))) (s_kw_args s)))
  else Ok (f, []).

(** One double splat of hash_splat_and_kw_rest (args.rs:1401-1436). *)
Fixpoint splat_keywords (h : hash) (f : frame) (i : nat) (kws : list (name * bool)) (unused : nat)
  : res (frame * nat) :=
  match kws with
  | [] => Ok (f, unused)
  | (n, _) :: kws =>
      match hget h (KSym n) with
      | None => splat_keywords h f (S i) kws unused
      | Some v =>
          match unused with
          | O => UB
          | S unused => let! f := put f i (Val v) in splat_keywords h f (S i) kws unused
          end
      end
  end.

Definition unknown_keys (p : params) (h : hash) : list key :=
  map fst (filter (fun e => match fst e with KSym n => negb (declared p n) | KObj _ => true end) h).

Fixpoint splat_loop (p : params) (f : frame) (l : list (option hash)) (unknowns : list key)
  : res (frame * list key) :=
  match l with
  | [] => Ok (f, unknowns)
  | None :: l => splat_loop p f l unknowns
  | Some h :: l =>
      let! (f, unused) := splat_keywords h f (kw_base p) (p_kws p) (length h) in
      splat_loop p f l
        (if (0 <? unused)%nat && negb (p_kwrest p) then unknowns ++ unknown_keys p h else unknowns)
  end.

Definition remove_declared (p : params) (h : hash) : hash :=
  fold_left (fun h e => hdel h (KSym (fst e))) (p_kws p) h.

(** hash_splat_and_kw_rest (args.rs:1381-1474); [r2k] is the promoted Hash. *)
Definition hash_splat_and_kw_rest (p : params) (f : frame) (s : site) (r2k : option hash)
  : res (frame * list key) :=
  if no_keyword p then Ok (f, [])
  else
    let all := s_hsplat s ++ match r2k with Some h => [Some h] | None => [] end in
    let! (f, unknowns) := splat_loop p f all [] in
    if p_kwrest p then
      if negb (kw_may_exists s) && match r2k with None => true | _ => false end then
        let! f := put f (kwrest_slot p) (Val VNil) in Ok (f, unknowns)
      else
        let! ls := lit_entries s (filter (fun e => negb (declared p (fst e))) (s_kw_args s)) in
        let h := put_splats (hput_all [] ls) (map (option_map (remove_declared p)) all) in
        let! f := put f (kwrest_slot p) (Val (VHash false h)) in Ok (f, unknowns)
    else Ok (f, unknowns).

(** check_missing_keyword (args.rs:1238-1247). Reading a slot never written is
    reading stack garbage. *)
Fixpoint missing (f : frame) (i : nat) (kws : list (name * bool)) : res (list name) :=
  match kws with
  | [] => Ok []
  | (n, required) :: kws =>
      let! l := missing f (S i) kws in
      if required then
        match nth_error f i with
        | None | Some Junk => UB
        | Some Unset => Ok (n :: l)
        | Some (Val _) => Ok l
        end
      else Ok l
  end.

Definition check_missing (p : params) (f : frame) : res frame :=
  let! l := missing f (kw_base p) (p_kws p) in
  match l with [] => Ok f | _ => Err (EMissing l) end.

(** handle_keyword (args.rs:1155-1190). *)
Definition handle_keyword (p : params) (f : frame) (s : site) (r2k : option hash) : res frame :=
  if p_forbid p then
    if any_keyword_passed s then Err ENoKw
    else if p_kwrest p then put f (kwrest_slot p) (Val VNil) else Ok f
  else
    let! (f, u1) := ordinary_keyword p f s in
    let! (f, u2) := hash_splat_and_kw_rest p f s r2k in
    let! f := check_missing p f in
    match u1 ++ u2 with
    | [] => Ok f
    | u => Err (EUnknown u)
    end.

(** handle_keyword_simple (args.rs:1217-1229). *)
Definition handle_keyword_simple (p : params) (f : frame) : res frame :=
  let! f := put_range f (kw_base p) (length (p_kws p)) (fun _ => Some Unset) in
  let! f := if p_kwrest p then put f (kwrest_slot p) (Val VNil) else Ok f in
  check_missing p f.

Section Calls.

Variable toary : value -> to_ary.

(** The positional part of set_callee_frame_arguments (args.rs:796-915): the
    frame and the Hash promoted to keywords. *)
Definition bind_positional (p : params) (f : frame) (s : site) (ex : option value)
  : res (frame * option hash) :=
  let pos := s_pos s in
  let promote := negb (kw_may_exists s) in
  let takes_kw := negb (no_keyword p) in
  let! coerced :=
    match single_arg_expand p, pos, ex, s_splat s with
    | true, [v], None, [] =>
        if is_array v then Ok None
        else match toary v with TNone => Ok None | TArr l => Ok (Some l) | TRaise => Err EType end
    | _, _, _, _ => Ok None
    end in
  match coerced with
  | Some l => let! f := fill_slice p f l in Ok (f, None)
  | None =>
      match (if single_arg_expand p then check_expand (s_splat s) pos ex else None) with
      | Some l => let! f := fill_slice p f l in Ok (f, None)
      | None =>
          match s_splat s, ex, pos with
          | [], None, _ =>
              let! f := fill_slots p f (down pos) (length pos) in Ok (f, None)
          | [0%nat], None, [VArr l] =>
              match split_last l with
              | Some (head, VHash true h) =>
                  if promote then
                    if takes_kw then let! f := fill_slice p f head in Ok (f, Some h)
                    else if p_r2k p then let! f := fill_slice p f l in Ok (f, None)
                    else let! f := fill_slice p f (head ++ [VHash false h]) in Ok (f, None)
                  else let! f := fill_slice p f l in Ok (f, None)
              | _ => let! f := fill_slice p f l in Ok (f, None)
              end
          | splat, _, _ =>
              let buf := expand_splats 0 splat pos
                         ++ match ex with Some v => [v] | None => [] end in
              match split_last buf with
              | Some (head, VHash true h) =>
                  if promote && match splat with [] => false | _ => true end then
                    if takes_kw then let! f := fill_slice p f head in Ok (f, Some h)
                    else if p_r2k p then let! f := fill_slice p f buf in Ok (f, None)
                    else let! f := fill_slice p f (head ++ [VHash false h]) in Ok (f, None)
                  else let! f := fill_slice p f buf in Ok (f, None)
              | _ => let! f := fill_slice p f buf in Ok (f, None)
              end
          end
      end
  end.

(** set_callee_frame_arguments (args.rs:699-924). *)
Definition set_callee (p : params) (f : frame) (s : site) : res frame :=
  if match s_splat s with [] => true | _ => false end && negb (kw_may_exists s) && no_keyword p
     && negb (p_forbid p) && negb (single_arg_expand p) && negb (p_r2k p)
  then fill_slots p f (down (s_pos s)) (length (s_pos s))
  else if p_forbid p && any_keyword_passed s then Err ENoKw
  else
    let! ex := excess p s in
    let! (f, r2k) := bind_positional p f s ex in
    if negb (no_keyword p) || negb (kw_may_exists s) then handle_keyword p f s r2k else Ok f.

(** positional_simple and set_frame_arguments_simple (args.rs:65-84,
    1106-1144): a [yield] or [send] without splats. [s] supplies the keywords. *)
Definition set_simple (p : params) (f : frame) (s : site) (pos : list value) : res frame :=
  let! f :=
    match single_arg_expand p, pos with
    | true, [VArr l] => fill_slice p f l
    | true, [v] =>
        match toary v with
        | TNone => fill_slots p f (down pos) (length pos)
        | TArr l => fill_slice p f l
        | TRaise => Err EType
        end
    | _, _ => fill_slots p f (down pos) (length pos)
    end in
  if no_keyword p then Ok f else handle_keyword p f s None.

(** jit_handle_arguments_no_block_for_yield (runtime.rs:1455-1491). *)
Definition set_yield (p : params) (f : frame) (s : site) : res frame :=
  let pos := s_pos s in
  if is_simple p && (p_req p =? length pos)%nat then memcpy f 0 (down pos) 0 (length pos) false
  else set_simple p f s pos.

(** ** Forwarding calls [g(x, ...)] and the implicit [super] *)

(** forwarded_fast_path_ok (args.rs:331-333). *)
Definition forwarded_ok (p : params) (s : site) : bool :=
  no_keyword p || (match p_kws p with [] => true | _ => false end && kw_may_exists s).

Definition kw_empty (s : site) : bool :=
  match s_kw_args s with
  | [] => forallb (fun h => match h with None | Some [] => true | _ => false end) (s_hsplat s)
  | _ => false
  end.

(** store_empty_kw_rest (args.rs:350-354). *)
Definition store_empty_kw_rest (p : params) (f : frame) : res frame :=
  if p_kwrest p then put f (kwrest_slot p) (Val VNil) else Ok f.

(** forwarded_set_arguments_core (args.rs:493-572) for a site whose rest is an
    Array (or the scalar an implicit [super] may find there). *)
Definition forwarded_core (p : params) (f : frame) (s : site) : res frame :=
  if kw_empty s && forwarded_ok p s && negb (single_arg_expand p) then
    match s_splat s with
    | sp :: _ =>
        match nth_error (s_pos s) sp with
        | None => UB
        | Some v =>
            let mid := match v with VArr l => l | VNil => [] | _ => [v] end in
            let! f := fill_slice p f (firstn sp (s_pos s) ++ mid ++ skipn (S sp) (s_pos s)) in
            store_empty_kw_rest p f
        end
    | [] => UB
    end
  else set_callee p f s.

(** The same with the rest Array never built (lazy_forward_fill, args.rs:276-307):
    [orig] are the arguments of the original call. *)
Definition lazy_fill (p : params) (f : frame) (s : site) (sp : nat) (orig : list value) : res frame :=
  let! f := fill_slice p f (firstn sp (s_pos s) ++ orig ++ skipn (S sp) (s_pos s)) in
  store_empty_kw_rest p f.

(** set_frame_arguments (args.rs:8-63) without the entry of a lazy trampoline,
    which binds nothing. *)
Definition set_frame (p : params) (f : frame) (s : site) : res frame :=
  if s_forwarding s then
    match s_splat s with
    | [sp] => if (sp <? length (s_pos s))%nat && forwarded_ok p s
              then forwarded_core p f s else set_callee p f s
    | _ => set_callee p f s
    end
  else set_callee p f s.

End Calls.

(** ** The invokers: calls made by builtin methods *)

(** The keyword loop of invoker_arguments_inner (args.rs:1523-1535): every
    declared keyword is taken out of the Hash given, which is the caller's
    object. *)
Fixpoint invoker_keywords (f : frame) (i : nat) (kws : list (name * bool)) (kw : option hash)
  : res (frame * option hash) :=
  match kws with
  | [] => Ok (f, kw)
  | (n, _) :: kws =>
      match kw with
      | None => let! f := put f i Unset in invoker_keywords f (S i) kws None
      | Some h =>
          let! f := put f i (cell_of (hget h (KSym n))) in
          invoker_keywords f (S i) kws (Some (hdel h (KSym n)))
      end
  end.

(** positional_invoker (args.rs:929-942) for the upward and the downward
    layout; also the argument area afterwards (args.rs:919-925 reverses it in
    place when keywords are folded into a downward area). *)
Definition positional_invoker (p : params) (f : frame) (args : list value) (upward : bool)
    (ex : option value) : res frame * list value :=
  match (if single_arg_expand p then check_expand [] args ex else None) with
  | Some l => (fill_slice p f l, args)
  | None =>
      match ex with
      | Some v => (fill_slice p f (args ++ [v]), if upward then args else rev args)
      | None =>
          (fill_positional p f (if upward then up args else down args) (length args) upward, args)
      end
  end.

Record invoked := { i_frame : res frame; i_args : list value; i_kw : option hash }.

(** invoker_arguments_inner (args.rs:1513-1594). [i_args] and [i_kw] are the
    caller's argument area and keyword Hash afterwards. *)
Definition invoke_args (p : params) (f : frame) (args : list value) (upward : bool) (kw : option hash)
  : invoked :=
  match invoker_keywords f (kw_base p) (p_kws p) kw with
  | UB => {| i_frame := UB; i_args := args; i_kw := kw |}
  | Err e => {| i_frame := Err e; i_args := args; i_kw := kw |}
  | Ok (f, kw) =>
      let left := match kw with Some (e :: h) => Some (e :: h) | _ => None end in
      let fail e := {| i_frame := Err e; i_args := args; i_kw := kw |} in
      if p_forbid p && match left with Some _ => true | None => false end then fail ENoKw
      else
        let go (f : res frame) ex :=
          match f with
          | Ok f =>
              let (r, args') := positional_invoker p f args upward ex in
              {| i_frame := (let! f := r in check_missing p f); i_args := args'; i_kw := kw |}
          | Err e => fail e
          | UB => {| i_frame := UB; i_args := args; i_kw := kw |}
          end in
        if p_kwrest p then
          go (put f (kwrest_slot p)
                (Val (match left with Some h => VHash false h | None => VNil end))) None
        else match p_kws p, left with
             | [], Some h => go (Ok f) (Some (VHash (p_r2k p) h))
             | _, Some h => fail (EUnknown (map fst h))
             | _, None => go (Ok f) None
             end
  end.

(** ** Compiled calls *)

(** FuncInfo::apply_args (function.rs:1458-1500): ranges as start and end. *)
Definition apply_args (p : params) (n : nat) : (nat * nat) * (nat * nat) * (nat * nat) * nat :=
  let opt := p_req p in
  let post := reqopt p + (if is_rest p then 1 else 0) in
  if (n <=? p_req p)%nat then ((0, n), (opt, opt), (post, post), 0)
  else if (n <=? min_args p)%nat then
    ((0, p_req p), (opt, opt), (post, post + n - p_req p), 0)
  else if (max_args p <? n)%nat then
    ((0, p_req p), (opt, opt + p_opt p), (post, post + p_post p),
     if p_block p && negb (is_rest p) then 0 else n - max_args p)
  else ((0, p_req p), (opt, opt + n - min_args p), (post, post + p_post p), 0).

(** positional_arity_ok (function.rs:1552-1571). *)
Definition positional_arity_ok (p : params) (n : nat) : bool :=
  p_block p ||
  (if is_rest p then (min_args p <=? n)%nat
   else (min_args p <=? n)%nat && (n <=? max_args p)%nat).

(** is_simple_call (function.rs:1601-1622). *)
Definition is_simple_call (p : params) (s : site) : bool :=
  if (length (s_pos s) =? 1)%nat && single_arg_expand p then false
  else if (no_keyword p || p_forbid p) && kw_may_exists s then false
  else if existsb (fun e => snd e && match im_get (s_kw_args s) (fst e) with
                                      | None => true | Some _ => false end) (p_kws p)
  then false
  else match s_splat s, s_hsplat s with
       | [], [] => positional_arity_ok p (length (s_pos s))
       | _, _ => false
       end.

(** What a compiled call stores into a slot: argument [i] of the site, nil,
    the null word, an Array of [n] arguments from [i], literal keyword [i], a
    Hash of literal keywords. *)
Inductive source :=
| SArg (i : nat) | SNil | SNone | SRest (i n : nat) | SKw (i : nat) | SKwRest (l : list (name * nat)).

Definition range {A} (r : nat * nat) (g : nat -> A) : list A :=
  map g (seq (fst r) (snd r - fst r)).

(** set_arguments, its branch for simple calls (method_call.rs:2044-2178): the
    stores, in order. [None]: the assertion of line 2156 fails (compiling
    panics). *)
Definition jit_positional (p : params) (n : nat) : list (nat * source) :=
  let '(r, o, q, rest_len) := apply_args p n in
  let req := snd r - fst r in
  let opt := snd o - fst o in
  let post := snd q - fst q in
  let start := fst q in
  range r (fun i => (i, SArg i))
  ++ range (req, p_req p) (fun i => (i, SNil))
  ++ range o (fun i => (i, SArg (req + (i - p_req p))))
  ++ range (p_req p + opt, reqopt p) (fun i => (i, SNone))
  ++ (if is_rest p then [(reqopt p, SRest (req + opt) rest_len)] else [])
  ++ range q (fun i => (i, SArg (n - post + (i - start))))
  ++ range (start + post, start + p_post p) (fun i => (i, SNil)).

Fixpoint jit_keywords (m : list (name * nat)) (i : nat) (kws : list (name * bool))
  : list (nat * source) * list nat :=
  match kws with
  | [] => ([], [])
  | (n, _) :: kws =>
      let (l, used) := jit_keywords m (S i) kws in
      match im_get m n with
      | Some j => ((i, SKw j) :: l, j :: used)
      | None => ((i, SNone) :: l, used)
      end
  end.

(** The unused keywords (method_call.rs:2150-2159): position [i] of the map
    must hold the value [i]. *)
Fixpoint jit_unused (m : list (name * nat)) (used : list nat) (i : nat) : option (list (name * nat)) :=
  match m with
  | [] => Some []
  | (n, v) :: m =>
      match jit_unused m used (S i) with
      | None => None
      | Some l =>
          if existsb (Nat.eqb i) used then Some l
          else if (i =? v)%nat then Some ((n, i) :: l) else None
      end
  end.

Definition jit_stores (p : params) (s : site) : option (list (nat * source)) :=
  let (kws, used) := jit_keywords (s_kw_args s) (kw_base p) (p_kws p) in
  match jit_unused (s_kw_args s) used 0 with
  | None => None
  | Some unused =>
      Some (jit_positional p (length (s_pos s)) ++ kws
            ++ (if p_kwrest p then
                  [(kwrest_slot p, match unused with [] => SNil | _ => SKwRest unused end)]
                else []))
  end.

(** LinkMode::from_caller_inner (slot.rs:1795-1848): what the compiler takes
    each parameter slot to be. A slot described by [SArg i] is given the type
    (or the constant) known for argument [i]; [SRest] and [SKwRest] are only
    given their class, so their contents are left empty here. *)
Definition jit_types (p : params) (s : site) : list source :=
  let '(r, o, q, rest_len) := apply_args p (length (s_pos s)) in
  let req := snd r - fst r in
  let opt := snd o - fst o in
  let post := snd q - fst q in
  let start := req + opt + rest_len in
  range r SArg
  ++ range (req, p_req p) (fun _ => SNil)
  ++ range (req, req + opt) SArg
  ++ range (opt, p_opt p) (fun _ => SNone)
  ++ (if is_rest p then [SRest 0 0] else [])
  ++ range (start, start + post) SArg
  ++ range (post, p_post p) (fun _ => SNil)
  ++ map (fun e => match im_get (s_kw_args s) (fst e) with Some j => SKw j | None => SNone end) (p_kws p)
  ++ (if p_kwrest p then [SKwRest []] else []).

(** Running the stores. *)
Definition eval_source (s : site) (c : source) : option cell :=
  match c with
  | SArg i => option_map Val (read (down (s_pos s)) false i)
  | SNil => Some (Val VNil)
  | SNone => Some Unset
  | SRest i n => option_map (fun l => Val (VArr l)) (read_rest (down (s_pos s)) i (i + n) false)
  | SKw i => option_map Val (nth_error (s_kw_slots s) i)
  | SKwRest l =>
      match lit_entries s l with Ok h => Some (Val (VHash false (hput_all [] h))) | _ => None end
  end.

Fixpoint run_stores (s : site) (l : list (nat * source)) (f : frame) : res frame :=
  match l with
  | [] => Ok f
  | (i, c) :: l =>
      match eval_source s c with
      | None => UB
      | Some c => let! f := put f i c in run_stores s l f
      end
  end.

(** [None]: the compiler panics. *)
Definition jit_call (p : params) (s : site) (f : frame) : option (res frame) :=
  option_map (fun l => run_stores s l f) (jit_stores p s).

(** forwarded_deferred_layout (function.rs:1352-1369) and its lowering: the
    [lead] arguments of the forwarding call and then those of the original
    call, copied without building the Array. *)
Definition deferred_stores (p : params) (lead : nat) (len : nat) : option (list (nat * source)) :=
  let n := lead + len in
  let bound := Nat.min n (reqopt p) in
  if (bound <? lead)%nat then None
  else Some (range (0, lead) (fun i => (i, SArg i))
    ++ range (lead, lead + (bound - lead)) (fun i => (i, SArg i))
    ++ range (bound, bound + (reqopt p - bound)) (fun i => (i, SNone))
    ++ (if is_rest p then [(reqopt p, SRest (lead + (bound - lead)) (n - bound))] else [])
    ++ (if p_kwrest p then [(kwrest_slot p, SNil)] else [])).

(** The gate of the deferred form (method_call.rs:2207-2241, 2292-2297). *)
Definition deferred_gate (p : params) (lead len : nat) : bool :=
  (p_post p =? 0)%nat && (lead <=? reqopt p)%nat && negb (single_arg_expand p)
  && (negb (is_rest p) || is_explicit_rest p)
  && (p_req p <=? lead + len)%nat && (is_rest p || (lead + len <=? reqopt p)%nat)
  && match p_kws p with [] => true | _ => false end.

(** The parameters of the entry made by [define_method] from a block or proc:
    a copy in method style (function.rs:665-680, module.rs:1699-1733); the
    block itself keeps its own. Compiled calls of such a method use the block's
    (method_call.rs:631-690). *)
Definition method_of (p : params) : params :=
  {| p_req := p_req p; p_opt := p_opt p; p_rest := p_rest p; p_post := p_post p;
     p_kws := p_kws p; p_kwrest := p_kwrest p; p_forbid := p_forbid p;
     p_block := false; p_r2k := p_r2k p |}.
