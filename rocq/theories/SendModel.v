(** Kernel#send: the builtin method and the code the compiler emits for it.
    monoruby/src/builtins/kernel.rs:4641-4697,
    codegen/arch/x86_64/compile/method_call.rs:396-640, 867-965,
    codegen/runtime.rs:1493-1552, codegen/runtime/args.rs:65-99, 1106-1150, 1217-1229,
    executor.rs:3000-3220.

    Classes, method tables, the class version and the global cache are those of
    LookupModel.v; binding is that of ArgModel.v.  A name is its IdentId, which is
    not 0.

    Not modelled: refinements; the block; the lazy [...] marker; the machine registers. *)
From Coq Require Import ZArith List Bool.
From Verif Require Import ClassModel LookupModel ArgModel.
Import ListNotations.
Open Scope Z_scope.

(** value.rs:664-671 [class_for_ic]. *)
Definition ic_class (c : Z) : Z := if (c =? TRUE) || (c =? FALSE) then BOOL else c.

(** executor.rs:3000-3098 [find_method] with [is_func_call], for any receiver: for a
    boolean the shared key first. *)
Definition find_method (w : world) (c n : Z) : reached * world :=
  let any := fun _ : Z => true in
  if ic_class c =? BOOL then
    let '(r, w1) := look_bool w n in
    match r with
    | Some e => (admit_call true any (Some e), w1)
    | None => let '(r, w2) := look w1 c n in (admit_call true any r, w2)
    end
  else let '(r, w1) := look w c n in (admit_call true any r, w1).

(** What a send runs: a body, method_missing with the name put before the arguments,
    or nothing (NoMethodError). *)
Inductive runs := Runs (f : Z) | RunsMissing (f : Z) | NoMethod.

(** executor.rs:3185-3220 [invoke_method_inner_vis], as called by kernel.rs:4641-4670.
    [mm]: the IdentId of method_missing. *)
Definition interpreted (mm : Z) (w : world) (c n : Z) : runs * world :=
  let '(r, w1) := find_method w c n in
  match r with
  | Body f => (Runs f, w1)
  | Missing =>
      let '(r, w2) := find_method w1 c mm in
      (match r with Body f => RunsMissing f | Missing => NoMethod end, w2)
  end.

(** method_call.rs:396-424 [CacheEntry]: the name (0: none), the body, the counter;
    the machine compares counters as signed words. *)
Record slot := mkslot { sname : Z; sfid : Z; scount : Z }.
Definition cache := list slot.
Definition blank : slot := mkslot 0 0 0.
Definition empty_cache : cache := repeat blank 4.
Definition slot_at (k : cache) (i : nat) : slot := nth i k blank.
Fixpoint set_slot (k : cache) (i : nat) (s : slot) : cache :=
  match k, i with
  | [], _ => []
  | _ :: t, O => s :: t
  | x :: t, S j => x :: set_slot t j s
  end.
(** A 64-bit word read as a signed one. *)
Definition signed (z : Z) : Z := (z + 2 ^ 63) mod 2 ^ 64 - 2 ^ 63.

(** method_call.rs:893-917: [i] the entry in rdi, [m] the one in rdx, [left] r8. *)
Inductive found := Hit (i m : nat) | Miss (i : nat).
Fixpoint scan (k : cache) (n : Z) (left : nat) (i m : nat) : found :=
  match left with
  | O => Miss i
  | S l =>
      let m := if signed (scount (slot_at k i)) <? signed (scount (slot_at k m)) then i else m in
      let i := S i in
      if sname (slot_at k i) =? 0 then Miss i
      else if sname (slot_at k i) =? n then Hit i m
      else match l with O => Miss i | S _ => scan k n l i m end
  end.
Definition probe (k : cache) (n : Z) : found :=
  if sname (slot_at k 0) =? 0 then Miss 0
  else if sname (slot_at k 0) =? n then Hit 0 0
  else scan k n 3 0 0.

(** method_call.rs:918-933: count the hit and move the entry forward. *)
Definition hit (k : cache) (i m : nat) : Z * cache :=
  let s := slot_at k i in
  let k := set_slot k i (mkslot (sname s) (sfid s) (scount s + 1)) in
  if signed (scount (slot_at k i)) <=? signed (scount (slot_at k m)) then (sfid s, k)
  else (sfid s, let a := slot_at k i in let b := slot_at k m in set_slot (set_slot k m a) i b).

(** The data of one compiled send: the version of the cache and the cache. *)
Record sendsite := mkss { sver : Z; scache : cache }.
Definition fresh_site : sendsite := mkss (TWO32 - 1) empty_cache.
(** method_call.rs:540-565: the first word of every entry is cleared. *)
Definition check_version (w : world) (s : sendsite) : sendsite :=
  if wver w =? sver s then s
  else mkss (wver w) (map (fun e => mkslot 0 0 (scount e)) (scache s)).

(** method_call.rs:867-965 for the name [n]: the receiver's class is only used when
    the name is not in the cache. *)
Definition compiled (w : world) (s : sendsite) (c n : Z) : runs * sendsite * world :=
  let s := check_version w s in
  match probe (scache s) n with
  | Hit i m => let '(f, k) := hit (scache s) i m in (Runs f, mkss (sver s) k, w)
  | Miss i =>
      let '(r, w1) := find_method w c n in
      match r with
      | Body f => (Runs f, mkss (sver s) (set_slot (scache s) i (mkslot n f 1)), w1)
      | Missing => (NoMethod, s, w1)
      end
  end.

(** The compiled site with its receiver guard: [guard] are the classes, as seen by
    inline caches, that it lets through (one, or a set: jitgen/compile/method_call.rs:
    393-489, where the generator of kernel.rs:4672-4697 ignores the class it is
    given); any other receiver leaves the compiled code. *)
Definition send_at (mm : Z) (guard : list Z) (w : world) (s : sendsite) (c n : Z)
  : runs * sendsite * world :=
  if existsb (Z.eqb (ic_class c)) guard then compiled w s c n
  else let '(r, w1) := interpreted mm w c n in (r, s, w1).

(** ** Arguments *)
Section Args.
Variable toary : value -> to_ary.

(** method_call.rs:597-640 and runtime.rs:1493-1515: [args] are the arguments without
    the name. [wrong_number_of_arg] is given the two numbers the other way round. *)
Definition send_simple (p : params) (f : frame) (s : ArgModel.site) (args : list value) : res frame :=
  if is_simple p then
    if (p_req p =? length args)%nat then memcpy f 0 (down args) 0 (length args) false
    else Err (EArity (p_req p))
  else set_simple toary p f s args.
End Args.

(** An Array object: its elements, and the first word of its buffer (0: the null word),
    which is the first element if there is one; [heap]: the buffer is not inline. *)
Record array := mkarr { elements : list value; heap_ : bool; word0 : option value }.
Definition array_ok (a : array) : Prop :=
  match elements a with [] => heap_ a = true -> word0 a <> None | v :: _ => word0 a = Some v end.

Inductive operand := OArr (a : array) | OVal (v : value).
Inductive named := Named (n : Z) | NoName | NotAName.
(** method_call.rs:571-595 and 880-884, 948-958: the name of [send( *x)]; [name_of] is
    expect_symbol_or_string. *)
Definition splat_name (name_of : value -> option Z) (x : operand) : named :=
  let conv v := match name_of v with Some n => Named n | None => NotAName end in
  match x with
  | OVal v => conv v
  | OArr a => match word0 a with Some v => conv v | None => NoName end
  end.

(** args.rs:86-99, 1146-1150. [None]: the process panics. *)
Definition send_splat_args (p : params) (f : frame) (x : operand) : option (res frame) :=
  match x with
  | OVal _ => None
  | OArr a =>
      match elements a with
      | [] => None
      | _ :: l =>
          Some (let! f := fill_slice p f l in
                if no_keyword p then Ok f else handle_keyword_simple p f)
      end
  end.

(** The builtin method (kernel.rs:4641-4670) given the same operand: a splat spreads an
    Array, nil to nothing and any other object to itself; then a trailing flagged Hash
    becomes the keywords ([send] takes [*args, **kw]). *)
Definition spread_operand (x : operand) : list value :=
  match x with OArr a => elements a | OVal VNil => [] | OVal v => [v] end.
Definition builtin_args (x : operand) : list value * option hash :=
  let l := spread_operand x in
  match split_last l with
  | Some (head, VHash true (e :: h)) => (head, Some (e :: h))
  | Some (head, VHash true []) => (head, None)
  | _ => (l, None)
  end.
Definition builtin_name (name_of : value -> option Z) (x : operand) : named :=
  match fst (builtin_args x) with
  | [] => NoName
  | v :: _ => match name_of v with Some n => Named n | None => NotAName end
  end.
Definition builtin_splat_args (p : params) (f : frame) (x : operand) : option (res frame) :=
  let '(l, kw) := builtin_args x in
  match l with
  | [] => None
  | _ :: args => Some (i_frame (invoke_args p f args true kw))
  end.
