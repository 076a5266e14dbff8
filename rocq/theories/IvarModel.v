(** Instance variables: the tables of names, the slots of objects, the caches of
    interpreted code, compiled accesses, singleton classes, dup and clone.

    All paths below are under /repo/monoruby/src. *)
From Coq Require Import String Ascii ZArith Bool Arith.
From Coq Require Import List.
Import ListNotations.
Local Open Scope nat_scope.

(** A Ruby value other than the receiver; only nil is told apart. *)
Definition val := Z.
Definition nilv : val := 4%Z.

(** [OBJECT_INLINE_IVAR] (value/rvalue.rs:70). *)
Definition INLINE : nat := 6.

Fixpoint upd {A} (l : list A) (i : nat) (x : A) : list A :=
  match l, i with
  | [], _ => []
  | _ :: t, O => x :: t
  | h :: t, S j => h :: upd t j x
  end.

Fixpoint index_of (n : string) (l : list string) : option nat :=
  match l with
  | [] => None
  | h :: t => if String.eqb n h then Some 0 else option_map S (index_of n t)
  end.

(** ** The spilled table of an object

    [MonoVec] (value/rvalue/ivar_table.rs:21-86): a capacity and [len] cells; a
    cell holding 0 is an unset variable. What lies between the length and the
    capacity was never written and is not in [cells]. *)
Record table := { cap : nat; cells : list (option val) }.

(** [usize::next_power_of_two]. *)
Definition npot (n : nat) : nat := 2 ^ Nat.log2_up n.

(** [RawVec::with_capacity] (ivar_table.rs:163-172). *)
Definition with_capacity (n : nat) : table :=
  {| cap := if n =? 0 then 0 else npot n; cells := [] |}.

(** [MonoVec::resize], [extend], [RawVec::reserve], [grow]
    (ivar_table.rs:70-86, 178-195): only ever longer, new cells zeroed. *)
Definition resize (t : table) (n : nat) : table :=
  if length (cells t) <? n then
    {| cap := if cap t <? n then npot n else cap t;
       cells := cells t ++ repeat None (n - length (cells t)) |}
  else t.

(** ** Objects and classes

    [RValue] (value/rvalue.rs): the class of the header, whether the type is
    [ObjTy::OBJECT] (then the first six variables live in the object itself), the
    spilled table, the frozen bit. The rest of the object is left out. *)
Record obj := { o_class : nat; o_object : bool; o_inline : list (option val);
                o_table : option table; o_frozen : bool }.

(** [ClassInfo] (globals/store/class.rs): [ivar_names] as the list of names in the
    order of their ids (an id is the length of the table when the name is entered
    and names are never taken out, globals/store/class/instance_var.rs:77-87),
    whether this is the singleton class of an object, its real class, whether
    instances have type [ObjTy::OBJECT] ([instance_ty]), whether it is one of the
    classes whose instances are always frozen ([is_always_frozen],
    class.rs:182-195), whether [get_singleton] refuses it (class.rs:970-978). *)
Record cinfo := { c_names : list string; c_single : bool; c_real : nat;
                  c_object : bool; c_always : bool; c_sealed : bool }.

(** Compiled code: the class it is made for, whether its accesses are to self (else
    to a receiver, through attr_reader or attr_writer), the name and id of each
    access, the length the table is brought to on entry. *)
Record unit_ := { u_class : nat; u_self : bool; u_ivars : list (string * nat);
                  u_len : option nat; u_object : bool; u_always : bool }.

(** [r15]: what the machine register r15 holds. [sites]: the instructions of
    interpreted code and the generated accessors, each with its name and its
    cache. [frames]: a compiled unit and the object it was entered with. An object
    number beyond the heap stands for a packed value (small Integer, Symbol,
    nil, ...). *)
Record world := { classes : list cinfo; heap : list obj;
                  sites : list (string * option (nat * nat));
                  units : list unit_; frames : list (nat * nat); r15 : val }.

Definition w_classes (w : world) x := {| classes := x; heap := heap w; sites := sites w;
  units := units w; frames := frames w; r15 := r15 w |}.
Definition w_heap (w : world) x := {| classes := classes w; heap := x; sites := sites w;
  units := units w; frames := frames w; r15 := r15 w |}.
Definition w_sites (w : world) x := {| classes := classes w; heap := heap w; sites := x;
  units := units w; frames := frames w; r15 := r15 w |}.
Definition w_units (w : world) x := {| classes := classes w; heap := heap w; sites := sites w;
  units := x; frames := frames w; r15 := r15 w |}.
Definition w_frames (w : world) x := {| classes := classes w; heap := heap w; sites := sites w;
  units := units w; frames := x; r15 := r15 w |}.

Definition names_of (w : world) (c : nat) : list string :=
  match nth_error (classes w) c with Some ci => c_names ci | None => [] end.
Definition put (w : world) (o : nat) (ob : obj) : world := w_heap w (upd (heap w) o ob).

Definition o_set_inline (ob : obj) x := {| o_class := o_class ob; o_object := o_object ob;
  o_inline := x; o_table := o_table ob; o_frozen := o_frozen ob |}.
Definition o_set_table (ob : obj) x := {| o_class := o_class ob; o_object := o_object ob;
  o_inline := o_inline ob; o_table := Some x; o_frozen := o_frozen ob |}.
Definition o_set_class (ob : obj) x := {| o_class := x; o_object := o_object ob;
  o_inline := o_inline ob; o_table := o_table ob; o_frozen := o_frozen ob |}.
Definition o_set_frozen (ob : obj) x := {| o_class := o_class ob; o_object := o_object ob;
  o_inline := o_inline ob; o_table := o_table ob; o_frozen := x |}.

(** ** Slots (value/rvalue.rs:1369-1448) *)

Definition inlined (ob : bool) (i : nat) : bool := ob && (i <? INLINE).
Definition spill_index (ob : bool) (i : nat) : nat := if ob then i - INLINE else i.

(** [get_ivar_by_ivarid] (rvalue.rs:1369-1384). *)
Definition get_by_id (ob : obj) (i : nat) : option val :=
  if inlined (o_object ob) i then nth i (o_inline ob) None
  else
    let k := spill_index (o_object ob) i in
    match o_table ob with
    | Some t => if k <? length (cells t) then nth k (cells t) None else None
    | None => None
    end.

(** [remove_ivar_by_ivarid] (rvalue.rs:1386-1405): the object without the variable;
    its value is [get_by_id]. *)
Definition remove_by_id (ob : obj) (i : nat) : obj :=
  if inlined (o_object ob) i then o_set_inline ob (upd (o_inline ob) i None)
  else
    let k := spill_index (o_object ob) i in
    match o_table ob with
    | Some t =>
        if k <? length (cells t)
        then o_set_table ob {| cap := cap t; cells := upd (cells t) k None |} else ob
    | None => ob
    end.

(** [set_ivar_by_ivarid] (rvalue.rs:1407-1433); the write barrier is left out. *)
Definition set_by_id (ob : obj) (i : nat) (v : val) : obj :=
  if inlined (o_object ob) i then o_set_inline ob (upd (o_inline ob) i (Some v))
  else
    let k := spill_index (o_object ob) i in
    let t := match o_table ob with
             | Some t => if length (cells t) <=? k then resize t (k + 1) else t
             | None => resize (with_capacity (k + 1)) (k + 1)
             end in
    o_set_table ob {| cap := cap t; cells := upd (cells t) k (Some v) |}.

(** [extend_ivar] (rvalue.rs:1435-1446). *)
Definition extend (ob : obj) (n : nat) : obj :=
  match o_table ob with
  | Some t => o_set_table ob (resize t n)
  | None => o_set_table ob (resize (with_capacity n) n)
  end.

(** ** Names (globals/store/class/instance_var.rs, value/rvalue.rs:1330-1343) *)

(** [ClassInfo::get_ivarid]. *)
Definition get_ivarid (w : world) (c : nat) (n : string) : option nat :=
  index_of n (names_of w c).

Definition add_name (w : world) (c : nat) (n : string) : world :=
  match nth_error (classes w) c with
  | Some ci => w_classes w (upd (classes w) c
      {| c_names := c_names ci ++ [n]; c_single := c_single ci; c_real := c_real ci;
         c_object := c_object ci; c_always := c_always ci; c_sealed := c_sealed ci |})
  | None => w
  end.

(** [Store::get_ivar_id] (instance_var.rs:77-87). *)
Definition get_ivar_id (w : world) (c : nat) (n : string) : world * nat :=
  match get_ivarid w c n with
  | Some i => (w, i)
  | None => (add_name w c n, length (names_of w c))
  end.

(** [Store::get_ivar] (instance_var.rs:28-31). *)
Definition get_ivar (w : world) (o : nat) (n : string) : option val :=
  match nth_error (heap w) o with
  | Some ob =>
      match get_ivarid w (o_class ob) n with
      | Some i => get_by_id ob i
      | None => None
      end
  | None => None
  end.

(** Names that begin with a slash are internal. *)
Definition hidden (n : string) : bool :=
  match n with String c _ => Ascii.eqb c "/" | EmptyString => false end.

Fixpoint named_slots (ob : obj) (i : nat) (l : list string) : list string :=
  match l with
  | [] => []
  | n :: t =>
      match get_by_id ob i with
      | Some _ => n :: named_slots ob (S i) t
      | None => named_slots ob (S i) t
      end
  end.

(** [Store::get_ivars] (instance_var.rs:33-48), the names only. *)
Definition get_ivars (w : world) (o : nat) : list string :=
  match nth_error (heap w) o with
  | Some ob => filter (fun n => negb (hidden n)) (named_slots ob 0 (names_of w (o_class ob)))
  | None => []
  end.

(** ** What a step answers

    [Crash]: memory outside the table is touched, or the process is aborted by a
    failed assertion. *)
Inductive res :=
| Ok (v : val) | Yes (b : bool) | Names (l : list string) | Made (o : nat)
| FrozenError | NameError | TypeError | Crash | Done.

Definition or_nil (x : option val) : val := match x with Some v => v | None => nilv end.

(** [Store::set_ivar] (instance_var.rs:53-59) with [try_rvalue_mut_or_frozen]
    (value.rs:2259-2266): every packed value is frozen. *)
Definition set_ivar (w : world) (o : nat) (n : string) (v : val) : world * res :=
  match nth_error (heap w) o with
  | Some ob =>
      if o_frozen ob then (w, FrozenError)
      else
        let '(w1, i) := get_ivar_id w (o_class ob) n in
        (put w1 o (set_by_id ob i v), Ok v)
  | None => (w, FrozenError)
  end.

(** [Store::remove_ivar] (instance_var.rs:64-75). *)
Definition remove_ivar (w : world) (o : nat) (n : string) : world * res :=
  match nth_error (heap w) o with
  | Some ob =>
      if o_frozen ob then (w, FrozenError)
      else
        match get_ivarid w (o_class ob) n with
        | Some i =>
            match get_by_id ob i with
            | Some v => (put w o (remove_by_id ob i), Ok v)
            | None => (w, NameError)
            end
        | None => (w, NameError)
        end
  | None => (w, FrozenError)
  end.

(** ** Interpreted accesses and generated accessors

    [get_instance_var_with_cache], [set_instance_var_with_cache]
    (codegen.rs:1730-1785), used by vm_load_ivar, vm_store_ivar and by attr_reader
    and attr_writer (codegen/arch/x86_64/wrapper.rs:170-205). *)
Definition load_site (w : world) (s o : nat) : world * res :=
  match nth_error (sites w) s with
  | None => (w, Done)
  | Some (n, cache) =>
      match nth_error (heap w) o with
      | None => (w, Ok nilv)
      | Some ob =>
          let miss :=
            let '(w1, i) := get_ivar_id w (o_class ob) n in
            (w_sites w1 (upd (sites w1) s (n, Some (o_class ob, i))), Ok (or_nil (get_by_id ob i))) in
          match cache with
          | Some (c, i) => if o_class ob =? c then (w, Ok (or_nil (get_by_id ob i))) else miss
          | None => miss
          end
      end
  end.

Definition store_site (w : world) (s o : nat) (v : val) : world * res :=
  match nth_error (sites w) s with
  | None => (w, Done)
  | Some (n, cache) =>
      match nth_error (heap w) o with
      | None => (w, FrozenError)
      | Some ob =>
          if o_frozen ob then (w, FrozenError)
          else
            let miss :=
              let '(w1, i) := get_ivar_id w (o_class ob) n in
              (put (w_sites w1 (upd (sites w1) s (n, Some (o_class ob, i)))) o (set_by_id ob i v), Ok v) in
            match cache with
            | Some (c, i) => if o_class ob =? c then (put w o (set_by_id ob i v), Ok v) else miss
            | None => miss
            end
      end
  end.

(** ** Compiled accesses *)

Fixpoint all_ids (w : world) (c : nat) (l : list string) : option (list (string * nat)) :=
  match l with
  | [] => Some []
  | n :: t =>
      match get_ivarid w c n, all_ids w c t with
      | Some i, Some r => Some ((n, i) :: r)
      | _, _ => None
      end
  end.

(** Compiling a body for class [c] with the accesses [l].
    LoadIvar and StoreIvar (codegen/jitgen/compile.rs:466-500) look each name up in
    the class of self and give up when it is missing; [load_ivar] and [store_ivar]
    (codegen/jitgen/compile/variables.rs:6-71) begin with
    [assert!(!self_class.is_always_frozen())], and a panic while a method is
    compiled is not caught (codegen/compiler.rs:873-890, 903-930). [Preparation]
    (codegen/jitgen/asmir/compile_shared.rs:663-675) takes the length of the class's
    table when the code is written out. attr_reader and attr_writer
    (codegen/jitgen/compile/method_call.rs:1096-1206) look the name up in the
    receiver's class, attr_reader not for the always frozen classes. *)
Definition compile (w : world) (c : nat) (self_ : bool) (l : list string) : world * res :=
  match nth_error (classes w) c with
  | None => (w, Done)
  | Some ci =>
      if negb self_ && c_always ci then
        (w_units w (units w ++ [{| u_class := c; u_self := false;
           u_ivars := map (fun n => (n, 0)) l; u_len := None;
           u_object := c_object ci; u_always := true |}]), Done)
      else
        match all_ids w c l with
        | None => (w, Done)
        | Some ids =>
            if self_ && c_always ci && negb (length l =? 0) then (w, Crash)
            else
              let heap_used := existsb (fun ni => negb (inlined (c_object ci) (snd ni))) ids in
              let len := length (c_names ci) in
              (w_units w (units w ++ [{| u_class := c; u_self := self_; u_ivars := ids;
                 u_len := if self_ && heap_used
                          then Some (if c_object ci then len - INLINE else len) else None;
                 u_object := c_object ci; u_always := c_always ci |}]), Done)
        end
  end.

(** [emit_preparation] (codegen/arch/x86_64/compile/mod.rs:2155-2183). *)
Definition prepare (ob : obj) (len : option nat) : obj :=
  match len with
  | None => ob
  | Some n =>
      match o_table ob with
      | Some t =>
          if (cap t =? 0) || (length (cells t) <? n) then extend ob n else ob
      | None => extend ob n
      end
  end.

(** Entering compiled code with the object [o]: its class is compared with the class
    the code is made for (the per-class entries of a method, the [GuardClass] of a
    compiled loop, codegen/jitgen/compile.rs:37-43, or the receiver's guard at a
    call site). On a mismatch interpreted code runs. The comparison is not repeated
    inside the frame: the slot stays known to hold an object of the class. *)
Definition enter (w : world) (u o : nat) : world * res :=
  match nth_error (units w) u, nth_error (heap w) o with
  | Some un, Some ob =>
      if o_class ob =? u_class un then
        let w1 := put w o (prepare ob (u_len un)) in
        (w_frames w1 (frames w1 ++ [(u, o)]), Done)
      else (w, Done)
  | _, _ => (w, Done)
  end.

(** [LoadIVarHeap] ([load_ivar_heap], codegen/arch/x86_64/compile/variables.rs:17-41):
    for self neither the table nor its length is looked at. *)
Definition load_heap (ob : obj) (k : nat) (checked : bool) : res :=
  match o_table ob with
  | None => if checked then Ok nilv else Crash
  | Some t =>
      if checked && ((cap t =? 0) || (length (cells t) <=? k)) then Ok nilv
      else match nth_error (cells t) k with
           | Some x => Ok (or_nil x)
           | None => Crash
           end
  end.

(** [StoreSelfIVarHeap] (compile_shared.rs:860-900) for self, [StoreIVarHeap]
    ([store_ivar_heap_inner], variables.rs:83-150) for other receivers. *)
Definition store_heap (ob : obj) (k : nat) (i : nat) (v : val) (checked : bool) : option obj :=
  match o_table ob with
  | None => if checked then Some (set_by_id ob i v) else None
  | Some t =>
      if checked && ((cap t =? 0) || (length (cells t) <=? k)) then Some (set_by_id ob i v)
      else if k <? length (cells t)
      then Some (o_set_table ob {| cap := cap t; cells := upd (cells t) k (Some v) |})
      else None
  end.

Definition frame_access (w : world) (f k : nat) : option (unit_ * nat * obj * string * nat) :=
  match nth_error (frames w) f with
  | Some (u, o) =>
      match nth_error (units w) u, nth_error (heap w) o with
      | Some un, Some ob =>
          match nth_error (u_ivars un) k with
          | Some (n, i) => Some (un, o, ob, n, i)
          | None => None
          end
      | _, _ => None
      end
  | None => None
  end.

(** The [k]-th access of frame [f], as a read. [LoadIVarInline]
    (compile_shared.rs:698-708). attr_reader on an always frozen class writes nil
    to rax and then takes r15 as the result (method_call.rs:1118-1143). *)
Definition frame_load (w : world) (f k : nat) : world * res :=
  match frame_access w f k with
  | None => (w, Done)
  | Some (un, o, ob, n, i) =>
      if u_always un && negb (u_self un) then (w, Ok (r15 w))
      else if inlined (u_object un) i then (w, Ok (or_nil (nth i (o_inline ob) None)))
      else (w, load_heap ob (spill_index (u_object un) i) (negb (u_self un)))
  end.

(** As a write, after the test of the frozen bit ([GuardFrozen]); a frozen object is
    left to interpreted code, which raises. That the test is left out where an
    earlier store in the same straight line passed it is not modelled. *)
Definition frame_store (w : world) (f k : nat) (v : val) : world * res :=
  match frame_access w f k with
  | None => (w, Done)
  | Some (un, o, ob, n, i) =>
      if o_frozen ob then (w, FrozenError)
      else if inlined (u_object un) i
      then (put w o (o_set_inline ob (upd (o_inline ob) i (Some v))), Ok v)
      else
        match store_heap ob (spill_index (u_object un) i) i v (negb (u_self un)) with
        | Some ob' => (put w o ob', Ok v)
        | None => (w, Crash)
        end
  end.

(** ** Classes and copies *)

(** [ClassInfo::new] as far as modelled (class.rs:458): no names. *)
Definition new_class (w : world) (object always sealed : bool) : world :=
  w_classes w (classes w ++ [{| c_names := []; c_single := false; c_real := length (classes w);
    c_object := object; c_always := always; c_sealed := sealed |}]).

(** [default_alloc_func] (class.rs:375-380) and [new_object_with_ivar_capacity]
    (rvalue.rs:1846-1856): the table gets room for the names known now, no cells.
    [call_alloc_func] (builtins/class.rs:365-373) refuses a singleton class. *)
Definition alloc (w : world) (c : nat) : world * res :=
  match nth_error (classes w) c with
  | None => (w, Done)
  | Some ci =>
      if c_single ci then (w, TypeError)
      else
      let spill := if c_object ci then length (c_names ci) - INLINE else 0 in
      (w_heap w (heap w ++ [{| o_class := c; o_object := c_object ci;
         o_inline := if c_object ci then repeat None INLINE else [];
         o_table := if spill =? 0 then None else Some (with_capacity spill);
         o_frozen := c_always ci |}]), Made (length (heap w)))
  end.

(** [get_singleton] (class.rs:962-1003), [new_singleton_class] (817-827),
    [ClassInfo::copy] (469-493): the singleton class begins with a copy of the
    names of the object's class. *)
Definition get_singleton (w : world) (o : nat) : world * res :=
  match nth_error (heap w) o with
  | None => (w, TypeError)
  | Some ob =>
      match nth_error (classes w) (o_class ob) with
      | None => (w, Done)
      | Some ci =>
          if c_single ci then (w, Done)
          else if c_sealed ci then (w, TypeError)
          else
            let w1 := w_classes w (classes w ++ [{| c_names := c_names ci; c_single := true;
                        c_real := o_class ob; c_object := c_object ci; c_always := false;
                        c_sealed := false |}]) in
            (put w1 o (o_set_class ob (length (classes w))), Done)
      end
  end.

(** [MonoVec::clone] (ivar_table.rs:131-139): [alloc] asserts that the capacity is
    not 0. *)
Definition clone_table (t : option table) : option (option table) :=
  match t with
  | None => Some None
  | Some x => if cap x =? 0 then None else Some (Some x)
  end.

Definition real_of (w : world) (c : nat) : nat :=
  match nth_error (classes w) c with Some ci => c_real ci | None => c end.
Definition always_of (w : world) (c : nat) : bool :=
  match nth_error (classes w) c with Some ci => c_always ci | None => false end.

(** [Kernel#dup] (builtins/kernel.rs:4836-4876, rvalue.rs:1538-1640) with the copy
    hooks that do nothing: the slots are copied, then the class becomes the real
    class. A packed value is its own copy. Instances of the always frozen classes
    are frozen whatever their bit says. *)
Definition dup (w : world) (o : nat) : world * res :=
  match nth_error (heap w) o with
  | None => (w, Done)
  | Some ob =>
      match clone_table (o_table ob) with
      | None => (w, Crash)
      | Some t =>
          let c := real_of w (o_class ob) in
          (w_heap w (heap w ++ [{| o_class := c; o_object := o_object ob; o_inline := o_inline ob;
             o_table := t; o_frozen := always_of w c |}]), Made (length (heap w)))
      end
  end.

(** [Kernel#clone] (kernel.rs:4904-4975) and [clone_singleton_class]
    (class.rs:1908-1918): if the receiver has a singleton class the copy is first
    given the real class and then a singleton class of its own, which begins with
    the names of the real class. [fz]: the argument of freeze:. *)
Definition clone_ (w : world) (o : nat) (fz : option bool) : world * res :=
  match nth_error (heap w) o with
  | None => (w, Done)
  | Some ob =>
      match clone_table (o_table ob) with
      | None => (w, Crash)
      | Some t =>
          let c := real_of w (o_class ob) in
          let k := length (heap w) in
          let frozen := match fz with Some b => b | None => o_frozen ob end in
          let w1 := w_heap w (heap w ++ [{| o_class := c; o_object := o_object ob;
                      o_inline := o_inline ob; o_table := t;
                      o_frozen := frozen || always_of w c |}]) in
          (if c =? o_class ob then w1 else fst (get_singleton w1 k), Made k)
      end
  end.

(** ** Histories *)

Inductive event :=
| NewClass (object always sealed : bool)
| New (c : nat)
| Get (o : nat) (n : string)                 (* instance_variable_get *)
| Defined (o : nat) (n : string)             (* instance_variable_defined?, defined?(@x) *)
| Set_ (o : nat) (n : string) (v : val)      (* instance_variable_set *)
| Remove (o : nat) (n : string)              (* remove_instance_variable *)
| List_ (o : nat)                            (* instance_variables *)
| NewSite (n : string)
| LoadSite (s o : nat)
| StoreSite (s o : nat) (v : val)
| Compile (c : nat) (self_ : bool) (l : list string)
| Enter (u o : nat)
| FrameLoad (f k : nat)
| FrameStore (f k : nat) (v : val)
| Singleton (o : nat)
| Dup (o : nat)
| Clone (o : nat) (fz : option bool)
| Freeze (o : nat)
| Scratch (v : val).                         (* r15 is used for something else *)

Definition step (w : world) (e : event) : world * res :=
  match e with
  | NewClass a b c => (new_class w a b c, Done)
  | New c => alloc w c
  | Get o n => (w, Ok (or_nil (get_ivar w o n)))
  | Defined o n => (w, Yes (match get_ivar w o n with Some _ => true | None => false end))
  | Set_ o n v => set_ivar w o n v
  | Remove o n => remove_ivar w o n
  | List_ o => (w, Names (get_ivars w o))
  | NewSite n => (w_sites w (sites w ++ [(n, None)]), Done)
  | LoadSite s o => load_site w s o
  | StoreSite s o v => store_site w s o v
  | Compile c b l => compile w c b l
  | Enter u o => enter w u o
  | FrameLoad f k => frame_load w f k
  | FrameStore f k v => frame_store w f k v
  | Singleton o => get_singleton w o
  | Dup o => dup w o
  | Clone o fz => clone_ w o fz
  | Freeze o =>
      match nth_error (heap w) o with
      | Some ob => (put w o (o_set_frozen ob true), Done)
      | None => (w, Done)
      end
  | Scratch v => ({| classes := classes w; heap := heap w; sites := sites w; units := units w;
                     frames := frames w; r15 := v |}, Done)
  end.

Fixpoint run (w : world) (es : list event) : list res :=
  match es with
  | [] => []
  | e :: t => snd (step w e) :: run (fst (step w e)) t
  end.

Definition start : world :=
  {| classes := []; heap := []; sites := []; units := []; frames := []; r15 := nilv |}.
