(** Array operations in compiled code.

    x86_64 (arch/x86_64/compile/index.rs and builtin.rs); the aarch64 back end
    emits the same steps.  The words of an Array object:
    [f_capa] is the length while the elements are in the object itself and the
    capacity of the heap buffer otherwise (more than 5 tells which), [f_len]
    the length in the heap case, [inl] the five words in the object, [hp] the
    buffer.  Words past the length hold anything. *)
From Coq Require Import ZArith List Bool.
From Verif Require Import ArrModel.
Import ListNotations.
Open Scope Z_scope.

Definition INLINE : Z := 5.

Section Jit.
Context {V : Type}.
Variable nil : V.

Record rep := { f_capa : Z; f_len : Z; inl : list V; hp : list V }.

(** value/rvalue/array.rs: the Array a Rust function sees *)
Definition abs (r : rep) : list V :=
  if INLINE <? f_capa r then tk (f_len r) (hp r) else tk (f_capa r) (inl r).

(** get_array_length (index.rs:206-213) *)
Definition jit_len (r : rep) : Z := if INLINE <? f_capa r then f_len r else f_capa r.

(** array_index (index.rs:16-48): the index is not negative *)
Definition array_index (r : rep) (i : Z) : option V :=
  if INLINE <? f_capa r
  then if f_len r <=? i then Some nil else at_ (hp r) i
  else if f_capa r <=? i then Some nil else at_ (inl r) i.

(** gen_array_index (index.rs:119-150).  [None] is a read outside the words
    of the object or the buffer. *)
Definition jit_read (r : rep) (i : Z) : option V :=
  if i <? 0 then
    let j := i + jit_len r in
    if j <? 0 then Some nil else array_index r j
  else array_index r i.

(** array_index_assign (index.rs:61-112): [inr] hands the index register to
    the Rust function *)
Definition array_index_assign (r : rep) (i : Z) (v : V) : option (rep + Z) :=
  if INLINE <? f_capa r then
    if f_len r <=? i then Some (inr i)
    else match put (hp r) i v with
         | Ok b => Some (Datatypes.inl {| f_capa := f_capa r; f_len := f_len r; inl := inl r; hp := b |})
         | _ => None
         end
  else
    if f_capa r <=? i then Some (inr i)
    else match put (inl r) i v with
         | Ok b => Some (Datatypes.inl {| f_capa := f_capa r; f_len := f_len r; inl := b; hp := hp r |})
         | _ => None
         end.

(** gen_array_index_assign (index.rs:156-196): on a negative index the length
    is added to the register, and a sum still negative goes to the same Rust
    function *)
Definition index_assign_regs (r : rep) (i : Z) (v : V) : option (rep + Z) :=
  if i <? 0 then
    let j := i + jit_len r in
    if j <? 0 then Some (inr j) else array_index_assign r j v
  else array_index_assign r i v.

(** state/index.rs:49-83 (no look at the frozen bit), compile_shared.rs:1805
    set_array_integer_index *)
Definition jit_store (fz : bool) (r : rep) (i : Z) (v : V) : option (res (list V)) :=
  match index_assign_regs r i v with
  | Some (Datatypes.inl r1) => Some (Ok (abs r1))
  | Some (inr k) => Some (set_index nil (abs r) k v)
  | None => None
  end.

(** builtins/array.rs:948-982 array_shl and builtin.rs:805-850 emit_array_shl.
    A frozen receiver leaves compiled code, and the builtin runs. *)
Definition shl_regs (r : rep) (v : V) : option (option rep) :=
  if INLINE <? f_capa r then
    if f_capa r <=? f_len r then Some None
    else match put (hp r) (f_len r) v with
         | Ok b => Some (Some {| f_capa := f_capa r; f_len := f_len r + 1; inl := inl r; hp := b |})
         | _ => None
         end
  else if f_capa r =? INLINE then Some None
  else match put (inl r) (f_capa r) v with
       | Ok b => Some (Some {| f_capa := f_capa r + 1; f_len := f_len r; inl := b; hp := hp r |})
       | _ => None
       end.
Definition jit_shl (fz : bool) (r : rep) (v : V) : option (res (list V)) :=
  if fz then Some (append fz (abs r) [v])
  else match shl_regs r v with
       | Some (Some r1) => Some (Ok (abs r1))
       | Some None => Some (push (abs r) v)
       | None => None
       end.

(** What the right-hand side register holds: the receiver itself, another
    Array, or anything else. *)
Inductive src := SSelf | SArr (q : rep) | SOther (h : @rhs V).
Definition src_rhs (x : src) : @rhs V :=
  match x with SSelf => HSelf | SArr q => HArr (abs q) | SOther h => h end.

(** The unrolled copy (builtin.rs:905-911): [len] reads from the source's
    words and writes into the receiver's. *)
Fixpoint copy_words (n : nat) (d s : list V) (start i : Z) : option (list V) :=
  match n with
  | O => Some d
  | S m =>
    match at_ s i with
    | None => None
    | Some w => match put d (start + i) w with
                | Ok d1 => copy_words m d1 s start (i + 1)
                | _ => None
                end
    end
  end.

(** builtins/array.rs:1443-1483 array_slice_assign, 1499-1532 set_array_slice
    (its length is the literal, never negative) and builtin.rs:866-945
    emit_array_slice_assign *)
Definition words (r : rep) : list V := if INLINE <? f_capa r then hp r else inl r.
Definition set_words (r : rep) (d : list V) : rep :=
  if INLINE <? f_capa r
  then {| f_capa := f_capa r; f_len := f_len r; inl := inl r; hp := d |}
  else {| f_capa := f_capa r; f_len := f_len r; inl := d; hp := hp r |}.
Definition jit_slice (fz : bool) (r : rep) (start len : Z) (x : src) : option (res (list V)) :=
  let slow := Some (slice_assign nil false (abs r) start len (src_rhs x)) in
  if fz then Some (slice_assign nil fz (abs r) start len (src_rhs x))
  else if start <? 0 then slow
  else match x with
       | SArr q =>
         if negb (jit_len q =? len) then slow
         else if jit_len r <? start + len then slow
         else match copy_words (Z.to_nat len) (words r) (words q) start 0 with
              | Some d => Some (Ok (abs (set_words r d)))
              | None => None
              end
       | _ => slow
       end.

(** builtins/array.rs:1003-1035 array_rotate_ with guard_frozen: the function
    ary_rotate_ (992-1001) is [rotate] *)
Definition jit_rotate (fz : bool) (r : rep) (i : Z) : res (list V) :=
  if fz then rotate_bang fz (abs r) i else rotate (abs r) i.

End Jit.
