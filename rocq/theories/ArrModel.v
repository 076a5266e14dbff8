(** Array: the element store and the builtins that index it.

    Modelled: monoruby/src/value/rvalue/array.rs (ArrayInner: set_index,
    set_index2, get_array_index, get_elem1, get_elem2, retain) and the index
    methods of monoruby/src/builtins/array.rs named at each definition.

    An array is the list of its elements.  Elements are an abstract type [V]
    with a distinguished [nil].  Integer arguments are the i64 that
    [coerce_to_int_i64] delivers, as [Z]; the conversion itself (to_int, the
    RangeError for what does not fit) is not modelled.  [usize] sums of two
    i64 cannot wrap, i64 sums can and are wrapped explicitly (release
    profile).  Element values that the code moves without looking at them are
    moved here too.  Bounds checks of slices are explicit: [Panic].  Growing
    past what [SmallVec] can address is [Panic] ([CAPA_MAX]); running out of
    memory below that is not modelled.  Exception messages are not modelled. *)
From Coq Require Import ZArith List Bool.
Import ListNotations.
Open Scope Z_scope.

Inductive aerr := EIndex | ERange | EArg | EType | EFrozen | EBlock.

Inductive res (A : Type) : Type :=
| Ok (a : A)
| Err (e : aerr)
| Panic.
Arguments Ok {A} _.
Arguments Err {A} _.
Arguments Panic {A}.

Definition bind {A B} (r : res A) (f : A -> res B) : res B :=
  match r with Ok a => f a | Err e => Err e | Panic => Panic end.
Notation "x <- e ;; f" := (bind e (fun x => f))
  (at level 61, e at next level, right associativity).

(** i64 arithmetic of the release profile. *)
Definition wrap64 (x : Z) : Z := (x + 2 ^ 63) mod 2 ^ 64 - 2 ^ 63.

(** [SmallVec::reserve] rounds the new length up to a power of two [c] and
    panics when [8 * c] exceeds [isize::MAX]; so the largest length is 2^59. *)
Definition CAPA_MAX : Z := 2 ^ 59.

(** [Vec] (used by [repeat]) panics above [isize::MAX / 8]. *)
Definition VEC_MAX : Z := 2 ^ 60 - 1.

Section Arr.
Context {V : Type}.
Variable nil : V.

Definition zlen (l : list V) : Z := Z.of_nat (length l).
Definition tk (n : Z) (l : list V) : list V := firstn (Z.to_nat n) l.
Definition dr (n : Z) (l : list V) : list V := skipn (Z.to_nat n) l.
Definition at_ (l : list V) (i : Z) : option V := nth_error l (Z.to_nat i).

(** [&self[a..b]] *)
Definition slice (l : list V) (a b : Z) : res (list V) :=
  if (b <? a) || (zlen l <? b) then Panic else Ok (tk (b - a) (dr a l)).

(** [SmallVec::resize] *)
Definition resize (l : list V) (n : Z) (v : V) : res (list V) :=
  if CAPA_MAX <? n then Panic
  else Ok (tk n l ++ repeat v (Z.to_nat (n - zlen l))).

Definition truncate (l : list V) (n : Z) : list V := tk n l.

(** [SmallVec::push] *)
Definition push (l : list V) (v : V) : res (list V) :=
  if CAPA_MAX <? zlen l + 1 then Panic else Ok (l ++ [v]).

(** [self[i] = v] *)
Definition put (l : list V) (i : Z) (v : V) : res (list V) :=
  if (i <? 0) || (zlen l <=? i) then Panic else Ok (tk i l ++ [v] ++ dr (i + 1) l).

(** [slice::copy_within(a..b, dst)] *)
Definition copy_within (l : list V) (a b dst : Z) : res (list V) :=
  if (b <? a) || (zlen l <? b) || (zlen l - (b - a) <? dst) then Panic
  else Ok (tk dst l ++ tk (b - a) (dr a l) ++ dr (dst + (b - a)) l).

(** [self[a..a + vs.len()].copy_from_slice(vs)] *)
Definition copy_from (l : list V) (a : Z) (vs : list V) : res (list V) :=
  if zlen l <? a + zlen vs then Panic
  else Ok (tk a l ++ vs ++ dr (a + zlen vs) l).

(** [SmallVec::insert_many] *)
Definition insert_many (l : list V) (i : Z) (vs : list V) : res (list V) :=
  if zlen l <? i then Panic
  else if CAPA_MAX <? zlen l + zlen vs then Panic
  else Ok (tk i l ++ vs ++ dr i l).

(** [SmallVec::drain(a..b)]: what is left and what was taken *)
Definition drain (l : list V) (a b : Z) : res (list V * list V) :=
  if (b <? a) || (zlen l <? b) then Panic
  else Ok (tk a l ++ dr b l, tk (b - a) (dr a l)).

(** [SmallVec::remove] *)
Definition remove (l : list V) (i : Z) : res (list V * V) :=
  match at_ l i with
  | Some v => if i <? 0 then Panic else Ok (tk i l ++ dr (i + 1) l, v)
  | None => Panic
  end.

(** What a method returns. *)
Inductive ret :=
| RV (v : V)
| RA (l : list V)
| RNil
| RSelf.

Definition ov (o : option V) : ret := match o with Some v => RV v | None => RNil end.

(** array.rs:383-397 get_array_index *)
Definition get_array_index (l : list V) (index : Z) : option Z :=
  if index <? 0 then
    let i := zlen l + index in
    if i <? 0 then None else Some i
  else Some index.

(** The right-hand side of an element assignment: the receiver itself,
    another Array, an object without [to_ary], or an object whose [to_ary]
    answered ([None]: nil). *)
Inductive rhs :=
| HSelf
| HArr (vs : list V)
| HVal (v : V)
| HConv (v : V) (r : option (list V)).

(** array.rs:317-335 set_index *)
Definition set_index (l : list V) (idx : Z) (src : V) : res (list V) :=
  if 0 <=? idx then
    if idx <? zlen l then put l idx src
    else l1 <- resize l idx nil ;; push l1 src
  else
    match get_array_index l idx with
    | Some i => put l i src
    | None => Err EIndex
    end.

(** array.rs:337-381 set_index2, the Array branch.  [vs] are the elements
    read through [ary_slice], which for the receiver itself is a copy. *)
Definition set_index2_ary (l : list V) (index length : Z) (vs : list V) : res (list V) :=
  let len := zlen l in
  let ary_len := zlen vs in
  l1 <- (if (len <=? index) || (len <? index + length) then
           resize l (index + ary_len) nil
         else if length <? ary_len then
           l' <- resize l (len + ary_len - length) nil ;;
           copy_within l' (index + length) len (index + ary_len)
         else
           l' <- copy_within l (index + length) len (index + ary_len) ;;
           resize l' (len + ary_len - length) nil) ;;
  copy_from l1 index vs.

(** array.rs:361-379 set_index2, the other branch *)
Definition set_index2_val (l : list V) (index length : Z) (v : V) : res (list V) :=
  let len := zlen l in
  l1 <- (if len <=? index then resize l (index + 1) nil
         else if length =? 0 then
           l' <- push l nil ;;
           copy_within l' index len (index + 1)
         else
           let e := index + length in
           if e <? len then
             l' <- copy_within l e len (index + 1) ;;
             Ok (truncate l' (len + 1 - length))
           else Ok (truncate l (index + 1))) ;;
  put l1 index v.

(** array.rs:337-381 set_index2: an object that is not an Array is stored
    as it is. *)
Definition set_index2 (l : list V) (index length : Z) (h : rhs) : res (list V) :=
  match h with
  | HSelf => set_index2_ary l index length l
  | HArr vs => set_index2_ary l index length vs
  | HVal v => set_index2_val l index length v
  | HConv v _ => set_index2_val l index length v
  end.

(** array.rs:399-429 get_elem2, after the coercions *)
Definition get_elem2 (l : list V) (index len : Z) : res ret :=
  match get_array_index l index with
  | None => Ok RNil
  | Some i =>
    if (len <? 0) || (zlen l <? i) then Ok RNil
    else if i =? zlen l then Ok (RA [])
    else vs <- slice l i (Z.min (zlen l) (i + len)) ;; Ok (RA vs)
  end.

(** A Range of integers or nil. *)
Record rng := { r_start : option Z; r_end : option Z; r_excl : bool }.

(** array.rs:437-476 get_elem1 with a Range *)
Definition get_range (l : list V) (r : rng) : res ret :=
  let len := zlen l in
  let i_start := match r_start r with
                 | None => 0
                 | Some i => if i <? 0 then len + i else i
                 end in
  if i_start <? 0 then Ok RNil
  else if len =? i_start then Ok (RA [])
  else if len <? i_start then Ok RNil
  else
    let e := match r_end r with
             | None => Some len
             | Some i_end =>
               if 0 <=? i_end then
                 let e := i_end + (if r_excl r then 0 else 1) in
                 Some (if len <? e then len else e)
               else
                 let e := len + i_end + (if r_excl r then 0 else 1) in
                 if e <? 0 then None else Some e
             end in
    match e with
    | None => Ok (RA [])
    | Some e => if e <=? i_start then Ok (RA [])
                else vs <- slice l i_start e ;; Ok (RA vs)
    end.

(** array.rs:477-483 get_elem1 with an Integer *)
Definition get_elem1 (l : list V) (index : Z) : res ret :=
  let i := match get_array_index l index with Some i => i | None => zlen l end in
  Ok (ov (at_ l i)).

(** [as_array_mut] / [ensure_not_frozen] *)
Definition guard {A} (fz : bool) (r : res A) : res A := if fz then Err EFrozen else r.

(** builtins/array.rs:1303-1389 index_assign, [self[nth] = v] *)
Definition index_assign (fz : bool) (l : list V) (i : Z) (v : V) : res (list V) :=
  guard fz (set_index l i v).

(** builtins/array.rs:1320-1356 index_assign, [self[range] = v] *)
Definition range_len (len start : Z) (r : rng) : Z :=
  match r_end r with
  | None => if start <=? len then len - start else 0
  | Some e =>
    let e := if e <? 0 then e + len else e in
    let e := if r_excl r then e else wrap64 (e + 1) in
    let d := wrap64 (e - start) in
    if d <? 0 then 0 else d
  end.

Definition range_assign (fz : bool) (l : list V) (r : rng) (h : rhs) : res (list V) :=
  guard fz (
    let s := match r_start r with
             | None => 0
             | Some s => if s <? 0 then s + zlen l else s
             end in
    if s <? 0 then Err ERange
    else set_index2 l s (range_len (zlen l) s r) h).

(** builtins/array.rs:1361-1388 index_assign, [self[start, len] = v]: here
    [to_ary] is called, and whatever it answers is what gets stored. *)
Definition conv_rhs (h : rhs) : rhs :=
  match h with
  | HConv _ (Some vs) => HArr vs
  | HConv _ None => HVal nil
  | h => h
  end.

Definition slice_assign (fz : bool) (l : list V) (i len : Z) (h : rhs) : res (list V) :=
  guard fz (
    if len <? 0 then Err EIndex
    else
      let i := if i <? 0 then i + zlen l else i in
      if i <? 0 then Err EIndex
      else set_index2 l i len (conv_rhs h)).

(** builtins/array.rs:2242-2258 first(n) *)
Definition first_n (l : list V) (n : Z) : res (list V) :=
  if n <? 0 then Err EArg
  else slice l 0 (if zlen l <? n then zlen l else n).

(** builtins/array.rs:2268-2284 last(n) *)
Definition last_n (l : list V) (n : Z) : res (list V) :=
  if n <? 0 then Err EArg
  else slice l (if zlen l <? n then 0 else zlen l - n) (zlen l).

(** builtins/array.rs:2331-2343 take(n); [dup] of the receiver is its
    elements *)
Definition take (l : list V) (n : Z) : res (list V) :=
  if n <? 0 then Err EArg
  else if zlen l <? n then Ok l else slice l 0 n.

(** builtins/array.rs:1767-1784 drop(n) *)
Definition drop (l : list V) (n : Z) : res (list V) :=
  if n <? 0 then Err EArg
  else if zlen l <=? n then Ok [] else slice l n (zlen l).

(** builtins/array.rs:2295-2323 fetch(nth): the element, or the default
    given by block or argument, or IndexError *)
Definition fetch (l : list V) (index : Z) (dflt : option V) : res V :=
  match match get_array_index l index with Some i => at_ l i | None => None end with
  | Some v => Ok v
  | None => match dflt with Some d => Ok d | None => Err EIndex end
  end.

(** builtins/array.rs:3616-3631 wrap_rotate_count; [Z.rem] truncates as Rust
    does, and the [expect] is the panic *)
Definition wrap_rotate_count (cnt len : Z) : res Z :=
  let c := if 0 <=? cnt then (if cnt <? len then cnt else Z.rem cnt len)
           else (if - len <? cnt then - cnt else - Z.rem cnt len) in
  if c <? 0 then Panic else Ok c.

(** [slice::rotate_left] / [rotate_right]: panic when the count exceeds the
    length *)
Definition rotate_left (l : list V) (k : Z) : res (list V) :=
  if zlen l <? k then Panic else Ok (dr k l ++ tk k l).
Definition rotate_right (l : list V) (k : Z) : res (list V) :=
  if zlen l <? k then Panic else Ok (dr (zlen l - k) l ++ tk (zlen l - k) l).

(** builtins/array.rs:3640-3655 rotate, 3583-3603 rotate! and 992-1001
    ary_rotate_ (the body compiled code calls) *)
Definition rotate (l : list V) (i : Z) : res (list V) :=
  let len := zlen l in
  if len =? 0 then Ok l
  else if 0 <? i then k <- wrap_rotate_count i len ;; rotate_left l k
  else k <- wrap_rotate_count i len ;; rotate_right l k.

Definition rotate_bang (fz : bool) (l : list V) (i : Z) : res (list V) :=
  guard fz (rotate l i).

(** builtins/array.rs:746-757, 801-810 mul with an Integer: [slice::repeat]
    panics when the capacity overflows *)
Fixpoint rep (n : nat) (l : list V) : list V :=
  match n with O => [] | S m => l ++ rep m l end.

Definition mul (l : list V) (n : Z) : res (list V) :=
  if n <? 0 then Err EArg
  else if VEC_MAX <? zlen l * n then Panic
  else Ok (rep (Z.to_nat n) l).

(** builtins/array.rs:1066-1085 pop *)
Definition pop (fz : bool) (l : list V) (n : option Z) : res (list V * ret) :=
  guard fz (
    match n with
    | None => Ok (tk (zlen l - 1) l, match l with [] => RNil | _ => ov (at_ l (zlen l - 1)) end)
    | Some n =>
      if n <? 0 then Err EArg
      else
        let start := if zlen l <=? n then 0 else zlen l - n in
        vs <- slice l start (zlen l) ;; Ok (truncate l start, RA vs)
    end).

(** builtins/array.rs:868-888 shift *)
Definition shift (fz : bool) (l : list V) (n : option Z) : res (list V * ret) :=
  guard fz (
    match n with
    | None =>
      match l with
      | [] => Ok (l, RNil)
      | v :: _ => p <- drain l 0 1 ;; Ok (fst p, RV v)
      end
    | Some n =>
      if n <? 0 then Err EArg
      else p <- drain l 0 (Z.min n (zlen l)) ;; Ok (fst p, RA (snd p))
    end).

(** builtins/array.rs:897-901 unshift, 1055-1059 push, 912-931 concat (the
    arguments already collected), 1558-1565 replace *)
Definition unshift (fz : bool) (l vs : list V) : res (list V) :=
  guard fz (insert_many l 0 vs).
Definition append (fz : bool) (l vs : list V) : res (list V) :=
  guard fz (if CAPA_MAX <? zlen l + zlen vs then Panic else Ok (l ++ vs)).
Definition replace (fz : bool) (l vs : list V) : res (list V) :=
  guard fz (if CAPA_MAX <? zlen vs then Panic else Ok ([] ++ vs)).

(** builtins/array.rs:4757-4781 insert(nth, *vals): nothing to insert returns
    before the index is looked at *)
Definition insert (fz : bool) (l : list V) (nth : Z) (vs : list V) : res (list V) :=
  guard fz (
    match vs with
    | [] => Ok l
    | _ =>
      let n := if nth <? 0 then nth + zlen l + 1 else nth in
      if n <? 0 then Err EIndex
      else
        l1 <- (if zlen l <=? n then resize l n nil else Ok l) ;;
        insert_many l1 n vs
    end).

(** builtins/array.rs:4681-4696 delete_at *)
Definition delete_at (fz : bool) (l : list V) (pos : Z) : res (list V * ret) :=
  guard fz (
    let p := if pos <? 0 then pos + zlen l else pos in
    if pos <? 0 then
      if p <? 0 then Ok (l, RNil)
      else q <- remove l p ;; Ok (fst q, RV (snd q))
    else if zlen l <=? pos then Ok (l, RNil)
    else q <- remove l p ;; Ok (fst q, RV (snd q))).

(** builtins/array.rs:4012-4026 slice_inner *)
Definition slice_inner (l : list V) (start len : Z) : res (list V * ret) :=
  if zlen l <? start then Ok (l, RNil)
  else if (zlen l <=? start) || (len =? 0) then Ok (l, RA [])
  else
    let e := if zlen l <? start + len then zlen l else start + len in
    p <- drain l start e ;; Ok (fst p, RA (snd p)).

(** builtins/array.rs:3959-3972 slice!(start, len) *)
Definition slice_bang2 (fz : bool) (l : list V) (start len : Z) : res (list V * ret) :=
  guard fz (
    match get_array_index l start with
    | None => Ok (l, RNil)
    | Some s => if len <? 0 then Ok (l, RNil) else slice_inner l s len
    end).

(** builtins/array.rs:3973-4000 slice!(range) *)
Definition slice_bang_range (fz : bool) (l : list V) (r : rng) : res (list V * ret) :=
  guard fz (
    match match r_start r with None => Some 0 | Some s => get_array_index l s end with
    | None => Ok (l, RNil)
    | Some start =>
      match match r_end r with
            | None => Some (Z.max 0 (zlen l - 1))
            | Some e => get_array_index l e
            end with
      | None => Ok (l, RA [])
      | Some e =>
        if e <? start then Ok (l, RA [])
        else
          let len := match r_end r with
                     | None => zlen l - start
                     | Some _ => e - start + (if r_excl r then 0 else 1)
                     end in
          slice_inner l start len
      end
    end).

(** builtins/array.rs:4001-4009 slice!(nth) *)
Definition slice_bang1 (fz : bool) (l : list V) (index : Z) : res (list V * ret) :=
  guard fz (
    match get_array_index l index with
    | Some i => if i <? zlen l
                then q <- remove l i ;; Ok (fst q, RV (snd q))
                else Ok (l, RNil)
    | None => Ok (l, RNil)
    end).

(** builtins/array.rs:1700-1708 fill_resize *)
Definition FILL_MAX : Z := 2 ^ 30.
Definition fill_resize (l : list V) (n : Z) : res (list V) :=
  if FILL_MAX <? n then Err EArg else resize l n nil.

(** [for i in a..b { ary[i] = v }] *)
Fixpoint put_from (n : nat) (l : list V) (i : Z) (v : V) : res (list V) :=
  match n with
  | O => Ok l
  | S m => l1 <- put l i v ;; put_from m l1 (i + 1) v
  end.
Definition put_range (l : list V) (a b : Z) (v : V) : res (list V) :=
  put_from (Z.to_nat (b - a)) l a v.

(** builtins/array.rs:1668-1688 fill(val, start, length) *)
Definition fill_len (fz : bool) (l : list V) (v : V) (start len : Z) : res (list V) :=
  guard fz (
    let s := if start <? 0 then Z.max 0 (zlen l + start) else start in
    if len <=? 0 then Ok l
    else
      let e := s + len in
      l1 <- (if zlen l <? e then fill_resize l e else Ok l) ;;
      put_range l1 s e v).

(** builtins/array.rs:1689-1694 fill(val, start) *)
Definition fill_from (fz : bool) (l : list V) (v : V) (start : Z) : res (list V) :=
  guard fz (
    let s := if start <? 0 then Z.max 0 (zlen l + start) else start in
    put_range l s (zlen l) v).

(** builtins/array.rs:1711-1757 fill_range_indices, 1646-1655 fill(val, range) *)
Definition fill_range_indices (l : list V) (r : rng) : res (Z * Z) :=
  let len := zlen l in
  let s0 := match r_start r with None => 0 | Some s => s end in
  let s := if s0 <? 0 then s0 + len else s0 in
  if s <? 0 then Err ERange
  else
    let e := match r_end r with
             | None => len
             | Some e => let e := if e <? 0 then e + len else e in
                         if r_excl r then e else wrap64 (e + 1)
             end in
    if e <? s then Ok (s, s) else Ok (s, e).

Definition fill_range (fz : bool) (l : list V) (v : V) (r : rng) : res (list V) :=
  guard fz (
    p <- fill_range_indices l r ;;
    l1 <- (if zlen l <? snd p then fill_resize l (snd p) else Ok l) ;;
    put_range l1 (fst p) (snd p) v).

(** builtins/array.rs:3537-3562 transpose, the rows already converted *)
Fixpoint trans_row (rows : list (list V)) (len i : Z) : res (list V) :=
  match rows with
  | [] => Ok []
  | row :: rest =>
    if negb (zlen row =? len) then Err EIndex
    else match at_ row i with
         | None => Panic
         | Some v => t <- trans_row rest len i ;; Ok (v :: t)
         end
  end.
Fixpoint trans_from (n : nat) (rows : list (list V)) (len i : Z) : res (list (list V)) :=
  match n with
  | O => Ok []
  | S m => t <- trans_row rows len i ;;
           ts <- trans_from m rows len (i + 1) ;; Ok (t :: ts)
  end.
Definition transpose (rows : list (list V)) : res (list (list V)) :=
  match rows with
  | [] => Ok []
  | r0 :: _ => trans_from (length r0) rows (zlen r0) 0
  end.

(** builtins/array.rs:3680-3690 the size check of product *)
Definition PRODUCT_MAX : Z := 1000000.
Fixpoint product_total (total : Z) (lists : list (list V)) : res Z :=
  match lists with
  | [] => Ok total
  | l :: rest =>
    let t := total * zlen l in
    if 2 ^ 64 <=? t then Err ERange
    else if PRODUCT_MAX <? t then Err ERange
    else product_total t rest
  end.

(** builtins/array.rs:3698-3723 product_inner: element [k].  [i] runs from
    the last array to the first, here over the reversed list. *)
Fixpoint product_at (rev_arrays : list (list V)) (k : Z) (acc : list V) : res (list V) :=
  match rev_arrays with
  | [] => Ok acc
  | a :: rest =>
    match at_ a (k mod zlen a) with
    | None => Panic
    | Some v => product_at rest (k / zlen a) (v :: acc)
    end
  end.
Fixpoint product_from (n : nat) (arrays : list (list V)) (k : Z) : res (list (list V)) :=
  match n with
  | O => Ok []
  | S m => t <- product_at (rev arrays) k [] ;;
           ts <- product_from m arrays (k + 1) ;; Ok (t :: ts)
  end.
Definition dims_product (arrays : list (list V)) : Z :=
  fold_left (fun p a => p * zlen a) arrays 1.
Definition product (lhs : list V) (lists : list (list V)) : res (list (list V)) :=
  _ <- product_total (zlen lhs) lists ;;
  let arrays := lhs :: lists in
  let total := if existsb (fun a => zlen a =? 0) arrays then 0 else dims_product arrays in
  product_from (Z.to_nat total) arrays 0.

(** array.rs:249-273 retain with a test that does not touch the array:
    [swap(i - del, i)], then [truncate] *)
Definition swap (l : list V) (a b : Z) : res (list V) :=
  match at_ l a, at_ l b with
  | Some x, Some y => l1 <- put l a y ;; put l1 b x
  | _, _ => Panic
  end.

Fixpoint retain_loop (n : nat) (keep : V -> bool) (l : list V) (i del : Z) (removed : option V)
  : res (list V * option V) :=
  match n with
  | O => if 0 <? del then Ok (truncate l (zlen l - del), removed) else Ok (l, removed)
  | S m =>
    match at_ l i with
    | None => Panic
    | Some v =>
      if negb (keep v) then retain_loop m keep l (i + 1) (del + 1) (Some v)
      else if 0 <? del then
        l1 <- swap l (i - del) i ;; retain_loop m keep l1 (i + 1) del removed
      else retain_loop m keep l (i + 1) del removed
    end
  end.
Definition retain (keep : V -> bool) (l : list V) : res (list V * option V) :=
  retain_loop (length l) keep l 0 0 None.

(** builtins/array.rs:4648-4672 delete(val) with an [==] that does not touch
    the array; 4242-4260 compact, compact! *)
Definition delete (fz : bool) (eq : V -> bool) (l : list V) : res (list V * ret) :=
  if existsb eq l then
    guard fz (p <- retain (fun v => negb (eq v)) l ;; Ok (fst p, ov (snd p)))
  else Ok (l, RNil).
Definition compact (is_nil : V -> bool) (l : list V) : res (list V) :=
  p <- retain (fun v => negb (is_nil v)) l ;; Ok (fst p).
Definition compact_bang (fz : bool) (is_nil : V -> bool) (l : list V) : res (list V * ret) :=
  guard fz (p <- retain (fun v => negb (is_nil v)) l ;;
            Ok (fst p, match snd p with Some _ => RSelf | None => RNil end)).

End Arr.

(** monoruby/builtins/array.rb:166-206 bsearch and 327-367 bsearch_index with
    a block answering true, false or nil ([find_min] mode): the number of
    turns is bounded by the fuel, here the size.  [f] is the block's answer
    for the element at an index. *)
Fixpoint bsearch_loop (n : nat) (f : Z -> bool) (low high : Z) : Z :=
  match n with
  | O => low
  | S m =>
    if low <? high then
      let mid := (low + high) / 2 in
      if f mid then bsearch_loop m f low mid
      else bsearch_loop m f (mid + 1) high
    else low
  end.
Definition bsearch {V : Type} (p : V -> bool) (l : list V) : option V :=
  let f i := match at_ l i with Some v => p v | None => false end in
  match l with
  | [] => None
  | _ => at_ l (bsearch_loop (S (length l)) f 0 (zlen l))
  end.
Definition bsearch_index {V : Type} (p : V -> bool) (l : list V) : option Z :=
  let f i := match at_ l i with Some v => p v | None => false end in
  match l with
  | [] => None
  | _ => let low := bsearch_loop (S (length l)) f 0 (zlen l) in
         if low <? zlen l then Some low else None
  end.

(** flatten.  Arrays live in a heap; an element is a leaf or a reference. *)
Inductive el := Leaf (z : Z) | Ref (a : nat).
Definition aheap := nat -> list el.

(** builtins/array.rs:4171-4201 flatten_inner.  [to_ary] of objects that are
    not Arrays is not modelled (they are leaves).  [seen] is the path of
    array ids; the result accumulates in order.  The first argument is fuel;
    [None] is its exhaustion. *)
Fixpoint flat_go (rec : nat -> option nat -> option (res (list el))) (lv : option nat)
  (vs : list el) : option (res (list el)) :=
  match vs with
  | [] => Some (Ok [])
  | v :: rest =>
    let one :=
      match lv, v with
      | Some O, _ => Some (Ok [v])
      | _, Leaf _ => Some (Ok [v])
      | Some (S k), Ref b => rec b (Some k)
      | None, Ref b => rec b None
      end in
    match one with
    | None => None
    | Some (Ok xs) =>
      match flat_go rec lv rest with
      | Some (Ok ys) => Some (Ok (xs ++ ys))
      | o => o
      end
    | o => o
    end
  end.
Fixpoint flatten_inner (n : nat) (h : aheap) (a : nat) (lv : option nat) (seen : list nat)
  : option (res (list el)) :=
  match n with
  | O => None
  | S m =>
    if existsb (Nat.eqb a) seen then Some (Err EArg)
    else flat_go (fun b k => flatten_inner m h b k (seen ++ [a])) lv (h a)
  end.

(** builtins/array.rs:4211-4229 flatten(lv): a negative level is none *)
Definition flatten (n : nat) (h : aheap) (a : nat) (lv : option Z) : option (res (list el)) :=
  flatten_inner n h a
    (match lv with Some i => if 0 <=? i then Some (Z.to_nat i) else None | None => None end) [].
