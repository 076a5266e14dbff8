(** Which strings share a byte buffer.  monoruby/src/value/rvalue/string.rs:671-806,
    1295-1370, 2427-2600.  Objects and heap buffers have addresses that are not reused here;
    [None] is freed memory.  Encodings and classifications are in [StrModel].
    A name of the program (a variable, a stack slot) holds an object; [env] lists them. *)
From Coq Require Import ZArith List Bool Arith.
Import ListNotations.

(** 715-742 [StringContent]: bytes in the object, a heap buffer of its own, or a view of
    [len] bytes at [off] in the buffer [a], which belongs to the object [root]. *)
Inductive cont := Inl (b : list Z) | Heap (a : nat) | View (root a off len : nat).
Record obj := mkO { o_c : cont; o_f : bool }.
Record mem := mkM { objs : nat -> option obj; nobj : nat; bufs : nat -> option (list Z); nbuf : nat;
                    env : list (option nat) }.
Definition empty_mem : mem := mkM (fun _ => None) 0 (fun _ => None) 0 [].
Definition upd {A} (f : nat -> A) (i : nat) (v : A) : nat -> A := fun j => if j =? i then v else f j.

(** lib.rs:92 [STRING_INLINE_CAP]. *)
Definition cap : nat := 32.

Definition part (b : list Z) (off len : nat) : list Z := firstn len (skipn off b).
(** 731-743 [as_slice]: through the pointer, whoever owns it. *)
Definition read (m : mem) (c : cont) : option (list Z) :=
  match c with
  | Inl b => Some b
  | Heap a => bufs m a
  | View _ a off len =>
      match bufs m a with Some b => if off + len <=? length b then Some (part b off len) else None | None => None end
  end.

Definition set_obj (m : mem) (i : nat) (o : obj) : mem := mkM (upd (objs m) i (Some o)) (nobj m) (bufs m) (nbuf m) (env m).
Definition set_buf (m : mem) (a : nat) (b : option (list Z)) : mem := mkM (objs m) (nobj m) (upd (bufs m) a b) (nbuf m) (env m).
Definition new_obj (m : mem) (o : obj) : mem * nat :=
  (mkM (upd (objs m) (nobj m) (Some o)) (S (nobj m)) (bufs m) (nbuf m) (env m), nobj m).
Definition new_buf (m : mem) (b : list Z) : mem * nat :=
  (mkM (objs m) (nobj m) (upd (bufs m) (nbuf m) (Some b)) (S (nbuf m)) (env m), nbuf m).
Definition bind (m : mem) (i : nat) : mem := mkM (objs m) (nobj m) (bufs m) (nbuf m) (env m ++ [Some i]).

(** [SmallVec::from_slice]; [spill]: with a capacity that does not fit the object. *)
Definition from_slice (m : mem) (b : list Z) (spill : bool) : mem * cont :=
  if (length b <=? cap) && negb spill then (m, Inl b) else let '(m', a) := new_buf m b in (m', Heap a).
(** 775-785 [drop] of the old content. *)
Definition drop (m : mem) (c : cont) : mem := match c with Heap a => set_buf m a None | _ => m end.

(** How a mutation leaves the buffer: changed in place, moved, or built anew. *)
Inductive how := InPlace | Moved | Fresh (spill : bool).
(** 1336-1370 [owned_mut], [uniquify], and what mutators do with the buffer they get. *)
Definition write (m : mem) (i : nat) (f : list Z -> list Z) (h : how) : option mem :=
  match objs m i with
  | None => None
  | Some o =>
      match read m (o_c o) with
      | None => None
      | Some b =>
          let '(m1, c1) := match o_c o with View _ _ _ _ => from_slice m b false | c => (m, c) end in
          let b' := f b in
          let '(m2, c2) :=
            match h, c1 with
            | InPlace, Heap a => (set_buf m1 a (Some b'), Heap a)
            | InPlace, _ => from_slice m1 b' false
            | Moved, _ => let '(m', a) := new_buf (drop m1 c1) b' in (m', Heap a)
            | Fresh sp, _ => from_slice (drop m1 c1) b' sp
            end in
          Some (set_obj m2 i (mkO c2 (o_f o)))
      end
  end.
(** 787-806 [clone]. *)
Definition clone (m : mem) (c : cont) : option (mem * cont) :=
  match c with
  | View _ _ _ _ => Some (m, c)
  | _ => match read m c with Some b => Some (from_slice m b false) | None => None end
  end.
(** 2550-2600 [ensure_shared_root] for spilled or shared strings: the root, the buffer and
    the place of the parent's first byte. *)
Definition ensure_root (m : mem) (i : nat) (o : obj) : option (mem * nat * nat * nat) :=
  match o_c o with
  | View r a off _ => Some (m, r, a, off)
  | Heap a =>
      if o_f o then Some (m, i, a, 0)
      else match bufs m a with
           | None => None
           | Some b =>
               let '(m1, r) := new_obj (set_obj m i (mkO (Inl []) false)) (mkO (Heap a) true) in
               Some (set_obj m1 i (mkO (View r a 0 (length b)) false), r, a, 0)
           end
  | Inl _ => None
  end.
(** 2438-2463 [string_substring]: a new object. *)
Definition substring (m : mem) (i s e : nat) : option (mem * nat) :=
  match objs m i with
  | None => None
  | Some o =>
      let shareable := match o_c o with Inl _ => false | _ => true end in
      if (cap <? e - s) && shareable then
        match ensure_root m i o with
        | Some (m1, r, a, off) => Some (new_obj m1 (mkO (View r a (off + s) (e - s)) false))
        | None => None
        end
      else match read m (o_c o) with
           | Some b => let '(m1, c) := from_slice m (part b s (e - s)) false in Some (new_obj m1 (mkO c false))
           | None => None
           end
  end.
Definition set_frozen (m : mem) (i : nat) : mem :=
  match objs m i with Some o => set_obj m i (mkO (o_c o) true) | None => m end.
(** 2473-2503 [string_snapshot]. *)
Definition snapshot (m : mem) (i : nat) : option (mem * nat) :=
  match objs m i with
  | None => None
  | Some o =>
      if o_f o then Some (m, i)
      else match o_c o with
           | Inl b => Some (new_obj m (mkO (Inl b) true))
           | _ =>
               match read m (o_c o), ensure_root m i o with
               | Some b, Some (m1, r, a, off) =>
                   match objs m1 r with
                   | None => None
                   | Some ro =>
                       match read m1 (o_c ro) with
                       | None => None
                       | Some rb =>
                           if (off =? 0) && (length b =? length rb) then Some (m1, r)
                           else match substring m1 r off (off + length b) with
                                | Some (m2, k) => Some (set_frozen m2 k, k)
                                | None => None
                                end
                       end
                   end
               | _, _ => None
               end
           end
  end.
(** The collector: names not in [keep] are dead; alloc.rs and rvalue.rs:1030 mark a string
    and its root; objects without a mark are freed with their buffers. *)
Fixpoint drop_names (n : nat) (l : list (option nat)) (keep : list nat) : list (option nat) :=
  match l with
  | [] => []
  | e :: r => (if existsb (Nat.eqb n) keep then e else None) :: drop_names (S n) r keep
  end.
Definition marked (m : mem) (l : list (option nat)) (i : nat) : bool :=
  existsb (fun e => match e with
                    | Some j => (i =? j) || match objs m j with Some (mkO (View r _ _ _) _) => i =? r | _ => false end
                    | None => false end) l.
Definition owns (m : mem) (a i : nat) : bool := match objs m i with Some (mkO (Heap a') _) => a =? a' | _ => false end.
Definition gc (m : mem) (keep : list nat) : mem :=
  let l := drop_names 0 (env m) keep in
  mkM (fun i => if marked m l i then objs m i else None) (nobj m)
      (fun a => if existsb (fun i => negb (marked m l i) && owns m a i) (seq 0 (nobj m)) then None else bufs m a) (nbuf m) l.

(** The operations of a program.  [OShare]: 2541-2548, value.rs:869-880 (a literal evaluated).
    [OReplace]: builtins/string.rs:7331-7341.  [ORead]: an assignment of a new content without
    asking whether the string is frozen: builtins/io.rs:3836, 3918-3984, 4072-4081 (sysread,
    readpartial, pread, read_nonblock with a buffer), socket.rs:1145-1155; also the second
    half of [replace] when the conversion of its argument has run.  [OCall]: builtins/fiddle.rs:
    179-191 with string.rs:1969-1981 (the string is an argument of a C function that only
    reads it; [grow]: there was no room for the final NUL). *)
Inductive op :=
| ONew (b : list Z) (spill : bool) | OSub (n s e : nat) | OSnap (n : nat) | ODup (n : nat) (frozen : bool)
| OShare (n : nat) | OMut (n : nat) (f : list Z -> list Z) (h : how) | OReplace (n k : nat) | OFreeze (n : nat)
| OGc (keep : list nat) | ORead (n : nat) (b : list Z) | OCall (n : nat) (grow : bool).

Definition name (m : mem) (n : nat) : option nat := nth n (env m) None.
Definition bind_res (r : option (mem * nat)) : option mem := match r with Some (m, i) => Some (bind m i) | None => None end.
Definition frozen (m : mem) (i : nat) : bool := match objs m i with Some o => o_f o | None => true end.
Definition assign (m : mem) (i : nat) (c : cont) : option mem :=
  match objs m i with Some o => Some (set_obj (drop m (o_c o)) i (mkO c (o_f o))) | None => None end.

(** One operation; [None]: freed memory was used.  Dead names and refused operations change
    nothing. *)
Definition step (m : mem) (o : op) : option mem :=
  match o with
  | ONew b sp => let '(m1, c) := from_slice m b sp in bind_res (Some (new_obj m1 (mkO c false)))
  | OSub n s e =>
      match name m n with
      | None => Some m
      | Some i =>
          match objs m i with
          | None => None
          | Some o => match read m (o_c o) with
                      | None => None
                      | Some b => if (s <=? e) && (e <=? length b) then bind_res (substring m i s e) else Some m
                      end
          end
      end
  | OSnap n => match name m n with None => Some m | Some i => bind_res (snapshot m i) end
  | ODup n fr =>
      match name m n with
      | None => Some m
      | Some i => match objs m i with
                  | None => None
                  | Some o => match clone m (o_c o) with
                              | Some (m1, c) => bind_res (Some (new_obj m1 (mkO c fr)))
                              | None => None
                              end
                  end
      end
  | OShare n =>
      match name m n with
      | None => Some m
      | Some i => match objs m i with
                  | None => None
                  | Some o => match o_c o with
                              | Inl _ => Some m
                              | _ => match ensure_root m i o with Some (m1, _, _, _) => Some m1 | None => None end
                              end
                  end
      end
  | OMut n f h => match name m n with None => Some m | Some i => if frozen m i then Some m else write m i f h end
  | OReplace n k =>
      match name m n, name m k with
      | Some i, Some j =>
          if frozen m i then Some m
          else match objs m j with
               | None => None
               | Some o => match clone m (o_c o) with Some (m1, c) => assign m1 i c | None => None end
               end
      | _, _ => Some m
      end
  | OFreeze n => match name m n with None => Some m | Some i => Some (set_frozen m i) end
  | OGc keep => Some (gc m keep)
  | ORead n b =>
      match name m n with
      | None => Some m
      | Some i => let '(m1, c) := from_slice m b false in assign m1 i c
      end
  | OCall n grow => match name m n with None => Some m | Some i => write m i (fun b => b) (if grow then Moved else InPlace) end
  end.
Fixpoint run (m : mem) (l : list op) : option mem :=
  match l with [] => Some m | o :: r => match step m o with Some m' => run m' r | None => None end end.

(** What the program sees under each name: [None] for bytes in freed memory. *)
Definition look (m : mem) (e : option nat) : option (option (list Z * bool)) :=
  match e with
  | None => Some None
  | Some i => match objs m i with
              | Some o => match read m (o_c o) with Some b => Some (Some (b, o_f o)) | None => None end
              | None => None
              end
  end.
Definition seen (m : mem) : list (option (option (list Z * bool))) := map (look m) (env m).

(** builtins/string.rs:4128-4150 [append_as_bytes], string.rs:2203-2206, with the receiver as
    its argument: the slice of the argument is taken before the buffer grows.  A string inside
    the object moves out when the result does not fit, and its bytes are overwritten. *)
Definition append_self (m : mem) (i : nat) (grow : bool) : option (list Z) :=
  match objs m i with
  | Some (mkO c _) =>
      match read m c with
      | Some b =>
          match c with
          | Inl _ => if cap <? length b + length b then None else Some (b ++ b)
          | Heap a => match bufs (if grow then fst (new_buf (set_buf m a None) b) else m) a with
                      | Some b2 => Some (b ++ b2)
                      | None => None
                      end
          | View _ _ _ _ => Some (b ++ b)
          end
      | None => None
      end
  | None => None
  end.
