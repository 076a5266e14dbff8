(** Model of Ruby's Hash object.
    Source: /repo/monoruby/src/value/rvalue/hash.rs.

    - A key is an abstract value with three observations: [packed] (an
      immediate), [eql] ([Value::eql], value.rs:475-552) and [same] (same id).
      [hv]/[hi] are the digests by content and by id; [eql?]/[hash] are total
      and pure (user methods that raise or mutate the hash are not modelled).
    - The prehashed probes for packed and String keys (hash.rs:154-206) are the
      general probe with the same digest and the same equality.
    - The ruby2_keywords bit and the write barrier are left out.
    - [None] is a Rust panic; u8/u32 arithmetic wraps (release build; the
      workspace Cargo.toml sets no overflow checks). *)
From Coq Require Import ZArith List Bool Arith NArith.
From Verif Require Import MapSpec MapModel HashSpec.
Import ListNotations.

Section M.
Context {K V D : Type}.
Variables (packed : K -> bool) (eql same : K -> K -> bool) (hv hi : K -> Z).
Variable vis : Z -> Z -> bool.
Variable ins : list (Z * nat) -> Z * nat -> list (Z * nat).
Variable grow : nat -> nat.
Variable nilv : V.

(** hash.rs:1733-1764 [Equivalent] on [Option] keys: a dead key equals nothing. *)
Definition eqo (e : K -> K -> bool) (a b : option K) : bool :=
  match a, b with Some x, Some y => e x y | _, _ => false end.
Definition ho (h : K -> Z) (a : option K) : Z := match a with Some x => h x | None => 0%Z end.
Definition isdead (a : option K) : bool := match a with None => true | _ => false end.

Definition hmap := core (option K) V.
(** [RubyMap] operations in either key mode. *)
Definition keq (id : bool) : option K -> option K -> bool := eqo (mode eql same id).
Definition kh (id : bool) : option K -> Z := ho (if id then hi else hv).
Definition m_find (id : bool) (k : K) (m : hmap) : option nat :=
  get_index_of (keq id) vis (kh id (Some k)) (Some k) m.
Definition m_insert (id : bool) (k : K) (v : V) (m : hmap) : option hmap :=
  option_map fst (insert_full (keq id) vis ins grow (kh id (Some k)) (Some k) v m).
Definition m_remove (id : bool) (k : K) (m : hmap) : option (hmap * option V) :=
  option_map (fun r => (fst r, option_map (fun x => snd (snd x)) (snd r)))
    (shift_remove_full (keq id) vis (kh id (Some k)) (Some k) m).
Definition m_tomb (id : bool) (k : K) (m : hmap) : option (hmap * option V) :=
  option_map (fun r => (fst r, option_map (fun x => snd (snd x)) (snd r)))
    (tombstone_remove (keq id) vis ins grow (kh id (Some k)) (Some k) None nilv m).

(** hash.rs:20-62: the header byte.  Bits 4-5 count inline iterations, bit 6 is
    the inline identity mode; the representation bits are the constructor of
    [body].  [flags_of] reads the two fields off the byte. *)
Record flags := F { f_iter : nat; f_ident : bool }.
(** hash.rs:208-270 [HashBody], [BoxedHash]. *)
Inductive body :=
| Inl (ps : list (K * V))
| Box (id : bool) (m : hmap) (d : option D) (lev : N) (dead : nat).
Record hobj := Ob { fl : flags; bd : body }.

Definition INLINE_CAP : nat := 3.
Definition ITER_MAX : nat := 3.
Definition U32 : N := 4294967296%N.
(** hash.rs:318-327 [Default]. *)
Definition h_new : hobj := Ob (F 0 false) (Inl []).

(** hash.rs:857-863 [iter_active]. *)
Definition iter_active (h : hobj) : bool :=
  match bd h with Inl _ => negb (f_iter (fl h) =? 0) | Box _ _ _ lev _ => N.ltb 0 lev end.
(** hash.rs:757-765 [is_compare_by_identity]. *)
Definition is_ident (h : hobj) : bool :=
  match bd h with Inl _ => f_ident (fl h) | Box id _ _ _ _ => id end.

(** Position of [k] by id: hash.rs:659-691 [inline_pos_noobs]/[inline_pos]. *)
Fixpoint id_pos (k : K) (ps : list (K * V)) : option nat :=
  match ps with
  | [] => None
  | (k', _) :: ps' => if same k' k then Some 0 else option_map S (id_pos k ps')
  end.
Definition inline_pos (f : flags) (k : K) (ps : list (K * V)) : option nat :=
  if negb (f_ident f) && negb (packed k) then None else id_pos k ps.

(** hash.rs:698-718, 712-720 [len], [entry_count]. *)
Definition h_len (h : hobj) : nat :=
  match bd h with Inl ps => length ps | Box _ m _ _ dead => length (ents m) - dead end.
(** hash.rs:793-817 [get]. *)
Definition h_get (k : K) (h : hobj) : option V :=
  match bd h with
  | Inl ps => match inline_pos (fl h) k ps with
              | Some i => option_map snd (nth_error ps i) | None => None end
  | Box id m _ _ _ => match m_find id k m with
              | Some i => option_map bv (nth_error (ents m) i) | None => None end
  end.
(** hash.rs:819-844 [contains_key]. *)
Definition contains_key (k : K) (h : hobj) : bool :=
  match bd h with
  | Inl ps => match inline_pos (fl h) k ps with Some _ => true | None => false end
  | Box id m _ _ _ => match m_find id k m with Some _ => true | None => false end
  end.
(** The entries by position, dead ones included: hash.rs:722-755 [live_at],
    [entry_at], [entry_count]. *)
Definition raw (b : body) : list (option K * V) :=
  match b with
  | Inl ps => map (fun p => (Some (fst p), snd p)) ps
  | Box _ m _ _ _ => map kv (ents m)
  end.
(** hash.rs:1766-1796 [Iter]: skips dead entries. *)
Definition lives (r : list (option K * V)) : list (K * V) :=
  flat_map (fun p => match fst p with Some k => [(k, snd p)] | None => [] end) r.

(** hash.rs:880-910 [iter_incr]; the boolean is [real]. *)
Definition iter_incr (h : hobj) : hobj * bool :=
  match bd h with
  | Inl ps =>
      if f_iter (fl h) <? ITER_MAX then (Ob (F (S (f_iter (fl h))) (f_ident (fl h))) (bd h), true)
      else (h, false)
  | Box id m d lev dead => (Ob (fl h) (Box id m d (N.modulo (lev + 1) U32) dead), true)
  end.
(** hash.rs:912-935 [iter_decr].  On a zero inline depth, [depth - 1] is 255 and
    [255 << 4] is 0xF0: depth bits 3 and the identity bit become set. *)
Definition iter_decr (real : bool) (h : hobj) : hobj :=
  if negb real then h
  else match bd h with
  | Inl ps =>
      match f_iter (fl h) with
      | S n => Ob (F n (f_ident (fl h))) (bd h)
      | O => Ob (F 3 true) (bd h)
      end
  | Box id m d lev dead =>
      Ob (fl h) (Box id m d (if N.eqb lev 0 then U32 - 1 else lev - 1)%N dead)
  end.

(** The same two functions on the header byte itself (hash.rs:20-62, 880-935):
    [ITER_MASK] is 48, shift 4, u8 subtraction and shift wrap. *)
Definition flags_of (b : Z) : flags :=
  F (Z.to_nat (Z.shiftr (Z.land b 48) 4)) (Z.testbit b 6).
Definition byte_incr (b : Z) : Z * bool :=
  let depth := Z.shiftr (Z.land b 48) 4 in
  if (depth <? 3)%Z
  then (Z.lor (Z.land b (255 - 48)) (Z.land (Z.shiftl (depth + 1) 4) 255), true)
  else (b, false).
Definition byte_decr (b : Z) : Z :=
  let depth := Z.shiftr (Z.land b 48) 4 in
  Z.lor (Z.land b (255 - 48)) (Z.land (Z.shiftl ((depth - 1) mod 256) 4) 255).

(** hash.rs:1227-1259 [promote]. *)
Fixpoint m_insert_all (id : bool) (ps : list (K * V)) (m : hmap) : option hmap :=
  match ps with
  | [] => Some m
  | (k, v) :: ps' => match m_insert id k v m with Some m' => m_insert_all id ps' m' | None => None end
  end.
Definition promote (id : bool) (ps : list (K * V)) (f : flags) : option hobj :=
  match m_insert_all id ps c_new with
  | Some m => Some (Ob (F 0 false) (Box id m None (N.of_nat (f_iter f)) 0))
  | None => None
  end.

(** hash.rs:1337-1358 [compact_if_dirty]. *)
Definition compact_if_dirty (h : hobj) : option hobj :=
  match bd h with
  | Inl _ => Some h
  | Box id m d lev dead =>
      if dead =? 0 then Some h
      else match compact ins grow isdead m with
           | Some m' => Some (Ob (fl h) (Box id m' d lev 0))
           | None => None
           end
  end.

(** The part of [insert] after the checks. *)
Definition set_nth (i : nat) (v : V) (ps : list (K * V)) : list (K * V) :=
  match nth_error ps i with
  | Some p => firstn i ps ++ (fst p, v) :: skipn (S i) ps
  | None => ps
  end.
Definition box_insert (k : K) (v : V) (h : hobj) : option hobj :=
  match bd h with
  | Inl _ => None
  | Box id m d lev dead =>
      match m_insert id k v m with
      | Some m' => Some (Ob (fl h) (Box id m' d lev dead)) | None => None end
  end.
Definition insert_body (k : K) (v : V) (h : hobj) : option hobj :=
  match bd h with
  | Inl ps =>
      match inline_pos (fl h) k ps with
      | Some i => Some (Ob (fl h) (Inl (set_nth i v ps)))
      | None =>
          if (f_ident (fl h) || packed k) && (length ps <? INLINE_CAP)
          then Some (Ob (fl h) (Inl (ps ++ [(k, v)])))
          else match promote (f_ident (fl h)) ps (fl h) with
               | Some h' => box_insert k v h'
               | None => None
               end
      end
  | Box _ _ _ _ _ => box_insert k v h
  end.
(** hash.rs:1261-1335 [insert]; the boolean is "raised". *)
Definition insert (k : K) (v : V) (h : hobj) : option (hobj * bool) :=
  match (if iter_active h then Some h else compact_if_dirty h) with
  | None => None
  | Some h =>
      if iter_active h && negb (contains_key k h) then Some (h, true)
      else option_map (fun h' => (h', false)) (insert_body k v h)
  end.

(** hash.rs:1440-1457 [inline_remove_at]. *)
Definition inline_remove_at (i : nat) (ps : list (K * V)) : list (K * V) := firstn i ps ++ skipn (S i) ps.

Definition boxed (h : hobj) : option hobj :=
  match bd h with Inl ps => promote (f_ident (fl h)) ps (fl h) | _ => Some h end.

(** hash.rs:1360-1410 [remove]. *)
Definition remove (k : K) (h : hobj) : option (hobj * option V) :=
  if iter_active h then
    match boxed h with
    | Some (Ob f (Box id m d lev dead)) =>
        match m_tomb id k m with
        | Some (m', Some v) => Some (Ob f (Box id m' d lev (S dead)), Some v)
        | Some (m', None) => Some (Ob f (Box id m' d lev dead), None)
        | None => None
        end
    | _ => None
    end
  else match bd h with
  | Inl ps =>
      match inline_pos (fl h) k ps with
      | Some i => Some (Ob (fl h) (Inl (inline_remove_at i ps)), option_map snd (nth_error ps i))
      | None => Some (h, None)
      end
  | Box _ _ _ _ _ =>
      match compact_if_dirty h with
      | Some (Ob f (Box id m d lev dead)) =>
          match m_remove id k m with
          | Some (m', r) => Some (Ob f (Box id m' d lev dead), r)
          | None => None
          end
      | _ => None
      end
  end.

(** hash.rs:1459-1496 [clear]; the boolean is "raised". *)
Definition h_clear (h : hobj) : hobj * bool :=
  if iter_active h then (h, true)
  else match bd h with
  | Inl _ => (Ob (fl h) (Inl []), false)
  | Box id m (Some d) lev _ => (Ob (fl h) (Box id (clear m) (Some d) lev 0), false)
  | Box id m None _ _ =>
      (Ob (F (f_iter (fl h)) (if id then true else f_ident (fl h))) (Inl []), false)
  end.

(** Index of the first live entry. *)
Fixpoint first_live (r : list (option K * V)) : option nat :=
  match r with
  | [] => None
  | (Some _, _) :: _ => Some 0
  | (None, _) :: r' => option_map S (first_live r')
  end.
Definition strip (x : option (option K * V)) : option (K * V) :=
  match x with Some (Some k, v) => Some (k, v) | _ => None end.

(** hash.rs:1498-1556 [shift]. *)
Definition h_shift (h : hobj) : option (hobj * option (K * V)) :=
  if h_len h =? 0 then Some (h, None)
  else if iter_active h then
    match boxed h with
    | Some (Ob f (Box id m d lev dead)) =>
        match first_live (raw (Box id m d lev dead)) with
        | None => None                                    (* expect *)
        | Some i =>
            match tombstone_index vis ins grow i None nilv m with
            | Some (m', Some (Some k, v)) => Some (Ob f (Box id m' d lev (S dead)), Some (k, v))
            | _ => None
            end
        end
    | _ => None
    end
  else match bd h with
  | Inl ps =>
      match ps with
      | [] => Some (h, None)
      | p :: _ => Some (Ob (fl h) (Inl (inline_remove_at 0 ps)), Some p)
      end
  | Box _ _ _ _ _ =>
      match compact_if_dirty h with
      | Some (Ob f (Box id m d lev dead)) =>
          match shift_remove_index vis 0 m with
          | Some (m', Some (Some k, v)) => Some (Ob f (Box id m' d lev dead), Some (k, v))
          | Some (m', None) => Some (Ob f (Box id m' d lev dead), None)
          | _ => None
          end
      | _ => None
      end
  end.

(** hash.rs:1558-1598 [set_defalut_value]/[set_defalut_proc]; [None] is nil. *)
Definition set_default (d : option D) (h : hobj) : option hobj :=
  match d with
  | None => Some match bd h with
                 | Inl _ => h
                 | Box id m _ lev dead => Ob (fl h) (Box id m None lev dead)
                 end
  | Some _ =>
      match boxed h with
      | Some (Ob f (Box id m _ lev dead)) => Some (Ob f (Box id m d lev dead))
      | _ => None
      end
  end.
(** hash.rs:745-751 [default_ref]. *)
Definition get_default (h : hobj) : option D :=
  match bd h with Inl _ => None | Box _ _ d _ _ => d end.

(** hash.rs:1610-1633 [compare_by_identity]; the boolean is "raised". *)
Definition by_identity (h : hobj) : option (hobj * bool) :=
  if iter_active h then Some (h, true)
  else match compact_if_dirty h with
  | None => None
  | Some (Ob f (Inl ps)) => Some (Ob (F (f_iter f) true) (Inl ps), false)
  | Some (Ob f (Box true m d lev dead)) => Some (Ob f (Box true m d lev dead), false)
  | Some (Ob f (Box false m d lev dead)) =>
      match m_insert_all true (lives (map kv (ents m))) c_new with
      | Some m' => Some (Ob f (Box true m' d lev dead), false)
      | None => None
      end
  end.

(** hash.rs:151-153, 937-975 [clone_inner]. *)
Definition h_dup (h : hobj) : option hobj :=
  match bd h with
  | Inl ps => Some (Ob (F 0 (f_ident (fl h))) (Inl ps))
  | Box id m d lev dead =>
      if dead =? 0 then Some (Ob (F 0 (f_ident (fl h))) (Box id m d 0%N 0))
      else match compact ins grow isdead m with
           | Some m' => Some (Ob (F 0 (f_ident (fl h))) (Box id m' d 0%N 0))
           | None => None
           end
  end.

(** hash.rs:2029-2041 [replace_inner] (builtins/hash.rs:1684-1691 calls it with
    no check for a running iteration): the iteration bits of the receiver stay. *)
Definition replace_inner (h src : hobj) : hobj :=
  Ob (F (f_iter (fl h)) (f_ident (fl src))) (bd src).
(** The argument of Hash#replace: a hash literal, possibly by identity. *)
Fixpoint insert_all (l : list (K * V)) (h : hobj) : option hobj :=
  match l with
  | [] => Some h
  | (k, v) :: l' => match insert k v h with Some (h', false) => insert_all l' h' | _ => None end
  end.
Definition build (l : list (K * V)) (id : bool) : option hobj :=
  match (if id then by_identity h_new else Some (h_new, false)) with
  | Some (h, _) => insert_all l h
  | None => None
  end.

(** builtins/hash.rb:26-45 [each]: advance from position [i] to the next live
    entry; returns the new position. *)
Definition walk (i : nat) (r : list (option K * V)) : nat * option (K * V) :=
  match first_live (skipn i r) with
  | Some j => (S (i + j), strip (nth_error r (i + j)))
  | None => (Nat.max i (length r), None)
  end.

(** A history: the object plus, for each active iteration (newest first), the
    [guard] kept by [each] and its position. *)
Definition mstate := (hobj * list (bool * nat))%type.

Definition hstep (o : hop K V D) (s : mstate) : option (mstate * hres K V D) :=
  let (h, cs) := s in
  match o with
  | Fetch k => Some (s, RVal (h_get k h))
  | HasKey k => Some (s, RBool (contains_key k h))
  | Store k v => option_map (fun r : hobj * bool => ((fst r, cs), if snd r then RRaise else RUnit)) (insert k v h)
  | Delete k => option_map (fun r => ((fst r, cs), RVal (snd r))) (remove k h)
  | Shift => option_map (fun r => ((fst r, cs), RPair (snd r))) (h_shift h)
  | Clear => let r := h_clear h in Some ((fst r, cs), if snd r then RRaise else RUnit)
  | ById => option_map (fun r : hobj * bool => ((fst r, cs), if snd r then RRaise else RUnit)) (by_identity h)
  | SetDefault d => option_map (fun h' => ((h', cs), RUnit)) (set_default d h)
  | GetDefault => Some (s, RDef (get_default h))
  | IsById => Some (s, RBool (is_ident h))
  | Size => Some (s, RNat (h_len h))
  | ToA => Some (s, RList (lives (raw (bd h))))
  | Begin => let (h', real) := iter_incr h in Some ((h', (real, 0) :: cs), RUnit)
  | Next i =>
      match nth_error cs i with
      | Some (real, p) =>
          let (p', x) := walk p (raw (bd h)) in Some ((h, replace_at i (real, p') cs), RPair x)
      | None => Some (s, RPair None)
      end
  | End i =>
      match nth_error cs i with
      | Some (real, _) => Some ((iter_decr real h, remove_at i cs), RUnit)
      | None => Some (s, RUnit)
      end
  | Dup => option_map (fun h' => ((h', []), RUnit)) (h_dup h)
  | ReplaceWith l id =>
      match build l id with
      | Some src => option_map (fun c => ((replace_inner h c, cs), RUnit)) (h_dup src)
      | None => None
      end
  end.

Fixpoint hrun (os : list (hop K V D)) (s : mstate) : option (mstate * list (hres K V D)) :=
  match os with
  | [] => Some (s, [])
  | o :: os' =>
      match hstep o s with
      | None => None
      | Some (s1, x) => match hrun os' s1 with
                        | None => None
                        | Some (s2, xs) => Some (s2, x :: xs)
                        end
      end
  end.
End M.
Arguments hobj : clear implicits. Arguments body : clear implicits.
Arguments mstate : clear implicits.
Arguments Ob {K V D}. Arguments Inl {K V D}. Arguments Box {K V D}. Arguments fl {K V D}. Arguments bd {K V D}.
Arguments h_new {K V D}.
