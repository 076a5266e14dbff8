(** Model of the insertion-ordered hash map behind Ruby's Hash.
    Source: /repo/rubymap/src/map/core.rs ([IndexMapCore]).

    - hashbrown's [HashTable<usize>] is a list of (hash, index) items in an
      arbitrary order ([ins] decides where a new item lands) plus a capacity;
      probing for hash [h] visits, in that order, the items whose hash [h']
      satisfies [vis h h'] (all items with the same hash, and possibly others:
      hashbrown only compares a 7-bit tag before calling the predicate).
    - [eql?] on keys is a total pure function [eqk]; errors raised by user
      code and mutation from inside [eql?] are not modelled.
    - panics ([expect], [assert!], slice indexing) are [None]. *)
From Coq Require Import ZArith List Bool Arith.
From Verif Require Import MapSpec.
Import ListNotations.

Section M.
Context {K V : Type}.
Variable eqk : K -> K -> bool.          (* Q::equivalent(key, stored) *)
Variable vis : Z -> Z -> bool.          (* probe hash, stored hash *)
Variable ins : list (Z * nat) -> Z * nat -> list (Z * nat).
Variable grow : nat -> nat.             (* capacity chosen when >= n is needed *)

(** core.rs [Bucket]. *)
Record bucket := B { bh : Z; bk : K; bv : V }.
Record table := T { items : list (Z * nat); tcap : nat }.
(** core.rs:25-50. *)
Record core := C { linear : bool; tbl : table; ents : list bucket }.

Definition AR_MAX : nat := 8.           (* core.rs:193 *)
Definition t_new : table := T [] 0.
Definition t_with_capacity (n : nat) : table := T [] (grow n).
Definition t_len (t : table) : nat := length (items t).

(** [HashTable::find]: first visited item accepted by the predicate. *)
Definition t_find (h : Z) (p : nat -> bool) (t : table) : option nat :=
  option_map snd (find (fun x => vis h (fst x) && p (snd x)) (items t)).

(** Split a list around the first element satisfying [q]. *)
Fixpoint split_first {A} (q : A -> bool) (l : list A) : option (list A * A * list A) :=
  match l with
  | [] => None
  | x :: l' => if q x then Some ([], x, l')
               else match split_first q l' with
                    | Some (a, y, b) => Some (x :: a, y, b)
                    | None => None
                    end
  end.

(** [find_entry(..).remove()]. *)
Definition t_take (h : Z) (p : nat -> bool) (t : table) : option (nat * table) :=
  match split_first (fun x => vis h (fst x) && p (snd x)) (items t) with
  | Some (a, x, b) => Some (snd x, T (a ++ b) (tcap t))
  | None => None
  end.

(** core.rs:93-107 [erase_index] (release build: missing index ignored). *)
Definition erase_index (t : table) (h : Z) (i : nat) : table :=
  match t_take h (Nat.eqb i) t with Some (_, t') => t' | None => t end.

(** core.rs:109-124 [update_index]; [None] is the [expect] panic. *)
Definition update_index (t : table) (h : Z) (old new : nat) : option table :=
  match split_first (fun x => vis h (fst x) && Nat.eqb old (snd x)) (items t) with
  | Some (a, x, b) => Some (T (a ++ (fst x, new) :: b) (tcap t))
  | None => None
  end.

(** hashbrown [insert_unique]: grows when full. *)
Definition t_insert (h : Z) (i : nat) (t : table) : table :=
  T (ins (items t) (h, i)) (if tcap t <=? t_len t then grow (S (t_len t)) else tcap t).
(** hashbrown [reserve]. *)
Definition t_reserve (n : nat) (t : table) : table :=
  T (items t) (if t_len t + n <=? tcap t then tcap t else grow (t_len t + n)).
Definition t_clear (t : table) : table := T [] (tcap t).

(** core.rs:126-136 [insert_bulk_no_grow]. *)
Definition insert_bulk (t : table) (es : list bucket) : option table :=
  if length es <=? tcap t - t_len t then
    Some (fold_left (fun t b => t_insert (bh b) (t_len t) t) es t)
  else None.

(** core.rs:195-225. *)
Definition c_new : core := C true t_new [].
Definition c_with_capacity (n : nat) : core :=
  if n <=? AR_MAX then C true t_new [] else C false (t_with_capacity n) [].

(** core.rs:240-251 [ensure_indexed]. *)
Definition ensure_indexed (c : core) : option core :=
  if linear c then
    match insert_bulk (t_reserve (length (ents c)) (tbl c)) (ents c) with
    | Some t => Some (C false t (ents c))
    | None => None
    end
  else Some c.

(** Index of the first bucket satisfying [q]. *)
Fixpoint find_idx (q : bucket -> bool) (l : list bucket) : option nat :=
  match l with
  | [] => None
  | b :: l' => if q b then Some 0 else option_map S (find_idx q l')
  end.

(** core.rs:253-270 [linear_find]. *)
Definition linear_find (h : Z) (k : K) (c : core) : option nat :=
  find_idx (fun b => Z.eqb (bh b) h && eqk k (bk b)) (ents c).

(** core.rs:78-83 [equivalent]. *)
Definition equivalent (k : K) (es : list bucket) (i : nat) : bool :=
  match nth_error es i with Some b => eqk k (bk b) | None => false end.

(** core.rs:386-402 [get_index_of]. *)
Definition get_index_of (h : Z) (k : K) (c : core) : option nat :=
  if linear c then linear_find h k c
  else t_find h (equivalent k (ents c)) (tbl c).

Definition set_val (i : nat) (v : V) (es : list bucket) : list bucket :=
  match nth_error es i with
  | Some b => firstn i es ++ B (bh b) (bk b) v :: skipn (S i) es
  | None => es
  end.
Definition set_kv (i : nat) (k : K) (v : V) (es : list bucket) : list bucket :=
  match nth_error es i with
  | Some b => firstn i es ++ B (bh b) k v :: skipn (S i) es
  | None => es
  end.
Definition old_val (i : nat) (es : list bucket) : option V := option_map bv (nth_error es i).
Definition remove_nth (i : nat) (es : list bucket) : list bucket := firstn i es ++ skipn (S i) es.

(** The indexed half of [insert_full] (core.rs:435-450). *)
Definition insert_indexed (h : Z) (k : K) (v : V) (c : core) : core * (nat * option V) :=
  match t_find h (equivalent k (ents c)) (tbl c) with
  | Some i => (C (linear c) (tbl c) (set_val i v (ents c)), (i, old_val i (ents c)))
  | None =>
      let i := length (ents c) in
      (C (linear c) (t_insert h i (tbl c)) (ents c ++ [B h k v]), (i, None))
  end.

(** core.rs:414-451 [insert_full]; [insert_full_sym], [insert_full_prehashed]
    and [insert_full_prehashed_with] (454-541, 574-616) are the same code with
    another equality. *)
Definition insert_full (h : Z) (k : K) (v : V) (c : core) : option (core * (nat * option V)) :=
  if linear c then
    match linear_find h k c with
    | Some i => Some (C true (tbl c) (set_val i v (ents c)), (i, old_val i (ents c)))
    | None =>
        if length (ents c) <? AR_MAX then
          Some (C true (tbl c) (ents c ++ [B h k v]), (length (ents c), None))
        else option_map (insert_indexed h k v) (ensure_indexed c)
    end
  else Some (insert_indexed h k v c).

(** core.rs:639-680 [replace_full]. *)
Definition replace_full (h : Z) (k : K) (v : V) (c : core) : option (core * (nat * option (K * V))) :=
  match ensure_indexed c with
  | None => None
  | Some c =>
      Some match t_find h (equivalent k (ents c)) (tbl c) with
      | Some i =>
          (C (linear c) (tbl c) (set_kv i k v (ents c)),
           (i, option_map (fun b => (bk b, bv b)) (nth_error (ents c) i)))
      | None =>
          let i := length (ents c) in
          (C (linear c) (t_insert h i (tbl c)) (ents c ++ [B h k v]), (i, None))
      end
  end.

(** core.rs:1125-1152 [decrement_indices] over [start..end). *)
Fixpoint upd_down (t : table) (es : list bucket) (i : nat) (n : nat) : option table :=
  match n with
  | O => Some t
  | S n' =>
      match nth_error es i with
      | None => None
      | Some b => match update_index t (bh b) i (i - 1) with
                  | Some t' => upd_down t' es (S i) n'
                  | None => None
                  end
      end
  end.
Definition decrement_indices (t : table) (es : list bucket) (s e : nat) : option table :=
  if tcap t / 2 <? e - s then
    Some (T (map (fun x => if (s <=? snd x) && (snd x <? e) then (fst x, snd x - 1) else x) (items t)) (tcap t))
  else upd_down t es s (e - s).

(** core.rs:1154-1181 [increment_indices] over [start..end), in reverse. *)
Fixpoint upd_up (t : table) (es : list bucket) (s n : nat) : option table :=
  match n with
  | O => Some t
  | S n' =>
      let i := s + n' in
      match nth_error es i with
      | None => None
      | Some b => match update_index t (bh b) i (i + 1) with
                  | Some t' => upd_up t' es s n'
                  | None => None
                  end
      end
  end.
Definition increment_indices (t : table) (es : list bucket) (s e : nat) : option table :=
  if tcap t / 2 <? e - s then
    Some (T (map (fun x => if (s <=? snd x) && (snd x <? e) then (fst x, snd x + 1) else x) (items t)) (tcap t))
  else upd_up t es s (e - s).

(** core.rs:1081-1088 [shift_remove_finish]. *)
Definition shift_remove_finish (t : table) (es : list bucket) (i : nat) : option (table * list bucket) :=
  match decrement_indices t es (S i) (length es) with
  | Some t' => Some (t', remove_nth i es)
  | None => None
  end.

Definition kv (b : bucket) : K * V := (bk b, bv b).

(** core.rs:773-802 [shift_remove_full]. *)
Definition shift_remove_full (h : Z) (k : K) (c : core) : option (core * option (nat * (K * V))) :=
  if linear c then
    Some match linear_find h k c with
         | Some i => (C true (tbl c) (remove_nth i (ents c)),
                      option_map (fun b => (i, kv b)) (nth_error (ents c) i))
         | None => (c, None)
         end
  else match t_take h (equivalent k (ents c)) (tbl c) with
       | Some (i, t) =>
           match shift_remove_finish t (ents c) i with
           | Some (t', es') => Some (C false t' es', option_map (fun b => (i, kv b)) (nth_error (ents c) i))
           | None => None
           end
       | None => Some (c, None)
       end.

(** core.rs:805-821, 1063-1078 [shift_remove_index]. *)
Definition shift_remove_index (i : nat) (c : core) : option (core * option (K * V)) :=
  match nth_error (ents c) i with
  | None => Some (c, None)
  | Some b =>
      if linear c then Some (C true (tbl c) (remove_nth i (ents c)), Some (kv b))
      else match shift_remove_finish (erase_index (tbl c) (bh b) i) (ents c) i with
           | Some (t', es') => Some (C false t' es', Some (kv b))
           | None => None
           end
  end.

(** [Vec::swap_remove]. *)
Definition swap_remove_nth (i : nat) (es : list bucket) : list bucket :=
  match nth_error es (length es - 1) with
  | None => es
  | Some z => firstn (length es - 1) (firstn i es ++ z :: skipn (S i) es)
  end.

(** core.rs:1109-1123 [swap_remove_finish]. *)
Definition swap_remove_finish (t : table) (es : list bucket) (i : nat) : option (table * list bucket) :=
  let es' := swap_remove_nth i es in
  match nth_error es' i with
  | Some b => match update_index t (bh b) (length es') i with
              | Some t' => Some (t', es')
              | None => None
              end
  | None => Some (t, es')
  end.

(** core.rs:846-875 [swap_remove_full]. *)
Definition swap_remove_full (h : Z) (k : K) (c : core) : option (core * option (nat * (K * V))) :=
  if linear c then
    Some match linear_find h k c with
         | Some i => (C true (tbl c) (swap_remove_nth i (ents c)),
                      option_map (fun b => (i, kv b)) (nth_error (ents c) i))
         | None => (c, None)
         end
  else match t_take h (equivalent k (ents c)) (tbl c) with
       | Some (i, t) =>
           match swap_remove_finish t (ents c) i with
           | Some (t', es') => Some (C false t' es', option_map (fun b => (i, kv b)) (nth_error (ents c) i))
           | None => None
           end
       | None => Some (c, None)
       end.

(** core.rs:878-894, 1091-1106 [swap_remove_index]. *)
Definition swap_remove_index (i : nat) (c : core) : option (core * option (K * V)) :=
  match nth_error (ents c) i with
  | None => Some (c, None)
  | Some b =>
      if linear c then Some (C true (tbl c) (swap_remove_nth i (ents c)), Some (kv b))
      else match swap_remove_finish (erase_index (tbl c) (bh b) i) (ents c) i with
           | Some (t', es') => Some (C false t' es', Some (kv b))
           | None => None
           end
  end.

(** core.rs:373-384 [pop]. *)
Definition pop (c : core) : core * option (K * V) :=
  match nth_error (ents c) (length (ents c) - 1) with
  | None => (c, None)
  | Some b =>
      let es := firstn (length (ents c) - 1) (ents c) in
      (C (linear c) (if linear c then tbl c else erase_index (tbl c) (bh b) (length es)) es, Some (kv b))
  end.

(** core.rs:273-277 [clear]. *)
Definition clear (c : core) : core := C true (t_clear (tbl c)) [].

(** core.rs:896-947 [erase_indices] for [start <= end <= len]. *)
Fixpoint erase_run (t : table) (es : list bucket) (i n : nat) : option table :=
  match n with
  | O => Some t
  | S n' => match nth_error es i with
            | None => None
            | Some b => erase_run (erase_index t (bh b) i) es (S i) n'
            end
  end.
Fixpoint shift_run (t : table) (es : list bucket) (old new n : nat) : option table :=
  match n with
  | O => Some t
  | S n' => match nth_error es old with
            | None => None
            | Some b => match update_index t (bh b) old new with
                        | None => None
                        | Some t' => shift_run t' es (S old) (S new) n'
                        end
            end
  end.
Definition erase_indices (c : core) (s e : nat) : option table :=
  if linear c then Some (tbl c)
  else
    let es := ents c in
    let erased := e - s in
    let shifted := length es - e in
    let half := tcap (tbl c) / 2 in
    if erased =? 0 then Some (tbl c)
    else if (s + shifted <? half) && (s <? erased) then
      match insert_bulk (t_clear (tbl c)) (firstn s es) with
      | None => None
      | Some t => insert_bulk t (skipn e es)
      end
    else if erased + shifted <? half then
      match erase_run (tbl c) es s erased with
      | None => None
      | Some t => shift_run t es e s shifted
      end
    else
      Some (T (flat_map (fun x => if e <=? snd x then [(fst x, snd x - (e - s))]
                                  else if snd x <? s then [x] else []) (items (tbl c)))
              (tcap (tbl c))).

(** core.rs:279-286 [truncate]. *)
Definition truncate (n : nat) (c : core) : option core :=
  if n <? length (ents c) then
    match erase_indices c n (length (ents c)) with
    | Some t => Some (C (linear c) t (firstn n (ents c)))
    | None => None
    end
  else Some c.

(** core.rs:288-301 [drain] of a range with s <= e <= len. *)
Definition drain (s e : nat) (c : core) : option (core * list (K * V)) :=
  if (s <=? e) && (e <=? length (ents c)) then
    match erase_indices c s e with
    | Some t => Some (C (linear c) t (firstn s (ents c) ++ skipn e (ents c)),
                      map kv (firstn (e - s) (skipn s (ents c))))
    | None => None
    end
  else None.

(** core.rs:303-327 [split_off]. *)
Definition split_off (at_ : nat) (c : core) : option (core * core) :=
  if at_ <=? length (ents c) then
    match erase_indices c at_ (length (ents c)) with
    | None => None
    | Some t =>
        let es := skipn at_ (ents c) in
        if linear c then Some (C true t (firstn at_ (ents c)), C true t_new es)
        else match insert_bulk (t_with_capacity (length es)) es with
             | Some t2 => Some (C false t (firstn at_ (ents c)), C false t2 es)
             | None => None
             end
    end
  else None.

(** core.rs:330-362 [reserve] / [reserve_exact] (capacity of the entry vector
    is not observable). *)
Definition reserve (n : nat) (c : core) : option core :=
  if linear c then
    if AR_MAX <? length (ents c) + n then
      match ensure_indexed c with
      | Some c' => Some (C (linear c') (t_reserve n (tbl c')) (ents c'))
      | None => None
      end
    else Some c
  else Some (C (linear c) (t_reserve n (tbl c)) (ents c)).

(** core.rs:961-968 [rebuild_hash_table]. *)
Definition rebuild (c : core) : option core :=
  if linear c then Some c
  else match insert_bulk (t_clear (tbl c)) (ents c) with
       | Some t => Some (C false t (ents c))
       | None => None
       end.

(** core.rs:950-959 [retain_in_order]; [keep] sees each pair once, in order. *)
Definition retain (keep : K -> V -> bool) (c : core) : option core :=
  let es := filter (fun b => keep (bk b) (bv b)) (ents c) in
  let c' := C (linear c) (tbl c) es in
  if negb (linear c) && (length es <? t_len (tbl c)) then rebuild c' else Some c'.

(** core.rs:177-184 [with_entries]: sorting the entries, then rebuilding. *)
Definition with_entries (f : list bucket -> list bucket) (c : core) : option core :=
  rebuild (C (linear c) (tbl c) (f (ents c))).

(** core.rs:970-980 [reverse]. *)
Definition reverse (c : core) : core :=
  C (linear c)
    (T (map (fun x => (fst x, length (ents c) - snd x - 1)) (items (tbl c))) (tcap (tbl c)))
    (rev (ents c)).

(** Move the bucket at [from] to [to]: [rotate_left]/[rotate_right] of the
    slice between them. *)
Definition rotate (from to : nat) (es : list bucket) : list bucket :=
  match nth_error es from with
  | None => es
  | Some b => let es' := remove_nth from es in firstn to es' ++ b :: skipn to es'
  end.

(** core.rs:824-843, 1185-1206 [move_index].  The sentinel index [usize::MAX]
    is any index beyond the entries; here the number of entries + 1. *)
Definition move_index (from to : nat) (c : core) : option core :=
  match nth_error (ents c) from, nth_error (ents c) to with
  | Some b, Some _ =>
      if linear c then Some (C true (tbl c) (rotate from to (ents c)))
      else if from =? to then Some c
      else
        let sent := S (length (ents c)) in
        match update_index (tbl c) (bh b) from sent with
        | None => None
        | Some t1 =>
            match (if from <? to then decrement_indices t1 (ents c) (S from) (S to)
                   else increment_indices t1 (ents c) to from) with
            | None => None
            | Some t2 =>
                match update_index t2 (bh b) sent to with
                | None => None
                | Some t3 => Some (C false t3 (rotate from to (ents c)))
                end
            end
        end
  | _, _ => None
  end.

(** core.rs:1033-1060 [shift_insert_unique] behind [VacantEntry::shift_insert]. *)
Definition shift_insert_unique (idx : nat) (h : Z) (k : K) (v : V) (c : core) : option core :=
  if idx <=? t_len (tbl c) then
    match increment_indices (tbl c) (ents c) idx (t_len (tbl c)) with
    | None => None
    | Some t => Some (C (linear c) (t_insert h idx t)
                        (firstn idx (ents c) ++ B h k v :: skipn idx (ents c)))
    end
  else None.

(** core.rs:691-716 [tombstone_remove_full]. *)
Definition tombstone_remove (h : Z) (k dk : K) (dv : V) (c : core)
  : option (core * option (nat * (K * V))) :=
  match ensure_indexed c with
  | None => None
  | Some c =>
      Some match t_take h (equivalent k (ents c)) (tbl c) with
      | Some (i, t) => (C (linear c) t (set_kv i dk dv (ents c)),
                        option_map (fun b => (i, kv b)) (nth_error (ents c) i))
      | None => (c, None)
      end
  end.

(** core.rs:719-740 [tombstone_index]. *)
Definition tombstone_index (i : nat) (dk : K) (dv : V) (c : core) : option (core * option (K * V)) :=
  match nth_error (ents c) i with
  | None => Some (c, None)
  | Some b =>
      match ensure_indexed c with
      | None => None
      | Some c => Some (C (linear c) (erase_index (tbl c) (bh b) i) (set_kv i dk dv (ents c)), Some (kv b))
      end
  end.

(** core.rs:762-771 [compact_tombstones]. *)
Definition compact (dead : K -> bool) (c : core) : option core :=
  let es := filter (fun b => negb (dead (bk b))) (ents c) in
  if linear c then Some (C true (tbl c) es)
  else match insert_bulk (t_reserve (length es) (t_clear (tbl c))) es with
       | Some t => Some (C false t es)
       | None => None
       end.

(** *** Driver: one client call (map.rs forwards each to the function above).
    [hash] is the key hash; [dk]/[dv] the tombstone pair the caller supplies. *)
Variable hash : K -> Z.
Variable dead : K -> bool.
Variable dk : K.
Variable dv : V.

Definition one (o : option (K * V)) : list (K * V) := match o with Some p => [p] | None => [] end.
Definition outp {A} (r : option (core * A)) (f : A -> list (K * V)) : option (core * list (K * V)) :=
  option_map (fun x => (fst x, f (snd x))) r.
Definition quiet (r : option core) : option (core * list (K * V)) := option_map (fun c => (c, [])) r.
Definition got (i : option nat) (c : core) : list (K * V) :=
  match i with Some i => one (option_map kv (nth_error (ents c) i)) | None => [] end.
Definition pick (idx : list nat) (es : list bucket) : list bucket :=
  flat_map (fun i => match nth_error es i with Some b => [b] | None => [] end) idx.

Definition step (o : op K V) (c : core) : option (core * list (K * V)) :=
  match o with
  | Get k => Some (c, got (get_index_of (hash k) k c) c)
  | Put k v =>
      match insert_full (hash k) k v c with
      | Some (c', (i, old)) =>
          Some (c', match old, nth_error (ents c') i with Some w, Some b => [(bk b, w)] | _, _ => [] end)
      | None => None
      end
  | Replace k v => outp (replace_full (hash k) k v c) (fun r => one (snd r))
  | Delete k => outp (shift_remove_full (hash k) k c) (fun r => one (option_map snd r))
  | SwapDelete k => outp (swap_remove_full (hash k) k c) (fun r => one (option_map snd r))
  | DeleteAt i => outp (shift_remove_index i c) one
  | SwapDeleteAt i => outp (swap_remove_index i c) one
  | Pop => Some (let (c', r) := pop c in (c', one r))
  | Clear => quiet (Some (clear c))
  | Truncate n => quiet (truncate n c)
  | Drain s e => drain s e c
  | SplitOff n => option_map (fun p => (fst p, map kv (ents (snd p)))) (split_off n c)
  | Reserve n => quiet (reserve n c)
  | Retain p => quiet (retain p c)
  | Reorder idx => quiet (with_entries (pick idx) c)
  | Reverse => quiet (Some (reverse c))
  | Move a b => quiet (move_index a b c)
  | InsertAt i k v =>
      (* map.rs [shift_insert] on an absent key: entry() promotes first *)
      match ensure_indexed c with
      | Some c' => quiet (shift_insert_unique i (hash k) k v c')
      | None => None
      end
  | LazyDelete k => outp (tombstone_remove (hash k) k dk dv c) (fun r => one (option_map snd r))
  | LazyShift =>
      match find_idx (fun b => negb (dead (bk b))) (ents c) with
      | Some i => outp (tombstone_index i dk dv c) one
      | None => Some (c, [])
      end
  | Compact => quiet (compact dead c)
  end.

Fixpoint run (os : list (op K V)) (c : core) : option (core * list (list (K * V))) :=
  match os with
  | [] => Some (c, [])
  | o :: os' =>
      match step o c with
      | None => None
      | Some (c1, x) => match run os' c1 with
                        | None => None
                        | Some (c2, xs) => Some (c2, x :: xs)
                        end
      end
  end.
End M.

Arguments B {K V}. Arguments C {K V}. Arguments bh {K V}. Arguments bk {K V}. Arguments bv {K V}.
Arguments linear {K V}. Arguments tbl {K V}. Arguments ents {K V}. Arguments bucket : clear implicits.
Arguments core : clear implicits.
