(** * Model of the garbage collector and cell allocator

    Source: /repo/monoruby/src/alloc.rs and the [GC]/[GCBox] implementation of
    [RValue] in /repo/monoruby/src/value/rvalue.rs.

    Addresses.  The allocator carves one region of [MAX_PAGES] pages of
    [ALLOC_SIZE] bytes; a page holds [DATA_LEN] cells of 64 bytes, followed by
    its two bitmaps.  A cell is named here by the number
    [page * DATA_LEN + index]; [cell_addr] below gives the byte address and
    GcProofs relates [get_page]'s mask to that number.

    Simplifications.
    - The payload of a cell is reduced to what the collector looks at: whether
      its kind is promotable, the heap cells it refers to (in the order
      [mark_children] visits them; immediates are dropped), its age and its
      WB_ARMED bit.  A dead cell is [None].
    - [young_child_exists] visits the same children as [mark_children] on every
      promotable kind (rvalue.rs:1122-1160 against 1012-1070, hash.rs:993-1012
      against 1155-1165), so both use [o_kids].
    - The free list is threaded through the dead cells in the source; here it
      is the list of their numbers.
    - The bitmaps are predicates on cell numbers; the word-by-word loop of
      [sweep_bits] is modelled on its own ([sweep_bits]).
    - Statistics that no decision depends on (timings, profile, page counts)
      are left out; the ones visible through GC.stat are kept. *)

From Coq Require Import ZArith List Bool.
Import ListNotations.
Open Scope Z_scope.

(** alloc.rs:305-363 *)
Definition SIZE : Z := 64.
Definition DATA_LEN : Z := 4032.            (* 64 * (SIZE - 1) *)
Definition THRESHOLD : Z := 3968.           (* 64 * (SIZE - 2) *)
Definition CELL_SIZE : Z := 64.
Definition ALLOC_SIZE : Z := 2 ^ 18.
Definition MAX_PAGES : Z := 8192.
Definition MAX_MINORS_PER_MAJOR : Z := 64.
Definition OLD_GROWTH_FACTOR : Z := 2.
Definition OLD_OBJECT_FLOOR : Z := 16384.
Definition RGENGC_OLD_AGE : Z := 3.
Definition PAGES_PER_GC_TRIGGER : Z := 8.
Definition GC_HEAP_FRACTION : Z := 16.
Definition MARK_RECURSION_LIMIT : nat := 32.

(** One live cell: see the header comment. *)
Record obj := Obj {
  o_prom : bool;        (* is_promotable, rvalue.rs:1062-1104 *)
  o_kids : list Z;      (* the cells mark_children visits *)
  o_age : Z;            (* header age, u8 *)
  o_armed : bool        (* WB_ARMED *)
}.

Definition set_kids (o : obj) (k : list Z) : obj :=
  Obj (o_prom o) k (o_age o) (o_armed o).
Definition set_age (o : obj) (n : Z) : obj :=
  Obj (o_prom o) (o_kids o) n (o_armed o).
Definition set_armed (o : obj) (b : bool) : obj :=
  Obj (o_prom o) (o_kids o) (o_age o) b.

Definition upd {A} (f : Z -> A) (a : Z) (x : A) : Z -> A :=
  fun b => if b =? a then x else f b.

(** [Allocator], alloc.rs:560-780. *)
Record st := St {
  heap : Z -> option obj;
  oldb : Z -> bool;             (* old_bits of every page *)
  pages : list Z;               (* full pages *)
  cur : Z;                      (* current_page *)
  used : Z;                     (* used_in_current *)
  free : list Z;                (* free list *)
  fpages : list Z;              (* free_pages *)
  hpage : Z;                    (* head_page *)
  remem : list Z;               (* remembered *)
  old_count : Z;
  old_thr : Z;                  (* old_major_threshold *)
  minors : Z;                   (* minors_since_major *)
  allow_full : bool;            (* allow_full_mark *)
  free_cnt : Z;                 (* free_list_count *)
  tot_alloc : Z;                (* total_allocated_objects *)
  tot_freed : Z;                (* total_freed_objects *)
  since_gc : Z                  (* pages_since_gc *)
}.

Definition get_page (a : Z) : Z := a / DATA_LEN.
Definition get_index (a : Z) : Z := a mod DATA_LEN.
Definition cell (p i : Z) : Z := p * DATA_LEN + i.

(** Byte address of a cell, and [get_page]'s mask (alloc.rs:1931). [base] is
    what [System.alloc] returned, aligned to [ALLOC_SIZE]. *)
Definition page_addr (base p : Z) : Z := base + p * ALLOC_SIZE.
Definition cell_addr (base a : Z) : Z :=
  page_addr base (get_page a) + CELL_SIZE * get_index a.
Definition mask_page (x : Z) : Z := Z.land x (Z.lnot (ALLOC_SIZE - 1)).

Definition cells_upto (n p : Z) : list Z :=
  map (fun i => cell p (Z.of_nat i)) (seq 0 (Z.to_nat n)).
Definition page_cells (p : Z) : list Z := cells_upto DATA_LEN p.

(** Every cell that was ever handed out on a page in service, in the order
    [sweep] visits them. *)
Definition cells (s : st) : list Z :=
  flat_map page_cells (pages s) ++ cells_upto (used s) (cur s).

Definition on_page (p a : Z) : bool := get_page a =? p.

(** [clear_old_bits], alloc.rs:2081 *)
Definition clear_old_page (f : Z -> bool) (p : Z) : Z -> bool :=
  fun a => if on_page p a then false else f a.

(** [Allocator::new], alloc.rs:784-850. The region is uninitialised:
    [garbage] is what the bitmaps of the untouched pages hold. *)
Definition init (garbage : Z -> bool) : st :=
  St (fun _ => None) (clear_old_page garbage 0) [] 0 0 [] [] 0 [] 0
     OLD_OBJECT_FLOOR 0 true 0 0 0 0.

(** [on_page_pressure] / [gc_trigger_pages], alloc.rs:910-933; the boolean is
    "arm the GC lane". *)
Definition gc_trigger_pages (s : st) : Z :=
  Z.max PAGES_PER_GC_TRIGGER ((Z.of_nat (length (pages s)) + 1) / GC_HEAP_FRACTION).

(** [Allocator::alloc], alloc.rs:1143-1205: the cell handed out and the state
    after. [o] is the object written. *)
Definition alloc (s : st) (o : obj) : Z * st :=
  match free s with
  | a :: rest =>
      (a, St (upd (heap s) a (Some o)) (oldb s) (pages s) (cur s) (used s) rest
             (fpages s) (hpage s) (remem s) (old_count s) (old_thr s) (minors s)
             (allow_full s) (free_cnt s - 1) (tot_alloc s + 1) (tot_freed s) (since_gc s))
  | [] =>
      if used s =? DATA_LEN then
        let '(p, fp, hp) :=
          match fpages s with
          | p :: rest => (p, rest, hpage s)
          | [] => (hpage s + 1, [], hpage s + 1)      (* new_page, alloc.rs:854 *)
          end in
        let a := cell p 0 in
        (a, St (upd (heap s) a (Some o)) (clear_old_page (oldb s) p)
               (pages s ++ [cur s]) p 1 [] fp hp (remem s) (old_count s) (old_thr s)
               (minors s) (allow_full s) (free_cnt s) (tot_alloc s + 1) (tot_freed s)
               (since_gc s))
      else
        let a := cell (cur s) (used s) in
        let sg := if used s =? THRESHOLD then since_gc s + 1 else since_gc s in
        (a, St (upd (heap s) a (Some o)) (oldb s) (pages s) (cur s) (used s + 1) []
               (fpages s) (hpage s) (remem s) (old_count s) (old_thr s) (minors s)
               (allow_full s) (free_cnt s) (tot_alloc s + 1) (tot_freed s) sg)
  end.

(** The JIT's shared allocation stub [gen_alloc_cell_stub]
    (codegen/arch/x86_64/compile/mod.rs:1304, aarch64 twin :1821):
    [None] hands back to the runtime, which calls [alloc]. *)
Definition alloc_stub (s : st) (o : obj) : option (Z * st) :=
  match free s with
  | a :: rest =>
      Some (a, St (upd (heap s) a (Some o)) (oldb s) (pages s) (cur s) (used s) rest
             (fpages s) (hpage s) (remem s) (old_count s) (old_thr s) (minors s)
             (allow_full s) (free_cnt s - 1) (tot_alloc s + 1) (tot_freed s) (since_gc s))
  | [] =>
      if THRESHOLD <=? used s then None
      else
        let a := cell (cur s) (used s) in
        Some (a, St (upd (heap s) a (Some o)) (oldb s) (pages s) (cur s) (used s + 1) []
               (fpages s) (hpage s) (remem s) (old_count s) (old_thr s) (minors s)
               (allow_full s) (free_cnt s) (tot_alloc s + 1) (tot_freed s) (since_gc s))
  end.

Definition with_heap (s : st) (h : Z -> option obj) (r : list Z) : st :=
  St h (oldb s) (pages s) (cur s) (used s) (free s) (fpages s) (hpage s) r
     (old_count s) (old_thr s) (minors s) (allow_full s) (free_cnt s)
     (tot_alloc s) (tot_freed s) (since_gc s).

(** [write_barrier] on an object into which a heap child was just stored, and
    [write_barrier_bulk] (rvalue.rs:1292-1330): identical once the child is a
    heap object. *)
Definition barrier (s : st) (p : Z) : st :=
  match heap s p with
  | Some o =>
      if o_armed o
      then with_heap s (upd (heap s) p (Some (set_armed o false))) (remem s ++ [p])
      else s
  | None => s
  end.

(** Replace the references held by [p]; no barrier. *)
Definition put_kids (s : st) (p : Z) (k : list Z) : st :=
  match heap s p with
  | Some o => with_heap s (upd (heap s) p (Some (set_kids o k))) (remem s)
  | None => s
  end.

Inductive gckind := Minor | Major.

(** [decide_gc_kind], alloc.rs:1224-1238, and the [GC_FORCE_MAJOR] override
    of [gc] (alloc.rs:1246-1251). *)
Definition decide_gc_kind (s : st) : gckind :=
  if negb (allow_full s) then Minor
  else if (old_thr s <=? old_count s) || (MAX_MINORS_PER_MAJOR <=? minors s)
       then Major else Minor.
Definition gc_kind (force : bool) (s : st) : gckind :=
  if force then Major else decide_gc_kind s.

(** ** Mark phase *)

Record mst := Mst { mk : Z -> bool; aging : list Z; queue : list Z }.

(** [RValue::mark] (rvalue.rs:901-915), [gc_check_and_mark] (alloc.rs:1437)
    and [scan_children] (alloc.rs:1497). [n] is [MARK_RECURSION_LIMIT] minus
    [mark_depth]. [None]: [dead_rvalue_abort]. *)
Section Mark.
  Variable h : Z -> option obj.
  Variable old : Z -> bool.
  Variable major : bool.

  Fixpoint mark (n : nat) (m : mst) (a : Z) : option mst :=
    match h a with
    | None => None
    | Some o =>
        if mk m a then Some m
        else
          let m1 := Mst (upd (mk m) a true)
                        (if o_prom o && negb (major && old a)
                         then aging m ++ [a] else aging m)
                        (queue m) in
          match n with
          | O => Some (Mst (mk m1) (aging m1) (queue m1 ++ [a]))
          | S n' =>
              fold_left (fun acc k => match acc with
                                      | Some m' => mark n' m' k
                                      | None => None
                                      end) (o_kids o) (Some m1)
          end
    end.

  Definition marks (n : nat) (l : list Z) (m : mst) : option mst :=
    fold_left (fun acc k => match acc with
                            | Some m' => mark n m' k
                            | None => None
                            end) l (Some m).

  Definition kids_of (a : Z) : list Z :=
    match h a with Some o => o_kids o | None => [] end.

  (** [drain_mark_queue], alloc.rs:1525-1542. *)
  Fixpoint drain (fuel : nat) (m : mst) : option mst :=
    match queue m with
    | [] => Some m
    | a :: q =>
        match fuel with
        | O => None
        | S f =>
            match marks MARK_RECURSION_LIMIT (kids_of a) (Mst (mk m) (aging m) q) with
            | Some m' => drain f m'
            | None => None
            end
        end
    end.

  (** [young_child_exists], rvalue.rs:1122-1160. *)
  Definition young_child (a : Z) : bool := existsb (fun k => negb (old k)) (kids_of a).

  (** The [mark_children] half of [mark_remembered] (alloc.rs:1712-1742). *)
  Fixpoint mark_rem (l : list Z) (m : mst) : option mst :=
    match l with
    | [] => Some m
    | r :: rest =>
        match marks MARK_RECURSION_LIMIT (kids_of r) m with
        | Some m' => mark_rem rest m'
        | None => None
        end
    end.
End Mark.

(** [arm_barrier] on a list of cells. *)
Definition arm (h : Z -> option obj) (a : Z) : Z -> option obj :=
  match h a with Some o => upd h a (Some (set_armed o true)) | None => h end.
Definition disarm (h : Z -> option obj) (a : Z) : Z -> option obj :=
  match h a with Some o => upd h a (Some (set_armed o false)) | None => h end.

(** The keep-or-arm half of [mark_remembered] and [reclassify_remembered]
    (alloc.rs:1646-1668, 1727-1741): [young_child] does not depend on marks or
    armed bits, so splitting the loop in two changes nothing. *)
Fixpoint keep_or_arm (old : Z -> bool) (l : list Z) (h : Z -> option obj)
  : list Z * (Z -> option obj) :=
  match l with
  | [] => ([], h)
  | r :: rest =>
      if young_child h old r then
        let '(k, h') := keep_or_arm old rest h in (r :: k, h')
      else keep_or_arm old rest (arm h r)
  end.

(** ** Aging ([apply_aging], alloc.rs:1555-1598) *)

Definition sat_age (n : Z) : Z := Z.min 255 (n + 1).

(** Pass 1: [age_and_check_promote] (rvalue.rs:1111) and promotion. *)
Fixpoint age_pass (l : list Z) (h : Z -> option obj) (old : Z -> bool) (promoted : list Z)
  : (Z -> option obj) * (Z -> bool) * list Z :=
  match l with
  | [] => (h, old, promoted)
  | a :: rest =>
      match h a with
      | None => age_pass rest h old promoted
      | Some o =>
          let n := sat_age (o_age o) in
          let h' := upd h a (Some (set_age o n)) in
          if RGENGC_OLD_AGE <=? n
          then age_pass rest h' (upd old a true) (promoted ++ [a])
          else age_pass rest h' old promoted
      end
  end.

(** Pass 2: remember or arm what was promoted. *)
Fixpoint promote_pass (old : Z -> bool) (l : list Z) (h : Z -> option obj) (rem : list Z)
  : (Z -> option obj) * list Z :=
  match l with
  | [] => (h, rem)
  | a :: rest =>
      if young_child h old a
      then promote_pass old rest (disarm h a) (rem ++ [a])
      else promote_pass old rest (arm h a) rem
  end.

(** ** Sweep *)

(** [all_dead], alloc.rs:2103. *)
Definition all_dead (mkd : Z -> bool) (p : Z) : bool :=
  forallb (fun a => negb (mkd a)) (page_cells p).

(** [salvage_empty_pages] (alloc.rs:1772-1798): from the last page to the
    first; pages kept, pages freed (in the order pushed). *)
Fixpoint salvage (mkd : Z -> bool) (l : list Z) : list Z * list Z :=
  match l with
  | [] => ([], [])
  | p :: rest =>
      let '(kept, gone) := salvage mkd rest in
      if all_dead mkd p then (kept, gone ++ [p]) else (p :: kept, gone)
  end.

Definition on_pages (l : list Z) (a : Z) : bool := existsb (fun p => on_page p a) l.

Definition popcount (f : Z -> bool) (l : list Z) : Z :=
  Z.of_nat (length (filter f l)).

(** [sweep] (alloc.rs:1803-1892): the dead cells of the pages in service go to
    the free list, lose their old bit and are freed; [c.saturating_sub(..)]. *)
Definition dead_cells (mkd : Z -> bool) (l : list Z) : list Z :=
  filter (fun a => negb (mkd a)) l.

(** The mark phase of [Allocator::gc] (alloc.rs:1290-1340): prepare the
    bitmap, walk the roots, drain, and for a minor collection walk the
    remembered set and drain again.  [None]: marking reached a dead cell. *)
Definition is_major (kind : gckind) : bool :=
  match kind with Major => true | Minor => false end.

Definition mark_phase (kind : gckind) (roots : list Z) (s : st) : option mst :=
  let fuel := length (cells s) in
  let m0 := Mst (match kind with Major => fun _ => false | Minor => oldb s end) [] [] in
  match marks (heap s) (oldb s) (is_major kind) MARK_RECURSION_LIMIT roots m0 with
  | None => None
  | Some m1 =>
      match drain (heap s) (oldb s) (is_major kind) fuel m1 with
      | None => None
      | Some m2 =>
          match kind with
          | Major => Some m2
          | Minor =>
              match mark_rem (heap s) (oldb s) (is_major kind) (remem s) m2 with
              | None => None
              | Some m3 => drain (heap s) (oldb s) (is_major kind) fuel m3
              end
          end
      end
  end.

(** The headers, the old bits and the remembered set after the mark phase:
    the keep-or-arm half of [mark_remembered] (minor), [apply_aging],
    [filter_remembered] and [reclassify_remembered] (major)
    (alloc.rs:1330-1364). *)
Definition classify (kind : gckind) (s : st) (m : mst)
  : (Z -> option obj) * (Z -> bool) * list Z * list Z :=
  let '(rem1, h1) :=
    match kind with
    | Major => (remem s, heap s)
    | Minor => keep_or_arm (oldb s) (remem s) (heap s)
    end in
  let '(h2, old2, promoted) := age_pass (aging m) h1 (oldb s) [] in
  let '(h3, rem2) := promote_pass old2 promoted h2 rem1 in
  let rem3 := filter (mk m) rem2 in
  let '(rem4, h4) :=
    match kind with
    | Major => keep_or_arm old2 rem3 h3
    | Minor => (rem3, h3)
    end in
  (h4, old2, rem4, promoted).

(** [salvage_empty_pages], [sweep] and the closing bookkeeping
    (alloc.rs:1365-1376). *)
Definition finish (kind : gckind) (s : st) (m : mst) : st :=
  let '(h4, old2, rem4, promoted) := classify kind s m in
  let oc2 := old_count s + Z.of_nat (length promoted) in
  let '(kept, gone) := salvage (mk m) (pages s) in
  let oc3 := Z.max 0 (oc2 - popcount old2 (flat_map page_cells gone)) in
  let swept := flat_map page_cells kept ++ cells_upto (used s) (cur s) in
  let dead := dead_cells (mk m) swept in
  let c := Z.of_nat (length dead) in
  let oc4 := Z.max 0 (oc3 - popcount old2 dead) in
  let h5 := fun a => if on_pages gone a then None
                     else if on_pages (kept ++ [cur s]) a
                          then (if mk m a then h4 a else None)
                          else h4 a in
  let old5 := fun a => if on_pages gone a then false
                       else if on_pages (kept ++ [cur s]) a then old2 a && mk m a
                       else old2 a in
  St h5 old5 kept (cur s) (used s) dead (fpages s ++ gone) (hpage s) rem4
     oc4
     (match kind with
      | Major => Z.max (oc4 * OLD_GROWTH_FACTOR) OLD_OBJECT_FLOOR
      | Minor => old_thr s
      end)
     (match kind with Major => 0 | Minor => minors s + 1 end)
     (allow_full s) c (tot_alloc s) (tot_freed s + Z.max 0 (c - free_cnt s)) 0.

(** [Allocator::gc], alloc.rs:1239-1405, with the kind already decided.
    [None]: marking reached a dead cell (abort). *)
Definition gc (kind : gckind) (roots : list Z) (s : st) : option st :=
  match mark_phase kind roots s with
  | None => None
  | Some m => Some (finish kind s m)
  end.

(** ** The word loop of [sweep_bits] (alloc.rs:1805-1834)

    [trailing_ones] of a 64-bit word, [checked_shr] by it, then one bit at a
    time up to [bit]; the result lists the offsets freed. *)
Fixpoint trailing_ones (fuel : nat) (map : Z) : Z :=
  match fuel with
  | O => 0
  | S f => if Z.odd map then 1 + trailing_ones f (map / 2) else 0
  end.

Fixpoint sweep_loop (n : nat) (off map : Z) : list Z :=
  match n with
  | O => []
  | S n' =>
      let rest := sweep_loop n' (off + 1) (map / 2) in
      if Z.even map then off :: rest else rest
  end.

Definition sweep_bits (bit map : Z) : list Z :=
  let min := trailing_ones 64 map in
  let map' := if min <? 64 then Z.shiftr map min else 0 in   (* checked_shr *)
  sweep_loop (Z.to_nat (bit - min)) min map'.

(** ** Mutator

    A world is the allocator and the root set (frames, globals, handles): the
    values the program can name without following a reference. *)
Record world := World { ws : st; roots : list Z }.

(** The references a program holds after loading one it can already reach is
    expressed by [reach]. *)
Inductive reach (k : Z -> list Z) (r : list Z) : Z -> Prop :=
| reach_root : forall a, In a r -> reach k r a
| reach_kid : forall a b, reach k r a -> In b (k a) -> reach k r b.

Definition wreach (w : world) (a : Z) : Prop :=
  reach (kids_of (heap (ws w))) (roots w) a.

(** [newborn]: [Header::new] / [NEWBORN_FLAG_MASK] (rvalue.rs:81, 2702): age 0,
    not old, not armed. *)
Definition newborn (prom : bool) (k : list Z) : obj := Obj prom k 0 false.

(** One step of a running program.  [bug] adds the stores that bypass the
    barrier: [String#replace] (builtins/string.rs:7331-7341) installs a clone
    of another string's payload, which for a shared string carries the
    reference to its hidden root; likewise [ARGF.read] into a buffer
    (builtins/argf.rs:597) and [replace_with_inner] (value.rs:2968). *)
Inductive step (bug : bool) : world -> world -> Prop :=
(* a new object referring to things the program can reach; it is then held *)
| step_alloc : forall w prom k,
    (forall x, In x k -> wreach w x) ->
    step bug w (World (snd (alloc (ws w) (newborn prom k)))
                      (fst (alloc (ws w) (newborn prom k)) :: roots w))
(* load references into frames, or drop them *)
| step_roots : forall w r,
    (forall x, In x r -> wreach w x) ->
    step bug w (World (ws w) r)
(* a barriered store: array element, ivar, hash entry, struct slot, swap_kind,
   string share (array.rs:84-134, hash.rs:1957-2040, value.rs:2289-2325) *)
| step_store : forall w p k,
    wreach w p -> (forall x, In x k -> wreach w x) ->
    step bug w (World (barrier (put_kids (ws w) p k) p) (roots w))
(* dropping references needs no barrier: pop, delete, clear, immediates *)
| step_drop : forall w p k,
    wreach w p -> (forall x, In x k -> In x (kids_of (heap (ws w)) p)) ->
    step bug w (World (put_kids (ws w) p k) (roots w))
(* kinds that are never promoted store without a barrier *)
| step_plain : forall w p k o,
    wreach w p -> heap (ws w) p = Some o -> o_prom o = false ->
    (forall x, In x k -> wreach w x) ->
    step bug w (World (put_kids (ws w) p k) (roots w))
(* GC.config(rgengc_allow_full_mark: b) *)
| step_allow : forall w b,
    step bug w (World
      (let s := ws w in
       St (heap s) (oldb s) (pages s) (cur s) (used s) (free s) (fpages s) (hpage s)
          (remem s) (old_count s) (old_thr s) (minors s) b (free_cnt s)
          (tot_alloc s) (tot_freed s) (since_gc s)) (roots w))
(* a collection at a safepoint; [force] is a pending GC.start *)
| step_gc : forall w force s',
    gc (gc_kind force (ws w)) (roots w) (ws w) = Some s' ->
    step bug w (World s' (roots w))
(* String#replace *)
| step_replace : forall w p q,
    bug = true -> wreach w p -> wreach w q ->
    step bug w (World (put_kids (ws w) p (kids_of (heap (ws w)) q)) (roots w)).

Inductive history (bug : bool) : world -> Prop :=
| hist_init : forall g, history bug (World (init g) [])
| hist_step : forall w w', history bug w -> step bug w w' -> history bug w'.
