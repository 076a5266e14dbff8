(** C19-C22, C49: the collector and the cell allocator. *)
From Coq Require Import ZArith List Bool.
From Verif Require Import GcModel GcSpec GcProofs.
Import ListNotations.
Open Scope Z_scope.

(** After any history of allocations, barriered stores, dropped references, root
    changes and collections of either kind, the next collection finishes (no
    dead cell is ever marked, which aborts) and every object reachable from the
    roots is still there with the same kind and references.  Missing for the
    whole property: the unbarriered store of [String#replace], refuted below. *)
Theorem C19_reachable_kept_partial w : history false w -> forall kind, safe_gc kind (roots w) (ws w).
Proof. exact (safe_gc_ok w). Qed.
Print Assumptions C19_reachable_kept_partial.

(** Nothing becomes reachable or unreachable by collecting. *)
Theorem C19_reachability_kept_partial w : history false w ->
  forall kind s', gc kind (roots w) (ws w) = Some s' ->
  forall a, sreach (ws w) (roots w) a <-> sreach s' (roots w) a.
Proof. exact (gc_reach_same w). Qed.
Print Assumptions C19_reachability_kept_partial.

(** Between collections: what is reachable is live, and an allocation touches
    no live object. *)
Theorem C19_live_partial w : history false w -> forall a, wreach w a -> live (ws w) a.
Proof. exact (history_live w). Qed.
Print Assumptions C19_live_partial.
Theorem C19_alloc_keeps_partial w : history false w ->
  forall prom k, (forall x, In x k -> wreach w x) ->
  forall a, live (ws w) a -> heap (snd (alloc (ws w) (newborn prom k))) a = heap (ws w) a.
Proof. exact (alloc_keeps w). Qed.
Print Assumptions C19_alloc_keeps_partial.

(** [String#replace] copies a shared buffer's owner into an old String without a
    write barrier: the next minor collection frees the owner under it. *)
Theorem C19_replace_refuted : exists w a s', history true w /\ wreach w a /\ live (ws w) a /\
  gc (gc_kind false (ws w)) (roots w) (ws w) = Some s' /\ ~ live s' a.
Proof. exact replace_frees. Qed.
Print Assumptions C19_replace_refuted.
(** ... and the next full collection then aborts the process. *)
Theorem C19_replace_aborts_refuted : exists w, history true w /\ gc Major (roots w) (ws w) = None.
Proof. exact replace_aborts. Qed.
Print Assumptions C19_replace_aborts_refuted.

(** An object survives three collections, becomes old, and is then made to refer
    to a new object by a barriered store: the next minor collection keeps it. *)
Example C19_barrier_example :
  let s := barrier (put_kids (al [] b2) 0 [1]) 0 in
  let s' := col [0] s in
  (gc_kind false s, remem s, oldb s 0, oldb s 1, kids_of (heap s') 0, oldb s' 1,
   match heap s' 1 with Some o => Some (o_age o) | None => None end)
  = (Minor, [0], true, false, [1], false, Some 1).
Proof. vm_compute; reflexivity. Qed.

(** A major collection keeps exactly what is reachable. *)
Theorem C20_major_exact_partial w : history false w -> forall s', gc Major (roots w) (ws w) = Some s' ->
  forall a, live s' a <-> wreach w a.
Proof. exact (major_exact w). Qed.
Print Assumptions C20_major_exact_partial.
(** Whatever a collection frees is on the free list or on a page kept for reuse. *)
Theorem C20_available_partial w : history false w -> forall kind s', gc kind (roots w) (ws w) = Some s' ->
  forall a, live (ws w) a -> ~ live s' a -> available s' a.
Proof. exact (freed_available w). Qed.
Print Assumptions C20_available_partial.
(** A minor collection frees exactly what neither the roots nor an old object
    leads to. *)
Theorem C20_minor_exact_partial w : history false w -> forall s', gc Minor (roots w) (ws w) = Some s' ->
  forall a, live s' a <-> live (ws w) a /\ mreach (ws w) (roots w) a.
Proof. exact (minor_exact w). Qed.
Print Assumptions C20_minor_exact_partial.
(** [GC.start] is always a major collection; otherwise one comes after at most
    64 minor ones, unless switched off. *)
Theorem C20_start_is_major s : gc_kind true s = Major.
Proof. exact (start_is_major s). Qed.
Print Assumptions C20_start_is_major.
Theorem C20_major_comes s : allow_full s = true -> MAX_MINORS_PER_MAJOR <= minors s ->
  gc_kind false s = Major.
Proof. exact (minors_bounded s). Qed.
Print Assumptions C20_major_comes.
(** The choice, exactly: old objects reaching the threshold also bring one. *)
Theorem C20_kind_exact s : gc_kind false s = Major <->
  allow_full s = true /\ (old_thr s <= old_count s \/ MAX_MINORS_PER_MAJOR <= minors s).
Proof. exact (gc_kind_exact s). Qed.
Print Assumptions C20_kind_exact.
Theorem C20_minors_counted kind s r s' : gc kind r s = Some s' ->
  minors s' = match kind with Major => 0 | Minor => minors s + 1 end.
Proof. exact (gc_minors kind s r s'). Qed.
Print Assumptions C20_minors_counted.
(** The threshold set by a major collection. *)
Theorem C20_threshold kind s r s' : gc kind r s = Some s' ->
  old_thr s' = match kind with Major => Z.max (2 * old_count s') 16384 | Minor => old_thr s end.
Proof. exact (gc_threshold kind s r s'). Qed.
Print Assumptions C20_threshold.

(** Two objects referring to each other, unreachable: both freed. *)
Example C20_cycle_example :
  let s := put_kids (al [0] (al [] (al [] b1))) 1 [3] in
  let s := put_kids s 3 [1] in
  let s' := the (gc Major [0] s) in
  (map (is_live s') [0; 1; 2; 3], free s') = ([true; false; false; false], [1; 2; 3]).
Proof. vm_compute; reflexivity. Qed.

(** The cell handed out is dead. *)
Theorem C21_fresh_cell_partial w : history false w -> forall o, ~ live (ws w) (fst (alloc (ws w) o)).
Proof. intros H o L; exact (L (alloc_dead_cell w H o)). Qed.
Print Assumptions C21_fresh_cell_partial.
(** The free list has no duplicates and is exactly the dead cells of the pages in
    service; the count kept beside it is its length. *)
Theorem C21_free_list_partial w : history false w -> NoDup (free (ws w)) /\
  (forall a, In a (free (ws w)) <-> In a (cells (ws w)) /\ ~ live (ws w) a) /\
  free_cnt (ws w) = Z.of_nat (length (free (ws w))).
Proof. exact (free_list_ok w). Qed.
Print Assumptions C21_free_list_partial.
(** No live object sits on a page kept for reuse. *)
Theorem C21_free_pages_partial w : history false w ->
  forall a, In (get_page a) (fpages (ws w)) -> ~ live (ws w) a.
Proof. exact (free_page_dead w). Qed.
Print Assumptions C21_free_pages_partial.
(** The allocation sequence emitted by the compiler does what [alloc] does,
    whenever it does not fall back to it. *)
Theorem C21_compiled_alloc s o x : alloc_stub s o = Some x -> alloc s o = x.
Proof. exact (stub_alloc s o x). Qed.
Print Assumptions C21_compiled_alloc.
Theorem C21_compiled_fallback s o : alloc_stub s o = None <-> free s = [] /\ THRESHOLD <= used s.
Proof. exact (stub_runs s o). Qed.
Print Assumptions C21_compiled_fallback.
(** The word loop of the sweep frees exactly the cells whose mark bit is clear. *)
Theorem C21_sweep_bits bit map : 0 <= bit <= 64 -> 0 <= map < 2 ^ 64 ->
  sweep_bits bit map = clear_bits_below bit map.
Proof. exact (sweep_bits_spec bit map). Qed.
Print Assumptions C21_sweep_bits.
(** Masking a cell's address finds its page. *)
Theorem C21_mask_page base a : base mod ALLOC_SIZE = 0 ->
  mask_page (cell_addr base a) = page_addr base (get_page a).
Proof. exact (mask_page_cell base a). Qed.
Print Assumptions C21_mask_page.
(** After the unbarriered [String#replace], a new object lands on a reachable cell. *)
Theorem C21_replace_refuted : exists w, history true w /\
  wreach w (fst (alloc (ws w) (newborn true []))).
Proof. exact replace_hands_out. Qed.
Print Assumptions C21_replace_refuted.

Example C21_sweep_example : sweep_bits 10 (2 ^ 64 - 1 - 2 ^ 3 - 2 ^ 7 - 2 ^ 20) = [3; 7].
Proof. vm_compute; reflexivity. Qed.
Example C21_alloc_example :
  let s' := the (gc Major [0] (al [] (al [] b1))) in
  (fst (alloc s' (newborn true [])), fst (alloc (al [] s') (newborn true [])),
   fst (alloc (al [] (al [] s')) (newborn true []))) = (1, 2, 3).
Proof. vm_compute; reflexivity. Qed.

(** Every object lies in the reserved region as long as at most [MAX_PAGES]
    pages have been taken; pages are numbered without gaps. *)
Theorem C22_in_region_partial w : history false w -> hpage (ws w) < MAX_PAGES ->
  forall a, live (ws w) a -> in_region a.
Proof. exact (in_region_while w). Qed.
Print Assumptions C22_in_region_partial.
Theorem C22_pages_taken_partial w : history false w ->
  forall a, live (ws w) a -> 0 <= get_page a <= hpage (ws w).
Proof. exact (live_page_range w). Qed.
Print Assumptions C22_pages_taken_partial.
(** Nothing checks the bound: with the region full, the next object is handed
    out beyond it, and collecting first does not help. *)
Theorem C22_exhausted_refuted : exists w, history false w /\
  (forall a, live (ws w) a -> in_region a) /\
  (forall o, ~ in_region (fst (alloc (ws w) o))) /\
  (forall kind s' o, gc kind (roots w) (ws w) = Some s' -> ~ in_region (fst (alloc s' o))).
Proof. exact exhausted. Qed.
Print Assumptions C22_exhausted_refuted.

Example C22_region_example : in_region 33030143 /\ ~ in_region 33030144.
Proof. split; vm_compute; intuition discriminate. Qed.

(** [GC.stat]: a collection that gives no page back counts exactly the objects
    it freed; an allocation counts one. *)
Theorem C49_freed_exact_partial w : history false w -> forall kind s', gc kind (roots w) (ws w) = Some s' ->
  pages s' = pages (ws w) ->
  tot_freed s' - tot_freed (ws w) = live_count (ws w) - live_count s'.
Proof. exact (freed_exact w). Qed.
Print Assumptions C49_freed_exact_partial.
Theorem C49_live_plus_free_partial w : history false w ->
  live_count (ws w) + free_cnt (ws w) = Z.of_nat (length (cells (ws w))).
Proof. exact (live_plus_free w). Qed.
Print Assumptions C49_live_plus_free_partial.
Theorem C49_old_count_partial w : history false w ->
  old_count (ws w) = Z.of_nat (length (filter (oldb (ws w)) (cells (ws w)))).
Proof. exact (old_count_exact w). Qed.
Print Assumptions C49_old_count_partial.
Theorem C49_alloc_counts_partial w : history false w -> forall o,
  tot_alloc (snd (alloc (ws w) o)) = tot_alloc (ws w) + 1 /\ tot_freed (snd (alloc (ws w) o)) = tot_freed (ws w).
Proof. exact (alloc_counts w). Qed.
Print Assumptions C49_alloc_counts_partial.
(** Objects on a page given back are never counted: after 4033 allocations and
    one collection nothing is live, 4033 were allocated, one was freed. *)
Theorem C49_stat_refuted : exists w s', history false w /\ gc Major (roots w) (ws w) = Some s' /\
  tot_alloc s' = 4033 /\ tot_freed s' = 1 /\ live_count s' = 0.
Proof. exact stat_refuted. Qed.
Print Assumptions C49_stat_refuted.

Example C49_stat_example :
  let s' := the (gc Major [0] (al [] (al [] b1))) in
  (tot_alloc s', tot_freed s', live_count s', free_cnt s') = (3, 2, 1, 2).
Proof. vm_compute; reflexivity. Qed.
