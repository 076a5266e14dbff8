(** Model of the local register allocator that compiled code uses for Integer
    operations, of the code it emits, and of the side exits of that code.

    Sources (all under /repo/monoruby/src/codegen):
      jitgen/gp_alloc.rs            register file, [allocate_run]
      jitgen/state/binop.rs         [binop_integer], [gen_cmp_integer], [gp_ensure]
      jitgen/state/slot.rs          slot modes, write-back snapshots, [copy_slot]
      jitgen/state.rs               [def_lit2gp], [flush_gp], [clear_above_next_sp]
      jitgen/compile.rs             the per-instruction driver
      jitgen/asmir/compile_shared.rs:318-430   lowering of the operations
      arch/x86_64/compile/binary_op.rs:18-190, 530-546   machine code
      jitgen.rs:1260                write-back at a side exit.

    Simplifications.  A pool register is a number 0..3 (R8..R11,
    gp_alloc.rs:69); a slot is a number; a word is a signed 64-bit integer.
    Float registers (modes F, Sf) and deferred rest arrays do not occur.  A
    side exit is inlined into the instruction that can take it.  Integer class
    guards test bit 0 (guard.rs:82). *)
From Coq Require Import ZArith Bool List Arith.
From Verif Require Import IntModel FixAsmModel ValueModel.
Import ListNotations.
Open Scope Z_scope.

Definition slot := nat.
Definition reg := nat.
Definition word := Z.

(** gp_alloc.rs:69 [GP_ALLOC_SET]. *)
Definition pool : list reg := [0; 1; 2; 3]%nat.

(** gp_alloc.rs:111-121 [Holder]. *)
Record holder := mkh { hslot : slot; hdirty : bool; hage : nat }.

(** gp_alloc.rs:138-144 [GpRegFile]; a register outside the pool is [None]. *)
Record file := mkf { hold : reg -> option holder; clock : nat }.

Definition upd {A} (g : nat -> A) (r : nat) (x : A) : nat -> A :=
  fun r' => if Nat.eqb r' r then x else g r'.

(** gp_alloc.rs:149 [new]. *)
Definition fnew : file := mkf (fun _ => None) 0%nat.

Definition holds (h : option holder) (s : slot) : bool :=
  match h with Some h => Nat.eqb (hslot h) s | None => false end.
Definition holds_dirty (h : option holder) (s : slot) : bool :=
  match h with Some h => Nat.eqb (hslot h) s && hdirty h | None => false end.

(** gp_alloc.rs:201 [reg_of], :213 [dirty_reg_of]. *)
Definition reg_of (f : file) (s : slot) : option reg := find (fun r => holds (hold f r) s) pool.
Definition dirty_reg_of (f : file) (s : slot) : option reg :=
  find (fun r => holds_dirty (hold f r) s) pool.

(** gp_alloc.rs:196 [is_free]. *)
Definition is_free (f : file) (r : reg) : bool :=
  match hold f r with None => true | Some _ => false end.

Definition memb (r : reg) (l : list reg) : bool := existsb (Nat.eqb r) l.

(** gp_alloc.rs:224 [find_free]. *)
Definition find_free (f : file) (pinned : list reg) : option reg :=
  find (fun r => is_free f r && negb (memb r pinned)) pool.

Definition age_of (f : file) (r : reg) : nat :=
  match hold f r with Some h => hage h | None => 0%nat end.

(** [min_by_key]: the first minimum. *)
Fixpoint oldest (f : file) (l : list reg) : option reg :=
  match l with
  | [] => None
  | r :: t =>
      match oldest f t with
      | None => Some r
      | Some q => if Nat.leb (age_of f r) (age_of f q) then Some r else Some q
      end
  end.

(** gp_alloc.rs:235-253 [alloc_reg].  With everything pinned the Rust code
    panics; the model then answers register 0 (never reached with at most two
    pinned registers). *)
Definition alloc_reg (f : file) (pinned : list reg) : file * reg * option slot :=
  match find_free f pinned with
  | Some r => (f, r, None)
  | None =>
      match oldest f (filter (fun r => negb (memb r pinned)) pool) with
      | Some r =>
          (mkf (upd (hold f) r None) (clock f), r,
           match hold f r with Some h => if hdirty h then Some (hslot h) else None | None => None end)
      | None => (f, 0%nat, None)
      end
  end.

(** gp_alloc.rs:394 [invalidate]. *)
Definition invalidate (f : file) (s : slot) : file :=
  mkf (fun r => if holds (hold f r) s then None else hold f r) (clock f).

(** gp_alloc.rs:266 [bind]. *)
Definition bind (f : file) (r : reg) (s : slot) (d : bool) : file :=
  let f1 := invalidate f s in
  mkf (upd (hold f1) r (Some (mkh s d (S (clock f))))) (S (clock f)).

(** gp_alloc.rs:283 [sync]: mark clean. *)
Definition sync (f : file) (s : slot) : file :=
  match reg_of f s with
  | Some r =>
      mkf (upd (hold f) r (option_map (fun h => mkh (hslot h) false (hage h)) (hold f r))) (clock f)
  | None => f
  end.

(** gp_alloc.rs:295 [free_above_sp]. *)
Definition free_above (f : file) (sp : nat) : file :=
  mkf (fun r => match hold f r with
                | Some h => if Nat.leb sp (hslot h) then None else Some h
                | None => None end) (clock f).

(** gp_alloc.rs:166 [dirty_residents]. *)
Definition dirty_residents (f : file) : list (reg * slot) :=
  flat_map (fun r => match hold f r with
                     | Some h => if hdirty h then [(r, hslot h)] else []
                     | None => [] end) pool.

(** * The reference allocator, gp_alloc.rs:306-392 *)

Inductive bkind := Add | Sub | Mul | Div | BOr | BAnd | BXor.

(** gp_alloc.rs:77 [BinOpInst]. *)
Record rinst := mkr { rkind : bkind; rdst : slot; rlhs : slot; rrhs : slot; rsp : nat }.

(** gp_alloc.rs:87 [GpAction]. *)
Inductive action :=
| ALoad (s : slot) (r : reg)
| ABin (k : bkind) (dst lhs rhs : reg)
| ASpill (r : reg) (s : slot).

Definition spill_act (r : reg) (v : option slot) : list action :=
  match v with Some s => [ASpill r s] | None => [] end.

(** gp_alloc.rs:364 [ensure]. *)
Definition r_ensure (f : file) (s : slot) (pinned : list reg) : file * reg * list action :=
  match reg_of f s with
  | Some r => (f, r, [])
  | None =>
      let '(f1, r, v) := alloc_reg f pinned in
      (bind f1 r s false, r, spill_act r v ++ [ALoad s r])
  end.

(** gp_alloc.rs:310-336, one iteration. *)
Definition r_step (f : file) (i : rinst) : file * list action :=
  let '(f1, l, c1) := r_ensure f (rlhs i) [] in
  let '(f2, r, c2) := r_ensure f1 (rrhs i) [l] in
  let f3 := free_above (invalidate f2 (rdst i)) (rsp i) in
  let '(f4, d, v) := alloc_reg f3 [r] in
  (bind f4 d (rdst i) true, c1 ++ c2 ++ spill_act d v ++ [ABin (rkind i) d l r]).

Fixpoint r_run (f : file) (p : list rinst) : file * list action :=
  match p with
  | [] => (f, [])
  | i :: p => let '(f1, c) := r_step f i in
              let '(f2, c') := r_run f1 p in (f2, c ++ c')
  end.

(** gp_alloc.rs:382 [flush_dirty]. *)
Definition r_flush (f : file) : list action :=
  map (fun p => ASpill (fst p) (snd p)) (dirty_residents f).

Definition allocate_run (p : list rinst) : list action :=
  let '(f, c) := r_run fnew p in c ++ r_flush f.

(** Machine state: pool registers and the stack home of every slot. *)
Record mach := mkm { regs : reg -> word; home : slot -> word }.

(** Meaning of an action, for any meaning [op] of the operators. *)
Definition act (op : bkind -> word -> word -> word) (m : mach) (a : action) : mach :=
  match a with
  | ALoad s r => mkm (upd (regs m) r (home m s)) (home m)
  | ABin k d l r => mkm (upd (regs m) d (op k (regs m l) (regs m r))) (home m)
  | ASpill r s => mkm (regs m) (upd (home m) s (regs m r))
  end.

(** * The online driver *)

(** slot.rs [LinkMode], restricted: [S fix] on the stack or in a register,
    with [fix] when proved a small integer; [C w] a compile-time constant;
    [V] discarded. *)
Inductive mode := MS (fix_ : bool) | MC (w : word) | MV.

Record astate := mka { rf : file; modes : slot -> mode }.

Definition odd (w : word) : bool := Z.testbit w 0.

(** What a side exit restores: slot.rs:1435 [get_write_back] — constants and
    dirty registers. *)
Record wback := mkw { wlit : slot -> option word; wgp : list (reg * slot) }.

Definition snapshot (a : astate) : wback :=
  mkw (fun s => match modes a s with MC w => Some w | _ => None end) (dirty_residents (rf a)).

(** jitgen.rs:1260 [gen_write_back_for_deopt]: constants first, registers next. *)
Definition write_back (w : wback) (m : mach) : slot -> word :=
  fold_left (fun h p => upd h (snd p) (regs m (fst p))) (wgp w)
            (fun s => match wlit w s with Some v => v | None => home m s end).

Inductive ckind := CEq | CNe | CLt | CLe | CGt | CGe.

(** Emitted instructions (AsmInst).  [x] is the side exit. *)
Inductive minst :=
| Load (s : slot) (r : reg)                 (* stack2reg *)
| Lit (w : word) (r : reg)                  (* lit2reg *)
| Store (r : reg) (s : slot)                (* reg2stack *)
| StoreLit (w : word) (s : slot)            (* Spill::Lit *)
| Copy (src dst : slot)                     (* through rax *)
| Guard (r : reg) (x : wback)
| Bin (k : bkind) (dst lhs rhs : reg) (x : wback)
| BinImm (k : bkind) (dst lhs : reg) (k2 : Z) (x : wback)
| Double (dst lhs : reg) (x : wback)
| Cmp (k : ckind) (dst : option slot) (lhs rhs : reg)
| CmpImm (k : ckind) (dst : option slot) (lhs : reg) (w : word)
| Trap.                                     (* unreachable!() while compiling *)

(** slot.rs:1085 [is_fixnum], :1010 [is_fixnum_literal]. *)
Definition is_fixnum (a : astate) (s : slot) : bool :=
  match modes a s with MS b => b | MC w => odd w | MV => false end.
Definition fix_lit (a : astate) (s : slot) : option word :=
  match modes a s with MC w => if odd w then Some w else None | _ => None end.

Definition with_rf (a : astate) (f : file) : astate := mka f (modes a).
Definition with_mode (a : astate) (s : slot) (m : mode) : astate := mka (rf a) (upd (modes a) s m).

(** slot.rs:626 [clear] + [discard]. *)
Definition discard (a : astate) (s : slot) : astate :=
  mka (invalidate (rf a) s) (upd (modes a) s MV).
(** slot.rs:831 [def_S_guarded], :906 [def_C], :843 [refine_S_fixnum]. *)
Definition def_S (a : astate) (s : slot) (b : bool) : astate := with_mode (discard a s) s (MS b).
Definition def_C (a : astate) (s : slot) (w : word) : astate := with_mode (discard a s) s (MC w).
Definition refine (a : astate) (s : slot) : astate :=
  match modes a s with MS _ => with_mode a s (MS true) | _ => a end.

Definition spill_code (r : reg) (v : option slot) : list minst :=
  match v with Some s => [Store r s] | None => [] end.

(** slot.rs:951 [write_back_slot] for a slot that is not in a register. *)
Definition home_code (a : astate) (s : slot) : list minst :=
  match modes a s with MS _ => [] | MC w => [StoreLit w s] | MV => [Trap] end.

(** binop.rs:371-409 [gp_ensure]: state, register, "needs a guard", code. *)
Definition gp_ensure (a : astate) (s : slot) (pinned : list reg) : astate * reg * bool * list minst :=
  match reg_of (rf a) s with
  | Some r => (a, r, negb (is_fixnum a s), [])
  | None =>
      match fix_lit a s with
      | Some w =>
          let '(f1, r, v) := alloc_reg (rf a) pinned in
          (with_rf a (bind f1 r s false), r, false, spill_code r v ++ [Lit w r])
      | None =>
          let '(f1, r, v) := alloc_reg (rf a) pinned in
          (with_rf a (bind f1 r s false), r, negb (is_fixnum a s),
           home_code a s ++ spill_code r v ++ [Load s r])
      end
  end.

Definition oinv (f : file) (d : option slot) : file :=
  match d with Some s => invalidate f s | None => f end.

(** binop.rs:336-362 [binop_dst_reg]. *)
Definition dst_reg (f : file) (lhs : slot) (l : reg) (ldirty : bool) (extra : list reg)
  : file * reg * option slot :=
  if negb ldirty && negb (memb l extra) && is_free f l then (f, l, None)
  else if negb ldirty && negb (memb l extra)
          && match reg_of f lhs with Some r => Nat.eqb r l | None => false end
  then (invalidate f lhs, l, None)
  else alloc_reg f (l :: extra).

Definition guard_code (g : bool) (r : reg) (x : wback) : list minst :=
  if g then [Guard r x] else [].
Definition refine_if (g : bool) (a : astate) (s : slot) : astate := if g then refine a s else a.

(** The result of an operation: binop.rs:273-280, 313-317. *)
Definition define (a : astate) (dst : option slot) (r : reg) : astate :=
  match dst with
  | Some s => let a1 := def_S a s true in with_rf a1 (bind (rf a1) r s true)
  | None => a
  end.

(** binop.rs:286-318 [binop_integer_imm]; [k2] is the doubled constant. *)
Definition bin_imm (a : astate) (k : bkind) (dst : option slot) (l : slot) (k2 : Z) (sp : nat)
  : astate * list minst :=
  let '(a1, lr, lg, c1) := gp_ensure a l [] in
  let ld := match dirty_reg_of (rf a1) l with Some _ => true | None => false end in
  let x := snapshot a1 in
  let f2 := free_above (oinv (rf a1) dst) sp in
  let '(f3, d, v) := dst_reg f2 l lr ld [] in
  let a3 := refine_if lg (with_rf a1 f3) l in
  (define a3 dst d,
   c1 ++ spill_code d v ++ guard_code lg lr x ++ [BinImm k d lr k2 x]).

(** binop.rs:171-181: the constant folded into an immediate, when its double
    fits an i32. *)
Definition imm32 (w : word) : option Z :=
  let k2 := w - 1 in
  if (- 2 ^ 31 <=? k2) && (k2 <? 2 ^ 31) then Some k2 else None.
Definition bin_imm_form (a : astate) (k : bkind) (l r : slot) : option (slot * Z) :=
  match k with
  | Add | Sub =>
      match fix_lit a r with
      | Some w => option_map (fun k2 => (l, k2)) (imm32 w)
      | None =>
          match k, fix_lit a l with
          | Add, Some w => option_map (fun k2 => (r, k2)) (imm32 w)
          | _, _ => None
          end
      end
  | _ => None
  end.

Definition clobbers (k : bkind) : bool := match k with Mul | Div => true | _ => false end.

(** binop.rs:183-281 [binop_integer_gp], the register form. *)
Definition bin_reg (a : astate) (k : bkind) (dst : option slot) (l r : slot) (sp : nat)
  : astate * list minst :=
  let '(a1, lr, lg, c1) := gp_ensure a l [] in
  let '(a2, rr, rg0, c2) := gp_ensure a1 r [lr] in
  let rg := rg0 && negb (Nat.eqb l r) in
  (* 1b *)
  let '(a3, c3) :=
    match (if clobbers k then dirty_reg_of (rf a2) r else None) with
    | Some q => (with_rf a2 (sync (rf a2) r), [Store q r])
    | None => (a2, [])
    end in
  let ld := match dirty_reg_of (rf a3) l with Some _ => true | None => false end in
  (* 2 *)
  let x := snapshot a3 in
  (* 3, 4 *)
  let f4 := free_above (oinv (rf a3) dst) sp in
  (* 5 *)
  let dbl := match k with Add => Nat.eqb lr rr | _ => false end in
  let '(f5, d, v) :=
    if clobbers k then alloc_reg f4 [lr; rr]
    else if dbl then dst_reg f4 l lr ld []
    else dst_reg f4 l lr ld [rr] in
  let a5 := refine_if rg (refine_if lg (with_rf a3 f5) l) r in
  let a6 := if clobbers k then with_rf a5 (invalidate (rf a5) r) else a5 in
  (define a6 dst d,
   c1 ++ c2 ++ c3 ++ spill_code d v ++ guard_code lg lr x ++ guard_code rg rr x ++
   [if dbl then Double d lr x else Bin k d lr rr x]).

(** binop.rs:70-101 [binop_integer_folded] on tagged words; binop.rs:112-135. *)
Definition fold_bin (k : bkind) (wl wr : word) : option word :=
  let a := Z.shiftr wl 1 in let b := Z.shiftr wr 1 in
  option_map tag
    match k with
    | Add => fold_arith Z.add a b
    | Sub => fold_arith Z.sub a b
    | Mul => fold_arith Z.mul a b
    | Div => fold_div a b
    | BOr => check_fixnum (Z.lor a b)
    | BAnd => check_fixnum (Z.land a b)
    | BXor => check_fixnum (Z.lxor a b)
    end.

Definition odef_C (a : astate) (d : option slot) (w : word) : astate :=
  match d with Some s => def_C (with_rf a (invalidate (rf a) s)) s w | None => a end.

(** binop.rs:803 [guard_recv_class] for Integer, run before the operator
    (compile/binary_op.rs:249). *)
Definition recv_guard (a : astate) (s : slot) : astate * list minst :=
  if is_fixnum a s then (a, [])
  else let '(a1, r, g, c) := gp_ensure a s [] in
       if g then (refine a1 s, c ++ [Guard r (snapshot a1)]) else (a1, c).

(** binop.rs:112-135 [binop_integer]. *)
Definition bin (a : astate) (k : bkind) (dst : option slot) (l r : slot) (sp : nat)
  : astate * list minst :=
  let folded := match fix_lit a l, fix_lit a r with
                | Some wl, Some wr => fold_bin k wl wr
                | _, _ => None end in
  match folded with
  | Some w => (odef_C a dst w, [])
  | None =>
      match bin_imm_form a k l r with
      | Some (v, k2) => bin_imm a k dst v k2 sp
      | None => bin_reg a k dst l r sp
      end
  end.

(** Comparison of two integers; binop.rs:33 [cmp]. *)
Definition cmpz (k : ckind) (a b : Z) : bool :=
  match k with
  | CEq => a =? b | CNe => negb (a =? b) | CLt => a <? b
  | CLe => a <=? b | CGt => b <? a | CGe => b <=? a
  end.
Definition wbool (b : bool) : word := if b then TRUE_VALUE else FALSE_VALUE.

Definition odef_S (a : astate) (d : option slot) : astate :=
  match d with Some s => def_S a s false | None => a end.

(** binop.rs:463-553 [gen_cmp_integer], [gen_cmp_integer_gp]. *)
Definition cmp_ (a : astate) (k : ckind) (dst : option slot) (l r : slot) (sp : nat)
  : astate * list minst :=
  match fix_lit a l, fix_lit a r with
  | Some wl, Some wr =>
      (odef_C a dst (wbool (cmpz k (Z.shiftr wl 1) (Z.shiftr wr 1))), [])
  | _, _ =>
      match (match fix_lit a r with
             | Some w => if (- 2 ^ 31 <=? w) && (w <? 2 ^ 31) then Some w else None
             | None => None end) with
      | Some w =>
          let '(a1, lr, lg, c1) := gp_ensure a l [] in
          let x := snapshot a1 in
          let f2 := free_above (oinv (rf a1) dst) sp in
          (odef_S (refine_if lg (with_rf a1 f2) l) dst,
           c1 ++ guard_code lg lr x ++ [CmpImm k dst lr w])
      | None =>
          let '(a1, lr, lg, c1) := gp_ensure a l [] in
          let '(a2, rr, rg, c2) := gp_ensure a1 r [lr] in
          let x := snapshot a2 in
          let f3 := free_above (oinv (rf a2) dst) sp in
          (odef_S (refine_if rg (refine_if lg (with_rf a2 f3) l) r) dst,
           c1 ++ c2 ++ guard_code lg lr x ++ guard_code rg rr x ++ [Cmp k dst lr rr])
      end
  end.

(** state.rs:497 [flush_gp]. *)
Definition flush (a : astate) : astate * list minst :=
  (with_rf a (mkf (fun _ => None) (clock (rf a))),
   map (fun p => Store (fst p) (snd p)) (dirty_residents (rf a))).

(** slot.rs:1221 [copy_slot] after [flush_gp] (compile.rs:729 [TraceIr::Mov]). *)
Definition mov (a : astate) (dst src : slot) : astate * list minst :=
  let '(a1, c) := flush a in
  if Nat.eqb src dst then (a1, c)
  else match modes a1 src with
       | MS b => (def_S a1 dst b, c ++ [Copy src dst])
       | MC w => (def_C a1 dst w, c)
       | MV => (a1, c ++ [Trap])
       end.

(** compile.rs:368 [FrozenLiteral]: an immediate is a constant; a heap value
    goes to a register (state.rs:317 [def_lit2gp], :290 [alloc_gp_for]). *)
Definition heap_lit (a : astate) (dst : slot) (w : word) : astate * list minst :=
  let a1 := def_S a dst false in
  let '(f2, r, v) := alloc_reg (rf a1) [] in
  (with_rf a1 (bind f2 r dst true), spill_code r v ++ [Lit w r]).

Inductive ins :=
| IBin (k : bkind) (dst : option slot) (l r : slot)
| ICmp (k : ckind) (dst : option slot) (l r : slot)
| ILit (dst : slot) (w : word)
| IHeap (dst : slot) (w : word)
| IMov (dst src : slot).

(** state.rs:472 [clear_above_next_sp]. *)
Definition clear_above (a : astate) (sp : nat) : astate :=
  mka (free_above (rf a) sp) (fun s => if Nat.leb sp s then MV else modes a s).

(** compile.rs:310-, one instruction; [sp] is the stack pointer after it. *)
Definition compile_ins (a : astate) (i : ins) (sp : nat) : astate * list minst :=
  match i with
  | IBin k dst l r => let '(a1, c1) := recv_guard a l in
                      let '(a2, c2) := bin a1 k dst l r sp in (a2, c1 ++ c2)
  | ICmp k dst l r => let '(a1, c1) := recv_guard a l in
                      let '(a2, c2) := cmp_ a1 k dst l r sp in (a2, c1 ++ c2)
  | ILit dst w => (def_C a dst w, [])
  | IHeap dst w => heap_lit a dst w
  | IMov dst src => mov a dst src
  end.
Definition compile_step (a : astate) (i : ins) (sp : nat) : astate * list minst :=
  let '(a1, c) := compile_ins a i sp in (clear_above a1 sp, c).

(** compile.rs:79-163 [compile_basic_block]: one code list per instruction;
    the last one is the flush at the block boundary. *)
Fixpoint compile (a : astate) (p : list (ins * nat)) : astate * list (list minst) :=
  match p with
  | [] => let '(a1, c) := flush a in (a1, [c])
  | (i, sp) :: p =>
      let '(a1, c) := compile_step a i sp in
      let '(a2, cs) := compile a1 p in (a2, c :: cs)
  end.

(** * Machine code, register by register *)

(** x86_64/compile/binary_op.rs:18-127 [integer_binop]: computes in [l], and
    for [Div] in rax.  The flag says the side exit is taken; the registers are
    those at that moment. *)
Definition op_exec (k : bkind) (l r : reg) (g : reg -> word) : (reg -> word) * word * bool :=
  match k with
  | Add => let g1 := upd g l (wrap64 (g l - 1)) in
           let z := g1 l + g1 r in
           let g2 := upd g1 l (wrap64 z) in (g2, g2 l, oflow z)
  | Sub => let z := g l - g r in
           let g1 := upd g l (wrap64 z) in
           if oflow z then (g1, g1 l, true)
           else let g2 := upd g1 l (wrap64 (g1 l + 1)) in (g2, g2 l, false)
  | Mul => let g1 := upd g r (Z.shiftr (g r) 1) in
           let g2 := upd g1 l (wrap64 (g1 l - 1)) in
           let z := g2 l * g2 r in
           let g3 := upd g2 l (wrap64 z) in
           if oflow z then (g3, g3 l, true)
           else let g4 := upd g3 l (Z.lor (g3 l) 1) in (g4, g4 l, false)
  | Div => let g1 := upd g r (Z.shiftr (g r) 1) in
           let b := g1 r in
           if b =? 0 then (g1, 0, true)
           else
             let a := Z.shiftr (g1 l) 1 in
             let q := Z.quot a b in let m := Z.rem a b in
             let q' := if b <? 0 then (if m <=? 0 then q else wrap64 (q - 1))
                       else (if m <? 0 then wrap64 (q - 1) else q) in
             (g1, Z.lor (wrap64 (Z.shiftl q' 1)) 1, false)
  | BOr => let g1 := upd g l (Z.lor (g l) (g r)) in (g1, g1 l, false)
  | BAnd => let g1 := upd g l (Z.land (g l) (g r)) in (g1, g1 l, false)
  | BXor => let g1 := upd g l (Z.lxor (g l) (g r)) in
            let g2 := upd g1 l (wrap64 (g1 l + 1)) in (g2, g2 l, false)
  end.

(** compile_shared.rs:318-362 [IntegerBinOpReg]: [mov dst, lhs] first, except
    for [Div], which moves rax into [dst] afterwards. *)
Definition bin_exec (k : bkind) (d l r : reg) (g : reg -> word) : (reg -> word) * bool :=
  match k with
  | Div => let '(g1, rax, e) := op_exec Div l r g in
           if e then (g1, true) else (upd g1 d rax, false)
  | _ => let g0 := if Nat.eqb d l then g else upd g d (g l) in
         let '(g1, _, e) := op_exec k d r g0 in (g1, e)
  end.

(** compile_shared.rs:376-397, binary_op.rs:138-165. *)
Definition imm_exec (k : bkind) (d l : reg) (k2 : Z) (g : reg -> word) : (reg -> word) * bool :=
  let g0 := if Nat.eqb d l then g else upd g d (g l) in
  let z := match k with Sub => g0 d - k2 | _ => g0 d + k2 end in
  (upd g0 d (wrap64 z), oflow z).

(** compile_shared.rs:364-375, binary_op.rs:172-190. *)
Definition double_exec (d l : reg) (g : reg -> word) : (reg -> word) * bool :=
  let g0 := if Nat.eqb d l then g else upd g d (g l) in
  let z := g0 d + g0 d in
  let g1 := upd g0 d (wrap64 z) in
  if oflow z then (g1, true) else (upd g1 d (wrap64 (g1 d - 1)), false).

Inductive mres := MOk (m : mach) | MExit (h : slot -> word) | MTrap.

Definition with_regs (m : mach) (g : reg -> word) : mach := mkm g (home m).
Definition finish (m : mach) (x : wback) (r : (reg -> word) * bool) : mres :=
  let m1 := with_regs m (fst r) in if snd r then MExit (write_back x m1) else MOk m1.
Definition store_opt (m : mach) (d : option slot) (w : word) : mach :=
  match d with Some s => mkm (regs m) (upd (home m) s w) | None => m end.

Definition exec1 (m : mach) (i : minst) : mres :=
  match i with
  | Load s r => MOk (with_regs m (upd (regs m) r (home m s)))
  | Lit w r => MOk (with_regs m (upd (regs m) r w))
  | Store r s => MOk (mkm (regs m) (upd (home m) s (regs m r)))
  | StoreLit w s => MOk (mkm (regs m) (upd (home m) s w))
  | Copy a b => MOk (mkm (regs m) (upd (home m) b (home m a)))
  | Guard r x => if odd (regs m r) then MOk m else MExit (write_back x m)
  | Bin k d l r x => finish m x (bin_exec k d l r (regs m))
  | BinImm k d l k2 x => finish m x (imm_exec k d l k2 (regs m))
  | Double d l x => finish m x (double_exec d l (regs m))
  | Cmp k d l r => MOk (store_opt m d (wbool (cmpz k (regs m l) (regs m r))))
  | CmpImm k d l w => MOk (store_opt m d (wbool (cmpz k (regs m l) w)))
  | Trap => MTrap
  end.

Fixpoint exec (c : list minst) (m : mach) : mres :=
  match c with
  | [] => MOk m
  | i :: c => match exec1 m i with MOk m1 => exec c m1 | r => r end
  end.

(** Outcome of a compiled block: it reaches its end, or it leaves to the
    interpreter at the instruction with index [n], whose frame is [h]. *)
Inductive outcome := Done (m : mach) | Exit (n : nat) (h : slot -> word) | Crash.

Fixpoint exec_block (n : nat) (cs : list (list minst)) (m : mach) : outcome :=
  match cs with
  | [] => Done m
  | c :: cs => match exec c m with
               | MOk m1 => exec_block (S n) cs m1
               | MExit h => Exit n h
               | MTrap => Crash
               end
  end.

(** At block entry the register file is empty and every live slot is on the
    stack, of unknown class. *)
Definition entry (sp : nat) : astate :=
  mka fnew (fun s => if Nat.ltb s sp then MS false else MV).

(** Values after the block: a constant is known to the successor. *)
Definition final (a : astate) (m : mach) (s : slot) : word :=
  match modes a s with MC w => w | _ => home m s end.
