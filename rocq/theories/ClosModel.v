(** Local frames, their move to the heap, and block handlers.
    monoruby/src/executor/frame.rs, executor.rs:3725-4090, codegen/runtime.rs:535-640,
    codegen/arch/x86_64/jit_module.rs:450-590, invoker.rs:553-595, vmgen.rs:1017-1036 and 1194-1245,
    vmgen/variables.rs:303-362.
    A program is the sequence of what its running frames do to variables and blocks; every
    sequence is allowed.  One execution context (no fibers), the interpreter. *)
From Coq Require Import List Bool Arith ZArith.
Import ListNotations.

Definition fid := nat.
(** The frame of the n-th control frame (0: the oldest) in the machine stack; a heap frame. *)
Inductive addr := Stk (n : nat) | Heap (h : nat).
Inductive value := VNil | VInt (z : Z) | VProc (p : nat).
(** BlockHandler: [HProxy f d]: the block [f] of the control frame [d] steps back from the frame that
    holds the handler (a fixnum f * 65536 + d); symbols and objects with to_proc are left out. *)
Inductive handler := HNone | HProxy (f : fid) (d : nat) | HProc (p : nat).
(** Lfp: the slots (0: self), outer, block, the bits on_heap and invalidated of Meta; [cache]: the
    ProcData that a builtin like Kernel#loop keeps while it runs. *)
Record frame := mkF { vars : nat -> value; outer : option addr; blk : handler; heaped : bool; inval : bool; cache : option (addr * fid) }.
(** Control frames 0 .. sp-1 with their stack memory and their Lfp; heap frames; Procs (their outer, their
    code); the register that holds the current Lfp; [born]: the number of frames ever made, only
    a bound of the loops below. *)
Record st := mkS { sp : nat; slots : nat -> frame; lfps : nat -> addr; hp : nat; heap : nat -> frame;
                   np : nat; procs : nat -> addr * fid; r14 : addr; born : nat }.
Definition upd {A} (f : nat -> A) (n : nat) (v : A) : nat -> A := fun m => if m =? n then v else f m.
Definition addr_eqb (a b : addr) : bool := match a, b with Stk m, Stk n | Heap m, Heap n => m =? n | _, _ => false end.
Definition top (s : st) : nat := pred (sp s).

Definition frame_at (s : st) (a : addr) : frame := match a with Stk n => slots s n | Heap h => heap s h end.
Definition set_at (s : st) (a : addr) (f : frame) : st :=
  match a with
  | Stk n => mkS (sp s) (upd (slots s) n f) (lfps s) (hp s) (heap s) (np s) (procs s) (r14 s) (born s)
  | Heap h => mkS (sp s) (slots s) (lfps s) (hp s) (upd (heap s) h f) (np s) (procs s) (r14 s) (born s)
  end.
Definition with_var (f : frame) (x : nat) (v : value) : frame := mkF (upd (vars f) x v) (outer f) (blk f) (heaped f) (inval f) (cache f).
Definition with_outer (f : frame) (o : option addr) : frame := mkF (vars f) o (blk f) (heaped f) (inval f) (cache f).
Definition with_blk (f : frame) (b : handler) : frame := mkF (vars f) (outer f) b (heaped f) (inval f) (cache f).
Definition reload (s : st) : st := mkS (sp s) (slots s) (lfps s) (hp s) (heap s) (np s) (procs s) (lfps s (top s)) (born s).

(** frame.rs:669-707, one frame: the copy, the redirected control frame, the tombstone. *)
Definition promote (s : st) (i : nat) : st :=
  let f := slots s i in
  mkS (sp s) (upd (slots s) i (mkF (vars f) (outer f) (blk f) (heaped f) true (cache f))) (upd (lfps s) i (Heap (hp s)))
      (S (hp s)) (upd (heap s) (hp s) (mkF (vars f) (outer f) (blk f) true (inval f) (cache f))) (np s) (procs s) (r14 s) (born s).
(** [move_frame_to_heap]. [None]: an assertion fails, or the fuel ends. *)
Fixpoint move (n : nat) (s : st) (a : addr) : option (st * addr) :=
  match n with
  | 0 => None
  | S n =>
      if heaped (frame_at s a) then Some (s, a)
      else match a with
           | Heap _ => None
           | Stk i =>
               if inval (slots s i) then Some (s, lfps s i)
               else let h := Heap (hp s) in
                    let s1 := promote s i in
                    match outer (frame_at s1 h) with
                    | None => Some (s1, h)
                    | Some o => match move n s1 o with
                                | Some (s2, o') => Some (set_at s2 h (with_outer (frame_at s2 h) (Some o')), h)
                                | None => None
                                end
                    end
           end
  end.

(** The youngest of the control frames below [k] with the Lfp [a]. *)
Fixpoint find (s : st) (a : addr) (k : nat) : option nat :=
  match k with 0 => None | S k => if addr_eqb (lfps s k) a then Some k else find s a k end.

(** executor.rs:3985-4030 [generate_proc_inner] for control frame [c]; 4055-4078
    [materialize_escaped_block_handlers]. *)
Fixpoint gen_proc (n : nat) (s : st) (c : nat) (b : handler) : option (st * nat) :=
  match n with
  | 0 => None
  | S n =>
      match b with
      | HNone => None
      | HProc p => Some (s, p)
      | HProxy f d =>
          if d <=? c then
            match move (S (born s)) s (lfps s (c - d)) with
            | Some (s1, a) =>
                match materialize n s1 a with
                | Some s2 => Some (mkS (sp s2) (slots s2) (lfps s2) (hp s2) (heap s2) (S (np s2)) (upd (procs s2) (np s2) (a, f)) (r14 s2) (born s2), np s2)
                | None => None
                end
            | None => None
            end
          else None
      end
  end
with materialize (n : nat) (s : st) (a : addr) : option st :=
  match n with
  | 0 => None
  | S n =>
      match match blk (frame_at s a) with
            | HProxy f d => match find s a (sp s) with
                            | Some c => match gen_proc n s c (HProxy f d) with
                                        | Some (s1, p) => Some (set_at s1 a (with_blk (frame_at s1 a) (HProc p)))
                                        | None => None
                                        end
                            | None => Some s
                            end
            | _ => Some s
            end with
      | None => None
      | Some s1 => match outer (frame_at s1 a) with None => Some s1 | Some o => materialize n s1 o end
      end
  end.
Definition fuel (s : st) : nat := S (S (2 * born s)).
Definition new_proc (s : st) (a : addr) (f : fid) : st * nat :=
  (mkS (sp s) (slots s) (lfps s) (hp s) (heap s) (S (np s)) (upd (procs s) (np s) (a, f)) (r14 s) (born s), np s).
(** executor.rs:4033-4042 [generate_lambda]. *)
Definition gen_lambda (s : st) (f : fid) : option (st * nat) :=
  match move (S (born s)) s (lfps s (top s)) with
  | Some (s1, a) => match materialize (fuel s) s1 a with Some s2 => Some (new_proc s2 a f) | None => None end
  | None => None
  end.
(** executor.rs:4080-4089 [generate_binding]: no materialization. A Binding is called like a Proc (eval). *)
Definition gen_binding (s : st) : option (st * nat) :=
  match move (S (born s)) s (lfps s (top s)) with Some (s1, a) => Some (new_proc s1 a 0) | None => None end.

(** vmgen/variables.rs:303-362; LFPs outwards. *)
Fixpoint up (s : st) (a : addr) (d : nat) : option addr :=
  match d with 0 => Some a | S d => match outer (frame_at s a) with Some o => up s o d | None => None end end.
(** frame.rs:611-617 [yield_home]. *)
Fixpoint home (n : nat) (s : st) (a : addr) : option addr :=
  match n with 0 => None | S n => match outer (frame_at s a) with None => Some a | Some o => home n s o end end.

(** runtime.rs:564-637 [block_arg]: [inl]: an error. *)
Definition block_arg (s : st) (d : nat) : option (st * value) :=
  match up s (r14 s) d with
  | None => None
  | Some a =>
      match blk (frame_at s a) with
      | HNone => Some (s, VNil)
      | HProc p => Some (s, VProc p)
      | HProxy f e => match find s a (sp s) with
                      | None => None
                      | Some c => match gen_proc (fuel s) s c (HProxy f e) with Some (s1, p) => Some (s1, VProc p) | None => None end
                      end
      end
  end.

(** executor.rs:3748-3772 [resolve_block_target] from control frame [c]. *)
Definition target (s : st) (c : nat) (b : handler) : option (addr * fid) :=
  match b with
  | HNone => None
  | HProc p => Some (procs s p)
  | HProxy f d => if d <=? c then Some (lfps s (c - d), f) else None
  end.
(** frame.rs:243-257 [get_block], runtime.rs:547-562 [get_yield_data]. *)
Definition yield_data (s : st) : option (addr * fid) :=
  match home (S (born s)) s (r14 s) with
  | None => None
  | Some a => match blk (frame_at s a) with
              | HProxy f d => match find s a (sp s) with
                              | Some c => target s (top s) (HProxy f (d + (top s - c)))
                              | None => None
                              end
              | b => target s (top s) b
              end
  end.
(** jit_module.rs:566-583 [resolve_invalidated_outer]. *)
Definition resolve (s : st) (a : addr) : addr := match a with Stk i => if inval (slots s i) then lfps s i else a | Heap _ => a end.

(** A new control frame with its Lfp in the stack. *)
Definition push (s : st) (f : frame) : st :=
  mkS (S (sp s)) (upd (slots s) (sp s) f) (upd (lfps s) (sp s) (Stk (sp s))) (hp s) (heap s) (np s) (procs s) (Stk (sp s)) (S (born s)).
Definition new_vars (self arg : value) : nat -> value := fun x => match x with 0 => self | 1 => arg | _ => VNil end.
Definition push_method (s : st) (self arg : value) (b : handler) : st := push s (mkF (new_vars self arg) None b false false None).
(** invoker.rs:553-595, set_block_self_outer. *)
Definition push_block (s : st) (d : addr * fid) (arg : value) (b : handler) : st :=
  let a := resolve s (fst d) in push s (mkF (new_vars (vars (frame_at s a) 0) arg) (Some a) b false false None).

(** The block of a call: none, a literal one, the block parameter of the running method passed on, a Proc
    in a slot.  args.rs:104-123, vmgen.rs:1194-1222 [BlockArgProxy] with outer 0. *)
Inductive bsel := BNone | BLit (f : fid) | BParam | BVar (x : nat).
Definition cur (s : st) : frame := frame_at s (r14 s).
Definition handler_of (s : st) (b : bsel) : handler :=
  match b with
  | BNone => HNone
  | BLit f => HProxy f 1
  | BParam => match blk (cur s) with HProxy f d => HProxy f (S d) | h => h end
  | BVar x => match vars (cur s) x with VProc p => HProc p | _ => HNone end
  end.

(** What a running frame does.  Variables: (level, slot).  [ONative]: a builtin is called that asks for its block
    once; [OEach]: it calls that block.  [OHome]: the control frame a return from here goes back to. *)
Inductive op :=
| ORead (d x : nat) | OSet (d x : nat) (z : Z) | OMove (d x d' x' : nat)
| OCall (self arg : nat) (b : bsel) | ONative (self : nat) (b : bsel) | OYield (arg : nat) | OEach (arg : nat) | OProc (x arg : nat) (b : bsel)
| OLambda (x : nat) (f : fid) | OBlockArg (d x : nat) | OBinding (x : nat) | OGiven | OHome | ORet (x y : nat).
(** What is seen. A Proc is seen by its code. *)
Inductive vis := SeeNil | SeeInt (z : Z) | SeeProc (f : fid).
Inductive out := Done | Val (v : vis) | Ran (f : fid) | NoBlock | Given (b : bool) | Pos (o : option nat) | Stuck.
Definition see (s : st) (v : value) : vis := match v with VNil => SeeNil | VInt z => SeeInt z | VProc p => SeeProc (snd (procs s p)) end.
Definition store (s : st) (a : addr) (x : nat) (v : value) : st := set_at s a (with_var (frame_at s a) x v).

Definition step (s : st) (o : op) : st * out :=
  match o with
  | ORead d x => match up s (r14 s) d with Some a => (s, Val (see s (vars (frame_at s a) x))) | None => (s, Stuck) end
  | OSet d x z => match up s (r14 s) d with Some a => (store s a x (VInt z), Done) | None => (s, Stuck) end
  | OMove d x d' x' =>
      match up s (r14 s) d, up s (r14 s) d' with
      | Some a, Some a' => (store s a x (vars (frame_at s a') x'), Done)
      | _, _ => (s, Stuck)
      end
  | OCall y x b => (push_method s (vars (cur s) y) (vars (cur s) x) (handler_of s b), Done)
  | ONative y b =>
      let h := handler_of s b in
      let s1 := push_method s (vars (cur s) y) VNil h in
      (push s (mkF (new_vars (vars (cur s) y) VNil) None h false false (target s1 (top s1) h)), Done)
  | OYield x => match yield_data s with Some d => (push_block s d (vars (cur s) x) HNone, Ran (snd d)) | None => (s, NoBlock) end
  | OEach x => match cache (cur s) with Some d => (push_block s d (vars (cur s) x) HNone, Ran (snd d)) | None => (s, NoBlock) end
  | OProc x y b =>
      match vars (cur s) x with
      | VProc p => (push_block s (procs s p) (vars (cur s) y) (handler_of s b), Ran (snd (procs s p)))
      | _ => (s, NoBlock)
      end
  | OLambda x f => match gen_lambda s f with Some (s1, p) => let s2 := reload s1 in (store s2 (r14 s2) x (VProc p), Done) | None => (s, Stuck) end
  | OBlockArg d x => match block_arg s d with Some (s1, v) => (store s1 (r14 s1) x v, Done) | None => (s, Stuck) end
  | OBinding x => match gen_binding s with Some (s1, p) => let s2 := reload s1 in (store s2 (r14 s2) x (VProc p), Done) | None => (s, Stuck) end
  | OGiven => match home (S (born s)) s (r14 s) with
              | Some a => (s, Given match blk (frame_at s a) with HNone => false | _ => true end)
              | None => (s, Stuck)
              end
  | OHome => match home (S (born s)) s (r14 s) with Some a => (s, Pos (find s a (sp s))) | None => (s, Stuck) end
  | ORet x y =>
      match sp s with
      | S (S n) => let v := vars (cur s) x in
                   let s1 := mkS (S n) (slots s) (lfps s) (hp s) (heap s) (np s) (procs s) (lfps s n) (born s) in
                   (store s1 (r14 s1) y v, Done)
      | _ => (s, Done)
      end
  end.
Fixpoint run (s : st) (l : list op) : st * list out :=
  match l with [] => (s, []) | o :: r => let '(s1, x) := step s o in let '(s2, xs) := run s1 r in (s2, x :: xs) end.
Definition start : st :=
  mkS 1 (fun _ => mkF (fun _ => VNil) None HNone false false None) Stk 0 (fun _ => mkF (fun _ => VNil) None HNone true false None) 0 (fun _ => (Stk 0, 0)) (Stk 0) 1.
