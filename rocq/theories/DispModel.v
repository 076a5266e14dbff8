(** Method dispatch in compiled code, for whole programs.

    Sources (all under /repo/monoruby/src):
    - codegen/jitgen/compile/method_call.rs:290-470 (compile_method_call),
      970-1004 (guard_class_version), 1755-1830 (send), 1834-1885
      (send_specialized), 230-278 (pmc_same_target_classes)
    - codegen/jitgen/state.rs:141-160, 372-409, 600-660, 700-746 (entry states,
      def_rax2acc_return, ReturnState, Invariants::join)
    - codegen/jitgen/compile.rs:770-854 (definitions unset the guard)
    - codegen/jitgen/compile/loop_analysis.rs:4-58 and merge.rs:60-95 (loops)
    - codegen/arch/x86_64/guard.rs:1-60 (the guards), codegen/compiler.rs:376-440
      (recompile_method), 716-790 (salvage_specialized), 1046-1068
      (jit_recompile_method_with_recovery), codegen/jitgen.rs:674 (one version
      word per compilation)
    - globals/store/class.rs:2560-2635 (update_inline_cache, salvage_method_unit)
    - codegen.rs:1640-1702 and codegen/runtime.rs:13-40 (chain_deopt)

    What is modelled: a program is a set of methods, each either an
    attr_reader, an attr_writer, a builtin with an inline generator, or a
    Ruby body.  Classes, method names, functions, objects, local slots and
    call sites are numbers.  Method resolution is a table from class and name
    to a function; how the table follows from the class graph is the subject
    of C57-C60 and is not repeated here, a definition is an arbitrary change
    of the table.  Compiled code is the source statement list with an
    annotation at every call: which guards are emitted, the class and the
    function they were resolved to, and how the call is made.

    Not modelled: exceptions, blocks, super, refinements, visibility, keyword
    and optional arguments, loop compilation (on-stack replacement),
    re-compilation of a single specialized callee, constant folds, and the
    machine registers.  The version word is a 32 bit integer in the code and
    a natural number here. *)
From Coq Require Import List Arith Bool PeanoNat Lia.
Import ListNotations.

Definition table := nat -> nat -> option nat.

(** ** Programs *)

Inductive stmt :=
| SMove (d s : nat)                          (* d = s *)
| SPrim (d k : nat)                          (* an instruction that calls nothing *)
| SCall (site d r n : nat) (args : list nat) (* d = r.n(args) *)
| SHelper (d r n : nat)                      (* an instruction whose runtime helper
                                                calls method n of r: "#{r}" calls to_s,
                                                a Hash literal calls hash, a multiple
                                                assignment calls to_ary, ... *)
| SDef (g : table -> table)                  (* def, undef, alias, class, module *)
| SSingle (r : nat) (g : nat -> table -> table) (* def r.m, class << r *)
| SFiber (d r n : nat)                       (* Fiber.new { r.n }.resume *)
| SIf (s : nat) (a b : list stmt)
| SWhile (s : nat) (body : list stmt).

Inductive kind :=
| KReader (iv : nat)          (* attr_reader *)
| KWriter (iv : nat)          (* attr_writer *)
| KPure (k : nat)             (* a builtin compiled by an inline generator *)
| KBody (body : list stmt).   (* a Ruby method *)

Record prog := Prog {
  p_meth : nat -> kind;
  p_prim : nat -> (nat -> nat) -> nat;   (* SPrim and KPure: any function *)
}.

(** ** The state shared by both ways of running *)

Record world := World {
  w_ver : nat;                      (* the global class version *)
  w_tab : table;                    (* method resolution *)
  w_real : nat -> nat;              (* class of an object without its singleton class *)
  w_sing : nat -> option nat;       (* its singleton class *)
  w_next : nat;                     (* next class id *)
  w_heap : nat -> nat -> nat;       (* instance variables *)
  w_trace : list (nat * nat);       (* functions called so far, with their receivers *)
  w_quiet : bool;                   (* see below *)
}.

(** [w_quiet] is bookkeeping only, nothing in the code depends on it: it
    becomes false when a singleton class is created or changed, when a
    runtime helper (SHelper) ends with another class version than it began
    with, and when a fiber is resumed. *)

Definition cls (w : world) (o : nat) : nat :=
  match w_sing w o with Some s => s | None => w_real w o end.

Definition log (w : world) (f o : nat) : world :=
  World (w_ver w) (w_tab w) (w_real w) (w_sing w) (w_next w) (w_heap w)
    (w_trace w ++ [(f, o)]) (w_quiet w).

Definition loud (w : world) : world :=
  World (w_ver w) (w_tab w) (w_real w) (w_sing w) (w_next w) (w_heap w)
    (w_trace w) false.

Definition hushed (before w : world) : world :=
  if w_ver before =? w_ver w then w else loud w.

Definition redefine (g : table -> table) (w : world) : world :=
  World (S (w_ver w)) (g (w_tab w)) (w_real w) (w_sing w) (w_next w) (w_heap w)
    (w_trace w) (w_quiet w).

(** The singleton class is created on first use
    (globals/store/class.rs get_singleton), then the method is added. *)
Definition singleton (o : nat) (g : nat -> table -> table) (w : world) : world :=
  match w_sing w o with
  | Some s => loud (redefine (g s) w)
  | None =>
      World (S (w_ver w)) (g (w_next w) (w_tab w)) (w_real w)
        (fun x => if x =? o then Some (w_next w) else w_sing w x)
        (S (w_next w)) (w_heap w) (w_trace w) false
  end.

Definition write (w : world) (o iv v : nat) : world :=
  World (w_ver w) (w_tab w) (w_real w) (w_sing w) (w_next w)
    (fun x i => if (x =? o) && (i =? iv) then v else w_heap w x i)
    (w_trace w) (w_quiet w).

Definition env := nat -> nat.
Definition upd (e : env) (d v : nat) : env := fun i => if i =? d then v else e i.
(** Slot 0 is self, the arguments follow, the result is left in slot 1. *)
Definition env_of (o : nat) (args : list nat) : env :=
  fun i => match i with 0 => o | S j => nth j args 0 end.
Definition truthy (v : nat) : bool := negb (v =? 0).

(** ** Compiled code *)

Inductive cguard :=
| GNone                      (* the class of the slot is already known *)
| GOne                       (* GuardClass *)
| GSet (l : list nat).       (* GuardClassIn: several classes, one target *)

Inductive astmt :=
| AMove (d s : nat)
| APrim (d k : nat)
| ACall (d r n : nat) (args : list nat) (a : ann)
| AHelper (d r n : nat)
| ADef (g : table -> table)
| ASingle (r : nat) (g : nat -> table -> table)
| AFiber (d r n : nat)
| AIf (s : nat) (a b : list astmt)
| AWhile (s : nat) (body : list astmt)
with ann :=
| Deopt                                            (* CompileResult::Deopt *)
| Ann (vg : bool) (cg : cguard) (c f : nat) (h : how)
with how :=
| HInline                                          (* reader, writer, builtin *)
| HSend                                            (* an ordinary call *)
| HSpec (body : list astmt).                       (* send_specialized *)

Record entry := Entry { e_cls : nat; e_name : nat; e_fid : nat }.

(** One compilation of a method for one class of self
    (JitInfo, globals/store/iseq.rs).  [u_id] names its version word. *)
Record unit_ := Unit {
  u_id : nat;
  u_entries : list entry;
  u_code : list astmt;
}.

Record jit := Jit {
  j_units : nat -> nat -> option unit_;    (* function, class of self *)
  j_word : nat -> nat;                     (* version words *)
  j_next : nat;
}.

(** What the runtime decides from its own profile; nothing is assumed. *)
Record policy := Policy {
  hot : world -> jit -> nat -> nat -> bool;            (* compile at this entry? *)
  site_cls : world -> jit -> nat -> option nat;        (* class in the site's cache *)
  site_pmc : world -> jit -> nat -> list nat;          (* classes observed *)
  inl : world -> jit -> nat -> bool;                   (* specialize this callee? *)
  odd : world -> jit -> nat -> bool;                   (* does another guard fail? *)
  relearn : world -> jit -> nat -> bool;               (* recompile on a class miss? *)
  size : world -> jit -> nat -> nat -> nat;            (* the compiler gives up beyond
                                                          this many statements *)
}.

(** ** The abstract state of the compiler *)

Record facts := Facts {
  f_flag : bool;                  (* Invariants::class_version_guard *)
  f_cls : list (option nat);      (* Guarded::Class of each slot *)
}.

Definition known (fx : facts) (s : nat) : option nat :=
  nth s (f_cls fx) None.

Fixpoint set_at (l : list (option nat)) (s : nat) (v : option nat) : list (option nat) :=
  match s, l with
  | 0, [] => [v]
  | 0, _ :: t => v :: t
  | S s, [] => None :: set_at [] s v
  | S s, x :: t => x :: set_at t s v
  end.

Definition learn (fx : facts) (s : nat) (v : option nat) : facts :=
  Facts (f_flag fx) (set_at (f_cls fx) s v).

Definition flag (fx : facts) (b : bool) : facts := Facts b (f_cls fx).

Definition same_cls (a b : option nat) : bool :=
  match a, b with
  | Some x, Some y => x =? y
  | None, None => true
  | _, _ => false
  end.

Fixpoint join_cls (a b : list (option nat)) : list (option nat) :=
  match a, b with
  | x :: s, y :: t => (if same_cls x y then x else None) :: join_cls s t
  | _, _ => []
  end.

(** Invariants::join (state.rs:741-746) and decide_join for classes. *)
Definition join (a b : facts) : facts :=
  Facts (f_flag a && f_flag b) (join_cls (f_cls a) (f_cls b)).

Fixpoint same_clss (a b : list (option nat)) : bool :=
  match a, b with
  | x :: s, y :: t => same_cls x y && same_clss s t
  | [], [] => true
  | _, _ => false
  end.

Definition same_facts (a b : facts) : bool :=
  Bool.eqb (f_flag a) (f_flag b) && same_clss (f_cls a) (f_cls b).

(** A path that does not continue has no state. *)
Definition ojoin (a b : option facts) : option facts :=
  match a, b with
  | None, x => x
  | x, None => x
  | Some a, Some b => Some (join a b)
  end.

(** ** Code without annotations: what the interpreter runs *)

Fixpoint plain1 (s : stmt) : astmt :=
  match s with
  | SMove d s => AMove d s
  | SPrim d k => APrim d k
  | SCall _ d r n args => ACall d r n args Deopt
  | SHelper d r n => AHelper d r n
  | SDef g => ADef g
  | SSingle r g => ASingle r g
  | SFiber d r n => AFiber d r n
  | SIf s a b => AIf s (map plain1 a) (map plain1 b)
  | SWhile s body => AWhile s (map plain1 body)
  end.
Definition plain (l : list stmt) : list astmt := map plain1 l.

(** ** Compilation *)

Section Compile.
Variable P : prog.
Variable pol : policy.
Variable w : world.
Variable j : jit.

(** The receiver guard (method_call.rs:383-455): nothing when the class of
    the slot is known; a set of classes for a builtin when the observed
    classes all resolve to the same function (pmc_same_target_classes), every
    member of the set being recorded; one class otherwise, after which the
    class of the slot is known. *)
Definition class_guard (fx : facts) (site r n c f : nat)
    : cguard * facts * list entry :=
  if same_cls (known fx r) (Some c) then (GNone, fx, [])
  else
    let set := filter (fun k => same_cls (w_tab w k n) (Some f)) (c :: site_pmc pol w j site) in
    match p_meth P f with
    | KPure _ =>
        if 2 <=? length set
        then (GSet set, fx, map (fun k => Entry k n f) set)
        else (GOne, learn fx r (Some c), [])
    | _ => (GOne, learn fx r (Some c), [])
    end.

(** Facts at the entry of a specialized callee: a fresh flag
    (Invariants::new_specialized), the class of self, and what the caller
    knows about the arguments. *)
Definition spec_facts (fx : facts) (c : nat) (args : list nat) : facts :=
  Facts false (Some c :: map (known fx) args).

(** The loop head (loop_analysis.rs:4-58): the entry state joined with the
    state at the back edge, repeated at most ten times until the back edge
    does not change. *)
Fixpoint loop_head (m : nat) (body : facts -> option (option facts))
    (fx : facts) (be : option facts) : option facts :=
  match m with
  | 0 => None
  | S m =>
      let h := match be with None => fx | Some b => join fx b end in
      match body h with
      | None => None
      | Some None => Some h
      | Some (Some b) =>
          match be with
          | Some b0 =>
              if same_facts b0 b then Some h else loop_head m body fx (Some b)
          | None => loop_head m body fx (Some b)
          end
      end
  end.

(** [comp n fx code] is the compiled code, the state after it (None when it
    is not reached) and the recorded resolutions; None when the compilation
    gives up. *)
Fixpoint comp (n : nat) (fx : facts) (code : list stmt)
    : option (list astmt * option facts * list entry) :=
  match n with
  | 0 => None
  | S n =>
    match code with
    | [] => Some ([], Some fx, [])
    | s :: rest =>
      let next (a : astmt) (o : option facts) (es : list entry) :=
        match o with
        | None => Some (a :: plain rest, None, es)
        | Some fx' =>
            match comp n fx' rest with
            | None => None
            | Some (l, o', es') => Some (a :: l, o', es ++ es')
            end
        end in
      match s with
      | SMove d s => next (AMove d s) (Some (learn fx d (known fx s))) []
      | SPrim d k => next (APrim d k) (Some (learn fx d None)) []
      | SHelper d r nm => next (AHelper d r nm) (Some (learn fx d None)) []
      | SDef g => next (ADef g) (Some (flag fx false)) []
      | SSingle r g => next (ASingle r g) (Some (flag fx false)) []
      | SFiber d r nm => next (AFiber d r nm) (Some (flag (learn fx d None) false)) []
      | SCall site d r nm args =>
          match site_cls pol w j site with
          | None => next (ACall d r nm args Deopt) None []
          | Some c =>
              match w_tab w c nm with
              | None => next (ACall d r nm args Deopt) None []
              | Some f =>
                  let e := Entry c nm f in
                  let vg := negb (f_flag fx) in
                  let '(cg, fx1, es) := class_guard (flag fx true) site r nm c f in
                  match p_meth P f with
                  | KBody body =>
                      if inl pol w j f then
                        match comp n (spec_facts fx1 c args) body with
                        | None => None
                        | Some (b, ob, eb) =>
                            next (ACall d r nm args (Ann vg cg c f (HSpec b)))
                              (match ob with
                               | None => None
                               | Some fb =>
                                   Some (flag (learn fx1 d None) (f_flag fx1 && f_flag fb))
                               end)
                              (e :: es ++ eb)
                        end
                      else
                        next (ACall d r nm args (Ann vg cg c f HSend))
                          (Some (flag (learn fx1 d None) false)) (e :: es)
                  | _ =>
                      next (ACall d r nm args (Ann vg cg c f HInline))
                        (Some (learn fx1 d None)) (e :: es)
                  end
              end
          end
      | SIf s a b =>
          match comp n fx a, comp n fx b with
          | Some (la, oa, ea), Some (lb, ob, eb) =>
              next (AIf s la lb) (ojoin oa ob) (ea ++ eb)
          | _, _ => None
          end
      | SWhile s body =>
          match loop_head 10
                  (fun h => match comp n h body with
                            | None => None
                            | Some (_, o, _) => Some o
                            end) fx None with
          | None => None
          | Some h =>
              match comp n h body with
              | None => None
              | Some (l, _, es) => next (AWhile s l) (Some h) es
              end
          end
      end
    end
  end.

(** A method compiled for self of class [c]: the flag is false and the class
    of self is known (Invariants::new_entry). *)
Definition compile (n f c : nat) : option (list astmt * list entry) :=
  match p_meth P f with
  | KBody body =>
      match comp n (Facts false [Some c]) body with
      | None => None
      | Some (l, _, es) => Some (l, es)
      end
  | _ => None
  end.

End Compile.

Definition set_word (j : jit) (u v : nat) : jit :=
  Jit (j_units j) (fun x => if x =? u then v else j_word j x) (j_next j).

Definition set_unit (j : jit) (f c : nat) (o : option unit_) : jit :=
  Jit (fun f' c' => if (f' =? f) && (c' =? c) then o else j_units j f' c')
    (j_word j) (j_next j).

(** A fresh unit with a fresh version word holding the current version. *)
Definition install (j : jit) (w : world) (f c : nat) (l : list astmt) (es : list entry) : jit :=
  let u := j_next j in
  let j1 := set_unit j f c (Some (Unit u es l)) in
  Jit (j_units j1) (fun x => if x =? u then w_ver w else j_word j x) (S u).

(** recompile_method (compiler.rs:376-440): only when a unit is registered;
    a failed compilation drops it (invalidate_jit_code). *)
Definition recompile (P : prog) (pol : policy) (j : jit) (w : world) (f c : nat) : jit :=
  match j_units j f c with
  | None => j
  | Some _ =>
      match compile P pol w j (size pol w j f c) f c with
      | Some (l, es) => install j w f c l es
      | None => set_unit j f c None
      end
  end.

(** salvage_method_unit (class.rs:2598-2635): every recorded resolution of
    the unit registered now is asked again. *)
Definition valid (w : world) (u : unit_) : bool :=
  forallb (fun e => same_cls (w_tab w (e_cls e) (e_name e)) (Some (e_fid e))) (u_entries u).

(** A running compiled frame: the root method and class it was compiled for,
    self, its version word, and whether it is a specialized callee. *)
Record frame := Frame {
  fr_fid : nat;
  fr_cls : nat;
  fr_self : nat;
  fr_uid : nat;
  fr_spec : bool;
}.

(** The class version guard.  The root frame tries to recover
    (jit_recompile_method_with_recovery): it looks up the unit by the class
    self has now, and continues when that unit is still valid; otherwise it
    recompiles and leaves compiled code.  A specialized frame always leaves
    compiled code, after salvaging the unit it belongs to
    (salvage_specialized, which writes both words). *)
Definition version_guard (P : prog) (pol : policy) (j : jit) (w : world) (fr : frame)
    : bool * jit :=
  if j_word j (fr_uid fr) =? w_ver w then (true, j)
  else if fr_spec fr then
    match j_units j (fr_fid fr) (fr_cls fr) with
    | Some u =>
        if valid w u
        then (false, set_word (set_word j (u_id u) (w_ver w)) (fr_uid fr) (w_ver w))
        else (false, j)
    | None => (false, j)
    end
  else
    let c := cls w (fr_self fr) in
    match j_units j (fr_fid fr) c with
    | None => (false, j)
    | Some u =>
        if valid w u
        then (true, set_word j (u_id u) (w_ver w))
        else (false, recompile P pol j w (fr_fid fr) c)
    end.

Definition class_ok (cg : cguard) (c k : nat) : bool :=
  match cg with
  | GNone => true
  | GOne => k =? c
  | GSet l => existsb (fun x => x =? k) l
  end.

(** Entry of a method (vm codeptr or the class-keyed direct entry): run the
    registered unit, or compile one now, or interpret. *)
Definition enter (P : prog) (pol : policy) (j : jit) (w : world) (f c o : nat)
    (body : list stmt) : jit * option frame * list astmt :=
  match j_units j f c with
  | Some u => (j, Some (Frame f c o (u_id u) false), u_code u)
  | None =>
      if hot pol w j f c then
        match compile P pol w j (size pol w j f c) f c with
        | Some (l, es) =>
            (install j w f c l es, Some (Frame f c o (j_next j) false), l)
        | None => (j, None, plain body)
        end
      else (j, None, plain body)
  end.

(** ** Running

    [run n j w e fr cv code]: [fr] is None in a frame that began interpreted;
    [cv] is true once some guard failed in this frame or below it in the same
    fiber, because every such exit converts all suspended compiled frames of
    the fiber into interpreter frames (chain_deopt).  The frame runs compiled
    code while [fr] is Some and [cv] is false. *)

Section Run.
Variable P : prog.
Variable pol : policy.

Definition outcome := option (jit * world * env * bool).
Definition runner := jit -> world -> env -> option frame -> bool -> list astmt -> outcome.

(** Call function [f] on [o]; [c] selects the compiled unit. *)
Definition invoke (run : runner) (j : jit) (w : world) (f c o : nat) (args : list nat)
    : option (jit * world * nat * bool) :=
  let w := log w f o in
  match p_meth P f with
  | KReader iv => Some (j, w, w_heap w o iv, false)
  | KWriter iv => Some (j, write w o iv (nth 0 args 0), nth 0 args 0, false)
  | KPure k => Some (j, w, p_prim P k (env_of o args), false)
  | KBody body =>
      let '(j1, fr, code) := enter P pol j w f c o body in
      match run j1 w (env_of o args) fr false code with
      | Some (j2, w2, e2, cv) => Some (j2, w2, e2 1, cv)
      | None => None
      end
  end.

(** A call by name, as the interpreter and the runtime helpers make it.  An
    unknown method is recorded as function 0 on the receiver and gives nil. *)
Definition dispatch (run : runner) (j : jit) (w : world) (n o : nat) (args : list nat)
    : option (jit * world * nat * bool) :=
  match w_tab w (cls w o) n with
  | Some f => invoke run j w f (cls w o) o args
  | None => Some (j, log w 0 o, 0, false)
  end.

(** A specialized callee: its code is part of the caller's unit. *)
Definition specialized (run : runner) (j : jit) (w : world) (fr : frame)
    (f o : nat) (args : list nat) (body : list astmt)
    : option (jit * world * nat * bool) :=
  let w := log w f o in
  match run j w (env_of o args)
          (Some (Frame (fr_fid fr) (fr_cls fr) o (fr_uid fr) true)) false body with
  | Some (j2, w2, e2, cv) => Some (j2, w2, e2 1, cv)
  | None => None
  end.

(** A compiled call.  The result says also whether compiled code was left. *)
Definition call (run : runner) (j : jit) (w : world) (e : env) (fr : frame)
    (r n : nat) (args : list nat) (a : ann)
    : option (jit * world * nat * bool) :=
  let o := e r in
  let slow (j : jit) :=
    match dispatch run j w n o (map e args) with
    | Some (j', w', v, _) => Some (j', w', v, true)
    | None => None
    end in
  match a with
  | Deopt => slow j
  | Ann vg cg c f h =>
      let '(pass, j1) := if vg then version_guard P pol j w fr else (true, j) in
      if negb pass then slow j1
      else if negb (class_ok cg c (cls w o)) then
        slow (if negb (fr_spec fr) && relearn pol w j1 (fr_fid fr)
              then recompile P pol j1 w (fr_fid fr) (cls w (fr_self fr))
              else j1)
      else
        let k := match cg with GSet _ => cls w o | _ => c end in
        match h with
        | HInline | HSend => invoke run j1 w f k o (map e args)
        | HSpec body => specialized run j1 w fr f o (map e args) body
        end
  end.

Fixpoint run (n : nat) : runner := fun j w e fr cv code =>
  match n with
  | 0 => None
  | S n =>
    match code with
    | [] => Some (j, w, e, cv)
    | s :: rest =>
      let after (d : nat) (r : option (jit * world * nat * bool)) :=
        match r with
        | Some (j', w', v, cv') => run n j' w' (upd e d v) fr (cv || cv') rest
        | None => None
        end in
      match s with
      | AMove d s => run n j w (upd e d (e s)) fr cv rest
      | APrim d k =>
          let cv' := match fr with Some _ => odd pol w j k | None => false end in
          run n j w (upd e d (p_prim P k e)) fr (cv || cv') rest
      | ADef g => run n j (redefine g w) e fr cv rest
      | ASingle r g => run n j (singleton (e r) g w) e fr cv rest
      | AHelper d r nm =>
          after d match dispatch (run n) j w nm (e r) [] with
                  | Some (j', w', v, cv') => Some (j', hushed w w', v, cv')
                  | None => None
                  end
      | AFiber d r nm =>
          (* the walk stays inside the fiber: nothing here is converted *)
          after d match dispatch (run n) j w nm (e r) [] with
                  | Some (j', w', v, _) => Some (j', loud w', v, false)
                  | None => None
                  end
      | ACall d r nm args a =>
          after d
            match fr, cv with
            | Some fr, false => call (run n) j w e fr r nm args a
            | _, _ => dispatch (run n) j w nm (e r) (map e args)
            end
      | AIf s a b =>
          match run n j w e fr cv (if truthy (e s) then a else b) with
          | Some (j', w', e', cv') => run n j' w' e' fr cv' rest
          | None => None
          end
      | AWhile s body =>
          if truthy (e s) then
            match run n j w e fr cv body with
            | Some (j', w', e', cv') => run n j' w' e' fr cv' (AWhile s body :: rest)
            | None => None
            end
          else run n j w e fr cv rest
      end
    end
  end.

End Run.

(** Nothing is compiled at the start. *)
Definition jit0 : jit := Jit (fun _ _ => None) (fun _ => 0) 1.

(** Run a whole program: call [f] on [o]. *)
Definition start (P : prog) (pol : policy) (n : nat) (w : world) (f o : nat) (args : list nat)
    : option (world * nat) :=
  match invoke P pol (run P pol n) jit0 w f (cls w o) o args with
  | Some (_, w', v, _) => Some (w', v)
  | None => None
  end.
