(** Constants: their tables, how a reference is resolved, and the caches in front of the
    resolution.  monoruby/src/executor/constants.rs, executor.rs:2120-2250,
    codegen/runtime.rs:1333-1408, globals.rs:1480-1550, codegen/jitgen.rs:650-730,
    codegen/jitgen/compile/variables.rs:73-240, globals/store/class.rs:2643-2765,
    globals/store/class/constants.rs.
    Simplified: a class and a name are numbers; the list of the ancestors of a class that is not
    created yet is the one it will have; a hook ([const_missing]) only returns a value or raises;
    a reference that starts an autoload ends there, the file's effects are further events. *)
From Coq Require Import List Bool Arith.
Import ListNotations.

Definition cls := nat.
Definition name := nat.
(** globals/store/class.rs [BASIC_OBJECT_CLASS], [OBJECT_CLASS]. *)
Definition BASIC : cls := 0.
Definition OBJECT : cls := 1.
Inductive cval := VNil | VMod (c : cls) | VInt (n : nat).
Scheme Equality for cval.

(** globals/store/class/constants.rs:1-130 [ConstState], [ConstStateKind], [AutoloadState]. *)
Inductive aload := Idle | Loading | Consumed.
Inductive ckind := Loaded (v : cval) | Auto (a : aload).
Record centry := mkE { e_kind : ckind; e_priv : bool }.

(** The constant tables of all classes; the superclass walk from a class, itself first (an
    included module stands for its iclass; a module's walk goes on to [Object]). *)
Record env := mkEnv { tbl : cls -> name -> option centry; chain : cls -> list cls }.

(** The lexical context of the code of a site (innermost first): that of the running frame when
    it is not the method's (string eval), the receiver's class of [instance_eval "..."], that of
    the method; and constants.rs:676-735 [runtime_innermost_cref] for a receiver of class [k]. *)
Record lex := mkLex { l_frame : option (list cls); l_ieval : option cls; l_meth : list cls; l_sub : cls -> cls -> cls }.

(** globals/store.rs:1836 [ConstSiteInfo]; [s_iseq]: the code it is in; [s_single]: that code is
    inside [class << obj] (ISeqInfo::in_singleton_lexical); [s_check]: opcode 18, of [X ||= v]. *)
Record site := mkS { s_name : name; s_prefix : list name; s_top : bool; s_base : bool;
                     s_iseq : nat; s_single : bool; s_check : bool }.
Definition names (s : site) : list name := s_prefix s ++ [s_name s].

(* ---- resolution ---- *)

(** constants.rs:26-60 [get_constant], up to the start of an autoload. *)
Inductive look := LNone | LVal (v : cval) | LFire.
Definition get1 (e : env) (c : cls) (n : name) : look :=
  match tbl e c n with
  | None => LNone
  | Some x => match e_kind x with Loaded v => LVal v | Auto Idle => LFire | Auto _ => LNone end
  end.
(** 164-181, 792-838: the loops over classes. *)
Fixpoint first_in (e : env) (n : name) (cs : list cls) : look :=
  match cs with [] => LNone | c :: r => match get1 e c n with LNone => first_in e n r | x => x end end.

Definition sub (l : lex) (k : option cls) (c : cls) : cls := match k with Some k => l_sub l k c | None => c end.
Definition sub_first (l : lex) (k : option cls) (cs : list cls) : list cls :=
  match cs with [] => [] | c :: r => sub l k c :: r end.
(** 360-392. *)
Definition frame_scopes (l : lex) (k : option cls) : list cls :=
  match l_frame l with
  | None => []
  | Some fs => let fs := sub_first l k fs in
               match l_ieval l with Some c => firstn 1 fs ++ [c] ++ skipn 1 fs | None => fs end
  end.
(** globals/store/function.rs:38-52; constants.rs:329-345, 397-409. *)
Definition lex_class (l : lex) : cls :=
  match l_frame l with
  | Some fs => if hd OBJECT fs =? OBJECT then hd OBJECT (l_meth l) else hd OBJECT fs
  | None => hd OBJECT (l_meth l)
  end.
(** 349-428 [search_constant_no_missing]: where it looks, in order. *)
Definition scopes (e : env) (l : lex) (k : option cls) : list cls :=
  let c := sub l k (lex_class l) in
  frame_scopes l k ++ sub_first l k (l_meth l) ++ chain e c ++ (if c =? BASIC then [OBJECT] else []).

Inductive cerr := ErrName (c : cls) (n : name) | ErrPriv (c : cls) (n : name) | ErrType.
(** The value of a reference (and whether a hook was asked), an exception, or an autoload. *)
Inductive res := RVal (v : cval) (hooked : bool) | RErr (x : cerr) | RFire.

(** What [const_missing] of a class returns for a name; [None]: it raises. *)
Definition hook := cls -> name -> option cval.
Definition missing (h : hook) (c : cls) (n : name) (x : cerr) : res :=
  match h c n with Some v => RVal v true | None => RErr x end.

(** 309-327 [search_constant_checked]. *)
Definition search (e : env) (h : hook) (l : lex) (k : option cls) (n : name) : res :=
  match first_in e n (scopes e l k) with
  | LVal v => RVal v false
  | LFire => RFire
  | LNone => missing h (lex_class l) n (ErrName (lex_class l) n)
  end.

(** 231-259 [get_constant_superclass_qualified]: only [Object]'s own table is skipped. *)
Definition qual_scopes (e : env) (c : cls) : list cls :=
  filter (fun d => negb ((d =? OBJECT) && negb (c =? OBJECT))) (chain e c).
Definition qual (e : env) (h : hook) (c : cls) (n : name) : res :=
  match first_in e n (qual_scopes e c) with
  | LVal v => RVal v false
  | LFire => RFire
  | LNone => missing h c n (ErrName c n)
  end.

(** 442-460 [probe_constant_at]; 517-532 [probe_constant_superclass_with_class]; class.rs:716. *)
Definition probe_at (e : env) (n : name) (c : cls) : bool :=
  match get1 e c n with LNone => false | _ => true end.
Definition defining (e : env) (c : cls) (n : name) : option cls := find (probe_at e n) (chain e c).
Definition is_priv (e : env) (c : cls) (n : name) : bool :=
  match tbl e c n with Some x => e_priv x | None => false end.

(** A class, with whether a hook was asked on the way; or how the reference ends. *)
Inductive pres := PMod (c : cls) (hooked : bool) | PStop (r : res).
Definition as_mod (r : res) (hk : bool) : pres :=
  match r with
  | RVal (VMod c) h => PMod c (hk || h)
  | RVal _ _ => PStop (RErr ErrType)
  | r => PStop r
  end.
Definition mark (hk : bool) (r : res) : res := match r with RVal v h => RVal v (hk || h) | r => r end.

(** executor.rs:2190-2210: the qualifiers after the first. *)
Fixpoint segments (e : env) (h : hook) (p : pres) (ns : list name) : pres :=
  match p, ns with
  | PStop r, _ => PStop r
  | PMod c hk, [] => PMod c hk
  | PMod c hk, n :: r =>
      match (match defining e c n with Some d => is_priv e d n | None => false end), defining e c n with
      | true, Some d => PStop (RErr (ErrPriv d n))
      | _, _ => segments e h (as_mod (qual e h c n) hk) r
      end
  end.

(** 2211-2249: the last name; [check]: [find_constant_no_missing]. *)
Definition last_name (e : env) (h : hook) (check : bool) (p : pres) (n : name) : res :=
  match p with
  | PStop r => r
  | PMod c hk =>
      if check then
        match first_in e n (qual_scopes e c) with LVal v => RVal v hk | LFire => RFire | LNone => RVal VNil hk end
      else match defining e c n with
           | Some d => if is_priv e d n then mark hk (missing h c n (ErrPriv d n)) else mark hk (qual e h c n)
           | None => mark hk (qual e h c n)
           end
  end.

(** 2155-2249 [find_constant_impl]. *)
Definition resolve (e : env) (h : hook) (l : lex) (s : site) (base : option cval) (k : option cls) : res :=
  match base with
  | Some b => last_name e h (s_check s) (segments e h (as_mod (RVal b false) false) (s_prefix s)) (s_name s)
  | None =>
      if s_top s then last_name e h (s_check s) (segments e h (PMod OBJECT false) (s_prefix s)) (s_name s)
      else match s_prefix s with
           | [] => if s_check s
                   then match first_in e (s_name s) (scopes e l k) with
                        | LVal v => RVal v false | LFire => RFire | LNone => RVal VNil false end
                   else search e h l k (s_name s)
           | p :: r => last_name e h (s_check s) (segments e h (as_mod (search e h l k p) false) r) (s_name s)
           end
  end.

(** 466-490: [defined?] on the rest of the ancestors, without [Object]'s own table. *)
Definition probe_qual (e : env) (c : cls) (n : name) : bool :=
  match find (probe_at e n) (qual_scopes e c) with Some d => negb (is_priv e d n) | None => false end.
(** 630-645: the qualifiers of [defined?] are looked up along all ancestors, [Object]'s table included. *)
Fixpoint probe_segments (e : env) (c : cls) (ns : list name) : option cls :=
  match ns with
  | [] => Some c
  | n :: r => match first_in e n (chain e c) with LVal (VMod d) => probe_segments e d r | _ => None end
  end.
(** 568-652 [probe_constant].  A qualifier that starts an autoload is left out: [None]. *)
Definition probe (e : env) (l : lex) (s : site) (base : option cval) (k : option cls) : bool :=
  let go c ns := match probe_segments e c ns with Some d => probe_qual e d (s_name s) | None => false end in
  match base with
  | Some (VMod c) => go c (s_prefix s)
  | Some _ => false
  | None =>
      if s_top s then go OBJECT (s_prefix s)
      else match s_prefix s with
           | [] => let c := lex_class l in
                   existsb (probe_at e (s_name s))
                     ((match l_frame l with
                       | Some fs => sub_first l k fs ++ match l_ieval l with Some c => [c] | None => [] end
                       | None => [] end)
                      ++ sub_first l k (l_meth l) ++ chain e c ++ (if c =? BASIC then [OBJECT] else []))
           | p :: r => match first_in e p (scopes e l k) with LVal (VMod c) => go c r | _ => false end
           end
  end.

(* ---- caches ---- *)

(** globals/store.rs:1814 [ConstCache]. *)
Record ccache := mkC { c_ver : nat; c_base : option cval; c_key : option cls; c_val : cval }.
(** globals/store/iseq.rs:105-180 [ConstFoldSite], [ConstSalvageMap]; [u_self]: the receiver's
    class the unit is compiled for; [u_block]: a block compiled on its own. *)
Record fold := mkF { f_site : nat; f_cache : ccache; f_names : list name }.
Record cunit := mkU { u_self : cls; u_block : bool; u_folds : list fold; u_word : nat;
                      u_epochs : list (name * nat); u_wild : nat; u_defers : nat }.

(** [ver]: the const version; [epochs], [wild]: globals.rs:1527-1552 [const_epoch]. *)
Record st := mkSt { senv : env; lexs : nat -> lex; ver : nat; epochs : name -> nat; wild : nat;
                    caches : nat -> option ccache; units : nat -> option cunit }.

Definition upd {A} (f : nat -> A) (i : nat) (v : A) : nat -> A := fun j => if j =? i then v else f j.
Definition set_tbl (e : env) (c : cls) (n : name) (x : option centry) : env :=
  mkEnv (upd (tbl e) c (upd (tbl e c) n x)) (chain e).
Definition with_env (s : st) (e : env) : st := mkSt e (lexs s) (ver s) (epochs s) (wild s) (caches s) (units s).
Definition with_lex (s : st) (l : nat -> lex) : st := mkSt (senv s) l (ver s) (epochs s) (wild s) (caches s) (units s).
Definition with_cache (s : st) (i : nat) (c : ccache) : st :=
  mkSt (senv s) (lexs s) (ver s) (epochs s) (wild s) (upd (caches s) i (Some c)) (units s).
Definition with_unit (s : st) (u : nat) (x : option cunit) : st :=
  mkSt (senv s) (lexs s) (ver s) (epochs s) (wild s) (caches s) (upd (units s) u x).

(** globals.rs:1492-1510. *)
Definition bump_name (s : st) (n : name) : st :=
  mkSt (senv s) (lexs s) (S (ver s)) (upd (epochs s) n (S (epochs s n))) (wild s) (caches s) (units s).
Definition bump_all (s : st) : st :=
  mkSt (senv s) (lexs s) (S (ver s)) (epochs s) (S (wild s)) (caches s) (units s).

(** class/constants.rs:348-370 [set_constant]: the visibility stays. *)
Definition put (e : env) (c : cls) (n : name) (v : cval) : env := set_tbl e c n (Some (mkE (Loaded v) (is_priv e c n))).
(** 160-192 [set_constant_autoload]. *)
Definition put_autoload (e : env) (c : cls) (n : name) : env :=
  match tbl e c n with
  | None => set_tbl e c n (Some (mkE (Auto Idle) false))
  | Some x => match e_kind x with
              | Auto Consumed => set_tbl e c n (Some (mkE (Auto Idle) (e_priv x)))
              | _ => e
              end
  end.
(** 200-213 [set_autoload_state]. *)
Definition put_state (e : env) (c : cls) (n : name) (a : aload) : env :=
  match tbl e c n with
  | Some x => match e_kind x with Auto _ => set_tbl e c n (Some (mkE (Auto a) (e_priv x))) | _ => e end
  | None => e
  end.
(** class.rs:727-746. *)
Definition put_priv (e : env) (c : cls) (n : name) (b : bool) : env :=
  match tbl e c n with Some x => set_tbl e c n (Some (mkE (e_kind x) b)) | None => e end.

Section Sites.
Variable info : nat -> site.

(** constants.rs:750-777 [const_lexical_self_key]. *)
Definition key_of (s : site) (self : cls) : option cls := if s_single s then Some self else None.
Definition base_of (s : site) (base : option cval) : option cval := if s_base s then base else None.
Definition resolve_at (e : env) (ls : nat -> lex) (h : hook) (i : nat) (base : option cval) (k : option cls) : res :=
  resolve e h (ls (s_iseq (info i))) (info i) base k.

Definition opt_eqb {A} (eq : A -> A -> bool) (x y : option A) : bool :=
  match x, y with Some a, Some b => eq a b | None, None => true | _, _ => false end.

(** codegen/runtime.rs:1333-1408 [vm_check_constant], [vm_get_constant]. *)
Definition vm_read (s : st) (i : nat) (base : option cval) (self : cls) (h : hook) : st * res :=
  let b := base_of (info i) base in
  let k := key_of (info i) self in
  let miss := let r := resolve_at (senv s) (lexs s) h i b k in
              match r with
              | RVal v _ => (with_cache s i (mkC (ver s) b k v), r)
              | _ => (s, r)
              end in
  match caches s i with
  | Some c => if (c_ver c =? ver s) && opt_eqb cval_beq (c_base c) b && opt_eqb Nat.eqb (c_key c) k
              then (s, RVal (c_val c) false) else miss
  | None => miss
  end.

(** jitgen/compile/variables.rs:73-142 [load_constant]: what is folded, or [None]: not cached. *)
Definition fold_site (s : st) (self : cls) (i : nat) : option fold :=
  match caches s i with
  | Some c =>
      if (c_ver c =? ver s)
         && match c_key c with Some k => k =? self | None => negb (s_single (info i)) end
         && match s_base (info i), c_base c with true, None => false | _, _ => true end
      then Some (mkF i c (names (info i))) else None
  | None => None
  end.
Fixpoint fold_sites (s : st) (self : cls) (is : list nat) : option (list fold) :=
  match is with
  | [] => Some []
  | i :: r => match fold_site s self i, fold_sites s self r with Some f, Some fs => Some (f :: fs) | _, _ => None end
  end.
(** jitgen.rs:620-730 [jit_compile]: the record of the unit. *)
Definition compile (s : st) (self : cls) (blk : bool) (is : list nat) : option cunit :=
  match fold_sites s self is with
  | None => None
  | Some fs => Some (mkU self blk fs (ver s)
                       (map (fun n => (n, epochs s n)) (nodup Nat.eq_dec (flat_map f_names fs))) (wild s) 0)
  end.

(** class.rs:2706-2762 [salvage_const_map]: per folded site. *)
Inductive outcome := Healed | Defer | Recompile.
Fixpoint salvage_folds (s : st) (wmoved : bool) (moved : list name) (fs : list fold) : list fold * outcome :=
  match fs with
  | [] => ([], Healed)
  | f :: r =>
      if negb (wmoved || existsb (fun n => existsb (Nat.eqb n) moved) (f_names f))
      then let '(r', o) := salvage_folds s wmoved moved r in (f :: r', o)
      else match caches s (f_site f) with
           | None => (f :: r, Defer)
           | Some cur =>
               if negb (c_ver cur =? ver s) then (f :: r, Defer)
               else if cval_beq (c_val cur) (c_val (f_cache f)) && opt_eqb cval_beq (c_base cur) (c_base (f_cache f))
                       && opt_eqb Nat.eqb (c_key cur) (c_key (f_cache f))
               then let '(r', o) := salvage_folds s wmoved moved r in (mkF (f_site f) cur (f_names f) :: r', o)
               else (f :: r, Recompile)
           end
  end.
(** class.rs:2660-2704 [salvage_const_unit], codegen/compiler.rs:796-840 [salvage_const]: the unit
    afterwards; [None]: to be compiled again. *)
Definition salvage (s : st) (u : cunit) : option cunit :=
  let moved := map fst (filter (fun p => negb (epochs s (fst p) =? snd p)) (u_epochs u)) in
  let '(fs, o) := salvage_folds s (negb (u_wild u =? wild s)) moved (u_folds u) in
  let stale d := mkU (u_self u) (u_block u) fs (u_word u) (u_epochs u) (u_wild u) d in
  match o with
  | Healed => Some (mkU (u_self u) (u_block u) fs (ver s) (map (fun p => (fst p, epochs s (fst p))) (u_epochs u)) (wild s) 0)
  | Defer => if 3 <=? u_defers u then (if u_block u then Some (stale (u_defers u)) else None) else Some (stale (S (u_defers u)))
  | Recompile => if u_block u then Some (stale (u_defers u)) else None
  end.

(** A folded site is reached in the compiled code (variables.rs:100-142, x86 constants.rs:36-60):
    the guard of the base object, the guard of the version, the value.  A failed guard goes on in
    the interpreter. *)
Definition jit_read (s : st) (u : nat) (i : nat) (base : option cval) (self : cls) (h : hook) : st * res :=
  match units s u with
  | None => vm_read s i base self h
  | Some un =>
      if u_self un =? self then
        match find (fun f => f_site f =? i) (u_folds un) with
        | None => vm_read s i base self h
        | Some f =>
            if s_base (info i) && negb (opt_eqb cval_beq (c_base (f_cache f)) base) then vm_read s i base self h
            else if u_word un =? ver s then (s, RVal (c_val (f_cache f)) false)
            else vm_read (with_unit s u (salvage s un)) i base self h
        end
      else vm_read s i base self h
  end.

(** What a program does to constants. *)
Inductive ev :=
| EAssign (c : cls) (n : name) (v : cval)       (* X = v, const_set: globals.rs:1506 *)
| ERemove (c : cls) (n : name)                  (* remove_const: globals.rs:1512 *)
| EInclude (ch : cls -> list cls)               (* include, prepend: value/rvalue/module.rs:59 *)
| EKeyword (c : cls) (n : name) (m : cls)       (* class N, module N, not yet there: executor.rs:3835-3900, class.rs:1690 *)
| EAutoload (c : cls) (n : name)                (* autoload: builtins/module.rs:748 *)
| EState (c : cls) (n : name) (a : aload)       (* an autoload starts, fails, is overtaken *)
| EPriv (c : cls) (n : name) (b : bool)         (* private_constant, public_constant: builtins/module.rs:2826-2850 *)
| EStamp (i : nat) (l : lex)                    (* a class body is entered: codegen/runtime.rs:476-484 *)
| ERead (i : nat) (base : option cval) (self : cls) (h : hook)
| ECompile (u : nat) (self : cls) (blk : bool) (is : list nat)
| ERun (u i : nat) (base : option cval) (self : cls) (h : hook).

Definition step (s : st) (e : ev) : st * option res :=
  match e with
  | EAssign c n v => let s := bump_name s n in (with_env s (put (senv s) c n v), None)
  | ERemove c n => let s := bump_name s n in (with_env s (set_tbl (senv s) c n None), None)
  | EInclude ch => let s := bump_all s in (with_env s (mkEnv (tbl (senv s)) ch), None)
  | EKeyword c n m => (with_env s (put (senv s) c n (VMod m)), None)
  | EAutoload c n => (with_env s (put_autoload (senv s) c n), None)
  | EState c n a => (with_env s (put_state (senv s) c n a), None)
  | EPriv c n b => (with_env s (put_priv (senv s) c n b), None)
  | EStamp i l => (with_lex s (upd (lexs s) i l), None)
  | ERead i base self h => let '(s, r) := vm_read s i base self h in (s, Some r)
  | ECompile u self blk is => match compile s self blk is with Some x => (with_unit s u (Some x), None) | None => (s, None) end
  | ERun u i base self h => let '(s, r) := jit_read s u i base self h in (s, Some r)
  end.
Fixpoint run (s : st) (l : list ev) : st * list (option res) :=
  match l with
  | [] => (s, [])
  | e :: r => let '(s, o) := step s e in let '(s, os) := run s r in (s, o :: os)
  end.

(* ---- one guard for several reads ---- *)

(** jitgen/state.rs:212-222, compile.rs, method_call.rs:1826, 1929, variables.rs:323: one run of
    compiled code.  [IFold]: a folded constant.  [ICall]: a call, a yield, a definition, a store
    of a constant, with what it does to constants; the compiler forgets its guard.
    [IHelper]: string and regexp interpolation, splat, multiple assignment, [when *list], a hash
    literal, a global variable with a hook, a loop's poll (compile.rs:340-430, 513-518, 698-772):
    the compiler keeps its guard, whatever Ruby code they run. *)
Inductive inst := IFold (i : nat) (base : option cval) | ICall (l : list ev) | IHelper (l : list ev).

(** The interpreter, from an instruction on. *)
Fixpoint run_vm (s : st) (self : cls) (h : hook) (p : list inst) : list res :=
  match p with
  | [] => []
  | IFold i b :: r => let '(s, x) := vm_read s i b self h in x :: run_vm s self h r
  | ICall l :: r | IHelper l :: r => run_vm (fst (run s l)) self h r
  end.
(** variables.rs:161-225 [guard_const_version]; a failed guard leaves the compiled code.  The
    code keeps its values; its version word is that of its record, as long as there is one (a unit
    compiled during the run is another [u]). *)
Fixpoint run_jit (s : st) (u : nat) (un : cunit) (g : bool) (h : hook) (p : list inst) : list res :=
  let after s := match units s u with Some un => un | None => un end in
  match p with
  | [] => []
  | IFold i b :: r =>
      match find (fun f => f_site f =? i) (u_folds un) with
      | None => run_vm s (u_self un) h p
      | Some f =>
          if s_base (info i) && negb (opt_eqb cval_beq (c_base (f_cache f)) b) then run_vm s (u_self un) h p
          else if g || (u_word un =? ver s) then RVal (c_val (f_cache f)) false :: run_jit s u un true h r
          else run_vm (match units s u with Some un => with_unit s u (salvage s un) | None => s end) (u_self un) h p
      end
  | ICall l :: r => let s := fst (run s l) in run_jit s u (after s) false h r
  | IHelper l :: r => let s := fst (run s l) in run_jit s u (after s) g h r
  end.

End Sites.
