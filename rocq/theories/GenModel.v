(** Generation of bytecode for expressions, assignments and control flow, and its execution.
    monoruby/src/bytecodegen/expression.rs, binary.rs, method_call.rs, statement.rs, bytecodegen.rs.
    A program fragment is an expression over the local variables of one method.  Everything that
    runs other code or builds an object (operators, indexing, ranges, array and hash literals,
    instance variables, method calls) is a call of some method.  Labels stand in the code; loop
    marks and inline caches are left out. *)
From Coq Require Import List Bool Arith ZArith.
Import ListNotations.

Definition var := nat.
Definition meth := nat.
Inductive value := Nil | Fls | Tru | Num (z : Z) | Ref (n : nat).
Definition truthy (v : value) : bool := match v with Nil | Fls => false | _ => true end.
Definition is_nil (v : value) : bool := match v with Nil => true | _ => false end.

(** ast/node.rs NodeKind, the forms that are modelled.  [EOp]: x += e, [EOrA]: x ||= e,
    [EAndA]: x &&= e, [ESet]: recv.m = e and base[i] = e, [EMul]: a, b.m, c[i] = e1, e2, e3,
    [ESplat]: *x = e, [ESafe]: recv&.m(args); [EWhile true]: while, [EWhile false]: until. *)
Inductive expr :=
| ELit (v : value) | ESelf | EVar (x : var)
| EBin (m : meth) (a b : expr) | EUn (m : meth) (a : expr) | EAnd (a b : expr) | EOr (a b : expr)
| EAsgn (x : var) (e : expr) | EOp (m : meth) (x : var) (e : expr) | EOrA (x : var) (e : expr) | EAndA (x : var) (e : expr)
| ESeq (a b : expr) | EIf (c a b : expr) | EWhile (op : bool) (c b : expr)
| EBreak (e : expr) | ENext (e : expr) | EReturn (e : expr)
| ECall (m : meth) (recv : expr) (args : list expr) | ESafe (m : meth) (recv : expr) (args : list expr) | EArr (es : list expr)
| ESet (t : lval) (e : expr) | EMul (ts : list lval) (es : list expr) | ESplat (x : var) (e : expr)
with lval := LVar (x : var) | LAttr (m : meth) (recv : expr) | LIdx (base i : expr).

(** The methods that instructions stand for: a new Array, []=, the splat of [*x = e]. *)
Definition MKARRAY : meth := 0.
Definition SETINDEX : meth := 1.
Definition SPLAT : meth := 2.

(** BcReg. *)
Inductive reg := RSelf | RLoc (x : var) | RTmp (i : nat).
Definition reg_eqb (a b : reg) : bool :=
  match a, b with
  | RSelf, RSelf => true | RLoc x, RLoc y => x =? y | RTmp i, RTmp j => i =? j | _, _ => false
  end.

(** BytecodeInst.  [ICall]: MethodCall, BinOp, UnOp, Cmp, Index, StoreIndex, Array, ...: the
    registers of the receiver and of the arguments are read when it is executed. *)
Inductive inst :=
| ILabel (l : nat) | IConst (d : reg) (v : value) | IMov (d s : reg)
| ICall (d : option reg) (m : meth) (args : list reg)
| IBr (l : nat) | ICond (r : reg) (j : bool) (l : nat) | INilBr (r : reg) (l : nat) | IRet (r : reg).
Definition code := list inst.

(** UseMode2; [KBr j l]: gen_opt_condbr, jump to [l] if the value's truth is [j]. *)
Inductive mode := NotUse | Push | Store (d : reg) | Ret.
Inductive kind := KM (m : mode) | KBr (j : bool) (l : nat).
(** LoopInfo: break, next, the register of the loop's value. *)
Record loop := mkLoop { l_break : nat; l_next : nat; l_ret : option reg }.

(** bytecodegen.rs:1263 [emit_mov]. *)
Definition mov (d s : reg) : code := if reg_eqb d s then [] else [IMov d s].
(** bytecodegen.rs:1143 [is_refer_local]. *)
Definition refer (e : expr) : option reg :=
  match e with ESelf => Some RSelf | EVar x => Some (RLoc x) | _ => None end.

(** expression.rs:1420 [handle_mode]; and gen_opt_condbr on a register (binary.rs:133-137). *)
Definition handle (k : kind) (t : nat) (src : reg) : code :=
  match k with
  | KM NotUse => []
  | KM Push => mov (RTmp t) src
  | KM (Store d) => mov d src
  | KM Ret => [IRet src]
  | KBr j l => [ICond src j l]
  end.
(** Where a construct that takes a destination puts its value, and what follows. *)
Definition dest (k : kind) (t : nat) : reg := match k with KM (Store d) => d | _ => RTmp t end.
Definition used (k : kind) : bool := match k with KM NotUse => false | _ => true end.
Definition after (k : kind) (t : nat) : code :=
  match k with KM Ret => [IRet (RTmp t)] | KBr j l => [ICond (RTmp t) j l] | _ => [] end.
(** expression.rs:416-420, the default of [gen_store_expr]; a condition that is not special:
    the value is pushed, then moved or tested. *)
Definition inner (k : kind) : mode := match k with KM (Store _) | KBr _ _ => Push | KM m => m end.
Definition outer (k : kind) (t : nat) : code :=
  match k with KM (Store d) => mov d (RTmp t) | KBr j l => [ICond (RTmp t) j l] | KM _ => [] end.

(** LvalueKind. *)
Inductive target := TVar (x : var) | TAttr (m : meth) (r : reg) | TIdx (b i : reg).
(** bytecodegen.rs:1839-1926 [emit_assign]. *)
Definition assign (src : reg) (g : target) : code :=
  match g with
  | TVar x => mov (RLoc x) src
  | TAttr m r => [ICall None m [r; src]]
  | TIdx b i => [ICall None SETINDEX [b; i; src]]
  end.
Fixpoint assigns_code (i : nat) (gs : list target) : code :=
  match gs with [] => [] | g :: r => assign (RTmp i) g ++ assigns_code (S i) r end.

Definition temps (t n : nat) : list reg := map RTmp (seq t n).

(** [gen k e t n L]: the code of [e] for [k] with the temporaries from [t] free, new labels from
    [n], in the loop [L]; and the next new label.
    [gen_reg]: bytecodegen.rs:1941 [gen_expr_reg]: the register, the code, the labels, the
    temporaries; [gens]: 1972 [ordinary_args]; [gen_lv]: 1714-1837 [eval_lvalue]. *)
Fixpoint gen (k : kind) (e : expr) (t n : nat) (L : option loop) {struct e} : code * nat :=
  let gen_reg e t n := match refer e with
                       | Some r => (r, [], n, t)
                       | None => let '(c, n) := gen (KM Push) e t n L in (RTmp t, c, n, S t)
                       end in
  let fix gens es t n := match es with
                         | [] => ([], n)
                         | e :: r => let '(c, n) := gen (KM Push) e t n L in let '(c', n) := gens r (S t) n in (c ++ c', n)
                         end in
  let gen_lv lv t n := match lv with
                       | LVar x => (TVar x, [], n, t)
                       | LAttr m recv => let '(r, c, n, t) := gen_reg recv t n in (TAttr m r, c, n, t)
                       | LIdx b i =>
                           let '(rb, cb, n, t) := match b with
                                                  | ESelf => (RSelf, [], n, t)
                                                  | _ => let '(c, n) := gen (KM Push) b t n L in (RTmp t, c, n, S t)
                                                  end in
                           let '(ci, n) := gen (KM Push) i t n L in
                           (TIdx rb (RTmp t), cb ++ ci, n, S (S t))
                       end in
  let fix gen_lvs ls t n := match ls with
                            | [] => ([], [], n, t)
                            | lv :: r => let '(g, c, n, t) := gen_lv lv t n in
                                         let '(gs, c', n, t) := gen_lvs r t n in (g :: gs, c ++ c', n, t)
                            end in
  (* method_call/arguments.rs:312-334: one local variable is passed where it is. *)
  let gen_args es t n := match es with
                         | [EVar x] => ([RLoc x], [], n)
                         | _ => let '(c, n) := gens es t n in (temps t (length es), c, n)
                         end in
  let dst := if used k then Some (dest k t) else None in
  match e with
  | ELit v => (if used k then IConst (dest k t) v :: after k t else [], n)       (* expression.rs:134-150, 456-510 *)
  | ESelf => (handle k t RSelf, n)
  | EVar x => (handle k t (RLoc x), n)
  | EBin m a b =>                                                                  (* binary.rs:36-60, 139-212, 221-249 *)
      let '(ra, ca, n, t1) := gen_reg a t n in
      let '(rb, cb, n, _) := gen_reg b t1 n in
      (ca ++ cb ++ [ICall dst m [ra; rb]] ++ after k t, n)
  | EUn m a =>                                                                     (* bytecodegen.rs:1599-1614 *)
      let d := dest k t in
      let t1 := match k with KM (Store _) => t | _ => S t end in
      match refer a with
      | Some r => (ICall (Some d) m [r] :: after k t, n)
      | None => let '(c, n) := gen (KM (Store d)) a t1 n L in (c ++ [ICall (Some d) m [d]] ++ after k t, n)
      end
  | EAnd a b =>
      match k with
      | KBr j l =>                                                                 (* binary.rs:120-126, 312-335 *)
          if j then
            let '(ca, n1) := gen (KBr false n) a t (S n) L in
            let '(cb, n2) := gen (KBr true l) b t n1 L in (ca ++ cb ++ [ILabel n], n2)
          else
            let '(ca, n) := gen (KBr false l) a t n L in
            let '(cb, n) := gen (KBr false l) b t n L in (ca ++ cb, n)
      | _ =>                                                                       (* binary.rs:251-275 *)
          let d := dest k t in
          let t1 := match k with KM (Store _) => t | _ => S t end in
          let '(ca, n1) := gen (KM (Store d)) a t1 (S n) L in
          let '(cb, n2) := gen (KM (Store d)) b t1 n1 L in
          (ca ++ [ICond d false n] ++ cb ++ [ILabel n] ++ after k t, n2)
      end
  | EOr a b =>
      match k with
      | KBr j l =>                                                                 (* binary.rs:127-132 *)
          if j then
            let '(ca, n) := gen (KBr true l) a t n L in
            let '(cb, n) := gen (KBr true l) b t n L in (ca ++ cb, n)
          else
            let '(ca, n1) := gen (KBr true n) a t (S n) L in
            let '(cb, n2) := gen (KBr false l) b t n1 L in (ca ++ cb ++ [ILabel n], n2)
      | _ =>                                                                       (* binary.rs:277-310 *)
          let '(ca, n1) := gen (KM Push) a t (S n) L in
          let '(cb, n2) := gen (KM (Store (RTmp t))) b (S t) n1 L in
          (ca ++ [ICond (RTmp t) true n] ++ cb ++ [ILabel n]
           ++ match k with KM (Store d) => mov d (RTmp t) | _ => after k t end, n2)
      end
  | EAsgn x e =>                                                                   (* expression.rs:212-217, 612-618 *)
      let '(c, n) := gen (KM (Store (RLoc x))) e t n L in
      (c ++ match k with KBr j l => mov (RTmp t) (RLoc x) ++ [ICond (RTmp t) j l] | _ => handle k t (RLoc x) end, n)
  | EOp m x e =>                                                                   (* 534-539 *)
      let '(r, c, n, _) := gen_reg e t n in
      (c ++ [ICall (Some (RLoc x)) m [RLoc x; r]] ++ handle (KM (inner k)) t (RLoc x) ++ outer k t, n)
  | EOrA x e =>
      let '(c, n2) := gen (KM (Store (RTmp t))) e (S t) (S n) L in
      (mov (RTmp t) (RLoc x) ++ [ICond (RTmp t) true n] ++ c ++ [ILabel n] ++ mov (RLoc x) (RTmp t)
       ++ handle (KM (inner k)) t (RLoc x) ++ outer k t, n2)
  | EAndA x e =>
      let '(c, n2) := gen (KM (Store (RLoc x))) e t (S n) L in
      ([ICond (RLoc x) false n] ++ c ++ [ILabel n] ++ handle (KM (inner k)) t (RLoc x) ++ outer k t, n2)
  | ESeq a b =>                                                                    (* 424-448 *)
      let '(ca, n) := gen (KM NotUse) a t n L in
      match k with
      | KM m => let '(cb, n) := gen (KM m) b t n L in (ca ++ cb, n)
      | KBr j l => let '(cb, n) := gen (KM Push) b t n L in (ca ++ cb ++ [ICond (RTmp t) j l], n)
      end
  | EIf c a b =>                                                                   (* 772-804 *)
      let m := inner k in
      let '(cc, n1) := gen (KBr false n) c t (S (S n)) L in
      let '(ca, n2) := gen (KM m) a t n1 L in
      let '(cb, n3) := gen (KM m) b t n2 L in
      (cc ++ ca ++ match m with Ret => [] | _ => [IBr (S n)] end ++ [ILabel n] ++ cb ++ [ILabel (S n)] ++ outer k t, n3)
  | EWhile op c b =>                                                               (* statement.rs:146-185 *)
      let use := used k in
      let t1 := if use then S t else t in
      let L1 := Some (mkLoop (S n) n (if use then Some (RTmp t) else None)) in
      let '(cc, n1) := gen (KBr (negb op) (S (S n))) c t1 (S (S (S n))) L1 in
      let '(cb, n2) := gen (KM NotUse) b t1 n1 L1 in
      ((if use then [IConst (RTmp t) Nil] else []) ++ [ILabel n] ++ cc ++ cb ++ [IBr n] ++ [ILabel (S (S n))] ++ [ILabel (S n)]
       ++ match k with KM Ret => [IRet (RTmp t)] | _ => outer k t end, n2)
  | EBreak e =>                                                                    (* expression.rs:839-875 *)
      match L with
      | None => gen (KM NotUse) e t n L             (* outside of a loop: not modelled, excluded by the theorems *)
      | Some lp =>
          let '(c, n) := gen (KM match l_ret lp with Some r => Store r | None => NotUse end) e t n L in
          (c ++ [IBr (l_break lp)] ++ outer k t, n)
      end
  | ENext e =>                                                                     (* 876-905 *)
      match L with
      | None => gen (KM NotUse) e t n L
      | Some lp => let '(c, n) := gen (KM NotUse) e t n L in (c ++ [IBr (l_next lp)] ++ outer k t, n)
      end
  | EReturn e => let '(c, n) := gen (KM Ret) e t n L in                            (* 2298-2304, 372-378 *)
                 (c ++ match k with KBr j l => [ICond (RTmp t) j l] | _ => [] end, n)
  | ECall m recv args =>                                                           (* method_call.rs:43-130 *)
      let '(r, c, n, t1) := gen_reg recv t n in
      let '(rs, ca, n) := gen_args args t1 n in
      (c ++ ca ++ [ICall dst m (r :: rs)] ++ after k t, n)
  | ESafe m recv args =>
      let nn := n in let ne := S n in
      let '(r, c, n, t1) := gen_reg recv t (S (S n)) in
      let '(rs, ca, n) := gen_args args t1 n in
      let d := dest k t in
      (c ++ [INilBr r nn] ++ ca ++ [ICall dst m (r :: rs)]
       ++ (if used k && negb (reg_eqb d r) then [IBr ne; ILabel nn; IConst d Nil; ILabel ne] else [ILabel nn]) ++ after k t, n)
  | EArr es =>                                                                     (* expression.rs:1777-1783 *)
      let t1 := match k with KM (Store _) => t | _ => S t end in
      let '(c, n) := gens es t1 n in
      (c ++ [ICall (Some (dest k t)) MKARRAY (temps t1 (length es))] ++ after k t, n)
  | ESet lv e =>
      let '(g, c, n, t1) := gen_lv lv t n in
      match k with
      | KM (Store d) => let '(ce, n) := gen (KM (Store d)) e t1 n L in (c ++ ce ++ assign d g, n)      (* 232-260 *)
      | _ => let '(src, ce, n, _) := gen_reg e t1 n in                                                (* 676-678, 1175-1203 *)
             (c ++ ce ++ assign src g
              ++ match k with KBr j l => mov (RTmp t) src ++ [ICond (RTmp t) j l] | _ => handle k t src end, n)
      end
  | EMul ls es =>                                                                  (* 1529-1665; there the array of the right sides is left out when nothing uses it *)
      let '(gs, c, n, t1) := gen_lvs ls t n in
      let '(ce, n) := gens es t1 n in
      (c ++ ce ++ assigns_code t1 gs
       ++ [ICall (Some (RTmp t)) MKARRAY (temps t1 (length es))]
       ++ match k with KM Ret => [IRet (RTmp t)] | _ => outer k t end, n)
  | ESplat x e =>
      match k with
      | KM (Store d) =>                                                            (* 253-268 *)
          let '(c, n) := gen (KM (Store d)) e t n L in
          (c ++ mov (RTmp t) d ++ [ICall (Some (RTmp t)) SPLAT [RTmp t]] ++ mov (RLoc x) (RTmp t), n)
      | KM NotUse =>                                                               (* 655-660 *)
          let '(src, c, n, _) := gen_reg e t n in
          (c ++ [ICall (Some src) SPLAT [src]] ++ mov (RLoc x) src, n)
      | _ =>                                                                       (* 661-669 *)
          let '(c, n) := gen (KM Push) e t n L in
          (c ++ [IMov (RTmp (S t)) (RTmp t)] ++ [ICall (Some (RTmp (S t))) SPLAT [RTmp (S t)]] ++ mov (RLoc x) (RTmp (S t))
           ++ after k t, n)
      end
  end.

(** bytecodegen.rs:683-790: a body is generated for its return value. *)
Definition compile (e : expr) : code := fst (gen (KM Ret) e 0 0 None).

(* ---- execution ---- *)

Section Run.
Variable W : Type.
(** The locals that blocks of the method have captured: every call may read and change them. *)
Variable caps : list var.
(** The world after a call, the captured locals after it, its value or the exception. *)
Variable call : W -> meth -> list value -> list value -> W * list value * (value + nat).

Definition regs := reg -> value.
Definition set (r : regs) (d : reg) (v : value) : regs := fun x => if reg_eqb x d then v else r x.
Fixpoint lookup (xs : list var) (vs : list value) (x : var) : option value :=
  match xs, vs with y :: xs, v :: vs => if x =? y then Some v else lookup xs vs x | _, _ => None end.
Definition put_caps (r : regs) (vs : list value) : regs :=
  fun q => match q with RLoc x => match lookup caps vs x with Some v => v | None => r q end | _ => r q end.

Fixpoint pos (C : code) (l : nat) : nat :=
  match C with [] => 0 | ILabel m :: r => if m =? l then 0 else S (pos r l) | _ :: r => S (pos r l) end.

Inductive conf := At (pc : nat) (r : regs) (w : W) | Returned (v : value) (r : regs) (w : W) | Raised (x : nat) (r : regs) (w : W).
(** One instruction; [None]: the code has ended without a return. *)
Definition step (C : code) (pc : nat) (r : regs) (w : W) : option conf :=
  match nth_error C pc with
  | None => None
  | Some (ILabel _) => Some (At (S pc) r w)
  | Some (IConst d v) => Some (At (S pc) (set r d v) w)
  | Some (IMov d s) => Some (At (S pc) (set r d (r s)) w)
  | Some (ICall d m args) =>
      let '(w', vs, x) := call w m (map r args) (map (fun x => r (RLoc x)) caps) in
      let r' := put_caps r vs in
      match x with
      | inl v => Some (At (S pc) (match d with Some d => set r' d v | None => r' end) w')
      | inr x => Some (Raised x r' w')
      end
  | Some (IBr l) => Some (At (pos C l) r w)
  | Some (ICond q j l) => Some (At (if eqb (truthy (r q)) j then pos C l else S pc) r w)
  | Some (INilBr q l) => Some (At (if is_nil (r q) then pos C l else S pc) r w)
  | Some (IRet q) => Some (Returned (r q) r w)
  end.
Fixpoint exec (C : code) (fuel : nat) (c : conf) : option conf :=
  match c with
  | At pc r w => match fuel with
                 | 0 => None
                 | S f => match step C pc r w with Some c' => exec C f c' | None => None end
                 end
  | _ => Some c
  end.
End Run.
Arguments At {W}. Arguments Returned {W}. Arguments Raised {W}.
