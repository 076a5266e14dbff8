(** Model of how monoruby compiles and runs begin/rescue/else/ensure and the
    exits that cross them: break, next, redo, retry, return, throw, and the
    exits of blocks ([return] to the home method, [break] out of the call
    that received the block).

    Sources (all under /repo/monoruby/src):
    - bytecodegen/statement.rs:411-724      gen_begin
    - bytecodegen/statement.rs:146-185      gen_while
    - bytecodegen/expression.rs:839-949     Break, Next, Redo, Retry, Return
    - bytecodegen/expression.rs:2298-2332   gen_return, gen_method_return,
                                            gen_block_break
    - bytecodegen.rs:937-981                loop_push, gen_loop_pending_ensures
    - bytecodegen.rs:1211-1258              gen_all_pending_ensures, emit_ret
    - bytecodegen/encode.rs:64-86           which table entries are kept
    - globals/store/iseq.rs:708-758         get_exception_dest (first entry)
    - codegen/jit_module.rs:100-314         handle_error
    - executor.rs:1573-1634                 defer_unwind, finish_ensure,
                                            discard_deferred_unwind
    - codegen/runtime.rs:2425-2460          ensure_end, raise_err
    - builtins/kernel.rs:4240-4310          catch and throw

    Simplifications.
    - Values, exceptions, tags and method names are natural numbers; a frame
      has one local variable, [x], which also receives the value of a call.
    - What ordinary code does is given by a function of the trace ([p_ask]):
      each elementary action appends an event to the trace, and the answer
      says whether it finished (yes, no) or raised.
    - The bytecode is kept as a tree.  The instructions emitted for a
      statement form one node, and the exception table is read off the tree:
      [get_exception_dest] takes the first entry whose range contains the pc,
      entries are pushed innermost first, so the first entry is the one of
      the innermost enclosing region.  Labels of loops and of retries are
      the positions of the loop (or begin) in the stacks [loops] and
      [retry_labels] of the generator.
    - [$!] and the registers saving it, backtraces, fatal errors and fibers
      are left out.
    - The address of a frame ([lfp]) is its depth.  Real addresses also
      depend on frame sizes: two frames called one after the other by the
      same frame have the same address when the arguments agree. *)

From Coq Require Import Arith Bool List.
Import ListNotations.

(** * Source *)

Inductive stmt :=
| Act (k : nat)                       (* an action that may raise *)
| Set_ (v : nat)                      (* x = v *)
| If_ (k : nat) (a b : list stmt)
| While (again : bool) (k : nat) (body : list stmt)
                                      (* [again]: enter at the body; only
                                         used inside a run, for redo *)
| Begin (body : list stmt) (resc : list (nat * list stmt))
        (els ens : option (list stmt))
| Break (v : nat) | Next (v : nat) | Redo | Retry
| Return (v : nat)                    (* return v *)
| ReturnX                             (* return x *)
| Throw (t : nat)
| Catch (t : nat) (b : list stmt)     (* x = catch(t) { b } *)
| Call (f : nat)                      (* x = f() *)
| CallB (f : nat) (b : list stmt)     (* x = f() { b } *)
| Yield                               (* x = yield *)
| Block (b : list stmt).              (* the whole body of a block: what a
                                         block-level redo restarts *)

(** A block: its body, the frame that defines it, the method frame [return]
    leaves, and the block of that method frame. *)
Inductive closure := Clo (body : list stmt) (outer home : nat)
                         (parent : option closure).

Record frame := Frame {
  f_lfp : nat;
  f_home : nat;               (* Lfp::outermost *)
  f_outer : option nat;       (* in a block: the defining frame *)
  f_blk : option closure      (* what yield runs *)
}.

Inductive ans := Yes | No | Exc (e : nat).

(** An event: the number of the action and its argument. *)
Definition event : Type := nat * nat.

Record prog := Prog {
  p_meth : nat -> list stmt;
  p_ask : list event -> ans   (* newest event first *)
}.

(** Unwindings that are not exceptions: MonorubyErrKind::Throw,
    ::MethodReturn (value, target frame), ::BlockBreak (value, frame). *)
Inductive unw :=
| UThrow (t : nat)
| URet (target v : nat)
| UBrk (outer v : nat).

(** * Target *)

Inductive jump :=
| JBrk (l : nat) | JNxt (l : nat) | JRdo (l : nat)  (* loop number l *)
| JRdoB                                             (* redo_label *)
| JRty (l : nat).                                   (* retry label number l *)

Inductive tstmt :=
| TAct (k : nat)
| TSet (v : nat)
| TIf (k : nat) (a b : list tstmt)
| TWhile (l : nat) (again : bool) (k : nat) (body : list tstmt)
| TBegin (l : nat)                      (* retry label number *)
         (body : list tstmt)
         (resc : list (nat * list tstmt))
         (copy : option (list tstmt))   (* ensure, before Raise(err_reg) *)
         (els : option (list tstmt))
         (ens : option (list tstmt))    (* ensure at ensure_label *)
| TJmp (j : jump)
| TRet (v : nat) | TRetX                (* Ret *)
| TMRet (v : nat) | TMRetX              (* MethodRet *)
| TBBrk (v : nat)                       (* BlockBreak *)
| TThrow (t : nat)
| TCatch (t : nat) (b : list stmt)
| TCall (f : nat)
| TCallB (f : nat) (b : list stmt)
| TYield
| TBlock (b : list tstmt).

(** * The generator *)

(** What the generator keeps: [loops] (for each open loop its ensure_depth,
    innermost first), [ensure] (for each open begin its ensure body,
    innermost first; the body is kept as the function that generates a copy
    of it for given loops and retry labels, with the regions outside it as
    [ensure]), the number of retry labels, and whether this is a block. *)
Record ctx := Ctx {
  c_loops : list nat;
  c_ens : list (option (list nat -> nat -> option (list tstmt)));
  c_rty : nat;
  c_blk : bool
}.

Definition obind {A B} (o : option A) (f : A -> option B) : option B :=
  match o with Some a => f a | None => None end.

(** bytecodegen.rs:958-981 and 1224-1250: the copies of the innermost [k]
    pending ensure bodies. *)
Fixpoint pend (k : nat)
    (es : list (option (list nat -> nat -> option (list tstmt))))
    (lp : list nat) (rt : nat) : option (list tstmt) :=
  match k, es with
  | S k, e :: es =>
      obind (match e with None => Some [] | Some g => g lp rt end) (fun c =>
      obind (pend k es lp rt) (fun r => Some (c ++ r)))
  | _, _ => Some []
  end.

Definition pend_all (c : ctx) : option (list tstmt) :=
  pend (length (c_ens c)) (c_ens c) (c_loops c) (c_rty c).

(** statement.rs:411-724 and expression.rs:839-949.  [None] is a
    SyntaxError. *)
Definition gopt {A} (g : A -> option (list tstmt)) (o : option A)
  : option (option (list tstmt)) :=
  match o with
  | None => Some None
  | Some a => obind (g a) (fun t => Some (Some t))
  end.

Fixpoint gen (s : stmt) (c : ctx) {struct s} : option (list tstmt) :=
  let gens := fix gens (l : list stmt) (c : ctx) {struct l}
    : option (list tstmt) :=
      match l with
      | [] => Some []
      | s :: l => obind (gen s c) (fun a =>
                  obind (gens l c) (fun b => Some (a ++ b)))
      end in
  let genc := fix genc (l : list (nat * list stmt)) (c : ctx) {struct l}
    : option (list (nat * list tstmt)) :=
      match l with
      | [] => Some []
      | (k, b) :: l => obind (gens b c) (fun a =>
                       obind (genc l c) (fun r => Some ((k, a) :: r)))
      end in
  match s with
  | Act k => Some [TAct k]
  | Set_ v => Some [TSet v]
  | If_ k a b =>
      obind (gens a c) (fun a => obind (gens b c) (fun b =>
      Some [TIf k a b]))
  | While again k body =>
      (* loop_push: ensure_depth = self.ensure.len() *)
      obind (gens body (Ctx (length (c_ens c) :: c_loops c) (c_ens c)
                            (c_rty c) (c_blk c))) (fun b =>
      Some [TWhile (length (c_loops c)) again k b])
  | Begin body resc els ens =>
      let push e := Ctx (c_loops c) (e :: c_ens c) (c_rty c) (c_blk c) in
      let mine := option_map (fun eb lp rt =>
                    gens eb (Ctx lp (c_ens c) rt (c_blk c))) ens in
      if (match els with Some _ => true | None => false end)
         && (match resc with [] => true | _ => false end) then None else
      obind (gens body (push mine)) (fun tb =>
      (* the clauses, with retry_labels pushed *)
      obind (genc resc (Ctx (c_loops c) (mine :: c_ens c) (S (c_rty c))
                            (c_blk c))) (fun tr =>
      (* the copy that ends in Raise: the region stays on the stack with
         its body blanked *)
      obind (gopt (fun eb => gens eb (push None)) ens) (fun tc =>
      (* the else clause, region still open *)
      obind (gopt (fun l => gens l (push mine)) els) (fun te =>
      (* ensure_label: region popped *)
      obind (gopt (fun eb => gens eb c) ens) (fun tn =>
      Some [TBegin (c_rty c) tb tr tc te tn])))))
  | Break v =>
      match c_loops c with
      | d :: ls =>
          obind (pend (length (c_ens c) - d) (c_ens c) (c_loops c) (c_rty c))
            (fun p => Some (p ++ [TJmp (JBrk (length ls))]))
      | [] => if c_blk c then Some [TBBrk v] else None
      end
  | Next v =>
      match c_loops c with
      | d :: ls =>
          obind (pend (length (c_ens c) - d) (c_ens c) (c_loops c) (c_rty c))
            (fun p => Some (p ++ [TJmp (JNxt (length ls))]))
      | [] => if c_blk c
              then obind (pend_all c) (fun p => Some (p ++ [TRet v]))
              else None
      end
  | Redo =>
      match c_loops c with
      | d :: ls =>
          obind (pend (length (c_ens c) - d) (c_ens c) (c_loops c) (c_rty c))
            (fun p => Some (p ++ [TJmp (JRdo (length ls))]))
      | [] => if c_blk c
              then obind (pend_all c) (fun p => Some (p ++ [TJmp JRdoB]))
              else None
      end
  | Retry =>
      match c_rty c with
      | 0 => None
      | S l => Some [TJmp (JRty l)]
      end
  | Return v =>
      if c_blk c then Some [TMRet v]
      else obind (pend_all c) (fun p => Some (p ++ [TRet v]))
  | ReturnX =>
      (* emit_ret(Some(local)): the local itself is returned *)
      if c_blk c then Some [TMRetX]
      else obind (pend_all c) (fun p => Some (p ++ [TRetX]))
  | Throw t => Some [TThrow t]
  | Catch t b => obind (gens b (Ctx [] [] 0 true)) (fun _ => Some [TCatch t b])
  | Call f => Some [TCall f]
  | CallB f b =>
      obind (gens b (Ctx [] [] 0 true)) (fun _ => Some [TCallB f b])
  | Yield => Some [TYield]
  | Block b =>
      match c_loops c, c_ens c, c_rty c, c_blk c with
      | [], [], 0, true => obind (gens b c) (fun t => Some [TBlock t])
      | _, _, _, _ => None
      end
  end.

Fixpoint gens (l : list stmt) (c : ctx) {struct l} : option (list tstmt) :=
  match l with
  | [] => Some []
  | s :: l => obind (gen s c) (fun a =>
              obind (gens l c) (fun b => Some (a ++ b)))
  end.

Fixpoint genc (l : list (nat * list stmt)) (c : ctx) {struct l}
  : option (list (nat * list tstmt)) :=
  match l with
  | [] => Some []
  | (k, b) :: l => obind (gens b c) (fun a =>
                   obind (genc l c) (fun r => Some ((k, a) :: r)))
  end.

(** A method and a block start with empty stacks. *)
Definition top (blk : bool) : ctx := Ctx [] [] 0 blk.

(** * The machine *)

(** [t_df] is Executor::deferred_unwind, newest first. *)
Record tst := Tst {
  t_tr : list event;
  t_x : nat;
  t_df : list (nat * unw)
}.

(** How a stretch of bytecode ends: it falls through, an exception or an
    unwinding is looked up in the table of this frame from here, an
    unwinding found a table entry without ensure and leaves the frame, a
    jump, Ret. *)
Inductive tout :=
| ONorm
| ORaise (e : nat)
| OUnw (u : unw)
| OHid (u : unw)
| OJmp (j : jump)
| ORet (v : nat).

Definition tres : Type := option (tst * tout).

(** How a call ends. *)
Inductive cres := RVal (v : nat) | RRaise (e : nat) | RUnw (u : unw).

Definition with_tr (st : tst) (ev : event) : tst :=
  Tst (ev :: t_tr st) (t_x st) (t_df st).
Definition with_x (st : tst) (v : nat) : tst := Tst (t_tr st) v (t_df st).

(** executor.rs:1578-1590. *)
Definition defer (l : nat) (u : unw) (st : tst) : tst :=
  Tst (t_tr st) (t_x st)
    (match t_df st with
     | (l', u') :: d => if l' =? l then (l, u) :: d else (l, u) :: t_df st
     | [] => [(l, u)]
     end).

(** executor.rs:1628-1634. *)
Definition discard (l : nat) (st : tst) : tst :=
  Tst (t_tr st) (t_x st)
    (match t_df st with
     | (l', u') :: d => if l' =? l then d else t_df st
     | [] => []
     end).

(** EnsureEnd, executor.rs:1601-1619. *)
Definition ensure_end (l : nat) (st : tst) : tst * tout :=
  match t_df st with
  | (l', u) :: d => if l' =? l then (Tst (t_tr st) (t_x st) d, OUnw u)
                    else (st, ONorm)
  | [] => (st, ONorm)
  end.

Section run.
Variable P : prog.

Definition ask (st : tst) (k e : nat) : tst * ans :=
  let st := with_tr st (k, e) in (st, p_ask P (t_tr st)).

Section node.
Variable rn : frame -> tst -> list tstmt -> tres.
Variable fr : frame.

(** From ensure_label on. *)
Definition finish (st : tst) (ens : option (list tstmt)) : tres :=
  match ens with
  | None => Some (st, ONorm)
  | Some l =>
      match rn fr st l with
      | Some (st, ONorm) => Some (ensure_end (f_lfp fr) st)
      | r => r
      end
  end.

(** handle_error for an unwinding in a region with ensure. *)
Definition unwind (u : unw) (st : tst) (ens : option (list tstmt)) : tres :=
  finish (defer (f_lfp fr) u st) ens.

(** From no_match_pos (or, without rescue, rescue_pos) on. *)
Definition nomatch (e : nat) (st : tst) (copy : option (list tstmt)) : tres :=
  match copy with
  | None => Some (st, ORaise e)
  | Some l =>
      match rn fr st l with
      | Some (st, ONorm) => Some (st, ORaise e)
      | r => r
      end
  end.

(** The clauses; the result also says that the begin is to be entered
    again. *)
Fixpoint clauses (l e : nat) (st : tst) (cs : list (nat * list tstmt))
    (copy ens : option (list tstmt)) : option (tst * option tout) :=
  let out (r : tres) := match r with
                        | Some (st, o) => Some (st, Some o)
                        | None => None
                        end in
  match cs with
  | [] => out (nomatch e st copy)
  | (k, b) :: cs =>
      let '(st, a) := ask st k e in
      match a with
      | Exc e' => out (nomatch e' st copy)
      | No => clauses l e st cs copy ens
      | Yes =>
          match rn fr st b with
          | None => None
          | Some (st, ONorm) => out (finish st ens)
          | Some (st, ORaise e') => out (nomatch e' st copy)
          | Some (st, OUnw u) =>
              match ens with
              | Some _ => out (unwind u st ens)
              | None => Some (st, Some (OUnw u))
              end
          | Some (st, OJmp (JRty l')) =>
              if l' =? l then Some (st, None)
              else Some (st, Some (OJmp (JRty l')))
          | Some (st, o) => Some (st, Some o)
          end
      end
  end.

(** A frame runs the code of a method or block; [st] is the caller's
    state.  handle_error at the last frame of a path, and Ret. *)
Definition invoke (fr' : frame) (blk : bool) (body : list stmt) (st : tst)
  : option (tst * cres) :=
  match gens body (top blk) with
  | None => None
  | Some code =>
      match rn fr' (with_x st 0) code with
      | None => None
      | Some (st', o) =>
          let back st'' := with_x st'' (t_x st) in
          match o with
          | ONorm => Some (back st', RVal (t_x st'))
          | ORet v => Some (back st', RVal v)
          | ORaise e => Some (back (discard (f_lfp fr') st'), RRaise e)
          | OUnw u | OHid u =>
              let st' := back (discard (f_lfp fr') st') in
              match u with
              | URet t v => if t =? f_lfp fr' then Some (st', RVal v)
                            else Some (st', RUnw u)
              | _ => Some (st', RUnw u)
              end
          | OJmp _ => None
          end
      end
  end.

(** The calling instruction: a value, an error, or a [break] out of a block
    of this frame. *)
Definition after (r : option (tst * cres)) : tres :=
  match r with
  | None => None
  | Some (st, RVal v) => Some (with_x st v, ONorm)
  | Some (st, RRaise e) => Some (st, ORaise e)
  | Some (st, RUnw (UBrk o v)) =>
      if o =? f_lfp fr
      then Some (with_x (discard (f_lfp fr) st) v, ONorm)
      else Some (st, OUnw (UBrk o v))
  | Some (st, RUnw u) => Some (st, OUnw u)
  end.

(** Kernel#catch: a throw of its tag is its value. *)
Definition caught (t : nat) (r : option (tst * cres)) : option (tst * cres) :=
  match r with
  | Some (st, RUnw (UThrow t')) =>
      if t' =? t then Some (st, RVal 0) else r
  | _ => r
  end.

End node.

(** The frames of a call: a method, a block literal of this frame, a block
    that was passed to the home method. *)
Definition meth_frame (fr : frame) (b : option closure) : frame :=
  Frame (S (f_lfp fr)) (S (f_lfp fr)) None b.
Definition clo_of (fr : frame) (b : list stmt) : closure :=
  Clo b (f_lfp fr) (f_home fr) (f_blk fr).
Definition blk_frame (fr : frame) (c : closure) : frame :=
  match c with
  | Clo _ outer home parent => Frame (S (f_lfp fr)) home (Some outer) parent
  end.
Definition blk_body (c : closure) : list stmt :=
  match c with Clo b _ _ _ => [Block b] end.

(** The body of a loop and what follows it. *)
Definition tbody (rn : frame -> tst -> list tstmt -> tres) (fr : frame)
    (st : tst) (l k : nat) (body : list tstmt) : tres :=
  match rn fr st body with
  | Some (st, ONorm) => rn fr st [TWhile l false k body]
  | Some (st, OJmp (JBrk l')) =>
      if l' =? l then Some (st, ONorm) else Some (st, OJmp (JBrk l'))
  | Some (st, OJmp (JNxt l')) =>
      if l' =? l then rn fr st [TWhile l false k body]
      else Some (st, OJmp (JNxt l'))
  | Some (st, OJmp (JRdo l')) =>
      if l' =? l then rn fr st [TWhile l true k body]
      else Some (st, OJmp (JRdo l'))
  | r => r
  end.

(** One statement; [rn] runs code. *)
Definition tone (rn : frame -> tst -> list tstmt -> tres) (fr : frame)
    (st : tst) (s : tstmt) : tres :=
  match s with
  | TAct k =>
      let '(st, a) := ask st k 0 in
      match a with
      | Exc e => Some (st, ORaise e)
      | _ => Some (st, ONorm)
      end
  | TSet v => Some (with_x st v, ONorm)
  | TIf k a b =>
      let '(st, r) := ask st k 0 in
      match r with
      | Yes => rn fr st a
      | No => rn fr st b
      | Exc e => Some (st, ORaise e)
      end
  | TWhile l again k body =>
      if again then tbody rn fr st l k body else
      let '(st, r) := ask st k 0 in
      match r with
      | Yes => tbody rn fr st l k body
      | No => Some (st, ONorm)
      | Exc e => Some (st, ORaise e)
      end
  | TBegin l body resc copy els ens =>
      match rn fr st body with
      | None => None
      | Some (st, ONorm) =>
          match els with
          | None => finish rn fr st ens
          | Some el =>
              match rn fr st el with
              | Some (st, ONorm) => finish rn fr st ens
              | r => r
              end
          end
      | Some (st, ORaise e) =>
          match clauses rn fr l e st resc copy ens with
          | None => None
          | Some (st, Some o) => Some (st, o)
          | Some (st, None) => rn fr st [s]
          end
      | Some (st, OUnw u) =>
          match ens, resc with
          | Some _, _ => unwind rn fr u st ens
          | None, [] => Some (st, OUnw u)
          | None, _ => Some (st, OHid u)
          end
      | Some (st, o) => Some (st, o)
      end
  | TJmp j => Some (st, OJmp j)
  | TRet v => Some (st, ORet v)
  | TRetX => Some (st, ORet (t_x st))
  | TMRet v => Some (st, OUnw (URet (f_home fr) v))
  | TMRetX => Some (st, OUnw (URet (f_home fr) (t_x st)))
  | TBBrk v =>
      match f_outer fr with
      | Some o => Some (st, OUnw (UBrk o v))
      | None => None
      end
  | TThrow t => Some (st, OUnw (UThrow t))
  | TCatch t b =>
      let c := clo_of fr b in
      after fr (caught t (invoke rn (blk_frame fr c) true (blk_body c) st))
  | TCall f =>
      after fr (invoke rn (meth_frame fr None) false (p_meth P f) st)
  | TCallB f b =>
      after fr (invoke rn (meth_frame fr (Some (clo_of fr b))) false
                       (p_meth P f) st)
  | TYield =>
      match f_blk fr with
      | None => None
      | Some c =>
          after fr (invoke rn (blk_frame fr c) true (blk_body c) st)
      end
  | TBlock b =>
      match rn fr st b with
      | Some (st, OJmp JRdoB) => rn fr st [TBlock b]
      | r => r
      end
  end.

Fixpoint trun (n : nat) (fr : frame) (st : tst) (code : list tstmt)
  {struct n} : tres :=
  match n with
  | 0 => None
  | S n =>
      match code with
      | [] => Some (st, ONorm)
      | s :: rest =>
          match tone (trun n) fr st s with
          | Some (st, ONorm) => trun n fr st rest
          | r => r
          end
      end
  end.

(** Running method [f] from the outermost frame. *)
Definition trun_prog (n f : nat) : option (list event * cres) :=
  match invoke (trun n) (Frame 1 1 None None) false (p_meth P f)
               (Tst [] 0 []) with
  | Some (st, r) => Some (t_tr st, r)
  | None => None
  end.

End run.
