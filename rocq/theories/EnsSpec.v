(** What begin/rescue/else/ensure and the exits mean in Ruby, without any
    code generation: every statement ends in one way, and ends are passed
    outwards.

    - [ensure] runs exactly once, whichever way the rest of the begin ended;
      if it ends in any other way than normally, that is how the begin ends.
    - [else] runs after a body that ended normally; it is not covered by the
      rescue clauses, but it is covered by the ensure.
    - The clauses are tried in order for an exception of the body only.
    - [retry] in a clause enters the begin again, without running its ensure,
      but running every ensure between.
    - [break], [next], [redo] belong to the innermost loop around them (or
      the block), [return] to the method.

    The state carries a flag, [s_q], which no decision looks at.  It is
    lowered when the run meets one of the situations in which monoruby does
    something else (each refuted by a witness); the theorems are about runs
    at whose end the flag is still up. *)

From Coq Require Import Arith Bool List.
From Verif Require Import EnsModel.
Import ListNotations.

(** [s_n] counts the statements entered; nothing looks at it either. *)
Record sst := Sst { s_tr : list event; s_x : nat; s_q : bool; s_n : nat }.

Inductive sout :=
| CNorm
| CRaise (e : nat)
| CUnw (u : unw)
| CBreak | CNext | CRedo | CRetry
| CRet (v : nat)
| CRetX (v : nat).     (* a return of the local variable, whose value was v *)

Definition sres : Type := option (sst * sout).

Definition s_ev (st : sst) (ev : event) : sst :=
  Sst (ev :: s_tr st) (s_x st) (s_q st) (s_n st).
Definition s_setx (st : sst) (v : nat) : sst :=
  Sst (s_tr st) v (s_q st) (s_n st).
Definition low (b : bool) (st : sst) : sst :=
  Sst (s_tr st) (s_x st) (if b then false else s_q st) (s_n st).
Definition tick (st : sst) : sst :=
  Sst (s_tr st) (s_x st) (s_q st) (S (s_n st)).

(** ** The situations that lower the flag *)

Definition is_unw (c : sout) : bool :=
  match c with CUnw _ => true | _ => false end.
Definition is_jump (c : sout) : bool :=
  match c with CBreak | CNext | CRedo | CRet _ | CRetX _ => true
  | _ => false end.
Definition is_err (c : sout) : bool :=
  match c with CRaise _ | CUnw _ => true | _ => false end.

(** An ensure body, begun for the end [c1] with [x] = [x0], ended as [c2]
    with [x] = [x1]; [d]: this frame is inside an ensure body that runs for
    an unwinding. *)
Definition odd (d : bool) (c1 : sout) (x0 : nat) (c2 : sout) (x1 : nat)
  : bool :=
  (* begin/ensure inside an ensure body run for an unwinding *)
  d
  (* the ensure body ends by break, next, redo or retry *)
  || match c2 with CBreak | CNext | CRedo | CRetry => true | _ => false end
  (* an exit runs the ensure body and this raises or unwinds *)
  || (is_jump c1 && is_err c2)
  (* it runs for an unwinding and does not end normally *)
  || (is_unw c1 && match c2 with CNorm => false | _ => true end)
  (* a retry crosses it *)
  || match c1 with CRetry => true | _ => false end
  (* return x, and the ensure body changes x *)
  || match c1 with CRetX _ => negb (x0 =? x1) | _ => false end.

(** Where the innermost loop of this frame is: there is none, it is inside
    the ensure body being run (or no ensure body is), it is outside of it. *)
Inductive lkind := LNo | LIn | LOut.

Definition outl (lp : lkind) : lkind :=
  match lp with LIn => LOut | _ => lp end.

(** Noted: break, next or redo in an ensure body, for a loop around it. *)
Definition far (lp : lkind) (st : sst) : sst :=
  low (match lp with LOut => true | _ => false end) st.

(** How the begin ends. *)
Definition over (c1 c2 : sout) : sout :=
  match c2 with CNorm => c1 | _ => c2 end.

Section run.
Variable P : prog.

Definition sask (st : sst) (k e : nat) : sst * ans :=
  let st := s_ev st (k, e) in (st, p_ask P (s_tr st)).

Section node.
(** Runs code; the flags: the innermost loop; inside the body or a clause of
    a begin with ensure of this frame; inside an ensure body that runs for an
    unwinding. *)
Variable rn : frame -> lkind -> bool -> bool -> sst -> list stmt -> sres.
Variable fr : frame.
Variable lp : lkind.
Variables p d : bool.

(** The ensure of a begin that ended as [c1] up to there. *)
Definition sfinish (ens : option (list stmt)) (st : sst) (c1 : sout) : sres :=
  match ens with
  | None => Some (st, c1)
  | Some eb =>
      match rn fr (outl lp) p (d || is_unw c1) st eb with
      | Some (st', c2) =>
          Some (low (odd d c1 (s_x st) c2 (s_x st')) st', over c1 c2)
      | None => None
      end
  end.

(** The clauses for the exception [e]. *)
Fixpoint sclauses (p' : bool) (e : nat) (st : sst)
    (cs : list (nat * list stmt)) : sres :=
  match cs with
  | [] => Some (st, CRaise e)
  | (k, b) :: cs =>
      let '(st, a) := sask st k e in
      match a with
      | Exc e' => Some (st, CRaise e')
      | No => sclauses p' e st cs
      | Yes => rn fr lp p' d st b
      end
  end.

Definition sinvoke (fr' : frame) (body : list stmt) (st : sst)
  : option (sst * cres) :=
  match rn fr' LNo false false (s_setx st 0) body with
  | None => None
  | Some (st', c) =>
      let back := s_setx st' (s_x st) in
      match c with
      | CNorm => Some (back, RVal (s_x st'))
      | CRet v | CRetX v => Some (back, RVal v)
      | CRaise e => Some (back, RRaise e)
      | CUnw (URet t v) => if t =? f_lfp fr' then Some (back, RVal v)
                           else Some (back, RUnw (URet t v))
      | CUnw u => Some (back, RUnw u)
      | _ => None
      end
  end.

(** A break that reaches the call of its block ends the call; noted when this
    frame is inside an ensure body that runs for an unwinding. *)
Definition safter (r : option (sst * cres)) : sres :=
  match r with
  | None => None
  | Some (st, RVal v) => Some (s_setx st v, CNorm)
  | Some (st, RRaise e) => Some (st, CRaise e)
  | Some (st, RUnw (UBrk o v)) =>
      if o =? f_lfp fr then Some (low d (s_setx st v), CNorm)
      else Some (st, CUnw (UBrk o v))
  | Some (st, RUnw u) => Some (st, CUnw u)
  end.

Definition scaught (t : nat) (r : option (sst * cres))
  : option (sst * cres) :=
  match r with
  | Some (st, RUnw (UThrow t')) =>
      if t' =? t then Some (st, RVal 0) else r
  | _ => r
  end.

End node.

Definition some {A} (o : option A) : bool :=
  match o with Some _ => true | None => false end.
Definition none_of {A} (l : list A) : bool :=
  match l with [] => true | _ => false end.

(** The body of a loop and what follows it. *)
Definition sbody
    (rn : frame -> lkind -> bool -> bool -> sst -> list stmt -> sres)
    (fr : frame) (lp : lkind) (p d : bool) (st : sst) (k : nat) (body : list stmt)
  : sres :=
  match rn fr LIn p d st body with
  | Some (st, CNorm) | Some (st, CNext) =>
      rn fr lp p d st [While false k body]
  | Some (st, CBreak) => Some (st, CNorm)
  | Some (st, CRedo) => rn fr lp p d st [While true k body]
  | r => r
  end.

(** One statement. *)
Definition sone
    (rn : frame -> lkind -> bool -> bool -> sst -> list stmt -> sres)
    (fr : frame) (lp : lkind) (p d : bool) (st : sst) (s : stmt) : sres :=
  let blk := some (f_outer fr) in
  match s with
  | Act k =>
      let '(st, a) := sask st k 0 in
      match a with
      | Exc e => Some (st, CRaise e)
      | _ => Some (st, CNorm)
      end
  | Set_ v => Some (s_setx st v, CNorm)
  | If_ k a b =>
      let '(st, r) := sask st k 0 in
      match r with
      | Yes => rn fr lp p d st a
      | No => rn fr lp p d st b
      | Exc e => Some (st, CRaise e)
      end
  | While again k body =>
      if again then sbody rn fr lp p d st k body else
      let '(st, r) := sask st k 0 in
      match r with
      | Yes => sbody rn fr lp p d st k body
      | No => Some (st, CNorm)
      | Exc e => Some (st, CRaise e)
      end
  | Begin body resc els ens =>
      let p' := p || some ens in
      match rn fr lp p' d st body with
      | None => None
      | Some (st, CNorm) =>
          match els with
          | None => sfinish rn fr lp p d ens st CNorm
          | Some el =>
              match rn fr lp p' d st el with
              | None => None
              | Some (st, c) =>
                  (* noted: else raises or unwinds under an ensure *)
                  sfinish rn fr lp p d ens
                          (low (some ens && is_err c) st) c
              end
          end
      | Some (st, CRaise e) =>
          match sclauses rn fr lp d p' e st resc with
          | None => None
          | Some (st, CRetry) => rn fr lp p d st [s]
          | Some (st, c) => sfinish rn fr lp p d ens st c
          end
      | Some (st, c) =>
          (* noted: an unwinding leaves a begin with clauses and without
             ensure inside a region with ensure *)
          sfinish rn fr lp p d ens
            (low (is_unw c && negb (none_of resc) && negb (some ens) && p) st)
            c
      end
  | Break v =>
      match lp with
      | LNo => match f_outer fr with
               | Some o => Some (st, CUnw (UBrk o v))
               | None => None
               end
      | _ => Some (far lp st, CBreak)
      end
  | Next v =>
      match lp with
      | LNo => if blk then Some (st, CRet v) else None
      | _ => Some (far lp st, CNext)
      end
  | Redo =>
      match lp with
      | LNo => if blk then Some (st, CRedo) else None
      | _ => Some (far lp st, CRedo)
      end
  | Retry => Some (st, CRetry)
  | Return v =>
      Some (st, if blk then CUnw (URet (f_home fr) v) else CRet v)
  | ReturnX =>
      Some (st, if blk then CUnw (URet (f_home fr) (s_x st))
                else CRetX (s_x st))
  | Throw t => Some (st, CUnw (UThrow t))
  | Catch t b =>
      let c := clo_of fr b in
      safter fr d (scaught t
        (sinvoke rn (blk_frame fr c) (blk_body c) st))
  | Call f =>
      safter fr d (sinvoke rn (meth_frame fr None) (p_meth P f) st)
  | CallB f b =>
      safter fr d (sinvoke rn (meth_frame fr (Some (clo_of fr b)))
                           (p_meth P f) st)
  | Yield =>
      match f_blk fr with
      | None => None
      | Some c =>
          safter fr d (sinvoke rn (blk_frame fr c) (blk_body c) st)
      end
  | Block b =>
      match rn fr LNo false d st b with
      | Some (st, CRedo) => rn fr lp p d st [Block b]
      | r => r
      end
  end.

Fixpoint srun (n : nat) (fr : frame) (lp : lkind) (p d : bool) (st : sst)
    (code : list stmt) {struct n} : sres :=
  match n with
  | 0 => None
  | S n =>
      match code with
      | [] => Some (st, CNorm)
      | s :: rest =>
          match sone (srun n) fr lp p d (tick st) s with
          | Some (st, CNorm) => srun n fr lp p d st rest
          | r => r
          end
      end
  end.

(** Running method [f]: the trace, the result, and whether the flag is
    still up. *)
Definition srun_prog (n f : nat) : option (list event * cres * bool) :=
  match sinvoke (srun n) (Frame 1 1 None None) (p_meth P f)
                (Sst [] 0 true 0) with
  | Some (st, r) => Some (s_tr st, r, s_q st)
  | None => None
  end.

(** Every method is accepted by the generator (no SyntaxError). *)
Definition loads : Prop :=
  forall f, gens (p_meth P f) (top false) <> None.

End run.
