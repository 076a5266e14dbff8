(** What the straight-line Integer code means, independently of registers. *)
From Coq Require Import ZArith Bool List Arith.
From Verif Require Import IntModel FixAsmModel FixAsmProofs ValueModel GpModel.
Import ListNotations.
Open Scope Z_scope.

Definition frame := slot -> word.

(** A word is a machine word; a small integer is an odd word. *)
Definition is_i64 (w : word) : Prop := - 2 ^ 63 <= w < 2 ^ 63.
Definition intval (w : word) : option Z := if odd w then Some ((w - 1) / 2) else None.

(** The mathematical operation. *)
Definition zop (k : bkind) (a b : Z) : option Z :=
  match k with
  | Add => Some (a + b) | Sub => Some (a - b) | Mul => Some (a * b)
  | Div => if b =? 0 then None else Some (a / b)
  | BOr => Some (Z.lor a b) | BAnd => Some (Z.land a b) | BXor => Some (Z.lxor a b)
  end.

(** What the comparison operators say of two numbers. *)
Definition zcmp (k : ckind) (a b : Z) : bool :=
  match k, a ?= b with
  | CEq, Eq | CNe, Lt | CNe, Gt | CLt, Lt | CLe, Lt | CLe, Eq | CGt, Gt | CGe, Gt | CGe, Eq => true
  | _, _ => false
  end.

Definition store (f : frame) (d : option slot) (w : word) : frame :=
  match d with Some s => upd f s w | None => f end.

(** One instruction executed on its own.  [None]: an operand or the result is
    not a small integer, or the divisor is zero, so the general method runs. *)
Definition step (f : frame) (i : ins) : option frame :=
  match i with
  | IBin k d l r =>
      match intval (f l), intval (f r) with
      | Some a, Some b =>
          match zop k a b with
          | Some z => if fits_i63 z then Some (store f d (2 * z + 1)) else None
          | None => None
          end
      | _, _ => None
      end
  | ICmp k d l r =>
      match intval (f l), intval (f r) with
      | Some a, Some b => Some (store f d (wbool (zcmp k a b)))
      | _, _ => None
      end
  | ILit d w | IHeap d w => Some (upd f d w)
  | IMov d s => Some (upd f d (f s))
  end.

Fixpoint run (f : frame) (p : list (ins * nat)) : option frame :=
  match p with
  | [] => Some f
  | (i, _) :: p => match step f i with Some f1 => run f1 p | None => None end
  end.

Definition reads (i : ins) : list slot :=
  match i with
  | IBin _ _ l r | ICmp _ _ l r => [l; r]
  | IMov _ s => [s]
  | _ => []
  end.
Definition writes (i : ins) : option slot :=
  match i with
  | IBin _ d _ _ | ICmp _ d _ _ => d
  | ILit d _ | IHeap d _ | IMov d _ => Some d
  end.
Definition lit_ok (i : ins) : Prop :=
  match i with ILit _ w | IHeap _ w => is_i64 w | _ => True end.

(** Stack discipline: an instruction reads live slots, and a slot that is live
    afterwards was live before or is its result. *)
Fixpoint wf (sp : nat) (p : list (ins * nat)) : Prop :=
  match p with
  | [] => True
  | (i, nsp) :: p =>
      (forall s, In s (reads i) -> (s < sp)%nat) /\
      (forall s, writes i = Some s -> (s < nsp)%nat) /\
      (forall s, (s < nsp)%nat -> (s < sp)%nat \/ writes i = Some s) /\
      lit_ok i /\ wf nsp p
  end.

Fixpoint last_sp (sp : nat) (p : list (ins * nat)) : nat :=
  match p with [] => sp | (_, nsp) :: p => last_sp nsp p end.
(** The stack pointer before instruction [n]. *)
Definition sp_at (sp : nat) (p : list (ins * nat)) (n : nat) : nat := last_sp sp (firstn n p).

(** No division has the same slot on both sides. *)
Definition no_self_div (p : list (ins * nat)) : Prop :=
  forall d l sp, ~ In (IBin Div d l l, sp) p.

(** No division executed is -2^62 / -1 (C43: the machine code is wrong there). *)
Fixpoint div_ok (f : frame) (p : list (ins * nat)) : Prop :=
  match p with
  | [] => True
  | (i, _) :: p =>
      match i with
      | IBin Div _ l r => ~ (intval (f l) = Some (- 2 ^ 62) /\ intval (f r) = Some (-1))
      | _ => True
      end /\
      match step f i with Some f1 => div_ok f1 p | None => True end
  end.

(** The result does not fit a small integer (as opposed to: an operand is not
    one, or the divisor is zero). *)
Definition overflows (f : frame) (i : ins) : Prop :=
  match i with
  | IBin k _ l r => exists a b z, intval (f l) = Some a /\ intval (f r) = Some b /\
                    zop k a b = Some z /\ fits_i63 z = false
  | _ => False
  end.

(** The slot whose unsaved register the operation overwrites with its result:
    it is in the side exit's list and its register is the result register. *)
Definition in_exit (d : reg) (x : wback) : option slot :=
  option_map snd (find (fun p => Nat.eqb (fst p) d) (wgp x)).
Definition taken1 (i : minst) : option slot :=
  match i with
  | Bin Div _ _ _ _ => None
  | Bin _ d _ _ x | BinImm _ d _ _ x | Double d _ x => in_exit d x
  | _ => None
  end.
Fixpoint taken (c : list minst) : option slot :=
  match c with
  | [] => None
  | i :: c => match taken c with Some s => Some s | None => taken1 i end
  end.

(** The reference allocator: operations one by one, for any meaning [op]. *)
Section Ref.
  Variable op : bkind -> word -> word -> word.
  Definition r_exec (f : frame) (i : rinst) : frame :=
    upd f (rdst i) (op (rkind i) (f (rlhs i)) (f (rrhs i))).
  Fixpoint r_wf (sp : nat) (p : list rinst) : Prop :=
    match p with
    | [] => True
    | i :: p =>
        (rlhs i < sp)%nat /\ (rrhs i < sp)%nat /\ (rdst i < rsp i)%nat /\
        (forall s, (s < rsp i)%nat -> (s < sp)%nat \/ s = rdst i) /\ r_wf (rsp i) p
    end.
  Fixpoint r_last (sp : nat) (p : list rinst) : nat :=
    match p with [] => sp | i :: p => r_last (rsp i) p end.
End Ref.
