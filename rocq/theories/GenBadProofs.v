(** Programs whose code does something else than their evaluation. *)
From Coq Require Import List Bool Arith ZArith.
From Verif Require Import GenModel GenSpec GenProofs.
Import ListNotations.
Open Scope Z_scope.

(** A world: the calls made, with arguments and the captured locals at that moment. *)
Definition W0 := list (meth * list value * list value).
Definition PLUS : meth := 10%nat. Definition NEG : meth := 11%nat. Definition LT : meth := 12%nat.
(** A call that runs a block which sets the captured locals; one that raises; others. *)
Definition BLK : meth := 20%nat. Definition RAI : meth := 21%nat. Definition FOO : meth := 22%nat. Definition SETX : meth := 23%nat. Definition SETB : meth := 24%nat.
Definition call0 (w : W0) (m : meth) (args cs : list value) : W0 * list value * (value + nat) :=
  (w ++ [(m, args, cs)],
   if (m =? BLK)%nat || (m =? SETB)%nat then map (fun _ => Num 5) cs else cs,
   if (m =? RAI)%nat then inr 1%nat
   else inl (if (m =? PLUS)%nat then match args with [Num a; Num b] => Num (a + b) | _ => Nil end
             else if (m =? NEG)%nat then match args with [Num a] => Num (- a) | _ => Nil end
             else if (m =? LT)%nat then match args with [Num a; Num b] => if a <? b then Tru else Fls | _ => Nil end
             else if (m =? BLK)%nat then Num 7
             else if (m =? MKARRAY)%nat then Ref (100 + length args)
             else if (m =? SPLAT)%nat then Ref 50 else Nil)).
Definition SELF := Ref 1.
Definition obs := (W0 * list value * out)%type.
(** What the program means and what its code does, from the locals [l]. *)
Definition meaning (caps : list var) (l : env) (e : expr) : option obs :=
  match eval W0 caps call0 SELF 60 [] l e with Some (w, l, o) => Some (w, map l caps, o) | None => None end.
Definition ran (caps : list var) (l : env) (e : expr) : option obs :=
  match exec W0 caps call0 (compile e) 200 (At 0 (fun q => match q with RSelf => SELF | RLoc x => l x | RTmp _ => Nil end) []) with
  | Some (Returned v r w) => Some (w, map (fun x => r (RLoc x)) caps, OVal v)
  | Some (Raised x r w) => Some (w, map (fun x => r (RLoc x)) caps, OExn x)
  | _ => None
  end.
Definition vs (l : list value) : env := fun x => nth x l Nil.
Definition v (x : nat) := EVar x.
Definition num (z : Z) := ELit (Num z).
Notation a := 0%nat. Notation b := 1%nat. Notation c := 2%nat.
Definition pr (e : expr) := ECall FOO ESelf [e; ELit Nil].

Definition p_operand := EBin PLUS (v a) (EAsgn a (num 3)).
Definition p_receiver := ECall FOO (v a) [EAsgn a (num 3)].
Definition p_block := EBin PLUS (v a) (ECall BLK ESelf []).
Definition p_opassign := EOp PLUS a (EAsgn a (num 3)).
Definition p_attr := ESet (LAttr SETX (v a)) (EAsgn a (num 3)).
Definition p_and := EAsgn a (EAnd (v b) (v a)).
Definition p_and_break := ESeq (EWhile true (ELit Tru) (EAsgn a (EAnd (v b) (EBreak (ELit Nil))))) (v a).
Definition p_and_raise := EAsgn a (EAnd (v b) (ECall RAI ESelf [])).
Definition p_setter := EAsgn a (ESet (LAttr SETX (v a)) (num 3)).
Definition p_splat := ESeq (ESplat a (v b)) (v b).
Definition p_splat_self := ESeq (ESplat a ESelf) ESelf.
Definition p_splat_again := EAsgn a (ESplat a (num 3)).
Definition p_multi := EMul [LVar a; LAttr SETX (v a)] [num 2; num 1].
Definition p_unary := EAsgn a (EUn NEG (num 3)).
Definition p_value := ESet (LAttr SETB (v b)) (v a).
Definition p_loop := EAsgn b (EWhile true (EBin LT (v a) (num 2)) (ESeq (EOp PLUS a (num 1)) (EBreak (EAnd (v a) (ENext (ELit Nil)))))).
