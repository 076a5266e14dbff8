(** C97, C98: the code generated for expressions, assignments and control flow. *)
From Coq Require Import List Bool Arith ZArith.
From Verif Require Import GenModel GenSpec GenStepProofs GenLabelProofs GenProofs GenBadProofs.
Import ListNotations.
Open Scope Z_scope.

(** C97. *)
(** For all programs, worlds, behaviours of the called methods and captured locals: if evaluation
    from left to right ends, the generated code ends with the same value or exception, the same
    world (so the same calls with the same arguments in the same order) and the same captured
    locals.  Missing: programs outside [ok], all of whose forms are refuted below; evaluations that do not end. *)
Theorem C97_compiled_partial : forall W caps call self e n w l r w' l' o,
  ok caps UVal e = true -> stays e = true -> starts self l r ->
  eval W caps call self n w l e = Some (w', l', o) ->
  exists f c, exec W caps call (compile e) f (At 0 r w) = Some c /\ agrees W caps w' l' o c.
Proof. exact compile_right. Qed.
Print Assumptions C97_compiled_partial.
(** Every run that ends is that one. *)
Theorem C97_only_partial : forall W caps call self e n w l r w' l' o f c,
  ok caps UVal e = true -> stays e = true -> starts self l r ->
  eval W caps call self n w l e = Some (w', l', o) ->
  exec W caps call (compile e) f (At 0 r w) = Some c -> agrees W caps w' l' o c.
Proof. exact compile_only. Qed.
Print Assumptions C97_only_partial.
(** The condition by form, for methods without blocks: assignments are statements and not operands, and
    && is not what is assigned. *)
Theorem C97_plain_partial : forall W call self e n w l r w' l' o f c, plain e = true -> stays e = true -> starts self l r ->
  eval W [] call self n w l e = Some (w', l', o) ->
  (exists f c, exec W [] call (compile e) f (At 0 r w) = Some c) /\
  (exec W [] call (compile e) f (At 0 r w) = Some c -> agrees W [] w' l' o c).
Proof. exact plain_right. Qed.
Print Assumptions C97_plain_partial.
(** while a < 2 do a += 1; if a && foo(a, nil) then break a else next end end, then c = [a, -b] and so on. *)
Definition prog :=
  ESeq (EWhile true (EBin LT (v a) (num 2)) (ESeq (EOp PLUS a (num 1)) (EIf (EAnd (v a) (ECall FOO ESelf [v a; ELit Nil])) (EBreak (v a)) (ENext (ELit Nil)))))
       (ESeq (EAsgn c (EArr [v a; EUn NEG (v b)])) (ESeq (EMul [LVar a; LVar b] [v b; v a]) (ESeq (EOrA a (num 9)) (ECall FOO (EOr (ELit Fls) (v a)) [v b; v c])))).
Definition prog2 := EBin PLUS (EAsgn b (EWhile false (EBin LT (num 3) (v a)) (ESeq (EOp PLUS a (num 2)) (EIf (EBin LT (v a) (num 3)) (ELit Nil) (EBreak (v a)))))) (ECall BLK ESelf [EAsgn c (num 8); v c]).
Example C97_compiled_ex :
  plain prog = true /\ ok [] UVal prog = true /\ stays prog = true /\ ok [b; c] UVal prog2 = true /\ plain prog2 = false /\
  ran [] (vs [Num 0; Num 4]) prog = meaning [] (vs [Num 0; Num 4]) prog /\
  ran [] (vs [Num 0; Num 4]) prog = Some ([(LT, [Num 0; Num 2], []); (PLUS, [Num 0; Num 1], []); (FOO, [Ref 1; Num 1; Nil], []); (LT, [Num 1; Num 2], []);
         (PLUS, [Num 1; Num 1], []); (FOO, [Ref 1; Num 2; Nil], []); (LT, [Num 2; Num 2], []); (NEG, [Num 4], []);
         (MKARRAY, [Num 2; Num (-4)], []); (MKARRAY, [Num 4; Num 2], []); (FOO, [Num 4; Num 2; Ref 102], [])], [], OVal Nil) /\
  ran [b; c] (vs [Num 0]) prog2 = meaning [b; c] (vs [Num 0]) prog2 /\
  ran [b; c] (vs [Num 0]) prog2 = Some ([(LT, [Num 3; Num 0], [Nil; Nil]); (PLUS, [Num 0; Num 2], [Nil; Nil]); (LT, [Num 2; Num 3], [Nil; Nil]); (LT, [Num 3; Num 2], [Nil; Nil]);
         (PLUS, [Num 2; Num 2], [Nil; Nil]); (LT, [Num 4; Num 3], [Nil; Nil]); (BLK, [Ref 1; Num 8; Num 8], [Num 4; Num 8]);
         (PLUS, [Num 4; Num 7], [Num 5; Num 5])], [Num 5; Num 5], OVal (Num 11)).
Proof. repeat (split; [vm_compute; reflexivity|]). vm_compute. reflexivity. Qed.

(** a + (a = 3): the first operand is read after the second. (bytecodegen.rs:1941-1960) *)
Theorem C97_operand_refuted :
  meaning [] (vs [Num 1]) p_operand = Some ([(PLUS, [Num 1; Num 3], [])], [], OVal (Num 4)) /\
  ran [] (vs [Num 1]) p_operand = Some ([(PLUS, [Num 3; Num 3], [])], [], OVal (Num 6)).
Proof. split; vm_compute; reflexivity. Qed.
Print Assumptions C97_operand_refuted.

(** a.foo(a = 3): the receiver is read after the arguments. *)
Theorem C97_receiver_refuted :
  meaning [] (vs [Num 1]) p_receiver = Some ([(FOO, [Num 1; Num 3], [])], [], OVal Nil) /\
  ran [] (vs [Num 1]) p_receiver = Some ([(FOO, [Num 3; Num 3], [])], [], OVal Nil).
Proof. split; vm_compute; reflexivity. Qed.
Print Assumptions C97_receiver_refuted.

(** a + blk() where blk sets a. *)
Theorem C97_block_operand_refuted :
  meaning [a] (vs [Num 1]) p_block = Some ([(BLK, [Ref 1], [Num 1]); (PLUS, [Num 1; Num 7], [Num 5])], [Num 5], OVal (Num 8)) /\
  ran [a] (vs [Num 1]) p_block = Some ([(BLK, [Ref 1], [Num 1]); (PLUS, [Num 5; Num 7], [Num 5])], [Num 5], OVal (Num 12)).
Proof. split; vm_compute; reflexivity. Qed.
Print Assumptions C97_block_operand_refuted.

(** a += (a = 3). *)
Theorem C97_opassign_refuted :
  meaning [] (vs [Num 1]) p_opassign = Some ([(PLUS, [Num 1; Num 3], [])], [], OVal (Num 4)) /\
  ran [] (vs [Num 1]) p_opassign = Some ([(PLUS, [Num 3; Num 3], [])], [], OVal (Num 6)).
Proof. split; vm_compute; reflexivity. Qed.
Print Assumptions C97_opassign_refuted.

(** a.x = (a = 3): the setter is called on the new value. *)
Theorem C97_attr_refuted :
  meaning [] (vs [Num 1]) p_attr = Some ([(SETX, [Num 1; Num 3], [])], [], OVal (Num 3)) /\
  ran [] (vs [Num 1]) p_attr = Some ([(SETX, [Num 3; Num 3], [])], [], OVal (Num 3)).
Proof. split; vm_compute; reflexivity. Qed.
Print Assumptions C97_attr_refuted.

(** a = b && a: b is already in a when a is read. (binary.rs:251-275) *)
Theorem C97_and_refuted :
  meaning [] (vs [Num 1; Num 2]) p_and = Some ([], [], OVal (Num 1)) /\
  ran [] (vs [Num 1; Num 2]) p_and = Some ([], [], OVal (Num 2)).
Proof. split; vm_compute; reflexivity. Qed.
Print Assumptions C97_and_refuted.

(** a = b && break: a has changed although the assignment did not take place. *)
Theorem C97_and_break_refuted :
  meaning [] (vs [Num 1; Num 2]) p_and_break = Some ([], [], OVal (Num 1)) /\
  ran [] (vs [Num 1; Num 2]) p_and_break = Some ([], [], OVal (Num 2)).
Proof. split; vm_compute; reflexivity. Qed.
Print Assumptions C97_and_break_refuted.

(** a = b && raise: the same with an exception. *)
Theorem C97_and_raise_refuted :
  meaning [a] (vs [Num 1; Num 2]) p_and_raise = Some ([(RAI, [Ref 1], [Num 1])], [Num 1], OExn 1) /\
  ran [a] (vs [Num 1; Num 2]) p_and_raise = Some ([(RAI, [Ref 1], [Num 2])], [Num 2], OExn 1).
Proof. split; vm_compute; reflexivity. Qed.
Print Assumptions C97_and_raise_refuted.

(** a = (a.x = 3): the setter is called on 3. (expression.rs:232-260) *)
Theorem C97_setter_refuted :
  meaning [] (vs [Num 1]) p_setter = Some ([(SETX, [Num 1; Num 3], [])], [], OVal (Num 3)) /\
  ran [] (vs [Num 1]) p_setter = Some ([(SETX, [Num 3; Num 3], [])], [], OVal (Num 3)).
Proof. split; vm_compute; reflexivity. Qed.
Print Assumptions C97_setter_refuted.

(** *a = b changes b. (expression.rs:655-660) *)
Theorem C97_splat_refuted :
  meaning [] (vs [Num 1; Num 2]) p_splat = Some ([(SPLAT, [Num 2], [])], [], OVal (Num 2)) /\
  ran [] (vs [Num 1; Num 2]) p_splat = Some ([(SPLAT, [Num 2], [])], [], OVal (Ref 50)).
Proof. split; vm_compute; reflexivity. Qed.
Print Assumptions C97_splat_refuted.

(** *a = self changes self. *)
Theorem C97_splat_self_refuted :
  meaning [] (vs []) p_splat_self = Some ([(SPLAT, [Ref 1], [])], [], OVal (Ref 1)) /\
  ran [] (vs []) p_splat_self = Some ([(SPLAT, [Ref 1], [])], [], OVal (Ref 50)).
Proof. split; vm_compute; reflexivity. Qed.
Print Assumptions C97_splat_self_refuted.

(** a = ( *a = 3): the value is the array and not 3. *)
Theorem C97_splat_again_refuted :
  meaning [] (vs [Num 1]) p_splat_again = Some ([(SPLAT, [Num 3], [])], [], OVal (Num 3)) /\
  ran [] (vs [Num 1]) p_splat_again = Some ([(SPLAT, [Num 3], [])], [], OVal (Ref 50)).
Proof. split; vm_compute; reflexivity. Qed.
Print Assumptions C97_splat_again_refuted.

(** a, a.x = 2, 1: the setter is called on the new value of a. *)
Theorem C97_multi_refuted :
  meaning [] (vs [Num 1]) p_multi = Some ([(SETX, [Num 1; Num 1], []); (MKARRAY, [Num 2; Num 1], [])], [], OVal (Ref 102)) /\
  ran [] (vs [Num 1]) p_multi = Some ([(SETX, [Num 2; Num 1], []); (MKARRAY, [Num 2; Num 1], [])], [], OVal (Ref 102)).
Proof. split; vm_compute; reflexivity. Qed.
Print Assumptions C97_multi_refuted.

(** a = -(3): the method runs with its receiver already in the captured a. (bytecodegen.rs:1599-1614) *)
Theorem C97_unary_refuted :
  meaning [a] (vs [Num 1]) p_unary = Some ([(NEG, [Num 3], [Num 1])], [Num (-3)], OVal (Num (-3))) /\
  ran [a] (vs [Num 1]) p_unary = Some ([(NEG, [Num 3], [Num 3])], [Num (-3)], OVal (Num (-3))).
Proof. split; vm_compute; reflexivity. Qed.
Print Assumptions C97_unary_refuted.

(** b.x = a where the setter changes a: the value of the assignment is the new a. *)
Theorem C97_value_refuted :
  meaning [a] (vs [Num 1; Num 2]) p_value = Some ([(SETB, [Num 2; Num 1], [Num 1])], [Num 5], OVal (Num 1)) /\
  ran [a] (vs [Num 1; Num 2]) p_value = Some ([(SETB, [Num 2; Num 1], [Num 1])], [Num 5], OVal (Num 5)).
Proof. split; vm_compute; reflexivity. Qed.
Print Assumptions C97_value_refuted.

(** break (a && next): the value that break computed stays the loop's value when next takes over. *)
Theorem C97_loop_refuted :
  meaning [] (vs [Num 0; Num 2]) p_loop = Some ([(LT, [Num 0; Num 2], []); (PLUS, [Num 0; Num 1], []); (LT, [Num 1; Num 2], []); (PLUS, [Num 1; Num 1], []); (LT, [Num 2; Num 2], [])], [], OVal Nil) /\
  ran [] (vs [Num 0; Num 2]) p_loop = Some ([(LT, [Num 0; Num 2], []); (PLUS, [Num 0; Num 1], []); (LT, [Num 1; Num 2], []); (PLUS, [Num 1; Num 1], []); (LT, [Num 2; Num 2], [])], [], OVal (Num 2)).
Proof. split; vm_compute; reflexivity. Qed.
Print Assumptions C97_loop_refuted.

(** C98. *)
(** No label stands twice in the code of a program, and every jump has its label in it. *)
Theorem C98_labels : forall e, NoDup (labels (compile e)) /\ forall l, In l (targets (compile e)) -> In l (labels (compile e)).
Proof. exact (fun e => conj (compile_labels e) (compile_targets e)). Qed.
Print Assumptions C98_labels.
(** Code written down. *)
Example C98_labels_ex :
  compile (EAsgn a (EIf (EAnd (v a) (v b)) (num 1) (ESafe FOO (v b) []))) = [ICond (RLoc a) false 0; ICond (RLoc b) false 0; IConst (RTmp 0) (Num 1); IBr 1; ILabel 0;
    INilBr (RLoc b) 2; ICall (Some (RTmp 0)) FOO [RLoc b]; IBr 3; ILabel 2; IConst (RTmp 0) Nil; ILabel 3;
    ILabel 1; IMov (RLoc a) (RTmp 0); IRet (RLoc a)] /\
  targets (compile (EWhile true (EOr (v a) (v b)) (ESeq (EBreak (num 1)) (ENext (num 2))))) = [3; 2; 1; 0; 0]%nat.
Proof. split; vm_compute; reflexivity. Qed.
