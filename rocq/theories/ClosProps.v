(** C99: blocks and lambdas share the variables they were written among, wherever the frames are kept.
    C100: Bindings, and the block parameter as an object. *)
From Coq Require Import List Bool Arith ZArith.
From Verif Require Import ClosModel ClosSpec ClosRunProofs ClosBadProofs.
Import ListNotations.

(** Every run of blocks, lambdas, block parameters, builtins with blocks and returns, read through frames in the
    stack and in the heap, is the run with environments that live on. *)
Theorem C99_closures : forall l, forallb plain l = true -> snd (run start l) = wrun wstart l.
Proof. intros l H. exact (run_ok l start wstart start_rel (plain_fair l start H)). Qed.
Print Assumptions C99_closures.
(** A lambda keeps the variable of a method that has returned, and changes it for the next call. *)
Example C99_closures_ex :
  snd (run start [OCall 0 0 BNone; OSet 0 2 7; OLambda 3 9; OSet 0 2 8; ORet 3 4; OProc 4 0 BNone; ORead 1 2; OSet 1 2 20; ORet 0 5;
                  OCall 0 0 BNone; ORet 0 5; OProc 4 0 BNone; ORead 1 2])
  = [Done; Done; Done; Done; Done; Ran 9; Val (SeeInt 8); Done; Done; Done; Done; Ran 9; Val (SeeInt 20)].
Proof. vm_compute. reflexivity. Qed.
(** A block passed on twice is taken as an object inside; its method goes on with the moved frame; a builtin that kept the block
    before that calls it with the moved frame. *)
Example C99_closures_ex2 :
  snd (run start [OCall 0 0 BNone; OSet 0 2 3; OCall 0 0 (BLit 5); ONative 0 BParam; OEach 0; OSet 1 2 4; ORet 0 0; ORet 0 0; OCall 0 0 BParam; OBlockArg 0 3;
                  OYield 0; ORead 1 2; OSet 1 2 6; ORet 0 0; ORet 0 0; ORet 0 0; ORead 0 2])
  = [Done; Done; Done; Done; Ran 5; Done; Done; Done; Done; Done; Ran 5; Val (SeeInt 4); Done; Done; Done; Done; Val (SeeInt 6)].
Proof. vm_compute. reflexivity. Qed.
(** Making a lambda or a Proc of the block parameter, asking for a block, finding where a return goes: no assertion fails, no
    frame is missing. *)
Theorem C99_never_stuck : forall l o, forallb plain l = true -> basic o -> snd (step (fst (run start l)) o) <> Stuck.
Proof. intros l o H B. destruct (run_rel l start wstart start_rel (plain_fair l start H)) as [w R]. exact (basic_ok _ w o R B). Qed.
Print Assumptions C99_never_stuck.
Example C99_never_stuck_ex : snd (step (fst (run start [OCall 0 0 (BLit 5); OLambda 2 4; OProc 2 0 BNone])) OHome) = Pos (Some 1).
Proof. vm_compute. reflexivity. Qed.

(** With Bindings: when they are made where no frame around holds a block of a running frame. *)
Theorem C100_bindings_partial : forall l, fair_all start l -> snd (run start l) = wrun wstart l.
Proof. intros l H. exact (run_ok l start wstart start_rel H). Qed.
Print Assumptions C100_bindings_partial.
Example C100_bindings_partial_ex :
  let l := [OCall 0 0 BNone; OSet 0 2 7; OBinding 3; OSet 0 2 8; ORet 3 4; OProc 4 0 BNone; ORead 1 2] in
  fair_all start l /\ snd (run start l) = [Done; Done; Done; Done; Done; Ran 0; Val (SeeInt 8)].
Proof. cbv zeta. split; [repeat split|vm_compute; reflexivity]. Qed.
(** A Binding of a method that was called with a block: after the method has returned, yield finds no block although block_given? says there
    is one. *)
Theorem C100_binding_yield_refuted : exists l, snd (run start l) = [Done; Done; Done; Ran 0; NoBlock] /\ wrun wstart l = [Done; Done; Done; Ran 0; Ran 5].
Proof. exact (ex_intro _ _ binding_yield). Qed.
Print Assumptions C100_binding_yield_refuted.
Theorem C100_binding_given_refuted : exists l, snd (run start (l ++ [OGiven])) = [Done; Done; Done; Ran 0; Given true]
  /\ snd (run start (l ++ [OYield 0])) = [Done; Done; Done; Ran 0; NoBlock].
Proof. exact (ex_intro _ [OCall 0 0 (BLit 5); OBinding 2; ORet 2 3; OProc 3 0 BNone] (conj binding_given (proj1 binding_yield))). Qed.
Print Assumptions C100_binding_given_refuted.
(** The block parameter read through it: the internal error of a missing frame. *)
Theorem C100_binding_param_refuted : exists l, snd (run start l) = [Done; Done; Done; Ran 0; Stuck] /\ wrun wstart l = [Done; Done; Done; Ran 0; Done].
Proof. exact (ex_intro _ _ binding_param). Qed.
Print Assumptions C100_binding_param_refuted.
(** The block parameter is a different object at every read. *)
Theorem C100_same_object_refuted : ~ (forall l, let s := fst (run start (l ++ [OBlockArg 0 2; OBlockArg 0 3])) in vars (cur s) 2 = vars (cur s) 3).
Proof. intro H. specialize (H [OCall 0 0 (BLit 5)]). cbv zeta in H. vm_compute in H. discriminate H. Qed.
Print Assumptions C100_same_object_refuted.
