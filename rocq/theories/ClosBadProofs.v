(** A Binding moves its frame without the blocks; a block parameter read twice. *)
From Coq Require Import List Bool Arith ZArith.
From Verif Require Import ClosModel ClosSpec.
Import ListNotations.

(** def m; binding; end;  b = m { }; then code run in b. *)
Definition bind_then (o : op) : list op := [OCall 0 0 (BLit 5); OBinding 2; ORet 2 3; OProc 3 0 BNone; o].
Lemma binding_yield : snd (run start (bind_then (OYield 0))) = [Done; Done; Done; Ran 0; NoBlock]
  /\ wrun wstart (bind_then (OYield 0)) = [Done; Done; Done; Ran 0; Ran 5].
Proof. split; vm_compute; reflexivity. Qed.
Lemma binding_given : snd (run start (bind_then OGiven)) = [Done; Done; Done; Ran 0; Given true].
Proof. vm_compute. reflexivity. Qed.
Lemma binding_param : snd (run start (bind_then (OBlockArg 1 2))) = [Done; Done; Done; Ran 0; Stuck]
  /\ wrun wstart (bind_then (OBlockArg 1 2)) = [Done; Done; Done; Ran 0; Done].
Proof. split; vm_compute; reflexivity. Qed.
(** def m(&blk) x = blk; y = blk. *)
Definition read_twice : st := fst (run start [OCall 0 0 (BLit 5); OBlockArg 0 2; OBlockArg 0 3]).
Lemma twice : vars (cur read_twice) 2 = VProc 0 /\ vars (cur read_twice) 3 = VProc 1.
Proof. split; vm_compute; reflexivity. Qed.
