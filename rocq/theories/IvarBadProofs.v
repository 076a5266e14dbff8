(** Histories of instance variables that go wrong. *)
From Coq Require Import String ZArith Bool Arith.
From Coq Require Import List.
From Verif Require Import IvarModel IvarSpec.
Import ListNotations.
Local Open Scope string_scope.

(** o = C.new; o.singleton_class; o.@z = 1; o.dup.@z *)
Definition dup_loses : list event :=
  [NewClass true false false; New 0; Singleton 0; Set_ 0 "@z" 1%Z; Dup 0; Get 1 "@z"].

(** o.singleton_class; o.@a = 1; p.@b = 2; o.dup.@b *)
Definition dup_misnames : list event :=
  [NewClass true false false; New 0; New 0; Singleton 0; Set_ 0 "@a" 1%Z; Set_ 1 "@b" 2%Z;
   Dup 0; Get 2 "@b"].

(** The copy has no @q, then another object of the class is given one. *)
Definition dup_ghost : list event :=
  [NewClass true false false; New 0; New 0; Singleton 0; Set_ 0 "@z" 1%Z; Dup 0;
   Defined 2 "@q"; Set_ 1 "@q" 5%Z; Get 2 "@q"].

Definition clone_loses : list event :=
  [NewClass true false false; New 0; Singleton 0; Set_ 0 "@z" 1%Z; Clone 0 None; Get 1 "@z"].

Definition clone_misnames : list event :=
  [NewClass true false false; New 0; New 0; Singleton 0; Set_ 0 "@a" 1%Z; Set_ 1 "@b" 2%Z;
   Clone 0 None; Get 2 "@b"].

(** Two objects of one class, assigned in different orders. *)
Definition order_other : list event :=
  [NewClass true false false; New 0; New 0; Set_ 0 "@a" 1%Z; Set_ 0 "@b" 2%Z;
   Set_ 1 "@b" 3%Z; Set_ 1 "@a" 4%Z; List_ 1].

(** One object: @a = 1; @b = 2; remove @a; @a = 3 *)
Definition order_again : list event :=
  [NewClass true false false; New 0; Set_ 0 "@a" 1%Z; Set_ 0 "@b" 2%Z; Remove 0 "@a";
   Set_ 0 "@a" 3%Z; List_ 0].

(** A compiled call of an attr_reader on an instance of an always frozen class. *)
Definition reader_garbage : list event :=
  [NewClass false true false; New 0; Compile 0 false ["@x"]; Enter 0 0; Scratch 1234%Z; FrameLoad 0 0].

(** A method of an always frozen class that reads a variable runs and is then
    compiled. *)
Definition compile_always : list event :=
  [NewClass false true false; New 0; NewSite "@x"; LoadSite 0 0; Compile 0 true ["@x"]].

Lemma dup_loses_bad : got dup_loses = Ok nilv /\ want dup_loses = Ok 1%Z.
Proof. split; vm_compute; reflexivity. Qed.
Lemma dup_misnames_bad : got dup_misnames = Ok 1%Z /\ want dup_misnames = Ok nilv.
Proof. split; vm_compute; reflexivity. Qed.
Lemma dup_ghost_bad : got dup_ghost = Ok 1%Z /\ want dup_ghost = Ok nilv.
Proof. split; vm_compute; reflexivity. Qed.
Lemma clone_loses_bad : got clone_loses = Ok nilv /\ want clone_loses = Ok 1%Z.
Proof. split; vm_compute; reflexivity. Qed.
Lemma clone_misnames_bad : got clone_misnames = Ok 1%Z /\ want clone_misnames = Ok nilv.
Proof. split; vm_compute; reflexivity. Qed.
Lemma order_other_bad : got order_other = Names ["@a"; "@b"] /\ want order_other = Names ["@b"; "@a"].
Proof. split; vm_compute; reflexivity. Qed.
Lemma order_again_bad : got order_again = Names ["@a"; "@b"] /\ want order_again = Names ["@b"; "@a"].
Proof. split; vm_compute; reflexivity. Qed.
Lemma reader_garbage_bad : got reader_garbage = Ok 1234%Z /\ want reader_garbage = Ok nilv.
Proof. split; vm_compute; reflexivity. Qed.
Lemma compile_always_bad : got compile_always = Crash /\ want compile_always = Done.
Proof. split; vm_compute; reflexivity. Qed.
