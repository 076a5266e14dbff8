(** Instance variables: the theorems. *)
From Coq Require Import String ZArith Bool Arith.
From Coq Require Import List Permutation.
From Verif Require Import IvarModel IvarSpec IvarProofs IvarBadProofs.
Import ListNotations.
Local Open Scope string_scope.

(** ** C79 Reads give back what was written *)

(** For every history whose copies are of objects whose set slots have the same
    names in their class and their real class, in which no compiled attr_reader
    reads an instance of an always frozen class and no method of such a class with a
    variable in it is compiled: reflective, interpreted and compiled accesses in any
    order, through caches filled for other classes, on objects that get a singleton
    class half way, give what one list of variables per object gives. *)
Theorem C79_reads_back_partial : forall es, always_ fine start es ->
  Forall2 same (run start es) (answers [] (actions start es)).
Proof. exact reads_back. Qed.
Print Assumptions C79_reads_back_partial.

(** Eight variables, so that two are spilled; a method compiled for the class runs
    with the object while it gets a singleton class; one site sees both classes. *)
Definition busy : list event :=
  [NewClass true false false; New 0; NewSite "@g"; NewSite "@h";
   Set_ 0 "@a" 1%Z; Set_ 0 "@b" 2%Z; Set_ 0 "@c" 3%Z; Set_ 0 "@d" 4%Z; Set_ 0 "@e" 5%Z; Set_ 0 "@f" 6%Z;
   StoreSite 0 0 7%Z; Compile 0 true ["@a"; "@g"]; Compile 0 false ["@g"]; New 0; Enter 0 1;
   FrameLoad 0 1; FrameStore 0 1 17%Z; Singleton 1; StoreSite 1 1 18%Z; Enter 1 0; FrameLoad 1 0;
   FrameLoad 0 1; FrameStore 0 0 11%Z; LoadSite 0 1; LoadSite 0 0; Get 1 "@h"; Get 0 "@h"; List_ 1;
   Remove 1 "@g"; Defined 1 "@g"; Freeze 1; FrameStore 0 0 12%Z; Clone 0 (Some true); Get 2 "@g";
   Set_ 2 "@g" 0%Z; LoadSite 0 99; StoreSite 0 99 1%Z].

Example C79_reads_back_ex :
  run start busy =
  [Done; Made 0; Done; Done; Ok 1; Ok 2; Ok 3; Ok 4; Ok 5; Ok 6; Ok 7; Done; Done; Made 1; Done;
   Ok nilv; Ok 17; Done; Ok 18; Done; Ok 7; Ok 17; Ok 11; Ok 17; Ok 7; Ok 18; Ok nilv;
   Names ["@a"; "@g"; "@h"]; Ok 17; Yes false; Done; FrozenError; Made 2; Ok 7; FrozenError;
   Ok nilv; FrozenError]%Z.
Proof. vm_compute. reflexivity. Qed.

(** The same when only objects without a singleton class are copied. *)
Theorem C79_plain_partial : forall es,
  always_ (fun w e => compilable w e /\ not_always w e /\ plain_copies w e) start es ->
  Forall2 same (run start es) (answers [] (actions start es)).
Proof. exact plain_reads_back. Qed.
Print Assumptions C79_plain_partial.

(** Compiled attr_reader on an instance of an always frozen class. *)
Theorem C79_reader_refuted :
  got reader_garbage = Ok 1234%Z /\ want reader_garbage = Ok nilv.
Proof. exact reader_garbage_bad. Qed.
Print Assumptions C79_reader_refuted.

(** The order of instance_variables. *)
Theorem C79_order_refuted :
  (got order_other = Names ["@a"; "@b"] /\ want order_other = Names ["@b"; "@a"]) /\
  (got order_again = Names ["@a"; "@b"] /\ want order_again = Names ["@b"; "@a"]).
Proof. exact (conj order_other_bad order_again_bad). Qed.
Print Assumptions C79_order_refuted.

(** ** C80 No access leaves the object *)

(** Whatever is copied, whatever gets a singleton class while compiled code that does
    not look again is running. *)
Theorem C80_inside_partial : forall es, always_ compilable start es -> ~ In Crash (run start es).
Proof. exact never_outside. Qed.
Print Assumptions C80_inside_partial.

(** The unchecked accesses of compiled code do touch memory outside when the table is
    not made long enough on entry. *)
Example C80_inside_ex :
  load_heap {| o_class := 0; o_object := true; o_inline := repeat None 6;
               o_table := Some {| cap := 2; cells := [Some 1%Z] |}; o_frozen := false |} 1 false = Crash /\
  load_heap (prepare {| o_class := 0; o_object := true; o_inline := repeat None 6;
               o_table := Some {| cap := 2; cells := [Some 1%Z] |}; o_frozen := false |} (Some 2)) 1 false = Ok nilv.
Proof. split; vm_compute; reflexivity. Qed.

Theorem C80_compile_refuted : got compile_always = Crash /\ want compile_always = Done.
Proof. exact compile_always_bad. Qed.
Print Assumptions C80_compile_refuted.

(** ** C81 Copies have the variables of the original *)

(** After any history: the copy reads as the original does, and nothing else
    changes. *)
Theorem C81_copies_partial : forall es o e, let w := after start es in let k := length (heap w) in
  always_ compilable start es -> o < k -> layout_ok w o ->
  (e = Dup o \/ exists fz, e = Clone o fz) ->
  snd (step w e) = Made k /\
  (forall n, get_ivar (fst (step w e)) k n = get_ivar w o n) /\
  (forall j n, j < k -> get_ivar (fst (step w e)) j n = get_ivar w j n).
Proof. exact copies_agree. Qed.
Print Assumptions C81_copies_partial.

Example C81_copies_ex :
  run start [NewClass true false false; New 0; Set_ 0 "@a" 1%Z; Singleton 0; Clone 0 None; Get 1 "@a";
             Set_ 1 "@a" 2%Z; Get 0 "@a"; Dup 1; Get 2 "@a"] =
  [Done; Made 0; Ok 1; Done; Made 1; Ok 1; Ok 2; Ok 1; Made 2; Ok 2]%Z.
Proof. vm_compute. reflexivity. Qed.

Theorem C81_dup_refuted :
  (got dup_loses = Ok nilv /\ want dup_loses = Ok 1%Z) /\
  (got dup_misnames = Ok 1%Z /\ want dup_misnames = Ok nilv) /\
  (got dup_ghost = Ok 1%Z /\ want dup_ghost = Ok nilv).
Proof. exact (conj dup_loses_bad (conj dup_misnames_bad dup_ghost_bad)). Qed.
Print Assumptions C81_dup_refuted.

Theorem C81_clone_refuted :
  (got clone_loses = Ok nilv /\ want clone_loses = Ok 1%Z) /\
  (got clone_misnames = Ok 1%Z /\ want clone_misnames = Ok nilv).
Proof. exact (conj clone_loses_bad clone_misnames_bad). Qed.
Print Assumptions C81_clone_refuted.
