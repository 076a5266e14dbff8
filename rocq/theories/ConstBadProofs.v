(** Histories and programs that show another constant than the one there is. *)
From Coq Require Import List Bool Arith.
From Verif Require Import ConstModel ConstSpec ConstDefProofs.
Import ListNotations.

Definition FOO : name := 10.
Definition BAR : name := 11.
Definition MOD : name := 12.
Definition M : cls := 2.
Definition KERNEL : cls := 3.
Definition entry (v : cval) := Some (mkE (Loaded v) false).
(** [Foo = class 5] and [module Mod] at the top. *)
Definition env0 : env :=
  mkEnv (fun c n => if c =? OBJECT then if n =? FOO then entry (VMod 5) else if n =? MOD then entry (VMod M) else None else None)
        (fun c => if c =? BASIC then [BASIC] else if c =? OBJECT then [OBJECT; KERNEL; BASIC] else [c; OBJECT; KERNEL; BASIC]).
Definition in_mod : lex := mkLex None None [M] (fun _ c => c).
Definition lex0 (_ : nat) : lex := in_mod.
Definition s0 : st := mkSt env0 lex0 1 (fun _ => 0) 0 (fun _ => None) (fun _ => None).
(** In the body of a method of [Mod]: [Foo], [Mod::Foo], the test of [Bar ||= 1], [Bar]. *)
Definition sites (i : nat) : site :=
  match i with
  | 0 => mkS FOO [] false false 0 false false
  | 1 => mkS FOO [MOD] false false 0 false false
  | 2 => mkS BAR [] false false 0 false true
  | _ => mkS BAR [] false false 0 false false
  end.
Definition rd (i : nat) : ev := ERead i None 7 no_hook.
Definition got (l : list ev) : list (option res) := snd (run sites s0 l).
Definition want (l : list ev) : list (option res) := snd (wrun sites (env0, lex0) l).
Definition val (v : cval) : option res := Some (RVal v false).

(** Foo; module Mod; class Foo; end; end; Foo *)
Definition keyword_hist : list ev := [rd 0; EKeyword M FOO 6; rd 0].
Lemma keyword_bad : got keyword_hist = [val (VMod 5); None; val (VMod 5)] /\ want keyword_hist = [val (VMod 5); None; val (VMod 6)].
Proof. vm_compute. split; reflexivity. Qed.
(** The same with an autoload of [Mod::Foo]. *)
Definition autoload_hist : list ev := [rd 0; EAutoload M FOO; rd 0].
Lemma autoload_bad : got autoload_hist = [val (VMod 5); None; val (VMod 5)] /\ want autoload_hist = [val (VMod 5); None; Some RFire].
Proof. vm_compute. split; reflexivity. Qed.
(** Mod::Foo; Mod.private_constant :Foo; Mod::Foo *)
Definition private_hist : list ev := [EAssign M FOO (VInt 1); rd 1; EPriv M FOO true; rd 1].
Lemma private_bad : got private_hist = [None; val (VInt 1); None; val (VInt 1)]
  /\ want private_hist = [None; val (VInt 1); None; Some (RErr (ErrPriv M FOO))].
Proof. vm_compute. split; reflexivity. Qed.
(** Bar twice, with a const_missing that returns 1 and then 2. *)
Definition hook_of (n : nat) : hook := fun _ _ => Some (VInt n).
Definition hook_hist : list ev := [ERead 3 None 7 (hook_of 1); ERead 3 None 7 (hook_of 2)].
Lemma hook_bad : map (option_map vis) (got hook_hist) = [val (VInt 1); val (VInt 1)]
  /\ map (option_map vis) (want hook_hist) = [val (VInt 1); val (VInt 2)].
Proof. vm_compute. split; reflexivity. Qed.
(** The test of [Bar ||= raise], then class Bar; end, then the test again. *)
Definition check_hist : list ev := [rd 2; EKeyword OBJECT BAR 6; rd 2].
Lemma check_bad : got check_hist = [val VNil; None; val VNil] /\ want check_hist = [val VNil; None; val (VMod 6)].
Proof. vm_compute. split; reflexivity. Qed.
(** A class body that is entered again for another class (class k::Nest in a block, k first
    [Mod], then class 8): its methods read their constants in the second class; those that are
    cached stay those of the first. *)
Definition stamp_hist : list ev :=
  [EAssign M BAR (VInt 1); EAssign 8 BAR (VInt 2); rd 3; EStamp 0 (mkLex None None [8] (fun _ c => c)); rd 3].
Lemma stamp_bad : got stamp_hist = [None; None; val (VInt 1); None; val (VInt 1)]
  /\ want stamp_hist = [None; None; val (VInt 1); None; val (VInt 2)].
Proof. vm_compute. split; reflexivity. Qed.
(** A unit that folds [Foo]; some other constant is assigned; [Mod::Foo] is defined by keyword.
    The interpreter sees it, and the unit is declared valid again with the old value. *)
Definition salvage_hist : list ev :=
  [rd 0; ECompile 0 7 false [0]; EAssign OBJECT BAR (VInt 1); EKeyword M FOO 6; ERun 0 0 None 7 no_hook; rd 0; ERun 0 0 None 7 no_hook].
Lemma salvage_bad : got salvage_hist = [val (VMod 5); None; None; None; val (VMod 6); val (VMod 6); val (VMod 5)]
  /\ want salvage_hist = [val (VMod 5); None; None; None; val (VMod 6); val (VMod 6); val (VMod 6)].
Proof. vm_compute. split; reflexivity. Qed.

(** [a = Foo; interpolate an object whose to_s assigns Foo; b = Foo], compiled. *)
Definition s1 : st := fst (run sites s0 [rd 0; ECompile 0 7 false [0]]).
Definition interp : list inst := [IFold 0 None; IHelper [EAssign OBJECT FOO (VInt 2)]; IFold 0 None].
Definition by_call : list inst := [IFold 0 None; ICall [EAssign OBJECT FOO (VInt 2)]; IFold 0 None].
Lemma helper_bad : exists un, units s1 0 = Some un
  /\ run_jit sites s1 0 un false no_hook interp = [RVal (VMod 5) false; RVal (VMod 5) false]
  /\ run_jit sites s1 0 un false no_hook by_call = [RVal (VMod 5) false; RVal (VInt 2) false]
  /\ run_vm sites s1 7 no_hook interp = [RVal (VMod 5) false; RVal (VInt 2) false].
Proof. eexists. split; [reflexivity|]. vm_compute. repeat split. Qed.

(* ---- defined? ---- *)
Definition q3 : site := mkS BAR [MOD; FOO] false false 0 false false.
(** [Mod::Foo] is private and has a constant [Bar]; defined?(Mod::Foo::Bar). *)
Definition env_priv : env := put (put_priv (put env0 M FOO (VMod 5)) M FOO true) 5 BAR (VInt 1).
Lemma defined_private : probe env_priv in_mod q3 None None = true
  /\ resolve env_priv no_hook in_mod q3 None None = RErr (ErrPriv M FOO).
Proof. vm_compute. split; reflexivity. Qed.
(** [Foo] is a class at the top, not in [Mod]. *)
Definition env_top : env := put env0 5 BAR (VInt 1).
Lemma defined_toplevel : probe env_top in_mod q3 None None = true
  /\ resolve env_top no_hook in_mod q3 None None = RErr (ErrName M FOO).
Proof. vm_compute. split; reflexivity. Qed.
(** [Kernel::Foo] is private, [Object] has a [Foo]: Mod::Foo gives the private one. *)
Definition env_kernel : env := put_priv (put env0 KERNEL FOO (VInt 1)) KERNEL FOO true.
Lemma read_private : probe env_kernel in_mod (sites 1) None None = false
  /\ resolve env_kernel no_hook in_mod (sites 1) None None = RVal (VInt 1) false
  /\ resolve env_kernel no_hook in_mod (sites 1) None None <> resolve (set_tbl env_kernel OBJECT FOO None) no_hook in_mod (sites 1) None None.
Proof. vm_compute. repeat split. discriminate. Qed.
