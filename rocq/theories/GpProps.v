(** C42: caching values in registers does not change results. *)
From Coq Require Import ZArith Bool List Arith.
From Verif Require Import IntModel FixAsmModel ValueModel GpModel GpSpec GpRefProofs GpMainProofs GpBadProofs.
Import ListNotations.
Open Scope Z_scope.

(** The reference allocator: whatever the operators mean, its loads, spills
    and register operations leave every live slot as the operations do one by
    one. *)
Theorem C42_reference (op : bkind -> word -> word -> word) (p : list rinst) (sp : nat) (m : mach) (f : frame) :
  r_wf sp p -> (forall s, (s < sp)%nat -> home m s = f s) ->
  forall s, (s < r_last sp p)%nat ->
  home (fold_left (act op) (allocate_run p) m) s = fold_left (r_exec op) p f s.
Proof. exact (allocate_run_ok op p sp m f). Qed.
Print Assumptions C42_reference.

(** Compiled code.  The hypotheses exclude dividing a slot by itself and
    -2^62 / -1, which are wrong (below, and C43). *)
Theorem C42_done_partial (sp : nat) (p : list (ins * nat)) (m m1 : mach) (f : frame) a cs :
  wf sp p -> (forall s, (s < sp)%nat -> is_i64 (f s)) -> (forall s, (s < sp)%nat -> home m s = f s) ->
  no_self_div p -> div_ok f p -> compile (entry sp) p = (a, cs) -> exec_block 0 cs m = Done m1 ->
  exists f1, run f p = Some f1 /\ forall s, (s < last_sp sp p)%nat -> final a m1 s = f1 s.
Proof. exact (fun W Hw Hm Hn Hd Ec => block_done sp p m f a cs W Hw Hm Hn Hd Ec m1). Qed.
Print Assumptions C42_done_partial.

(** It stays in compiled code whenever all results are small integers. *)
Theorem C42_stays_partial (sp : nat) (p : list (ins * nat)) (m : mach) (f f1 : frame) a cs :
  wf sp p -> (forall s, (s < sp)%nat -> is_i64 (f s)) -> (forall s, (s < sp)%nat -> home m s = f s) ->
  no_self_div p -> div_ok f p -> compile (entry sp) p = (a, cs) -> run f p = Some f1 ->
  exists m1, exec_block 0 cs m = Done m1.
Proof. exact (fun W Hw Hm Hn Hd Ec => block_progress sp p m f a cs W Hw Hm Hn Hd Ec f1). Qed.
Print Assumptions C42_stays_partial.

(** Leaving for the interpreter: at an instruction that must be left, after
    exactly the instructions before it.  Its operands are right; if an operand
    was not a small integer or the divisor zero, everything is right; after an
    overflow, everything but one slot. *)
Theorem C42_exit_partial (sp : nat) (p : list (ins * nat)) (m : mach) (f : frame) a cs n h :
  wf sp p -> (forall s, (s < sp)%nat -> is_i64 (f s)) -> (forall s, (s < sp)%nat -> home m s = f s) ->
  no_self_div p -> div_ok f p -> compile (entry sp) p = (a, cs) -> exec_block 0 cs m = Exit n h ->
  exists f1 i nsp, run f (firstn n p) = Some f1 /\ nth_error p n = Some (i, nsp) /\ step f1 i = None /\
    (forall s, (s < sp_at sp p n)%nat ->
       In s (reads i) \/ ~ overflows f1 i \/ taken (nth n cs []) <> Some s -> h s = f1 s).
Proof. exact (fun W Hw Hm Hn Hd Ec => block_exit sp p m f a cs W Hw Hm Hn Hd Ec n h). Qed.
Print Assumptions C42_exit_partial.

(** With at most three live slots, everything that is live afterwards and not
    the result is right. *)
Theorem C42_few_partial (sp : nat) (p : list (ins * nat)) (m : mach) (f : frame) a cs n h :
  wf sp p -> (forall s, (s < sp)%nat -> is_i64 (f s)) -> (forall s, (s < sp)%nat -> home m s = f s) ->
  no_self_div p -> div_ok f p -> compile (entry sp) p = (a, cs) -> exec_block 0 cs m = Exit n h ->
  (sp_at sp p n <= 3)%nat ->
  exists f1 i nsp, run f (firstn n p) = Some f1 /\ nth_error p n = Some (i, nsp) /\ step f1 i = None /\
    (forall s, (s < nsp)%nat -> writes i <> Some s -> (s < sp_at sp p n)%nat -> h s = f1 s).
Proof. exact (fun W Hw Hm Hn Hd Ec => block_few sp p m f a cs W Hw Hm Hn Hd Ec n h). Qed.
Print Assumptions C42_few_partial.

(** The driver never runs into its own [unreachable!]. *)
Theorem C42_no_crash (sp : nat) (p : list (ins * nat)) (m : mach) (f : frame) a cs :
  wf sp p -> (forall s, (s < sp)%nat -> is_i64 (f s)) -> (forall s, (s < sp)%nat -> home m s = f s) ->
  no_self_div p -> div_ok f p -> compile (entry sp) p = (a, cs) -> exec_block 0 cs m <> Crash.
Proof. exact (block_never sp p m f a cs). Qed.
Print Assumptions C42_no_crash.

(** y = x / x gives 0: both operands are one register, which is shifted twice. *)
Theorem C42_self_division_refuted :
  wf 2 self_div /\ (forall s, is_i64 (self_frame s)) /\ div_ok self_frame self_div /\
  exists a cs m, compile (entry 2) self_div = (a, cs) /\ exec_block 0 cs (mach_of self_frame) = Done m /\
    option_map (fun f => f 1%nat) (run self_frame self_div) = Some (tag 1) /\ final a m 1%nat = tag 0.
Proof. exact self_div_bad. Qed.
Print Assumptions C42_self_division_refuted.

(** Four variables; the subtraction overflows; the interpreter continues with
    a third variable, 41, replaced by a word that reads as a heap pointer: the
    list of registers to save was made before the result took its register. *)
Theorem C42_victim_refuted :
  wf 4 victim /\ (forall s, is_i64 (victim_frame s)) /\ no_self_div victim /\ div_ok victim_frame victim /\
  exists h f1, exit_of 4 victim victim_frame = Some (8%nat, h) /\
    run victim_frame (firstn 8 victim) = Some f1 /\
    nth_error victim 8 = Some (IBin Sub (Some 0%nat) 0%nat 1%nat, 4%nat) /\
    f1 2%nat = tag 41 /\ unpack (h 2%nat mod 2 ^ 64) = RRef (h 2%nat mod 2 ^ 64).
Proof. exact victim_bad. Qed.
Print Assumptions C42_victim_refuted.

(** With three variables the old value of the result variable is lost in the
    same way; it too becomes a pointer to nowhere in the interpreter's frame. *)
Theorem C42_old_result_refuted :
  wf 3 wild /\ (forall s, is_i64 (wild_frame s)) /\ no_self_div wild /\ div_ok wild_frame wild /\
  exists h f1, exit_of 3 wild wild_frame = Some (2%nat, h) /\
    run wild_frame (firstn 2 wild) = Some f1 /\
    nth_error wild 2 = Some (IBin Mul (Some 2%nat) 0%nat 1%nat, 3%nat) /\
    f1 2%nat = tag 41 /\ unpack (h 2%nat mod 2 ^ 64) = RRef (h 2%nat mod 2 ^ 64).
Proof. exact wild_bad. Qed.
Print Assumptions C42_old_result_refuted.

(** The hypotheses hold of a run with loads, evictions, a copy, a comparison
    and a constant. *)
Example C42_example :
  let f := frame_of [10; 20; 30; 40; 255] in
  let '(a, cs) := compile (entry 5) mixed in
  match exec_block 0 cs (mach_of f) with
  | Done m => map (final a m) (seq 0 6) = [tag 92; FALSE_VALUE; tag 10; tag 86; tag 255; tag 30] /\
      option_map (fun f1 => map f1 (seq 0 6)) (run f mixed) = Some (map (final a m) (seq 0 6)) /\
      existsb (fun c => existsb (fun i => match i with Store _ _ => true | _ => false end) c) cs = true
  | _ => False
  end.
Proof. vm_compute. auto. Qed.
Example C42_example_wf : wf 5 mixed.
Proof. exact mixed_wf. Qed.
Example C42_reference_example :
  let p := [mkr Add 5 0 1 6; mkr Mul 6 5 2 7; mkr Sub 7 6 3 8; mkr BAnd 8 7 4 9; mkr Add 0 8 5 6]%nat in
  let op k a b := match k with Add => a + b | Sub => a - b | Mul => a * b | _ => Z.land a b end in
  let f s := nth s [1; 2; 3; 4; 7] 0 in
  map (home (fold_left (act op) (allocate_run p) (mkm (fun _ => 0) f))) (seq 0 6) =
  map (fold_left (r_exec op) p f) (seq 0 6) /\
  existsb (fun i => match i with ASpill _ 6%nat => true | _ => false end) (allocate_run p) = true.
Proof. vm_compute. auto. Qed.
(** An overflow whose exit restores everything, and one at a failed guard. *)
Example C42_exit_example :
  let f := frame_of [2 ^ 61; 2 ^ 61; 7] in
  match exec_block 0 (snd (compile (entry 3) [(IBin Add (Some 2) 0 1, 3)]%nat)) (mach_of f) with
  | Exit 0 h => map h (seq 0 3) = map f (seq 0 3)
  | _ => False
  end.
Proof. vm_compute. reflexivity. Qed.
