(** Witnesses: what monoruby does (first result) and what Ruby does (second
    result) where the flag of EnsSpec.v is lowered. *)
From Coq Require Import Arith Bool List.
From Verif Require Import EnsModel EnsSpec.
Import ListNotations.

(** The methods of a program, by number. *)
Definition meths (ms : list (list stmt)) (a : list event -> ans) : prog :=
  Prog (fun f => nth f ms []) a.

(** Actions from 100 on raise; every other question is answered yes. *)
Definition raising (tr : list event) : ans :=
  match tr with
  | (k, _) :: _ => if 100 <=? k then Exc k else Yes
  | [] => No
  end.

(** Action 100 raises the first time. *)
Definition once (tr : list event) : ans :=
  match tr with
  | (100, _) :: r =>
      if existsb (fun e => fst e =? 100) r then Yes else Exc 100
  | _ => Yes
  end.

(** Every question is answered yes twice. *)
Definition twice (tr : list event) : ans :=
  match tr with
  | (k, _) :: r =>
      if count_occ Nat.eq_dec (map fst r) k <? 2 then Yes else No
  | [] => Yes
  end.

(** def m; begin; return 1; rescue; act2; ensure; raise; end; end *)
Definition p_return := meths
  [[Begin [Return 1] [(1, [Act 2])] None (Some [Act 100])]] raising.

Lemma bad_return :
  trun_prog p_return 40 0
    = Some ([(100, 0); (2, 0); (1, 100); (100, 0)], RRaise 100)
  /\ srun_prog p_return 40 0 = Some ([(100, 0)], RRaise 100, false).
Proof. vm_compute. auto. Qed.

(** begin; rescue; act2; else; raise; ensure; act3; end *)
Definition p_else := meths
  [[Begin [] [(1, [Act 2])] (Some [Act 100]) (Some [Act 3])]] raising.

Lemma bad_else :
  trun_prog p_else 40 0 = Some ([(100, 0)], RRaise 100)
  /\ srun_prog p_else 40 0 = Some ([(3, 0); (100, 0)], RRaise 100, false).
Proof. vm_compute. auto. Qed.

(** begin; act100; rescue; begin; retry; ensure; act2; end; end *)
Definition p_retry := meths
  [[Begin [Act 100] [(1, [Begin [Retry] [] None (Some [Act 2])])] None None]]
  once.

Lemma bad_retry :
  trun_prog p_retry 40 0 = Some ([(100, 0); (1, 100); (100, 0)], RVal 0)
  /\ srun_prog p_retry 40 0
    = Some ([(100, 0); (2, 0); (1, 100); (100, 0)], RVal 0, false).
Proof. vm_compute. auto. Qed.

(** while act1; begin; while act2; return 1; end; act3; ensure; break; end;
    end; act4 *)
Definition p_break := meths
  [[While false 1 [Begin [While false 2 [Return 1]; Act 3] []
                         None (Some [Break 0])]; Act 4]] twice.

Lemma bad_break :
  trun_prog p_break 40 0
    = Some ([(4, 0); (3, 0); (2, 0); (1, 0)], RVal 0)
  /\ srun_prog p_break 40 0 = Some ([(4, 0); (2, 0); (1, 0)], RVal 0, false).
Proof. vm_compute. auto. Qed.

(** catch(7) { begin; throw 7; ensure; begin; act1; ensure; act2; end; act3;
    end } *)
Definition p_nested := meths
  [[Catch 7 [Begin [Throw 7] [] None
       (Some [Begin [Act 1] [] None (Some [Act 2]); Act 3])]]] raising.

Lemma bad_nested :
  trun_prog p_nested 40 0 = Some ([(2, 0); (1, 0)], RVal 0)
  /\ srun_prog p_nested 40 0
    = Some ([(3, 0); (2, 0); (1, 0)], RVal 0, false).
Proof. vm_compute. auto. Qed.

(** catch(7) { begin; begin; throw 7; rescue; end; ensure; act3; end } *)
Definition p_hidden := meths
  [[Catch 7 [Begin [Begin [Throw 7] [(1, [])] None None] [] None
                   (Some [Act 3])]]] raising.

Lemma bad_hidden :
  trun_prog p_hidden 40 0 = Some ([], RVal 0)
  /\ srun_prog p_hidden 40 0 = Some ([(3, 0)], RVal 0, false).
Proof. vm_compute. auto. Qed.

(** x = 1; begin; return x; ensure; x = 2; end *)
Definition p_local := meths
  [[Set_ 1; Begin [ReturnX] [] None (Some [Set_ 2])]] raising.

Lemma bad_local :
  trun_prog p_local 40 0 = Some ([], RVal 2)
  /\ srun_prog p_local 40 0 = Some ([], RVal 1, false).
Proof. vm_compute. auto. Qed.

(** catch(7) { begin; throw 7; ensure; m1 { break }; end; act9 };
    def m1; yield; end *)
Definition p_dropped := meths
  [[Catch 7 [Begin [Throw 7] [] None (Some [CallB 1 [Break 0]]); Act 9]];
   [Yield]] raising.

Lemma bad_dropped :
  trun_prog p_dropped 40 0 = Some ([(9, 0)], RVal 0)
  /\ srun_prog p_dropped 40 0 = Some ([], RVal 0, false).
Proof. vm_compute. auto. Qed.

(** def m0; m1 { return 1 }; m2; return 9; end
    def m1; begin; yield; ensure; return 5; end; end
    def m2; begin; ensure; act1; end; end *)
Definition p_stale := meths
  [[CallB 1 [Return 1]; Call 2; Return 9];
   [Begin [Yield] [] None (Some [Return 5])];
   [Begin [] [] None (Some [Act 1])]] raising.

Lemma bad_stale :
  trun_prog p_stale 40 0 = Some ([(1, 0)], RVal 1)
  /\ srun_prog p_stale 40 0 = Some ([(1, 0)], RVal 9, false).
Proof. vm_compute. auto. Qed.

(** def m0; catch(7) { m1; act4 }; end
    def m1; begin; begin; throw 7; ensure; raise; end; rescue; end;
    begin; ensure; act2; end; act3; end *)
Definition p_again := meths
  [[Catch 7 [Call 1; Act 4]];
   [Begin [Begin [Throw 7] [] None (Some [Act 100])] [(1, [])] None None;
    Begin [] [] None (Some [Act 2]); Act 3]] raising.

Lemma bad_again :
  trun_prog p_again 40 0 = Some ([(2, 0); (1, 100); (100, 0)], RVal 0)
  /\ srun_prog p_again 40 0
    = Some ([(4, 0); (3, 0); (2, 0); (1, 100); (100, 0)], RVal 0, false).
Proof. vm_compute. auto. Qed.

(** All of these programs load. *)
Lemma meths_load : forall ms a,
  forallb (fun m => match gens m (top false) with
                    | Some _ => true | None => false end) ms = true ->
  loads (meths ms a).
Proof.
  intros ms a H f. cbn [meths p_meth].
  destruct (Nat.lt_ge_cases f (length ms)) as [L|L].
  - rewrite forallb_forall in H.
    specialize (H (nth f ms []) (nth_In _ _ L)).
    destruct (gens (nth f ms []) (top false)); congruence.
  - rewrite nth_overflow by exact L. cbn. congruence.
Qed.

Lemma bad_load :
  loads p_return /\ loads p_else /\ loads p_retry /\ loads p_break
  /\ loads p_nested /\ loads p_hidden /\ loads p_local /\ loads p_dropped
  /\ loads p_stale /\ loads p_again.
Proof.
  repeat match goal with |- _ /\ _ => split end;
    apply meths_load; reflexivity.
Qed.

(** A program with most of it, that is right: a throw through two ensure
    bodies, a break out of a loop through one, a retry, and a return out of
    a block. *)
Definition p_good := meths
  [[Catch 7 [Begin [Begin [Throw 7] [] None (Some [Act 1])] [] None
                   (Some [Act 2])];
    While false 3 [Begin [Begin [Break 0] [] None (Some [Act 4])] [(5, [])]
                         None (Some [Act 6])];
    Begin [Act 100] [(7, [Retry])] (Some [Act 8]) None;
    CallB 1 [Begin [Act 9; Return 11] [] None (Some [Act 10])]; Act 12];
   [Begin [Yield; Act 13] [(14, [])] None (Some [Act 15])]] once.

Lemma good_run :
  trun_prog p_good 40 0
    = Some ([(15, 0); (10, 0); (9, 0); (8, 0); (100, 0); (7, 100); (100, 0);
             (6, 0); (4, 0); (3, 0); (2, 0); (1, 0)], RVal 11)
  /\ srun_prog p_good 40 0
    = Some ([(15, 0); (10, 0); (9, 0); (8, 0); (100, 0); (7, 100); (100, 0);
             (6, 0); (4, 0); (3, 0); (2, 0); (1, 0)], RVal 11, true)
  /\ loads p_good.
Proof.
  split; [vm_compute; reflexivity|split; [vm_compute; reflexivity|]].
  apply meths_load; reflexivity.
Qed.
