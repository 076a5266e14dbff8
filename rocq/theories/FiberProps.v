(** The fibers of one thread against Ruby's rules, for every history of operations. *)
From Coq Require Import List Bool Arith ZArith.
From Verif Require Import FiberModel FiberSpec FiberRunProofs FiberBadProofs.
Import ListNotations.

(** C101: any history of fibers made, resumed, yielding, ending, raised into and killed (once, while waiting for no other
    fiber; a killed fiber only ends). *)
Theorem C101_resume : forall l, plain_all sstart l = true -> run start l = srun sstart l.
Proof. exact (fun l P => proj1 (resumes l P)). Qed.
Theorem C101_no_crash : forall l, plain_all sstart l = true -> forall p, In p (run start l) -> snd p <> Crash.
Proof. exact (fun l P => proj2 (resumes l P)). Qed.
Example C101_ex : plain_all sstart generator = true
  /\ run start generator = [(0, RVal (VFiber 1)); (0, RVal (VFiber 2)); (1, RVal (VInt 1)); (2, RVal (VInt 2)); (1, RVal (VInt 3)); (0, RVal (VInt 4));
       (2, RVal (VInt 5)); (2, RErr (EFib Resuming)); (1, RVal VNil); (2, RVal VNil); (1, RErr (EUser 7)); (2, RVal (VInt 6)); (2, RErr (EFib Terminated));
       (2, RErr EKill); (0, RVal VNil); (0, RVal (VBool false))].
Proof. exact generator_run. Qed.

(** C102: with Fiber#transfer. *)
Theorem C102_transfer_partial : forall l, fair_all sstart l = true -> run start l = srun sstart l.
Proof. exact history. Qed.
Theorem C102_no_crash_partial : forall l, fair_all sstart l = true -> forall p, In p (run start l) -> snd p <> Crash.
Proof. exact no_crash. Qed.
Example C102_ex : fair_all sstart scheduler = true
  /\ run start scheduler = [(0, RVal (VFiber 1)); (0, RVal (VFiber 2)); (0, RVal (VFiber 3)); (1, RVal (VInt 1)); (3, RVal (VInt 2)); (1, RVal (VInt 3)); (2, RVal (VInt 4));
       (2, RErr (EFib Current)); (1, RVal (VInt 5)); (2, RErr (EUser 7)); (0, RVal (VInt 6)); (1, RVal (VInt 7)); (0, RErr (EUser 8)); (0, RErr (EFib TransferYielding)); (3, RVal (VInt 9))].
Proof. exact scheduler_run. Qed.
Theorem C102_sticky_refuted : ending (run start sticky) = Some (0, RErr (EFib Transferred)) /\ ending (srun sstart sticky) = Some (1, RVal VNil).
Proof. exact sticky_bad. Qed.
Theorem C102_stale_refuted : ending (run start (stale true)) = Some (1, Crash) /\ ending (srun sstart (stale true)) = Some (0, RVal (VInt 5))
  /\ ending (run start (stale false)) = Some (1, RVal (VInt 5)) /\ ending (srun sstart (stale false)) = Some (0, RVal (VInt 5)).
Proof. exact stale_bad. Qed.
Theorem C102_raise_refuted : ending (run start above_raise) = Some (2, RErr (EUser 7)) /\ ending (srun sstart above_raise) = Some (1, RErr (EUser 7)).
Proof. exact above_raise_bad. Qed.
Theorem C102_root_refuted : ending (run start root_resumed) = Some (0, RVal VNil) /\ ending (srun sstart root_resumed) = Some (1, RErr (EFib Transferred)).
Proof. exact root_resumed_bad. Qed.
Theorem C102_kill_refuted : ending (run start killed_moved) = Some (0, RErr EKill) /\ ending (srun sstart killed_moved) = Some (0, RVal VNil).
Proof. exact killed_moved_bad. Qed.
Theorem C102_inside_refuted : ending (run start made_inside) = Some (1, RVal (VInt 5)) /\ ending (srun sstart made_inside) = Some (0, RVal (VInt 5)).
Proof. exact made_inside_bad. Qed.
Theorem C102_kill_dead_refuted : ending (run start killed_dead) = Some (0, RErr (EFib Terminated)) /\ ending (srun sstart killed_dead) = Some (0, RVal VNil).
Proof. exact killed_dead_bad. Qed.

Print Assumptions C101_resume.
Print Assumptions C101_no_crash.
Print Assumptions C102_transfer_partial.
Print Assumptions C102_no_crash_partial.
Print Assumptions C102_sticky_refuted.
Print Assumptions C102_stale_refuted.
Print Assumptions C102_raise_refuted.
Print Assumptions C102_root_refuted.
Print Assumptions C102_kill_refuted.
Print Assumptions C102_inside_refuted.
Print Assumptions C102_kill_dead_refuted.
