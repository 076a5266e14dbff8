(** Histories where the fibers differ from Ruby's. *)
From Coq Require Import List Bool Arith ZArith.
From Verif Require Import FiberModel FiberSpec.
Import ListNotations.

(** The last entry. *)
Definition ending {A} (l : list A) : option A := match rev l with x :: _ => Some x | [] => None end.
Definition sticky : list op := [ONew false; ONew false; OResume 1 VNil; OTransfer 2 VNil; OTransfer 1 VNil; OYield VNil; OResume 1 VNil].
Lemma sticky_bad : ending (run start sticky) = Some (0, RErr (EFib Transferred)) /\ ending (srun sstart sticky) = Some (1, RVal VNil).
Proof. split; vm_compute; reflexivity. Qed.
Definition stale (ends : bool) : list op :=
  [ONew false; ONew false; ONew false; OResume 1 VNil; OTransfer 2 VNil; OResume 3 VNil; OTransfer 1 VNil;
   if ends then OReturn VNil else OYield VNil; OTransfer 3 VNil; OYield VNil; OReturn (VInt 5)].
Lemma stale_bad : ending (run start (stale true)) = Some (1, Crash) /\ ending (srun sstart (stale true)) = Some (0, RVal (VInt 5))
  /\ ending (run start (stale false)) = Some (1, RVal (VInt 5)) /\ ending (srun sstart (stale false)) = Some (0, RVal (VInt 5)).
Proof. repeat split; vm_compute; reflexivity. Qed.
Definition above_raise : list op := [ONew false; ONew false; OResume 1 VNil; OTransfer 2 VNil; ORaise 0 (EUser 7)].
Lemma above_raise_bad : ending (run start above_raise) = Some (2, RErr (EUser 7)) /\ ending (srun sstart above_raise) = Some (1, RErr (EUser 7)).
Proof. split; vm_compute; reflexivity. Qed.
Definition root_resumed : list op := [ONew false; OTransfer 1 VNil; OResume 0 VNil].
Lemma root_resumed_bad : ending (run start root_resumed) = Some (0, RVal VNil) /\ ending (srun sstart root_resumed) = Some (1, RErr (EFib Transferred)).
Proof. split; vm_compute; reflexivity. Qed.
Definition killed_moved : list op := [ONew false; ONew false; OTransfer 1 VNil; OTransfer 2 VNil; OKill 2; ODie EKill].
Lemma killed_moved_bad : ending (run start killed_moved) = Some (0, RErr EKill) /\ ending (srun sstart killed_moved) = Some (0, RVal VNil).
Proof. split; vm_compute; reflexivity. Qed.
Definition killed_dead : list op := [ONew false; OResume 1 VNil; OReturn VNil; OKill 1].
Lemma killed_dead_bad : ending (run start killed_dead) = Some (0, RErr (EFib Terminated)) /\ ending (srun sstart killed_dead) = Some (0, RVal VNil).
Proof. split; vm_compute; reflexivity. Qed.
Definition made_inside : list op := [ONew true; ONew false; OResume 1 VNil; ONew false; OYield VNil; OTransfer 3 VNil; OTransfer 2 VNil; OReturn (VInt 5)].
Lemma made_inside_bad : ending (run start made_inside) = Some (1, RVal (VInt 5)) /\ ending (srun sstart made_inside) = Some (0, RVal (VInt 5)).
Proof. split; vm_compute; reflexivity. Qed.
(** A generator, a raise into it, its end, a kill. *)
Definition generator : list op :=
  [ONew false; ONew false; OResume 1 (VInt 1); OResume 2 (VInt 2); OYield (VInt 3); OYield (VInt 4); OResume 2 (VInt 5); OResume 0 VNil; OResume 1 VNil;
   OYield VNil; ORaise 1 (EUser 7); OReturn (VInt 6); OResume 1 VNil; OKill 2; ODie EKill; OAlive 2].
Lemma generator_run : plain_all sstart generator = true
  /\ run start generator = [(0, RVal (VFiber 1)); (0, RVal (VFiber 2)); (1, RVal (VInt 1)); (2, RVal (VInt 2)); (1, RVal (VInt 3)); (0, RVal (VInt 4));
       (2, RVal (VInt 5)); (2, RErr (EFib Resuming)); (1, RVal VNil); (2, RVal VNil); (1, RErr (EUser 7)); (2, RVal (VInt 6)); (2, RErr (EFib Terminated));
       (2, RErr EKill); (0, RVal VNil); (0, RVal (VBool false))].
Proof. split; vm_compute; reflexivity. Qed.
(** Two fibers that give control to each other, and one resumed below. *)
Definition scheduler : list op :=
  [ONew false; ONew false; ONew false; OTransfer 1 (VInt 1); OResume 3 (VInt 2); OYield (VInt 3); OTransfer 2 (VInt 4); OResume 2 VNil; OTransfer 1 (VInt 5); ORaise 2 (EUser 7);
   OReturn (VInt 6); OTransfer 1 (VInt 7); ODie (EUser 8); OTransfer 3 VNil; OResume 3 (VInt 9)].
Lemma scheduler_run : fair_all sstart scheduler = true
  /\ run start scheduler = [(0, RVal (VFiber 1)); (0, RVal (VFiber 2)); (0, RVal (VFiber 3)); (1, RVal (VInt 1)); (3, RVal (VInt 2)); (1, RVal (VInt 3)); (2, RVal (VInt 4));
       (2, RErr (EFib Current)); (1, RVal (VInt 5)); (2, RErr (EUser 7)); (0, RVal (VInt 6)); (1, RVal (VInt 7)); (0, RErr (EUser 8)); (0, RErr (EFib TransferYielding)); (3, RVal (VInt 9))].
Proof. split; vm_compute; reflexivity. Qed.
