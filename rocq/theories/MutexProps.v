(** C23, C24, C51, C52: Mutex. *)

From Coq Require Import List Bool Arith.
From Verif Require Import MutexModel MutexSpec MutexProofs.
Import ListNotations.

(** ** C23 *)

(** At most one live thread holds the lock, whatever is killed, raised, woken,
    forked or ended at any switch point; and the holder is the live owner. *)
Theorem C23_exclusion s : history false anything s ->
  (forall t u, holder s t -> holder s u -> t = u) /\
  (forall t, holder s t <-> owner s = Some t /\ alive (thr s t) = true).
Proof. exact (exclusion s). Qed.
Print Assumptions C23_exclusion.
(** It rests on [alive?] having no switch point: with a Thread subclass that
    defines [alive?] in Ruby two threads hold the lock. *)
Theorem C23_polling_alive_refuted : exists s, history true anything s /\ holder s 1 /\ holder s 2.
Proof. exact two_holders_bad. Qed.
Print Assumptions C23_polling_alive_refuted.

(** 1 dies with the lock, 2 and 3 contend, 2 takes it, 3 is parked. *)
Example C23_example :
  match steps false init [ Lock 1; Run 1; Lock 2; Lock 3; Die 1; Run 2; Run 2; Run 3; Run 3 ] with
  | Some s => (owner s, waiters s, map (fun t => holds (thr s t)) [1; 2; 3], map (fun t => parked (thr s t)) [1; 2; 3])
              = (Some 2, [3], [false; true; false], [false; false; true])
  | None => False
  end.
Proof. vm_compute; reflexivity. Qed.

(** ** C24 *)

(** When no thread is unwound in [lock] or in the loop of [unlock], none ends
    holding the lock, no report is written inside [lock] and there is no [fork]. *)
Theorem C24_waiter_ready_partial s : history false orderly s -> taker_ready s.
Proof. exact (taker s). Qed.
Print Assumptions C24_waiter_ready_partial.

(** [unlock] wakes the first live waiter (whatever dead ones come before it). *)
Theorem C24_unlock_wakes s t k : owner s = Some t -> alive (thr s t) = true -> at_ (thr s t) = UEntry k ->
  history false anything s ->
  exists n s', steps false s (repeat (Run t) n) = Some s' /\ at_ (thr s' t) = after k /\
    match first_alive s with Some w => woken s s' w | None => waiters s' = [] end.
Proof. exact (unlock_wakes_first s t k). Qed.
Print Assumptions C24_unlock_wakes.
(** A live thread in @waiters is blocked in [lock], so no wake-up goes elsewhere. *)
Theorem C24_registered s t : history false anything s -> alive (thr s t) = true -> In t (waiters s) ->
  enrolled (at_ (thr s t)) = true.
Proof. exact (registered_only false s t). Qed.
Print Assumptions C24_registered.

(** In general it is false: the woken waiter is killed before it runs; ... *)
Theorem C24_killed_waiter_refuted :
  exists s, history false anything s /\ free s /\ stuck_waiter s 3 /\ forall u, ~ runnable_waiter s u.
Proof. exact (bad_take_ok false killed_waiter 3 [1; 2; 3] eq_refl killed_waiter_bad). Qed.
Print Assumptions C24_killed_waiter_refuted.
(** ... the owner ends without unlocking while a waiter is parked; ... *)
Theorem C24_owner_dies_refuted :
  exists s, history false anything s /\ free s /\ stuck_waiter s 2 /\ forall u, ~ runnable_waiter s u.
Proof. exact (bad_take_ok false owner_dies 2 [1; 2] eq_refl owner_dies_bad). Qed.
Print Assumptions C24_owner_dies_refuted.
(** ... the waiter is writing a report of another thread's death when the lock is released. *)
Theorem C24_report_race_refuted :
  exists s, history false anything s /\ free s /\ stuck_waiter s 2 /\ forall u, ~ runnable_waiter s u.
Proof. exact (bad_take_ok false report_race 2 [1; 2] eq_refl report_race_bad). Qed.
Print Assumptions C24_report_race_refuted.

(** 3 is parked, 2 registered but not yet parked; the release arms 2's permit. *)
Example C24_example :
  match steps false init [ Lock 1; Run 1; Lock 2; Run 2; Lock 3; Run 3; Run 3; Unlock 1; Run 1 ] with
  | Some s => (owner s, waiters s, permit (thr s 2), at_ (thr s 2), parked (thr s 3))
              = (None, [3], true, LReg false, true)
  | None => False
  end.
Proof. vm_compute; reflexivity. Qed.

(** ** C51 *)

(** Once past its entry, [unlock] by the holder frees the lock in the same step. *)
Theorem C51_release_partial s t k s' : history false anything s -> holder s t -> at_ (thr s t) = UEntry k ->
  step false s (Run t) = Some s' -> owner s' = None /\ forall u, ~ holder s' u.
Proof. exact (unlock_releases s t k s'). Qed.
Print Assumptions C51_release_partial.
(** A raise delivered at the entry of the [unlock] in [synchronize]'s ensure leaves
    the lock held by a thread that is out of [synchronize] and goes on living. *)
Theorem C51_release_refuted : exists s s', history false anything s /\ at_ (thr s 1) = UEntry KReturn /\
  step false s (Unwind 1) = Some s' /\ at_ (thr s' 1) = Out /\ holder s' 1.
Proof. exact unlock_interrupted. Qed.
Print Assumptions C51_release_refuted.
(** The two outcomes of the same [unlock]. *)
Example C51_example :
  match steps false init [ Lock 1; Run 1; Unlock 1; Run 1 ], steps false init [ Lock 1; Run 1; Unlock 1; Unwind 1 ] with
  | Some a, Some b => (owner a, owner b) = (None, Some 1)
  | _, _ => False
  end.
Proof. vm_compute; reflexivity. Qed.

(** ** C52 *)

(** A live thread that is parked by Mutex#sleep (ConditionVariable#wait) or is
    taking the lock again stays there until it holds it, whatever interrupts it. *)
Theorem C52_sleep_reacquires s l s' t : step false s l = Some s' -> in_sleep (at_ (thr s t)) = true ->
  alive (thr s t) = true ->
  in_sleep (at_ (thr s' t)) = true \/ holder s' t /\ at_ (thr s' t) = Out \/ exists u, l = Fork u /\ u <> t.
Proof. exact (sleep_reacquires s l s' t). Qed.
Print Assumptions C52_sleep_reacquires.
(** 1 sleeps, 2 takes the lock, 1 is killed, waits for 2 and ends up the holder. *)
Example C52_example :
  match steps false init [ Lock 1; Run 1; Sleep 1; Run 1; Run 1; Lock 2; Run 2; Unwind 1; Run 1; Run 1; Unlock 2; Run 2; Run 1; Run 1 ] with
  | Some s => (owner s, at_ (thr s 1), holds (thr s 1)) = (Some 1, Out, true)
  | None => False
  end.
Proof. vm_compute; reflexivity. Qed.
