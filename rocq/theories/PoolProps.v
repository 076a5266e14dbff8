(** C31: blocking calls on native workers. *)

From Coq Require Import List Bool Arith.
From Verif Require Import PoolModel PoolSpec PoolProofs.
Import ListNotations.

(** What run_blocking returns to a thread is what the operation that thread submitted
    returned. *)
Theorem C31_own_result ok s t id r : history ok s -> In (t, id, r) (got s) -> owner s id = Some t /\ outcome s id = Some r.
Proof. exact (own_result ok s t id r). Qed.
Print Assumptions C31_own_result.
(** No result is returned twice. *)
Theorem C31_once ok s : history ok s -> NoDup (map (fun e => snd (fst e)) (got s)).
Proof. exact (once ok s). Qed.
Print Assumptions C31_once.
(** As long as a thread is in run_blocking its ticket is its own, and the result, once
    there, is kept for it, ... *)
Theorem C31_kept ok s t id : history ok s -> holds_ticket (thr s t) id ->
  owner s id = Some t /\ (outcome s id = None \/ exists r, outcome s id = Some r /\ In (id, r) (results s)).
Proof. exact (kept ok s t id). Qed.
Print Assumptions C31_kept.
(** ... and nothing is kept for threads that have left. *)
Theorem C31_no_leak ok s : history ok s ->
  (forall id r, In (id, r) (results s) -> exists t, holds_ticket (thr s t) id) /\
  (forall id, In id (orphans s) -> outcome s id = None /\ owner s id <> None).
Proof. exact (no_leak ok s). Qed.
Print Assumptions C31_no_leak.
(** A parked thread whose result is there has a byte in the pipe, or its worker is about to
    write one - if nobody empties the pipe while another thread is parked with its result
    there; ... *)
Theorem C31_woken_partial s t id : history clean_drain s -> thr s t = Parked id -> ready s id -> 0 < pipe s \/ work s id = WByte.
Proof. exact (woken s t id). Qed.
Print Assumptions C31_woken_partial.
(** ... for instance if there is never more than one call at a time. *)
Theorem C31_solo_woken_partial s t id : history solo s -> thr s t = Parked id -> ready s id -> 0 < pipe s \/ work s id = WByte.
Proof. exact (fun H => woken s t id (solo_clean s H)). Qed.
Print Assumptions C31_solo_woken_partial.
(** With a byte in the pipe, the next turn of the scheduler wakes the thread, and when it
    runs it returns with its result. *)
Theorem C31_delivered ok s t id r : history ok s -> cpu s = None -> thr s t = Parked id -> In (id, r) (results s) -> 0 < pipe s ->
  exists s', steps s [Poll; Dispatch t; Drain; TryTake] = Some s' /\ got s' = got s ++ [(t, id, r)] /\ thr s' t = Out /\ cpu s' = Some t.
Proof. exact (delivered ok s t id r). Qed.
Print Assumptions C31_delivered.
(** A thread that gives up the CPU is followed by a look at the pipe before any thread runs. *)
Theorem C31_polls s l s' t u : step s l = Some s' -> cpu s = Some t -> cpu s' = None -> step s' (Dispatch u) = None.
Proof. exact (polls_first s l s' t u). Qed.
Print Assumptions C31_polls.
(** A wake-up is lost: a thread woken for another's completion empties the shared pipe just
    after the operation of a thread that parked since has completed. *)
Theorem C31_lost_wakeup_refuted :
  exists s, history any_step s /\ stuck s 2 3 /\ In (3, 8) (results s) /\ thr s 0 = Out /\ thr s 1 = Parked 1 /\ work s 1 = WRun.
Proof. exact lost_wakeup. Qed.
Print Assumptions C31_lost_wakeup_refuted.
(** That thread stays parked, its result in the table, until some other operation
    completes or it is interrupted. *)
Theorem C31_stuck_stays ok s t id l s' : history ok s -> stuck s t id -> step s l = Some s' ->
  (forall k r, l <> Complete k r) -> l <> Interrupt t -> stuck s' t id.
Proof. exact (stuck_stays ok s t id l s'). Qed.
Print Assumptions C31_stuck_stays.

(** Two threads wait; the first is interrupted, its operation completes later and leaves
    nothing behind; the second gets its own result. *)
Example C31_example :
  option_map (fun s => (results s, orphans s, got s, thr s 1, thr s 2))
    (steps init [Poll; Dispatch 1; Submit; TryTake; Poll; Dispatch 2; Submit; TryTake; Poll; Dispatch 3; Interrupt 1; Yield;
                 Poll; Dispatch 1; Discard; Yield; Complete 1 5; Complete 2 9; Byte 2; Poll; Dispatch 2; Drain; TryTake])
  = Some ([], [], [(2, 2, 9)], Out, Out).
Proof. reflexivity. Qed.
