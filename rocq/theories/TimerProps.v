(** C30: the preemption timer. *)

From Coq Require Import List Bool Arith.
From Verif Require Import TimerModel TimerSpec TimerProofs.
Import ListNotations.

(** With two or more threads alive, once the spawn or the thread's end has been accounted
    for, a timer thread exists that will tick - if no process forks and no count of two or
    more meets a timer that has just decided to stop. *)
Theorem C30_alive_partial s : history no_race s -> 2 <= live s ->
  stop s = false /\ (checking s = false -> alive s).
Proof. exact (alive_when_needed s). Qed.
Print Assumptions C30_alive_partial.
(** Such a timer ticks after at most three of its own steps, and goes on. *)
Theorem C30_ticks s : alive s -> exists k s', k <= 3 /\ steps s (repeat Timer k) = Some s' /\ ticks s' = S (ticks s) /\ alive s'.
Proof. exact (alive_ticks s). Qed.
Print Assumptions C30_ticks.
(** With one thread left the timer is told to stop, and then ticks at most once. *)
Theorem C30_stops s : history no_fork s -> live s = 1 ->
  forall k s', steps s (repeat Timer k) = Some s' -> ticks s' <= S (ticks s).
Proof.
  exact (fun H L k s' E =>
    match one_thread no_fork s H L (fun _ _ O => O) with
    | or_introl Q => proj1 (stops s Q k s' E)
    | or_intror Q => no_timer_ticks s k s' Q E
    end).
Qed.
Print Assumptions C30_stops.
(** The race: the last but one thread ends, the timer reads `stop`, a thread is spawned
    before the timer thread has finished: there are two threads and no timer. *)
Theorem C30_race_refuted : exists s, history no_fork s /\ live s = 2 /\ checking s = false /\ dead s.
Proof. exact race_bad. Qed.
Print Assumptions C30_race_refuted.
(** A child forked while the timer runs has no timer however many threads it spawns, ... *)
Theorem C30_fork_refuted n : exists s, history any_step s /\ live s = S n /\ checking s = false /\ dead s.
Proof. exact (fork_bad n). Qed.
Print Assumptions C30_fork_refuted.
(** ... and never gets one. *)
Theorem C30_fork_forever s : tm s = Orphan -> forall ls s', steps s ls = Some s' -> tm s' = Orphan /\ ticks s' = ticks s.
Proof. exact (orphan_forever s). Qed.
Print Assumptions C30_fork_forever.

(** A thread comes, the timer ticks twice; the thread goes, the timer ends; another thread
    comes, and there is a new timer. *)
Example C30_example :
  option_map (fun s => (live s, tm s, ticks s))
    (steps init ([Spawn; Check] ++ repeat Timer 6 ++ [Die] ++ repeat Timer 3 ++ [Spawn; Check; Timer; Timer; Timer]))
  = Some (2, Sleeping, 3).
Proof. reflexivity. Qed.
