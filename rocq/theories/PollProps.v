(** C28, C29: the poll word, its lanes, and signal delivery. *)

From Coq Require Import ZArith Bool List.
From Verif Require Import PollModel PollSpec PollProofs.
Import ListNotations.
Local Open Scope Z_scope.

(** ** C28 *)

(** Setting or clearing a lane does what it says and leaves the other two lanes alone,
    whatever the word holds. *)
Theorem C28_lanes w :
  (lane_set (set_lane w GC_LANE) GC_MASK = true /\
   lane_set (set_lane w GC_LANE) PREEMPT_MASK = lane_set w PREEMPT_MASK /\
   lane_set (set_lane w GC_LANE) SIGNAL_MASK = lane_set w SIGNAL_MASK) /\
  (lane_set (set_lane w PREEMPT_LANE) PREEMPT_MASK = true /\
   lane_set (set_lane w PREEMPT_LANE) GC_MASK = lane_set w GC_MASK /\
   lane_set (set_lane w PREEMPT_LANE) SIGNAL_MASK = lane_set w SIGNAL_MASK) /\
  (lane_set (set_lane w SIGNAL_LANE) SIGNAL_MASK = true /\
   lane_set (set_lane w SIGNAL_LANE) GC_MASK = lane_set w GC_MASK /\
   lane_set (set_lane w SIGNAL_LANE) PREEMPT_MASK = lane_set w PREEMPT_MASK) /\
  (lane_set (clear_lane w GC_MASK) GC_MASK = false /\
   lane_set (clear_lane w GC_MASK) PREEMPT_MASK = lane_set w PREEMPT_MASK /\
   lane_set (clear_lane w GC_MASK) SIGNAL_MASK = lane_set w SIGNAL_MASK) /\
  (lane_set (clear_lane w PREEMPT_MASK) PREEMPT_MASK = false /\
   lane_set (clear_lane w PREEMPT_MASK) GC_MASK = lane_set w GC_MASK /\
   lane_set (clear_lane w PREEMPT_MASK) SIGNAL_MASK = lane_set w SIGNAL_MASK) /\
  (lane_set (clear_lane w SIGNAL_MASK) SIGNAL_MASK = false /\
   lane_set (clear_lane w SIGNAL_MASK) GC_MASK = lane_set w GC_MASK /\
   lane_set (clear_lane w SIGNAL_MASK) PREEMPT_MASK = lane_set w PREEMPT_MASK).
Proof. exact (lanes_ok w). Qed.
Print Assumptions C28_lanes.
(** Until a collection has answered a request, the GC lane is set - whatever the timer, the
    signal handler and other polls do in between, and however polls end. *)
Theorem C28_gc_kept ok s d : history ok s d -> gcreq d = true -> gc_lane s = true.
Proof. exact (gc_kept ok s d). Qed.
Print Assumptions C28_gc_kept.
(** While a signal is pending the SIGNAL lane is set, or a signal handler is about to set
    it, or a poll is about to take the signal. *)
Theorem C28_signal_kept ok s d : history ok s d -> pend s <> 0 ->
  signal_lane s = true \/ (0 < arming s)%nat \/ exists f b, frames s f = Drain b.
Proof. exact (sig_kept ok s d). Qed.
Print Assumptions C28_signal_kept.
(** A tick stays in its lane, or with a poll that has not yet come to its time-slice
    decision - if polls that have taken a tick do not raise. *)
Theorem C28_tick_kept_partial s d : history no_raise s d -> tick d = true ->
  preempt_lane s = true \/ exists f, carries (frames s f) = true.
Proof. exact (tick_kept s d). Qed.
Print Assumptions C28_tick_kept_partial.
(** The next poll sees the request: it comes to the collection (if it is not deferred
    behind a signal this thread may not take), ... *)
Theorem C28_gc_observed s f c : frames s f = Idle -> 0 <= pend s -> gc_lane s = true -> fine s c ->
  delivery c = true \/ pend s = 0 ->
  exists k s', steps s (whole f c k) = Some s' /\ frames s' f = Coll (preempt_lane s).
Proof. exact (poll_gc s f c). Qed.
Print Assumptions C28_gc_observed.
(** ... to the time-slice switch, ... *)
Theorem C28_tick_observed s f c : frames s f = Idle -> 0 <= pend s -> preempt_lane s = true -> fine s c ->
  exists k s', steps s (whole f c k) = Some s' /\ frames s' f = End true.
Proof. exact (poll_preempt s f c). Qed.
Print Assumptions C28_tick_observed.
(** ... and [pend] is never negative. *)
Theorem C28_pend ok s d : history ok s d -> 0 <= pend s.
Proof. exact (fun H => proj1 (nonneg ok s d H)). Qed.
Print Assumptions C28_pend.
(** Handling a signal does erase a tick: the poll consumes the tick first, and the
    exception of the signal ends the poll before the switch. *)
Theorem C28_tick_erased_refuted : exists s d, history any_step s d /\ tick d = true /\ quiet s.
Proof. exact lost_tick_bad. Qed.
Print Assumptions C28_tick_erased_refuted.

(** A tick and a request arrive, a poll on a thread that may not take the pending signal
    takes the tick only; the next poll on main runs the handler and the collection. *)
Example C28_example :
  match steps init ([Trap 10 TCall; Tick; Signal 10; Request; Arm] ++ whole 0 (Ch false false false) 7) with
  | Some s =>
      (word s, pend s, frames s 0, called s) = (65537, 512, Idle, []) /\
      match steps s (whole 0 (Ch true false false) 8) with
      | Some s => (word s, pend s, frames s 0, called s) = (1, 0, Coll false, [10%nat])
      | None => False
      end
  | None => False
  end.
Proof. vm_compute. split; reflexivity. Qed.

(** ** C29 *)

(** Until the handler of a trapped signal has been called after the signal's arrival, the
    signal is pending, or in the hands of a poll that will dispatch it - if no drain takes
    it together with a lower-numbered signal. *)
Theorem C29_kept_partial n s d : (1 <= n <= 32)%nat -> history (trapped_alone n) s d -> owed d n = true ->
  trap s n = TCall /\ (pending s n = true \/ exists f, in_hand (frames s f) n = true).
Proof. exact (owed_kept n s d). Qed.
Print Assumptions C29_kept_partial.
(** A poll on the main thread calls the handler of the lowest pending signal. *)
Theorem C29_poll_calls s f c n : frames s f = Idle -> word s <> 0 -> delivery c = true ->
  lowest (pend s) = Some n -> trap s n = TCall ->
  exists k s', steps s (whole f c k) = Some s' /\ called s' = n :: called s /\ pend s' = 0.
Proof. exact (poll_signal s f c n). Qed.
Print Assumptions C29_poll_calls.
(** [lowest] is the lowest-numbered pending signal. *)
Theorem C29_lowest p n : lowest p = Some n -> (1 <= n)%nat /\ Z.testbit p (Z.of_nat n - 1) = true /\
  forall m, (1 <= m < n)%nat -> Z.testbit p (Z.of_nat m - 1) = false.
Proof. exact (lowest_bit p n). Qed.
Print Assumptions C29_lowest.
(** Two trapped signals arriving before one poll: only the lower one's handler is ever
    called; the other is forgotten. *)
Theorem C29_two_signals_refuted : exists s d, history any_step s d /\ owed d 12 = true /\ trap s 12 = TCall /\
  called s = [10%nat] /\ quiet s.
Proof. exact lost_signal_bad. Qed.
Print Assumptions C29_two_signals_refuted.

(** The same signal arriving again while its handler runs is run again. *)
Example C29_example :
  match steps init ([Trap 15 TCall; Signal 15; Arm] ++ whole 0 c0 6 ++ [Signal 15; Arm] ++ whole 1 c0 6) with
  | Some s => called s = [15%nat; 15%nat]
  | None => False
  end.
Proof. vm_compute; reflexivity. Qed.
