(** C26, C27: sleeping and the run queue. *)

From Coq Require Import ZArith List Bool Arith.
From Verif Require Import SchedModel SchedSpec SchedProofs.
Import ListNotations.
Open Scope Z_scope.

(** ** C27 *)

(** Without [fork] and without time-limited fd waits: each thread is queued at
    most once, never while it runs, only when it can run; no runnable thread is
    missing from the queue; the scheduler never takes the context of a thread
    that has none. *)
Theorem C27_queue_partial st : history plain st -> snd st <> Panic /\ queue_ok st /\ none_lost st.
Proof. exact (queue_sound st). Qed.
Print Assumptions C27_queue_partial.

(** The claim is false: a thread that waits on a descriptor with a time limit,
    twice, is queued while it runs ... *)
Theorem C27_queued_twice_refuted :
  exists st, history any_label st /\ runs st 1 /\ In 1%nat (ready (fst st)).
Proof. exact queued_while_running. Qed.
Print Assumptions C27_queued_twice_refuted.
(** ... and when it ends before its second turn the scheduler panics. *)
Theorem C27_panic_refuted : exists st, history any_label st /\ snd st = Panic.
Proof. exact dead_dispatched. Qed.
Print Assumptions C27_panic_refuted.
(** A child made by [fork] keeps the parent's dead threads queued. *)
Theorem C27_fork_refuted :
  exists st t, history any_label st /\ In t (ready (fst st)) /\ stt (thread st t) = Dead.
Proof. exact fork_dead_queued. Qed.
Print Assumptions C27_fork_refuted.

(** Three threads, one killed before it ever runs, one sleeping, one passing. *)
Example C27_example :
  match exec_all (init 0) [ LSpawn; LSpawn; LSpawn; LInterrupt 2 Kill; LJoin 3 None; LLoop rdy0;
                            LSleep (Some 7); LLoop rdy0; LLoop rdy0; LPass rdy0 ] with
  | Some (s, c) => (ready s, map (fun t => stt (ths s t)) [0; 1; 2; 3]%nat, c)
                   = ([3]%nat, [Joining; Sleeping; Dead; Runnable], Loop KRun)
  | None => False
  end.
Proof. vm_compute; reflexivity. Qed.

(** ** C26 *)

(** A [sleep] that does not return at once parks the thread until its limit. *)
Theorem C26_sleep_starts s c k t d st' :
  running c = Some (t, k) -> exec (s, c) (LSleep d) = Some st' ->
  permit (ths s t) = false -> deliver (ths s t) true = None ->
  stt (thread st' t) = Sleeping /\ limit_of (now s) d (dl (thread st' t)) /\
  snd st' = Loop (if Nat.eqb t 0 then KRun else k).
Proof. exact (sleep_starts_limit s c k t d st'). Qed.
Print Assumptions C26_sleep_starts.

(** A sleeper goes on sleeping through every step that neither wakes it nor
    comes after its limit. *)
Theorem C26_sleep_step_partial st l st' t :
  history plain st -> plain l -> exec st l = Some st' -> stt (thread st t) = Sleeping ->
  (stt (thread st' t) = Sleeping /\ dl (thread st' t) = dl (thread st t)) \/ wakes l t \/ time_up st t.
Proof. exact (sleep_ends st l st' t). Qed.
Print Assumptions C26_sleep_step_partial.
Theorem C26_sleep_lasts_partial ls st st' t :
  history plain st -> Forall plain ls -> exec_all st ls = Some st' ->
  stt (thread st t) = Sleeping ->
  (forall l, In l ls -> ~ wakes l t) ->
  (forall d, dl (thread st t) = Some d -> now (fst st') < d) ->
  stt (thread st' t) = Sleeping.
Proof. exact (sleep_lasts ls st st' t). Qed.
Print Assumptions C26_sleep_lasts_partial.

(** False in general.  A wake-up sent to a thread that is already awake is kept
    and ends its next sleep at once. *)
Theorem C26_permit_refuted :
  exists st st', history any_label st /\ runs st 1 /\
    exec_all st [LSleep (Some 100)] = Some st' /\ runs st' 1 /\ now (fst st') < now (fst st) + 100 /\
    forall l, In l [] -> ~ wakes l 1.
Proof. exact (short_sleep permit_trace 100 [] 1 permit_short eq_refl). Qed.
Print Assumptions C26_permit_refuted.
(** The limit left behind by an fd wait ends a later sleep. *)
Theorem C26_stale_limit_refuted :
  exists st st', history any_label st /\ runs st 1 /\
    exec_all st [LSleep (Some 1000); LTick 10; LLoop rdy0] = Some st' /\ runs st' 1 /\
    now (fst st') < now (fst st) + 1000 /\
    forall l, In l [LTick 10; LLoop rdy0] -> ~ wakes l 1.
Proof. exact (short_sleep stale_trace 1000 [LTick 10; LLoop rdy0] 1 stale_short eq_refl). Qed.
Print Assumptions C26_stale_limit_refuted.

(** A sleeper of 7 is still asleep at 6 and runs at 7. *)
Example C26_example :
  match exec_all (init 0) [ LSpawn; LSleep None; LLoop rdy0; LSleep (Some 7); LTick 6; LLoop rdy0 ],
        exec_all (init 0) [ LSpawn; LSleep None; LLoop rdy0; LSleep (Some 7); LTick 6; LLoop rdy0;
                            LTick 1; LLoop rdy0 ] with
  | Some (s, c), Some (s', c') => stt (ths s 1%nat) = Sleeping /\ c = Loop KRun /\ c' = RunGreen 1 KRun
  | _, _ => False
  end.
Proof. vm_compute; auto. Qed.

(** ** C50 *)

(** At every check the oldest queued interrupt that the masks permit is
    delivered, and only that one; the others stay queued in order. *)
Theorem C50_deliver_exact x b q : deliver x b = Some q <-> takes_oldest x b q.
Proof. exact (deliver_exact x b q). Qed.
Print Assumptions C50_deliver_exact.
Theorem C50_deliver_none x b : deliver x b = None <-> forall i, In i (pend x) -> ~ permitted x b i.
Proof. exact (deliver_none x b). Qed.
Print Assumptions C50_deliver_none.
(** A parked thread is queued to run when an interrupt it may take arrives. *)
Theorem C50_interrupt_wakes s t i : t <> 0%nat -> parked (stt (ths s t)) = true ->
  permitted (ths s t) true i -> In t (ready (interrupt s t i)).
Proof. exact (interrupt_wakes s t i). Qed.
Print Assumptions C50_interrupt_wakes.
(** Unlike the reference implementation, a thread does not inherit the masks in
    force where it is created. *)
Theorem C50_inherit_refuted :
  exists st st', history any_label st /\ runs st 0 /\ exec st LSpawn = Some st' /\
    mask (thread st 0) 7 = Never /\ permitted (thread st' 1) false (Raise 7).
Proof. exact mask_not_inherited. Qed.
Print Assumptions C50_inherit_refuted.

(** Two raises, the first one masked: the second is delivered, kept in order. *)
Example C50_example :
  let x := Thr Runnable false [] [Raise 1; Raise 2; Kill] false false false
               (fun c => if c =? 1 then OnBlocking else Immediate) None in
  deliver x false = Some [Raise 1; Kill] /\ deliver x true = Some [Raise 2; Kill].
Proof. vm_compute; auto. Qed.
