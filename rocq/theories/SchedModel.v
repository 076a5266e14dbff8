(** * Model of the green-thread scheduler

    Source: /repo/monoruby/src/scheduler.rs and the control block of
    /repo/monoruby/src/value/rvalue/thread.rs.

    A history is a list of labels: what the running thread asks the scheduler
    to do, one iteration of the scheduler's own loop, or time passing.  The
    programs the threads run are arbitrary, so every label a running thread may
    issue is allowed at any time.

    Simplifications.
    - Thread 0 is the main thread; threads are numbered in order of creation.
    - An instant is a number; [Instant::now] is [now], moved only by [LTick].
    - Exceptions: delivering one removes it from the queue; the thread goes on
      running (its handlers are part of the arbitrary program).  Killing the
      main thread, which ends the process, is not distinguished.
    - Masks are a function from exception class to timing (scheduler.rs:691-726
      walks the class hierarchy).
    - [poll(2)] is an arbitrary set of ready descriptors.  EINTR and error
      returns of the loop are not modelled; the deadlock error is [Deadlock].
    - report texts, statuses, GC marking, nesting counters are left out. *)

From Coq Require Import ZArith List Bool Arith.
Import ListNotations.
Open Scope Z_scope.

(** thread.rs:129-146 *)
Inductive tstate := Created | Runnable | Sleeping | Joining | IoWaiting | Dead.
Definition tstate_eqb (x y : tstate) : bool :=
  match x, y with
  | Created, Created | Runnable, Runnable | Sleeping, Sleeping
  | Joining, Joining | IoWaiting, IoWaiting | Dead, Dead => true
  | _, _ => false
  end.
Definition parked (x : tstate) : bool :=
  match x with Sleeping | Joining | IoWaiting => true | _ => false end.

(** thread.rs:6-14, 17-28 *)
Inductive intr := Kill | Raise (cls : Z).
Inductive timing := Immediate | OnBlocking | Never.

(** [ThreadInner], thread.rs:40-127: the fields the scheduler reads. *)
Record thr := Thr {
  stt : tstate;
  resume : bool;              (* resume_exec is Some *)
  joiners : list nat;
  pend : list intr;
  permit : bool;              (* park_permit *)
  blocking : bool;            (* park_blocking *)
  unint : bool;               (* uninterruptible > 0 *)
  mask : Z -> timing;
  dl : option Z               (* the local [deadline] of the sleep it is in *)
}.
Definition dead_thr : thr := Thr Dead false [] [] false false false (fun _ => Immediate) None.
Definition new_thr : thr := Thr Created false [] [] false false false (fun _ => Immediate) None.
Definition main_thr : thr := Thr Runnable false [] [] false false false (fun _ => Immediate) None.

Definition set_stt (t : thr) (x : tstate) : thr :=
  Thr x (resume t) (joiners t) (pend t) (permit t) (blocking t) (unint t) (mask t) (dl t).
Definition set_resume (t : thr) (b : bool) : thr :=
  Thr (stt t) b (joiners t) (pend t) (permit t) (blocking t) (unint t) (mask t) (dl t).
Definition set_joiners (t : thr) (l : list nat) : thr :=
  Thr (stt t) (resume t) l (pend t) (permit t) (blocking t) (unint t) (mask t) (dl t).
Definition set_pend (t : thr) (l : list intr) : thr :=
  Thr (stt t) (resume t) (joiners t) l (permit t) (blocking t) (unint t) (mask t) (dl t).
Definition set_permit (t : thr) (b : bool) : thr :=
  Thr (stt t) (resume t) (joiners t) (pend t) b (blocking t) (unint t) (mask t) (dl t).
Definition set_blocking (t : thr) (b : bool) : thr :=
  Thr (stt t) (resume t) (joiners t) (pend t) (permit t) b (unint t) (mask t) (dl t).
Definition set_mask (t : thr) (u : bool) (m : Z -> timing) : thr :=
  Thr (stt t) (resume t) (joiners t) (pend t) (permit t) (blocking t) u m (dl t).
Definition set_dl (t : thr) (d : option Z) : thr :=
  Thr (stt t) (resume t) (joiners t) (pend t) (permit t) (blocking t) (unint t) (mask t) d.

(** [Scheduler], scheduler.rs:69-126. *)
Record sch := Sch {
  ths : nat -> thr;
  nxt : nat;                            (* threads created so far *)
  ready : list nat;
  sleepers : list (option Z * nat);
  iow : list (Z * nat);                 (* io_waiters *)
  now : Z
}.

Definition upd (f : nat -> thr) (t : nat) (x : thr) : nat -> thr :=
  fun u => if Nat.eqb u t then x else f u.
Definition setth (s : sch) (t : nat) (x : thr) : sch :=
  Sch (upd (ths s) t x) (nxt s) (ready s) (sleepers s) (iow s) (now s).
Definition push_ready (s : sch) (t : nat) : sch :=
  Sch (ths s) (nxt s) (ready s ++ [t]) (sleepers s) (iow s) (now s).
Definition set_ready (s : sch) (l : list nat) : sch :=
  Sch (ths s) (nxt s) l (sleepers s) (iow s) (now s).
Definition set_sleepers (s : sch) (l : list (option Z * nat)) : sch :=
  Sch (ths s) (nxt s) (ready s) l (iow s) (now s).
Definition set_iow (s : sch) (l : list (Z * nat)) : sch :=
  Sch (ths s) (nxt s) (ready s) (sleepers s) l (now s).

(** Where control is.  The scheduler's loop runs in the main thread's context:
    from a park of main ([KRun], [scheduler_loop]) or from main's [Thread.pass]
    ([KPass n], [n] dispatches to go). *)
Inductive loopk := KRun | KPass (n : nat).
Inductive ctl := RunMain | RunGreen (t : nat) (k : loopk) | Loop (k : loopk) | Panic | Deadlock.
Definition state := (sch * ctl)%type.

(** "make runnable and queue": the block repeated in wakeup_inner (449-455),
    interrupt (916-928), wake_due_sleepers (1149-1155), poll_io_waiters
    (1199-1206), finalize_common (1460-1469). *)
Definition wake (s : sch) (t : nat) : sch :=
  let s' := setth s t (set_stt (ths s t) Runnable) in
  if Nat.eqb t 0 then s' else push_ready s' t.

(** [wakeup_inner], 441-467. *)
Definition wakeup_inner (s : sch) (t : nat) (p : bool) : sch :=
  match stt (ths s t) with
  | Sleeping => wake s t
  | Runnable => if p then setth s t (set_permit (ths s t) true) else s
  | _ => s
  end.

(** [interrupt_timing], 691-726. *)
Definition int_timing (t : thr) (i : intr) : timing :=
  if unint t then Never
  else match i with Kill => Immediate | Raise c => mask t c end.
Definition allowed (t : thr) (at_blocking : bool) (i : intr) : bool :=
  match int_timing t i with Immediate => true | OnBlocking => at_blocking | Never => false end.

(** [deliverable_index] followed by the removal (732-769): [None] when nothing
    may be delivered, otherwise the queue without the delivered one. *)
Fixpoint take_first (f : intr -> bool) (l : list intr) : option (list intr) :=
  match l with
  | [] => None
  | i :: r => if f i then Some r else option_map (cons i) (take_first f r)
  end.
Definition deliver (t : thr) (at_blocking : bool) : option (list intr) :=
  take_first (allowed t at_blocking) (pend t).

(** [wake_worthy], 749-755. *)
Definition wake_worthy (t : thr) : bool :=
  existsb (fun i => match int_timing t i with Never => false | _ => true end) (pend t).

(** [interrupt] aimed at another thread, 884-930. *)
Definition interrupt (s : sch) (t : nat) (i : intr) : sch :=
  match stt (ths s t) with
  | Dead => s
  | _ =>
      let s1 := setth s t (set_pend (ths s t) (pend (ths s t) ++ [i])) in
      if wake_worthy (ths s1 t) && parked (stt (ths s1 t)) then wake s1 t else s1
  end.

(** [prune_io_waiters], 1124-1131. *)
Definition prune (s : sch) : sch :=
  set_iow s (filter (fun e => tstate_eqb (stt (ths s (snd e))) IoWaiting) (iow s)).

(** [wake_due_sleepers], 1133-1167. *)
Definition due_entry (s : sch) (e : option Z * nat) : bool :=
  parked (stt (ths s (snd e))) && match fst e with Some d => d <=? now s | None => false end.
Definition keep_entry (s : sch) (e : option Z * nat) : bool :=
  parked (stt (ths s (snd e))) && match fst e with Some d => negb (d <=? now s) | None => true end.
Definition wake_due (s : sch) : sch :=
  let due := map snd (filter (due_entry s) (sleepers s)) in
  fold_left wake due (set_sleepers s (filter (keep_entry s) (sleepers s))).

(** [poll_io_waiters], 1173-1211, with [rdy] the descriptors found ready. *)
Definition poll_io (s : sch) (rdy : Z -> bool) : sch :=
  fold_left (fun s e => if rdy (fst e) && tstate_eqb (stt (ths s (snd e))) IoWaiting
                        then wake s (snd e) else s) (iow s) s.

(** [finalize_common], 1435-1480; [fwd] is [forward_exception_to_main]
    (1598-1650) with the exception it queues. *)
Definition wake_joiner (s : sch) (j : nat) : sch :=
  if tstate_eqb (stt (ths s j)) Joining then wake s j else s.
Definition forward_main (s : sch) (fwd : option Z) : sch :=
  match fwd with
  | None => s
  | Some c =>
      let m := set_pend (ths s 0%nat) (pend (ths s 0%nat) ++ [Raise c]) in
      setth s 0 (if parked (stt m) then set_stt m Runnable else m)
  end.
Definition finalize (s : sch) (t : nat) (fwd : option Z) : sch :=
  let js := joiners (ths s t) in
  let s1 := setth s t (set_joiners (set_pend (set_stt (ths s t) Dead) []) []) in
  forward_main (fold_left wake_joiner js s1) fwd.

(** [unregister_io_waiter], 1000-1004: the first thing a thread does when it
    comes back from an fd wait. *)
Definition unregister (s : sch) (t : nat) : sch :=
  set_iow s (filter (fun e => negb (Nat.eqb (snd e) t)) (iow s)).

(** [dispatch], 1258-1396: [resume_exec.take().unwrap()] panics on [None]. *)
Definition dispatch (s : sch) (t : nat) (k : loopk) : state :=
  let x := ths s t in
  match stt x with
  | Created =>
      match pend x with
      | Kill :: r => (finalize (setth s t (set_pend x r)) t None, Loop k)
      | Raise c :: r => (finalize (setth s t (set_pend x r)) t None, Loop k)
      | [] => (setth s t (set_stt x Runnable), RunGreen t k)
      end
  | _ =>
      if resume x then
        let x1 := set_resume (set_stt x Runnable) false in
        let x2 := match deliver x (blocking x) with Some q => set_pend x1 q | None => x1 end in
        (unregister (setth s t x2) t, RunGreen t k)
      else (s, Panic)
  end.

(** Back in main after a park or a pass: [take_main_pending], 942-947. *)
Definition main_back (s : sch) (at_blocking : bool) : state :=
  let s1 := unregister s 0 in
  let m := ths s1 0%nat in
  (match deliver m at_blocking with Some q => setth s1 0 (set_pend m q) | None => s1 end, RunMain).

(** One iteration of [scheduler_loop] (1080-1119) or of the dispatch loop of
    main's [pass] (598-611). *)
Definition has_deadline (s : sch) : bool :=
  existsb (fun e => match fst e with Some _ => true | None => false end) (sleepers s).
Definition loop_step (s : sch) (k : loopk) (rdy : Z -> bool) : state :=
  match k with
  | KRun =>
      let s1 := prune (wake_due s) in
      let s2 := poll_io s1 rdy in
      if tstate_eqb (stt (ths s2 0%nat)) Runnable then main_back s2 true
      else match ready s2 with
           | t :: r => dispatch (set_ready s2 r) t KRun
           | [] =>
               let s3 := prune s2 in
               match iow s3 with
               | [] => if has_deadline s3 then (s3, Loop KRun) else (s3, Deadlock)
               | _ => (s3, Loop KRun)
               end
           end
  | KPass O => main_back s false
  | KPass (S n) =>
      match ready s with
      | t :: r => dispatch (set_ready s r) t (KPass n)
      | [] => main_back s false
      end
  end.

(** An enormous deadline is "until woken" ([checked_add], 501). *)
Definition INSTANT_MAX : Z := 2 ^ 63 * 10 ^ 9.
Definition add_deadline (n : Z) (d : option Z) : option Z :=
  match d with
  | Some d => if INSTANT_MAX <? n + d then None else Some (n + d)
  | None => None
  end.

Inductive label :=
| LSpawn                                  (* Thread.new *)
| LWakeup (t : nat) (p : bool)            (* Thread#wakeup / __wakeup_permit *)
| LInterrupt (t : nat) (i : intr)         (* Thread#kill / #raise *)
| LMask (u : bool) (m : Z -> timing)      (* handle_interrupt, __uninterruptible *)
| LSleep (d : option Z)                   (* sleep, Thread.stop *)
| LPass (rdy : Z -> bool)                 (* Thread.pass, or a time-slice switch *)
| LJoin (t : nat) (deadline : option Z)   (* one turn of the loop in join *)
| LWait (fds : list Z) (deadline : option Z) (* wait_fd, IO.select *)
| LExit (fwd : option Z)                  (* the thread's body ends *)
| LTermAll                                (* terminate_all's first half *)
| LFork                                   (* in the child *)
| LLoop (rdy : Z -> bool)                 (* the scheduler's loop *)
| LTick (d : Z).                          (* time passes *)

(** Park thread [c] (its state is already set): main enters the loop, a green
    thread records its context and switches to it ([park_switch], 1008-1024). *)
Definition park (s : sch) (c : nat) (k : loopk) : state :=
  if Nat.eqb c 0 then (s, Loop KRun)
  else (setth s c (set_resume (ths s c) true), Loop k).

Definition running (c : ctl) : option (nat * loopk) :=
  match c with
  | RunMain => Some (0%nat, KRun)
  | RunGreen t k => Some (t, k)
  | _ => None
  end.

(** [terminate_all], 520-565. *)
Definition term_one (s : sch) (t : nat) : sch :=
  let x := ths s t in
  match stt x with
  | Dead => s
  | _ =>
      let s1 := setth s t (set_pend x (pend x ++ [Kill])) in
      if parked (stt x) then wake s1 t else s1
  end.

(** [fork_child_reset_threads], 352-364. *)
Definition fork_reset (s : sch) (c : nat) : sch :=
  Sch (fun t => if Nat.eqb t c then ths s t else set_stt (ths s t) Dead)
      (nxt s) (ready s) (sleepers s) (iow s) (now s).

(** The scheduler calls, by running thread [c]. *)
Definition call (s : sch) (c : nat) (k : loopk) (self : ctl) (l : label) : option state :=
  match l with
  | LSpawn =>
      Some (Sch (upd (ths s) (nxt s) new_thr) (S (nxt s)) (ready s ++ [nxt s])
                (sleepers s) (iow s) (now s), self)
  | LWakeup t p => Some (wakeup_inner s t p, self)
  | LInterrupt t i =>
      if Nat.eqb t c then
        let x := set_pend (ths s c) (pend (ths s c) ++ [i]) in
        let x' := match deliver x false with Some q => set_pend x q | None => x end in
        Some (setth s c x', self)
      else Some (interrupt s t i, self)
  | LMask u m => Some (setth s c (set_mask (ths s c) u m), self)
  | LSleep d =>                                               (* 473-541 *)
      let x := ths s c in
      match deliver x true with
      | Some q => Some (setth s c (set_pend x q), self)
      | None =>
          let x := set_blocking x true in
          if permit x then Some (setth s c (set_permit x false), self)
          else
            let d' := add_deadline (now s) d in
            let x := set_dl (set_stt x Sleeping) d' in
            Some (park (set_sleepers (setth s c x) (sleepers s ++ [(d', c)])) c k)
      end
  | LPass rdy =>                                              (* 568-636 *)
      let x := ths s c in
      match deliver x false with
      | Some q => Some (setth s c (set_pend x q), self)
      | None =>
          let s1 := setth s c (set_blocking x false) in
          if Nat.eqb c 0 then
            let s2 := poll_io (prune (wake_due s1)) rdy in
            Some (s2, Loop (KPass (length (ready s2))))
          else Some (park (push_ready s1 c) c k)
      end
  | LJoin t d =>                                              (* 640-688 *)
      let x := ths s c in
      if Nat.eqb t c then Some (s, self) else
      match deliver x true with
      | Some q => Some (setth s c (set_pend x q), self)
      | None =>
          let x := set_blocking x true in
          if tstate_eqb (stt (ths s t)) Dead
             || match d with Some d => d <=? now s | None => false end
          then Some (setth s c x, self)
          else
            let s1 := setth s c (set_stt x Joining) in
            let s2 := setth s1 t (set_joiners (ths s1 t) (joiners (ths s1 t) ++ [c])) in
            let s3 := match d with
                      | Some _ => set_sleepers s2 (sleepers s2 ++ [(d, c)])
                      | None => s2
                      end in
            Some (park s3 c k)
      end
  | LWait fds d =>                                            (* 964-998 *)
      let x := ths s c in
      match deliver x true with
      | Some q => Some (setth s c (set_pend x q), self)
      | None =>
          let s1 := setth s c (set_stt (set_blocking x true) IoWaiting) in
          let s2 := set_iow s1 (iow s1 ++ map (fun f => (f, c)) fds) in
          let s3 := match d with
                    | Some _ => set_sleepers s2 (sleepers s2 ++ [(d, c)])
                    | None => s2
                    end in
          Some (park s3 c k)
      end
  | LExit fwd => if Nat.eqb c 0 then None else Some (finalize s c fwd, Loop k)
  | LTermAll => if Nat.eqb c 0 then Some (fold_left term_one (seq 1 (nxt s - 1)) s, self) else None
  | LFork => Some (fork_reset s c, self)
  | LLoop _ | LTick _ => None
  end.

Definition exec (st : state) (l : label) : option state :=
  let '(s, c) := st in
  match l with
  | LTick d => if 0 <=? d then
                 Some (Sch (ths s) (nxt s) (ready s) (sleepers s) (iow s) (now s + d), c)
               else None
  | LLoop rdy => match c with Loop k => Some (loop_step s k rdy) | _ => None end
  | _ => match running c with
         | Some (t, k) => call s t k c l
         | None => None
         end
  end.

Fixpoint exec_all (st : state) (ls : list label) : option state :=
  match ls with
  | [] => Some st
  | l :: r => match exec st l with Some st' => exec_all st' r | None => None end
  end.

(** [ensure_main]: thread 0 exists and runs. *)
Definition init (t0 : Z) : state :=
  (Sch (fun t => if Nat.eqb t 0 then main_thr else dead_thr) 1 [] [] [] t0, RunMain).
