(** * The preemption timer (/repo/monoruby/src/preempt.rs) and who tells it about threads
    (scheduler.rs:251-262, called at 413 and 1496; fork_child_reset_threads 343-354)

    The interpreter and the timer thread interleave at their atomic operations.
    MONORUBY_NO_PREEMPT and MONORUBY_PREEMPT_STRESS are not set. *)

From Coq Require Import List Bool Arith.
Import ListNotations.

(** The timer thread behind `st.timer`. *)
Inductive timer :=
| NoTimer                  (* None *)
| Sleeping                 (* 134 thread::sleep(TICK) *)
| Loading                  (* 135 at stop.load *)
| Ticking                  (* 138-144 at the fetch_or *)
| Returning                (* it has read stop = true; is_finished is still false *)
| Finished
| Orphan.                  (* a forked child: the handle is there, the thread is not *)

(** 116: st.timer.as_ref().is_some_and(|t| !t.is_finished()).  is_finished asks whether the
    thread has dropped its half of the packet, which a thread that fork(2) did not copy
    never does. *)
Definition running (t : timer) : bool :=
  match t with NoTimer | Finished => false | _ => true end.

Record state := T_ {
  live : nat;              (* threads that are not dead *)
  stop : bool;
  tm : timer;
  checking : bool;         (* the interpreter is in on_thread_count, after 115 *)
  ticks : nat              (* not in the source *)
}.

(** The main thread alone. *)
Definition init : state := T_ 1 false NoTimer false 0.

Inductive label :=
| Spawn                    (* scheduler::spawn, up to 115 *)
| Die                      (* finalize_common, up to 115 or 123 *)
| Check                    (* 116-121 *)
| Timer                    (* one operation of timer_loop *)
| Fork.                    (* the child of Process.fork *)

(** on_thread_count(n) up to its first store. *)
Definition count (s : state) (n : nat) : state :=
  if Nat.leb 2 n then T_ n false (tm s) true (ticks s) else T_ n true (tm s) false (ticks s).

Definition step (s : state) (l : label) : option state :=
  match l with
  | Spawn => if checking s then None else Some (count s (S (live s)))
  | Die =>
      if checking s then None
      else match live s with
           | S (S n) => Some (count s (S n))     (* main does not die *)
           | _ => None
           end
  | Check =>
      if checking s
      then Some (T_ (live s) (stop s) (if running (tm s) then tm s else Sleeping) false (ticks s))
      else None
  | Timer =>
      match tm s with
      | Sleeping => Some (T_ (live s) (stop s) Loading (checking s) (ticks s))
      | Loading => Some (T_ (live s) (stop s) (if stop s then Returning else Ticking) (checking s) (ticks s))
      | Ticking => Some (T_ (live s) (stop s) Sleeping (checking s) (S (ticks s)))
      | Returning => Some (T_ (live s) (stop s) Finished (checking s) (ticks s))
      | _ => None
      end
  | Fork =>
      if checking s then None
      else Some (T_ 1 (stop s) (if running (tm s) then Orphan else tm s) false (ticks s))
  end.

Fixpoint steps (s : state) (ls : list label) : option state :=
  match ls with
  | [] => Some s
  | l :: ls => match step s l with Some s' => steps s' ls | None => None end
  end.
