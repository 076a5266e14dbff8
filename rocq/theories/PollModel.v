(** * The safepoint poll: the lanes of the poll word (/repo/monoruby/src/poll_flag.rs),
    pending signals (codegen/signal_table.rs:30-60) and execute_gc (executor.rs:4815-4945)

    Every atomic operation on the word and on the bitmap is one step.  A poll is a frame;
    trap handlers poll again and a time-slice switch lets another thread poll, so there
    are any number of frames and any of them may go next.  The timer, the allocator and
    the signal handler may step in between.  One interpreter is registered; the builds
    and environment variables that force a poll everywhere are left out. *)

From Coq Require Import ZArith Bool List.
Import ListNotations.
Local Open Scope Z_scope.

(** poll_flag.rs:56-63. *)
Definition GC_LANE : Z := 1.
Definition GC_MASK : Z := 255.
Definition PREEMPT_LANE : Z := 256.
Definition PREEMPT_MASK : Z := 65280.
Definition SIGNAL_LANE : Z := 65536.
Definition SIGNAL_MASK : Z := 16711680.

(** fetch_or(lane); fetch_and(!mask); load & mask != 0. *)
Definition set_lane (w lane : Z) : Z := Z.lor w lane.
Definition clear_lane (w mask : Z) : Z := Z.ldiff w mask.
Definition lane_set (w mask : Z) : bool := negb (Z.eqb (Z.land w mask) 0).

(** signal_table.rs:44: PENDING_SIGNALS.fetch_or(1 << (signo - 1)). *)
Definition record (p : Z) (signo : nat) : Z := Z.lor p (2 ^ (Z.of_nat signo - 1)).
Definition known (signo : nat) : bool := Nat.leb 1 signo && Nat.leb signo 32.
(** signal_table.rs lowest_pending_signo: trailing_zeros + 1. *)
Fixpoint ctz (p : positive) : nat :=
  match p with xO q => S (ctz q) | _ => O end.
Definition lowest (p : Z) : option nat :=
  match p with Zpos q => Some (S (ctz q)) | _ => None end.

(** signal_table.rs:185: what Signal.trap has put in the table; [TError]: the default of
    this signal is an exception, [TNothing]: ignored, or no exception for it. *)
Inductive disposition := TCall | TError | TNothing.

(** Where a poll is in execute_gc; [b] is the local `preempt`, [p] is `pending`, [d] is
    `deferred_signal`. *)
Inductive pc :=
| Idle
| Pre                                 (* 4833 consume_preempt: the load *)
| PreClr                              (* ... the fetch_and *)
| SigQ (b : bool)                     (* 4846 signal_delivery_ok *)
| SigClr (b : bool)                   (* 4850 clear_signal *)
| Drain (b : bool)                    (* 4851 take_pending_signals *)
| Chk (b : bool) (p : Z)              (* 4870 has_pending_signals *)
| Disp (b : bool) (p : Z) (d : bool)  (* 4871-4902 *)
| Hand (b : bool) (n : nat) (d : bool)  (* the trap handler is running *)
| GcQ (b d : bool)                    (* 4903 gc_requested *)
| Coll (b : bool)                     (* in Allocator::gc, before ack_gc_request *)
| Rearm (b : bool)                    (* alloc.rs:1405 GC.stress *)
| End (b : bool).                     (* 4943 the time-slice switch *)

Record state := S_ {
  word : Z;
  pend : Z;
  arming : nat;                       (* signal handlers between their two operations *)
  trap : nat -> disposition;
  frames : nat -> pc;
  (* not in the source: *)
  called : list nat                   (* trap handlers called, last first *)
}.

Definition init : state := S_ 0 0 0%nat (fun _ => TError) (fun _ => Idle) [].

(** What the surroundings decide at a step: signal delivery is possible here; the code run
    raises; GC.stress is on. *)
Record choice := Ch { delivery : bool; raises : bool; stress : bool }.

Inductive label :=
| Tick                                (* preempt.rs:141 the timer: fetch_or PREEMPT_LANE *)
| Request                             (* set_gc *)
| Signal (n : nat)                    (* signal_handler: the record *)
| Arm                                 (* ... set_signal_from_handler *)
| Trap (n : nat) (d : disposition)    (* Signal.trap *)
| Enter (f : nat)                     (* a poll site that sees a non-zero word *)
| Step (f : nat) (c : choice).

Definition upd {A} (g : nat -> A) (k : nat) (v : A) : nat -> A :=
  fun j => if Nat.eqb j k then v else g j.
Definition set_word (s : state) w := S_ w (pend s) (arming s) (trap s) (frames s) (called s).
Definition set_frame (s : state) f q := S_ (word s) (pend s) (arming s) (trap s) (upd (frames s) f q) (called s).

(** One operation of execute_gc. *)
Definition poll_step (s : state) (f : nat) (c : choice) : option state :=
  match frames s f with
  | Idle => None
  | Pre => Some (set_frame s f (if lane_set (word s) PREEMPT_MASK then PreClr else SigQ false))
  | PreClr => Some (set_frame (set_word s (clear_lane (word s) PREEMPT_MASK)) f (SigQ true))
  | SigQ b => Some (set_frame s f (if delivery c then SigClr b else Chk b 0))
  | SigClr b => Some (set_frame (set_word s (clear_lane (word s) SIGNAL_MASK)) f (Drain b))
  | Drain b =>
      Some (S_ (word s) 0 (arming s) (trap s) (upd (frames s) f (Chk b (pend s))) (called s))
  | Chk b p => Some (set_frame s f (Disp b p (Z.eqb p 0 && negb (Z.eqb (pend s) 0))))
  | Disp b p d =>
      match lowest p with
      | None => Some (set_frame s f (GcQ b d))
      | Some n =>
          match trap s n with
          | TCall => Some (S_ (word s) (pend s) (arming s) (trap s) (upd (frames s) f (Hand b n d)) (n :: called s))
          | TError => Some (set_frame s f Idle)                 (* return None *)
          | TNothing => Some (set_frame s f (GcQ b d))
          end
      end
  | Hand b n d => Some (set_frame s f (if raises c then Idle else GcQ b d))
  | GcQ b d => Some (set_frame s f (if lane_set (word s) GC_MASK && negb d then Coll b else End b))
  | Coll b => Some (set_frame (set_word s (clear_lane (word s) GC_MASK)) f (Rearm b))
  | Rearm b => Some (set_frame (if stress c then set_word s (set_lane (word s) GC_LANE) else s) f (End b))
  | End b => Some (set_frame s f Idle)
  end.

Definition step (s : state) (l : label) : option state :=
  match l with
  | Tick => Some (set_word s (set_lane (word s) PREEMPT_LANE))
  | Request => Some (set_word s (set_lane (word s) GC_LANE))
  | Signal n =>
      Some (S_ (word s) (if known n then record (pend s) n else pend s) (S (arming s)) (trap s) (frames s) (called s))
  | Arm =>
      match arming s with
      | O => None
      | S k => Some (S_ (set_lane (word s) SIGNAL_LANE) (pend s) k (trap s) (frames s) (called s))
      end
  | Trap n d => Some (S_ (word s) (pend s) (arming s) (upd (trap s) n d) (frames s) (called s))
  | Enter f =>
      match frames s f with
      | Idle => if Z.eqb (word s) 0 then None else Some (set_frame s f Pre)
      | _ => None
      end
  | Step f c => poll_step s f c
  end.

Fixpoint steps (s : state) (ls : list label) : option state :=
  match ls with
  | [] => Some s
  | l :: ls => match step s l with Some s' => steps s' ls | None => None end
  end.
