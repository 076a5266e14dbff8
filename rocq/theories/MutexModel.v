(** * Mutex (/repo/monoruby/builtins/thread.rb:404-526) as an interleaving system

    Each step is one stretch of Ruby code between two points where the running
    thread can be replaced: entry of a Ruby method, a loop's back edge, and
    [Thread.stop].  Natively implemented methods (Array#<<, #shift, #delete,
    Thread.current, Thread#alive?, __wakeup_permit) have no safepoint (only Ruby
    methods poll at their entry), so no other thread runs inside them.  Which
    runnable thread goes next is arbitrary.
    Simplified: Fibers are ignored (owner_fiber is only read by owned?); the
    interrupt queue is a label that unwinds a thread at a place where it can be
    delivered; time-outs are a label that ends a park. *)

From Coq Require Import List Bool Arith.
Import ListNotations.

(** Where a thread is. [un]: inside [Thread.__uninterruptible], i.e. in the
    re-acquisition of Mutex#sleep. *)
Inductive cont := KReturn | KSleep.       (* what follows unlock: return, or Mutex#sleep's park *)
Inductive pc :=
| Out                                     (* not in any method of this Mutex *)
| LTop (un : bool)                        (* in lock, at the entry of try_lock *)
| LReclaim (un : bool)                    (* read a dead owner, not yet cleared it *)
| LReg (un : bool)                        (* registered in @waiters, not yet parked *)
| LIo (un : bool)                         (* writing a pending report inside Thread.stop *)
| LPark (un : bool)                       (* parked by Thread.stop *)
| UEntry (k : cont)                       (* at the entry of unlock *)
| ULoop (k : cont)                        (* back edge of unlock's loop *)
| SReg | SPark.                           (* Mutex#sleep: before its park, parked *)

Record th := Th {
  at_ : pc;
  alive : bool;
  parked : bool;                          (* ThreadState::Sleeping *)
  permit : bool;                          (* park_permit *)
  holds : bool                            (* between return of lock and unlock; not in the source *)
}.
Definition th0 : th := Th Out true false false false.
Definition goto (x : th) (p : pc) : th := Th p (alive x) (parked x) (permit x) (holds x).
Definition set_parked (x : th) (b : bool) : th := Th (at_ x) (alive x) b (permit x) (holds x).
Definition set_permit (x : th) (b : bool) : th := Th (at_ x) (alive x) (parked x) b (holds x).
Definition set_holds (x : th) (b : bool) : th := Th (at_ x) (alive x) (parked x) (permit x) b.
Definition die (x : th) : th := Th Out false false (permit x) false.

Record state := St {
  thr : nat -> th;
  owner : option nat;                     (* @owner *)
  waiters : list nat                      (* @waiters *)
}.
Definition upd (f : nat -> th) (t : nat) (x : th) : nat -> th :=
  fun u => if Nat.eqb u t then x else f u.
Definition set (s : state) (t : nat) (x : th) : state := St (upd (thr s) t x) (owner s) (waiters s).
Definition set_owner (s : state) (o : option nat) : state := St (thr s) o (waiters s).
Definition set_waiters (s : state) (w : list nat) : state := St (thr s) (owner s) w.
Definition init : state := St (fun _ => th0) None [].

(** Array#delete *)
Definition delete (t : nat) (l : list nat) : list nat := filter (fun u => negb (Nat.eqb u t)) l.

(** scheduler.rs:441-467 ([p]: __wakeup_permit). A thread inside the write of a
    report is waiting for a descriptor: neither asleep nor runnable. *)
Definition wakeup (s : state) (t : nat) (p : bool) : state :=
  let x := thr s t in
  if alive x then
    if parked x then set s t (set_parked x false)
    else match at_ x with
         | LIo _ => s
         | _ => if p then set s t (set_permit x true) else s
         end
  else s.

(** After unlock's work: return, or go on in Mutex#sleep. *)
Definition after (k : cont) : pc := match k with KReturn => Out | KSleep => SReg end.

(** One turn of unlock's loop, thread.rb:482-495. *)
Definition unlock_turn (s : state) (t : nat) (k : cont) : state :=
  match waiters s with
  | [] => set s t (goto (thr s t) (after k))
  | w :: r =>
      let s1 := set_waiters s r in
      if alive (thr s1 w) then
        let s2 := wakeup s1 w true in set s2 t (goto (thr s2 t) (after k))
      else set s1 t (goto (thr s1 t) (ULoop k))
  end.

(** The running thread's steps. [poll]: [alive?] has a safepoint (a Thread
    subclass that defines it in Ruby). *)
Definition run (poll : bool) (s : state) (t : nat) : option state :=
  let x := thr s t in
  match at_ x with
  | Out => None
  | LTop un =>                                                (* 438-471, 418-434 *)
      match owner s with
      | None => Some (set (set_owner s (Some t)) t (set_holds (goto x Out) true))
      | Some o =>
          if alive (thr s o) then
            Some (set (set_waiters s (waiters s ++ [t])) t (goto x (LReg un)))
          else if poll then Some (set s t (goto x (LReclaim un)))
          else Some (set_owner s None)
      end
  | LReclaim un => if poll then Some (set (set_owner s None) t (goto x (LTop un))) else None
  | LReg un =>                                                (* scheduler.rs:473-541 *)
      if permit x then Some (set (set_waiters s (delete t (waiters s))) t
                                 (set_permit (goto x (LTop un)) false))
      else Some (set s t (set_parked (goto x (LPark un)) true))
  | LIo un => Some (set s t (goto x (LReg un)))
  | LPark un =>
      if parked x then None
      else Some (set (set_waiters s (delete t (waiters s))) t (goto x (LTop un)))
  | UEntry k =>                                               (* 473-498 *)
      match owner s with
      | Some o => if Nat.eqb o t then
                    Some (unlock_turn (set (set_owner s None) t (set_holds x false)) t k)
                  else Some (set s t (goto x Out))
      | None => Some (set s t (goto x Out))
      end
  | ULoop k => Some (unlock_turn s t k)
  | SReg => if permit x then Some (set s t (set_permit (goto x (LTop true)) false))
            else Some (set s t (set_parked (goto x SPark) true))
  | SPark => if parked x then None else Some (set s t (goto x (LTop true)))
  end.

(** A raise or kill delivered to [t]: the ensure clauses run. *)
Definition unwind (s : state) (t : nat) : option state :=
  let x := set_parked (thr s t) false in
  match at_ x with
  | Out => Some s
  | LTop false | LReclaim false => Some (set s t (goto x Out))
  | LReg false | LPark false => Some (set (set_waiters s (delete t (waiters s))) t (goto x Out))
  | UEntry _ | ULoop _ => Some (set s t (goto x Out))
  | SReg | SPark => Some (set s t (goto x (LTop true)))
  | _ => None
  end.

Inductive label :=
| Lock (t : nat)            (* call lock *)
| TryLock (t : nat)
| Unlock (t : nat)          (* call unlock: also synchronize's ensure *)
| Sleep (t : nat)           (* call Mutex#sleep: ConditionVariable#wait *)
| Run (t : nat)             (* [t] runs to its next switch point *)
| Report (t : nat)          (* [t] has a report to write inside Thread.stop *)
| Wakeup (t : nat) (p : bool)
| Consume (t : nat)         (* [t] parks elsewhere and uses up its permit *)
| Unwind (t : nat)
| Die (t : nat)             (* the body of [t] ends *)
| Fork (t : nat).           (* [t] forks: in the child the others are dead *)

Definition is_out (p : pc) : bool := match p with Out => true | _ => false end.

Definition step (poll : bool) (s : state) (l : label) : option state :=
  match l with
  | Lock t =>
      let x := thr s t in
      if alive x && is_out (at_ x) then
        if match owner s with Some o => Nat.eqb o t | None => false end
        then Some s                                            (* ThreadError *)
        else Some (set s t (goto x (LTop false)))
      else None
  | TryLock t =>
      let x := thr s t in
      if alive x && is_out (at_ x) then
        match owner s with
        | None => Some (set (set_owner s (Some t)) t (set_holds x true))
        | Some _ => Some s
        end
      else None
  | Unlock t =>
      let x := thr s t in
      if alive x && is_out (at_ x) then Some (set s t (goto x (UEntry KReturn))) else None
  | Sleep t =>
      let x := thr s t in
      if alive x && is_out (at_ x) then
        if match owner s with Some o => Nat.eqb o t | None => false end
        then Some (set s t (goto x (UEntry KSleep)))
        else Some s                                            (* ThreadError *)
      else None
  | Run t => if alive (thr s t) then run poll s t else None
  | Report t =>
      let x := thr s t in
      match at_ x with
      | LReg un => if alive x then Some (set s t (goto x (LIo un))) else None
      | _ => None
      end
  | Wakeup t p => Some (wakeup s t p)
  | Consume t => if is_out (at_ (thr s t)) then Some (set s t (set_permit (thr s t) false)) else None
  | Unwind t => if alive (thr s t) then unwind s t else None
  | Die t => if alive (thr s t) && is_out (at_ (thr s t)) then Some (set s t (die (thr s t))) else None
  | Fork t => if alive (thr s t) then
                Some (St (fun u => if Nat.eqb u t then thr s u else die (thr s u)) (owner s) (waiters s))
              else None
  end.

Fixpoint steps (poll : bool) (s : state) (ls : list label) : option state :=
  match ls with
  | [] => Some s
  | l :: r => match step poll s l with Some s' => steps poll s' r | None => None end
  end.
