(** * Queue and SizedQueue (/repo/monoruby/builtins/thread.rb:528-764) and
    ConditionVariable (766-818) on top of the Mutex of MutexModel.v

    As there, a step is the Ruby code between two safepoints (entry of a Ruby
    method, loop back edge, park), any thread may go next, and an interrupt
    unwinds a thread through its ensure clauses.  Items are numbers; which
    wait is given up because its time is over is chosen freely. *)

From Coq Require Import List Bool Arith.
From Verif Require Import MutexModel.
Import ListNotations.

Inductive op :=
| Push (x : nat) (nb : bool)              (* [nb]: non_block *)
| Pop (nb : bool)
| Close
| Clear
| Resize (m : nat).                       (* SizedQueue#max= *)

Inductive result := RNil | RItem (x : nat) | ROk | RErr.   (* nil, an item, self, an exception *)

Inductive cvar := CPop | CPush.           (* @cv_pop, @cv_push *)
Definition cv_of (o : op) : cvar := match o with Push _ _ => CPush | _ => CPop end.

(** Where a thread is in the methods of the queue. *)
Inductive qpc :=
| QOut
| Body (o : op)            (* calling @mutex.lock, or holding it at the start of the block or loop *)
| Sig                      (* push: the item is in, at the entry or back edge of @cv_pop.signal *)
| Take                     (* pop: at the entry of __pop_locked *)
| PopSig (r : result)      (* SizedQueue#__pop_locked: in @cv_push.signal *)
| Wait (o : op)            (* at the entry of ConditionVariable#wait *)
| Reg (o : op)             (* registered in @waiters, at the entry of mutex.sleep *)
| Parked (o : op)          (* in mutex.sleep *)
| Raising (o : op)         (* in mutex.sleep, with an exception to raise once the lock is back *)
| Cast (c : cvar)          (* in broadcast *)
| Fin (r : result).        (* in the ensure clause's unlock *)

Record qstate := Q {
  mx : state;                             (* @mutex, and the threads *)
  pcs : nat -> qpc;
  items : list nat;                       (* @items *)
  closed : bool;                          (* @closed *)
  cap : option nat;                       (* @max; None: a plain Queue *)
  cvp : list nat;                         (* @cv_pop's @waiters *)
  cvs : list nat;                         (* @cv_push's @waiters *)
  (* not in the source: *)
  pushed : list nat;                      (* every item put in *)
  gone : list (nat * option nat);         (* every item taken out: by a pop of a thread, or by clear *)
  got : list (nat * nat)                  (* items returned by pop: thread, item *)
}.

Definition set_mx (s : qstate) m := Q m (pcs s) (items s) (closed s) (cap s) (cvp s) (cvs s) (pushed s) (gone s) (got s).
Definition set_pc (s : qstate) t p :=
  Q (mx s) (fun u => if Nat.eqb u t then p else pcs s u) (items s) (closed s) (cap s) (cvp s) (cvs s) (pushed s) (gone s) (got s).
Definition set_items (s : qstate) l p g := Q (mx s) (pcs s) l (closed s) (cap s) (cvp s) (cvs s) p g (got s).
Definition set_closed (s : qstate) := Q (mx s) (pcs s) (items s) true (cap s) (cvp s) (cvs s) (pushed s) (gone s) (got s).
Definition set_cap (s : qstate) m := Q (mx s) (pcs s) (items s) (closed s) (Some m) (cvp s) (cvs s) (pushed s) (gone s) (got s).
Definition set_got (s : qstate) g := Q (mx s) (pcs s) (items s) (closed s) (cap s) (cvp s) (cvs s) (pushed s) (gone s) g.
Definition cv (s : qstate) (c : cvar) : list nat := match c with CPop => cvp s | CPush => cvs s end.
Definition set_cv (s : qstate) (c : cvar) (l : list nat) :=
  match c with
  | CPop => Q (mx s) (pcs s) (items s) (closed s) (cap s) l (cvs s) (pushed s) (gone s) (got s)
  | CPush => Q (mx s) (pcs s) (items s) (closed s) (cap s) (cvp s) l (pushed s) (gone s) (got s)
  end.

(** Queue.new / SizedQueue.new(max) *)
Definition qinit (m : option nat) : qstate := Q init (fun _ => QOut) [] false m [] [] [] [] [].

(** Leave the block of synchronize: its ensure clause calls unlock (492-500). *)
Definition finish (s : qstate) (t : nat) (r : result) : qstate :=
  match step false (mx s) (Unlock t) with
  | Some m => set_pc (set_mx s m) t (Fin r)
  | None => s
  end.

(** One turn of ConditionVariable#signal's loop (793-803); [true]: the loop goes on. *)
Definition signal (s : qstate) (c : cvar) : qstate * bool :=
  match cv s c with
  | [] => (s, false)
  | w :: r =>
      let s1 := set_cv s c r in
      if alive (thr (mx s1) w) then (set_mx s1 (wakeup (mx s1) w true), false) else (s1, true)
  end.
Definition unregister (s : qstate) (c : cvar) (t : nat) : qstate := set_cv s c (delete t (cv s c)).

Definition full (s : qstate) : bool :=
  match cap s with Some m => negb (Nat.ltb (length (items s)) m) | None => false end.

(** A call of a method: up to the entry of @mutex.lock. *)
Definition qcall (s : qstate) (t : nat) (o : op) : option qstate :=
  match pcs s t, step false (mx s) (Lock t) with
  | QOut, Some m =>
      if is_out (at_ (thr m t)) then Some s                   (* ThreadError: recursive locking *)
      else Some (set_pc (set_mx s m) t (Body o))
  | _, _ => None
  end.

(** A step of the queue's own code, in a thread that is not inside the Mutex's methods.
    [timed]: the deadline of the call has passed. *)
Definition turn (s : qstate) (t : nat) (timed : bool) : option qstate :=
  match pcs s t with
  | QOut => None
  | Body (Push x nb as o) =>                                  (* 566-573, 708-729 *)
      if closed s then Some (finish s t RErr)
      else if full s then
        if nb then Some (finish s t RErr)
        else if timed then Some (finish s t RNil)
        else Some (set_pc s t (Wait o))
      else Some (set_pc (set_items s (items s ++ [x]) (pushed s ++ [x]) (gone s)) t Sig)
  | Body (Pop nb as o) =>                                     (* 602-622 *)
      match items s with
      | _ :: _ => Some (set_pc s t Take)
      | [] => if nb then Some (finish s t RErr)
              else if closed s then Some (finish s t RNil)
              else if timed then Some (finish s t RNil)
              else Some (set_pc s t (Wait o))
      end
  | Body Close =>                                             (* 641-648, 742-750 *)
      if closed s then Some (finish s t ROk) else Some (set_pc (set_closed s) t (Cast CPop))
  | Body Clear =>                                             (* 634-637, 733-740 *)
      let s1 := set_items s [] (pushed s) (gone s ++ map (fun x => (x, None)) (items s)) in
      match cap s with Some _ => Some (set_pc s1 t (Cast CPush)) | None => Some (finish s1 t ROk) end
  | Body (Resize m) =>                                        (* 697-706 *)
      match cap s with
      | Some m0 => if Nat.ltb m0 m then Some (set_pc (set_cap s m) t (Cast CPush))
                   else Some (finish (set_cap s m) t ROk)
      | None => Some (finish s t RErr)
      end
  | Sig => let (s1, again) := signal s CPop in
           if again then Some s1 else Some (finish s1 t ROk)
  | Take =>                                                   (* 662-664, 758-763 *)
      let (s1, r) := match items s with
                     | x :: l => (set_items s l (pushed s) (gone s ++ [(x, Some t)]), RItem x)
                     | [] => (s, RNil)
                     end in
      match cap s with Some _ => Some (set_pc s1 t (PopSig r)) | None => Some (finish s1 t r) end
  | PopSig r => let (s1, again) := signal s CPush in
                if again then Some s1 else Some (finish s1 t r)
  | Wait o => Some (set_pc (set_cv s (cv_of o) (cv s (cv_of o) ++ [t])) t (Reg o))    (* 774-785 *)
  | Reg o =>
      match step false (mx s) (Sleep t) with
      | Some m => if is_out (at_ (thr m t)) then Some (finish (unregister s (cv_of o) t) t RErr)
                  else Some (set_pc (set_mx s m) t (Parked o))
      | None => None
      end
  | Parked o => Some (set_pc (unregister s (cv_of o) t) t (Body o))
  | Raising o => Some (finish (unregister s (cv_of o) t) t RErr)
  | Cast c =>                                                 (* 805-810 *)
      match cv s c with
      | _ :: _ => Some (fst (signal s c))
      | [] => match c, cap s with
              | CPop, Some _ => Some (set_pc s t (Cast CPush))
              | _, _ => Some (finish s t ROk)
              end
      end
  | Fin r => Some (set_pc (match r with RItem x => set_got s (got s ++ [(t, x)]) | _ => s end) t QOut)
  end.

Definition qrun (s : qstate) (t : nat) (timed : bool) : option qstate :=
  if alive (thr (mx s) t) then
    if is_out (at_ (thr (mx s) t)) then turn s t timed
    else match step false (mx s) (Run t) with
         | Some m => Some (set_mx s m)
         | None => None
         end
  else None.

(** A raise or kill delivered to [t] inside a method of the queue. *)
Definition qunwind (s : qstate) (t : nat) : option qstate :=
  if alive (thr (mx s) t) then
    if is_out (at_ (thr (mx s) t)) then
      match pcs s t with
      | QOut => Some s
      | Fin _ | Raising _ => None
      | Reg o | Parked o => Some (finish (unregister s (cv_of o) t) t RErr)
      | _ => Some (finish s t RErr)
      end
    else match step false (mx s) (Unwind t) with
         | None => None
         | Some m =>
             match pcs s t with
             | Body _ | Fin _ => Some (set_pc (set_mx s m) t QOut)
             | Parked o =>
                 if is_out (at_ (thr m t)) then Some (finish (unregister (set_mx s m) (cv_of o) t) t RErr)
                 else Some (set_pc (set_mx s m) t (Raising o))
             | _ => None
             end
         end
  else None.

Inductive qlabel :=
| Call (t : nat) (o : op)
| QRun (t : nat) (timed : bool)
| QUnwind (t : nat)
| QWakeup (t : nat) (p : bool)            (* Thread#wakeup or another __wakeup_permit *)
| QConsume (t : nat)
| QReport (t : nat)
| QDie (t : nat)
| QFork (t : nat).

Definition qout (p : qpc) : bool := match p with QOut => true | _ => false end.

Definition qstep (s : qstate) (l : qlabel) : option qstate :=
  let env (ok : bool) (l : label) :=
    if ok then match step false (mx s) l with Some m => Some (set_mx s m) | None => None end else None in
  match l with
  | Call t o => qcall s t o
  | QRun t timed => qrun s t timed
  | QUnwind t => qunwind s t
  | QWakeup t p => env true (Wakeup t p)
  | QConsume t => env (qout (pcs s t)) (Consume t)
  | QReport t => env true (Report t)
  | QDie t => env (qout (pcs s t)) (Die t)
  | QFork t => env true (Fork t)
  end.

Fixpoint qsteps (s : qstate) (ls : list qlabel) : option qstate :=
  match ls with
  | [] => Some s
  | l :: r => match qstep s l with Some s' => qsteps s' r | None => None end
  end.
