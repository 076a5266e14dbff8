(** * Blocking calls on native workers (/repo/monoruby/src/native_pool.rs)

    Green threads run one at a time; a thread leaves the processor only when it parks (or
    outside run_blocking).  Worker threads step at any time.  The scheduler
    (scheduler.rs:1079-1105) polls the descriptors before every dispatch.  Which ready
    thread is dispatched is left open.  Ticket numbers do not wrap; write(2) of one byte to
    the pipe succeeds. *)

From Coq Require Import List Bool Arith.
Import ListNotations.

(** Where a green thread is. *)
Inductive pc :=
| Out                      (* not in run_blocking, runnable *)
| Try (id : nat)           (* 196 at try_take *)
| Parked (id : nat)        (* in wait_fd, IoWaiting on the pipe *)
| Woken (id : nat)         (* made Runnable by poll_io_waiters *)
| Hit (id : nat).          (* an interrupt will make its wait_fd return an error *)

Inductive worker :=
| WNone
| WRun                     (* in run_op *)
| WByte                    (* 126: result stored, at write(2) *)
| WDone.

Record state := P_ {
  next : nat;                         (* NEXT_ID *)
  results : list (nat * nat);         (* RESULTS *)
  orphans : list nat;                 (* ORPHANS *)
  pipe : nat;                         (* bytes in the pipe *)
  work : nat -> worker;
  thr : nat -> pc;
  cpu : option nat;                   (* the running green thread; None: scheduler_loop *)
  polled : bool;                      (* poll_io_waiters has run in this turn of the loop *)
  (* not in the source: *)
  owner : nat -> option nat;          (* who submitted a ticket *)
  outcome : nat -> option nat;        (* what its operation returned *)
  got : list (nat * nat * nat)        (* run_blocking returned: thread, ticket, result *)
}.

Definition init : state :=
  P_ 1 [] [] 0 (fun _ => WNone) (fun _ => Out) None false (fun _ => None) (fun _ => None) [].

Definition upd {A} (g : nat -> A) (k : nat) (v : A) : nat -> A :=
  fun j => if Nat.eqb j k then v else g j.

(** HashMap::remove. *)
Fixpoint take (id : nat) (l : list (nat * nat)) : option nat * list (nat * nat) :=
  match l with
  | [] => (None, [])
  | (k, v) :: l =>
      if Nat.eqb k id then (Some v, l)
      else let (r, l') := take id l in (r, (k, v) :: l')
  end.
Definition mem (id : nat) (l : list nat) : bool := existsb (Nat.eqb id) l.
Definition drop (id : nat) (l : list nat) : list nat := filter (fun k => negb (Nat.eqb k id)) l.

Inductive label :=
| Submit                   (* 195, 107-135 *)
| TryTake                  (* 196, and parking in wait_fd *)
| Drain                    (* 203 drain *)
| Discard                  (* 200 discard *)
| Yield                    (* outside run_blocking *)
| Poll                     (* poll_io_waiters *)
| Dispatch (t : nat)
| Interrupt (t : nat)      (* kill or raise *)
| Complete (id r : nat)    (* a worker's operation returns: 113-124 *)
| Byte (id : nat).         (* 126-133 *)

Definition set_thr (s : state) t q c :=
  P_ (next s) (results s) (orphans s) (pipe s) (work s) (upd (thr s) t q) c (polled s) (owner s) (outcome s) (got s).

Definition wake (q : pc) : pc := match q with Parked id => Woken id | _ => q end.

Definition step (s : state) (l : label) : option state :=
  match l, cpu s with
  | Submit, Some t =>
      match thr s t with
      | Out => Some (P_ (S (next s)) (results s) (orphans s) (pipe s) (upd (work s) (next s) WRun)
                       (upd (thr s) t (Try (next s))) (cpu s) (polled s)
                       (upd (owner s) (next s) (Some t)) (outcome s) (got s))
      | _ => None
      end
  | TryTake, Some t =>
      match thr s t with
      | Try id =>
          match take id (results s) with
          | (Some r, rs) =>
              Some (P_ (next s) rs (orphans s) (pipe s) (work s) (upd (thr s) t Out) (cpu s) (polled s)
                       (owner s) (outcome s) (got s ++ [(t, id, r)]))
          | (None, _) =>
              Some (P_ (next s) (results s) (orphans s) (pipe s) (work s) (upd (thr s) t (Parked id)) None false
                       (owner s) (outcome s) (got s))
          end
      | _ => None
      end
  | Drain, Some t =>
      match thr s t with
      | Woken id =>
          Some (P_ (next s) (results s) (orphans s) 0 (work s) (upd (thr s) t (Try id)) (cpu s) (polled s)
                   (owner s) (outcome s) (got s))
      | _ => None
      end
  | Discard, Some t =>
      match thr s t with
      | Hit id =>
          match take id (results s) with
          | (Some _, rs) =>
              Some (P_ (next s) rs (orphans s) (pipe s) (work s) (upd (thr s) t Out) (cpu s) (polled s)
                       (owner s) (outcome s) (got s))
          | (None, _) =>
              Some (P_ (next s) (results s) (id :: orphans s) (pipe s) (work s) (upd (thr s) t Out) (cpu s) (polled s)
                       (owner s) (outcome s) (got s))
          end
      | _ => None
      end
  | Yield, Some t =>
      match thr s t with
      | Out => Some (P_ (next s) (results s) (orphans s) (pipe s) (work s) (thr s) None false (owner s) (outcome s) (got s))
      | _ => None
      end
  | Poll, None =>
      Some (P_ (next s) (results s) (orphans s) (pipe s) (work s)
               (match pipe s with O => thr s | S _ => fun t => wake (thr s t) end) None true
               (owner s) (outcome s) (got s))
  | Dispatch t, None =>
      if polled s
      then match thr s t with
           | Parked _ => None
           | _ => Some (set_thr s t (thr s t) (Some t))
           end
      else None
  | Interrupt t, Some u =>
      (* the running thread interrupts another one, or - at wait_fd's entry - is itself found
         to have a pending interrupt *)
      match thr s t with
      | Parked id | Woken id | Try id => Some (set_thr s t (Hit id) (cpu s))
      | _ => None
      end
  | Complete id r, _ =>
      match work s id with
      | WRun =>
          if mem id (orphans s)
          then Some (P_ (next s) (results s) (drop id (orphans s)) (pipe s) (upd (work s) id WDone) (thr s) (cpu s)
                        (polled s) (owner s) (upd (outcome s) id (Some r)) (got s))
          else Some (P_ (next s) ((id, r) :: results s) (orphans s) (pipe s) (upd (work s) id WByte) (thr s) (cpu s)
                        (polled s) (owner s) (upd (outcome s) id (Some r)) (got s))
      | _ => None
      end
  | Byte id, _ =>
      match work s id with
      | WByte => Some (P_ (next s) (results s) (orphans s) (S (pipe s)) (upd (work s) id WDone) (thr s) (cpu s)
                          (polled s) (owner s) (outcome s) (got s))
      | _ => None
      end
  | _, _ => None
  end.

Fixpoint steps (s : state) (ls : list label) : option state :=
  match ls with
  | [] => Some s
  | l :: ls => match step s l with Some s' => steps s' ls | None => None end
  end.
