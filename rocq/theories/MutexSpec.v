(** * Mutual exclusion and waiting (C23, C24, C51, C52) *)
From Coq Require Import List Bool Arith.
From Verif Require Import MutexModel.
Import ListNotations.

Inductive history (poll : bool) (ok : state -> label -> Prop) : state -> Prop :=
| h_init : history poll ok init
| h_step : forall s l s', history poll ok s -> ok s l -> step poll s l = Some s' -> history poll ok s'.

Definition anything (s : state) (l : label) : Prop := True.

Definition holder (s : state) (t : nat) : Prop := alive (thr s t) = true /\ holds (thr s t) = true.

(** Blocked in Mutex#lock. *)
Definition in_lock (p : pc) : bool :=
  match p with LTop _ | LReclaim _ | LReg _ | LIo _ | LPark _ => true | _ => false end.
Definition stuck_waiter (s : state) (t : nat) : Prop :=
  alive (thr s t) = true /\ in_lock (at_ (thr s t)) = true /\ parked (thr s t) = true.
Definition runnable_waiter (s : state) (t : nat) : Prop :=
  alive (thr s t) = true /\ in_lock (at_ (thr s t)) = true /\ parked (thr s t) = false.

(** The mutex can be taken: nobody owns it, or its owner is dead ([locked?] is false). *)
Definition free (s : state) : Prop :=
  match owner s with None => True | Some o => alive (thr s o) = false end.
Definition taker_ready (s : state) : Prop :=
  free s -> forall t, stuck_waiter s t -> exists u, runnable_waiter s u.

(** No thread is unwound inside [lock] or inside [unlock]'s loop, none ends while
    holding the lock, no report is written inside [lock], no [fork]. *)
Definition orderly (s : state) (l : label) : Prop :=
  match l with
  | Unwind t => in_lock (at_ (thr s t)) = false /\ forall k, at_ (thr s t) <> ULoop k
  | Die t => holds (thr s t) = false
  | Report _ | Fork _ => False
  | _ => True
  end.

(** Parked by Mutex#sleep, or in the re-acquisition that follows. *)
Definition in_sleep (p : pc) : bool :=
  match p with SReg | SPark | LTop true | LReclaim true | LReg true | LIo true | LPark true => true | _ => false end.

(** [w] has been woken between [s] and [s']: its park ends, or its next one will. *)
Definition woken (s s' : state) (w : nat) : Prop :=
  parked (thr s' w) = false /\
  (parked (thr s w) = false -> (forall un, at_ (thr s w) <> LIo un) -> permit (thr s' w) = true).
Definition first_alive (s : state) : option nat := find (fun w => alive (thr s w)) (waiters s).

(** Between registering in @waiters and leaving them again. *)
Definition enrolled (p : pc) : bool := match p with LReg _ | LIo _ | LPark _ => true | _ => false end.
