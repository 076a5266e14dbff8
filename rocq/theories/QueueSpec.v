(** * What a queue promises (C25, C53, C54) *)
From Coq Require Import List Bool Arith.
From Verif Require Import MutexModel MutexSpec QueueModel.
Import ListNotations.

Inductive qhistory (m : option nat) (ok : qstate -> qlabel -> Prop) : qstate -> Prop :=
| qh_init : qhistory m ok (qinit m)
| qh_step : forall s l s', qhistory m ok s -> ok s l -> qstep s l = Some s' -> qhistory m ok s'.

Definition any_step (s : qstate) (l : qlabel) : Prop := True.
(** No thread is interrupted inside a method of the queue; no fork; no report written
    inside a park. *)
Definition calm (s : qstate) (l : qlabel) : Prop :=
  match l with
  | QUnwind t => pcs s t = QOut
  | QFork _ | QReport _ => False
  | _ => True
  end.
(** Interrupts may arrive anywhere except between the moment a pop has taken an item and
    its return. *)
Definition no_loss (s : qstate) (l : qlabel) : Prop :=
  match l with
  | QUnwind t => match pcs s t with PopSig _ | Fin (RItem _) => False | _ => True end
  | _ => True
  end.

Definition lives (s : qstate) (t : nat) : Prop := alive (thr (mx s) t) = true.

(** The items taken out by pops of [t], in order; the items those pops returned; and
    the item a pop of [t] has taken but not yet returned. *)
Definition is_pop (t : nat) (e : nat * option nat) : bool :=
  match snd e with Some u => Nat.eqb u t | None => false end.
Definition taken (s : qstate) (t : nat) : list nat := map fst (filter (is_pop t) (gone s)).
Definition returned (s : qstate) (t : nat) : list nat := map snd (filter (fun e => Nat.eqb (fst e) t) (got s)).
Definition in_hand (s : qstate) (t : nat) : list nat :=
  match pcs s t with PopSig (RItem x) | Fin (RItem x) => [x] | _ => [] end.

(** Parked in pop, waiting for an item; parked in push, waiting for room. *)
Definition blocked (s : qstate) (c : cvar) (t : nat) : Prop :=
  lives s t /\ parked (thr (mx s) t) = true /\ at_ (thr (mx s) t) = SPark /\
  exists o, pcs s t = Parked o /\ cv_of o = c.
(** Some thread inside a method of this queue can run. *)
Definition goes_on (s : qstate) : Prop :=
  exists u, lives s u /\ pcs s u <> QOut /\ parked (thr (mx s) u) = false.
Definition has_room (s : qstate) : Prop :=
  match cap s with Some m => length (items s) < m | None => True end.

(** Interrupts arrive only while a thread waits in a queue; only between push's two
    steps of adding the item and signalling. *)
Definition in_wait (s : qstate) (l : qlabel) : Prop :=
  match l with
  | QUnwind t => exists o, pcs s t = Parked o
  | QFork _ | QReport _ => False
  | _ => True
  end.
Definition in_push (s : qstate) (l : qlabel) : Prop :=
  match l with
  | QUnwind t => pcs s t = Sig
  | QFork _ | QReport _ => False
  | _ => True
  end.
