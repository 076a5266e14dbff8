(** * What the scheduler owes the threads (C26, C27) *)

From Coq Require Import ZArith List Bool Arith.
From Verif Require Import SchedModel.
Import ListNotations.
Open Scope Z_scope.

(** Histories from the start of the interpreter. *)
Inductive history (ok : label -> Prop) : state -> Prop :=
| hist_init : forall t0, history ok (init t0)
| hist_step : forall st l st', history ok st -> ok l -> exec st l = Some st' -> history ok st'.

Definition any_label (l : label) : Prop := True.

(** No [fork] with other threads alive, no fd wait with a time limit. *)
Definition plain (l : label) : Prop :=
  match l with
  | LFork => False
  | LWait _ (Some _) => False
  | _ => True
  end.

Definition thread (st : state) (t : nat) : thr := ths (fst st) t.
Definition runs (st : state) (t : nat) : Prop :=
  match snd st with RunMain => t = 0%nat | RunGreen u _ => t = u | _ => False end.

(** C27: each green thread is queued at most once, never while it runs, and the
    queue holds only threads that can run. *)
Definition queue_ok (st : state) : Prop :=
  NoDup (ready (fst st)) /\
  forall t, In t (ready (fst st)) ->
    t <> 0%nat /\ ~ runs st t /\ (stt (thread st t) = Created \/ stt (thread st t) = Runnable).

(** No runnable thread is forgotten. *)
Definition none_lost (st : state) : Prop :=
  forall t, t <> 0%nat -> stt (thread st t) = Created \/ stt (thread st t) = Runnable ->
    In t (ready (fst st)) \/ runs st t.

(** C26: the label is somebody waking or interrupting [t]. *)
Definition wakes (l : label) (t : nat) : Prop :=
  match l with
  | LWakeup u _ => u = t
  | LInterrupt u _ => u = t
  | LTermAll => True
  | LExit (Some _) => t = 0%nat          (* the exception is forwarded to main *)
  | _ => False
  end.

(** The sleep of [t] may end here without anybody waking it. *)
Definition time_up (st : state) (t : nat) : Prop :=
  exists d, dl (thread st t) = Some d /\ d <= now (fst st).

(** C50: the interrupt [i] may be delivered to [x] now ([b]: at a blocking call). *)
Definition permitted (x : thr) (b : bool) (i : intr) : Prop :=
  unint x = false /\
  match i with
  | Kill => True
  | Raise c => mask x c = Immediate \/ mask x c = OnBlocking /\ b = true
  end.
(** The oldest permitted interrupt leaves the queue; the rest stays in order. *)
Definition takes_oldest (x : thr) (b : bool) (rest : list intr) : Prop :=
  exists l i r, pend x = l ++ i :: r /\ rest = l ++ r /\ permitted x b i /\
                forall j, In j l -> ~ permitted x b j.

(** The limit of a sleep of [d] begun at [n]: [n + d], or none when no duration is
    given or the clock cannot express it. *)
Definition limit_of (n : Z) (d l : option Z) : Prop :=
  match l with
  | Some x => exists z, d = Some z /\ x = n + z
  | None => forall z, d = Some z -> 2 ^ 63 * 10 ^ 9 < n + z
  end.
