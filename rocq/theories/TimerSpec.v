(** * When a timer must tick (C30) *)
From Coq Require Import List Bool Arith.
From Verif Require Import TimerModel.

Inductive history (ok : state -> label -> Prop) : state -> Prop :=
| h_init : history ok init
| h_step : forall s l s', history ok s -> ok s l -> step s l = Some s' -> history ok s'.
Definition any_step (s : state) (l : label) : Prop := True.
Definition no_fork (s : state) (l : label) : Prop := l <> Fork.
(** No fork, and no thread count of two or more is handled while the old timer has decided
    to stop and has not finished. *)
Definition no_race (s : state) (l : label) : Prop :=
  l <> Fork /\ (l = Check -> tm s <> Returning).

(** The timer thread exists and will tick. *)
Definition alive (s : state) : Prop :=
  stop s = false /\ (tm s = Sleeping \/ tm s = Loading \/ tm s = Ticking).
(** The timer thread, left alone, never ticks again. *)
Definition dead (s : state) : Prop :=
  forall k s', steps s (List.repeat Timer k) = Some s' -> ticks s' = ticks s.
