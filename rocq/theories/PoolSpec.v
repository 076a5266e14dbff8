(** * What a blocking call on a worker promises (C31) *)
From Coq Require Import List Bool Arith.
From Verif Require Import PoolModel.
Import ListNotations.

Inductive history (ok : state -> label -> Prop) : state -> Prop :=
| h_init : history ok init
| h_step : forall s l s', history ok s -> ok s l -> step s l = Some s' -> history ok s'.
Definition any_step (s : state) (l : label) : Prop := True.

Definition ready (s : state) (id : nat) : Prop := exists r, In (id, r) (results s).
(** In run_blocking for ticket [id], not interrupted. *)
Definition waits (q : pc) (id : nat) : Prop := q = Try id \/ q = Parked id \/ q = Woken id.
Definition holds_ticket (q : pc) (id : nat) : Prop := waits q id \/ q = Hit id.

(** No thread empties the pipe while another one is parked whose result is there. *)
Definition clean_drain (s : state) (l : label) : Prop :=
  l = Drain -> forall t id, cpu s <> Some t -> thr s t = Parked id -> ~ ready s id.
(** One blocking call at a time. *)
Definition solo (s : state) (l : label) : Prop :=
  l = Submit -> forall t, thr s t = Out.

(** Nothing under way will put a byte into the pipe, no thread is about to be woken. *)
Definition stuck (s : state) (t id : nat) : Prop :=
  thr s t = Parked id /\ ready s id /\ pipe s = 0 /\ forall k, work s k <> WByte.
