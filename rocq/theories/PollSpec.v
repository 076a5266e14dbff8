(** * What the safepoint poll promises (C28, C29) *)
From Coq Require Import ZArith Bool List.
From Verif Require Import PollModel.
Import ListNotations.
Local Open Scope Z_scope.

(** What is still owed: a time-slice decision to the last tick, a collection to the last
    request, a call of the trap handler to each signal. *)
Record debt := D { tick : bool; gcreq : bool; owed : nat -> bool }.

Definition account (s : state) (l : label) (d : debt) : debt :=
  match l with
  | Tick => D true (gcreq d) (owed d)
  | Request => D (tick d) true (owed d)
  | Signal n => D (tick d) (gcreq d) (upd (owed d) n true)
  | Step f c =>
      match frames s f with
      | End true => D false (gcreq d) (owed d)                (* switches, or need not *)
      | Coll _ => D (tick d) false (owed d)                   (* the collection is complete *)
      | Rearm _ => if stress c then D (tick d) true (owed d) else d
      | Disp _ p _ =>
          match lowest p with
          | Some n => match trap s n with
                      | TCall => D (tick d) (gcreq d) (upd (owed d) n false)  (* the handler is called *)
                      | _ => d
                      end
          | None => d
          end
      | _ => d
      end
  | _ => d
  end.

Inductive history (ok : state -> label -> Prop) : state -> debt -> Prop :=
| h_init : history ok init (D false false (fun _ => false))
| h_step : forall s d l s', history ok s d -> ok s l -> step s l = Some s' -> history ok s' (account s l d).

Definition any_step (s : state) (l : label) : Prop := True.

Definition gc_lane (s : state) : bool := lane_set (word s) GC_MASK.
Definition preempt_lane (s : state) : bool := lane_set (word s) PREEMPT_MASK.
Definition signal_lane (s : state) : bool := lane_set (word s) SIGNAL_MASK.
Definition pending (s : state) (n : nat) : bool := Z.testbit (pend s) (Z.of_nat n - 1).

(** A poll has seen the tick and has not come to its time-slice decision. *)
Definition carries (q : pc) : bool :=
  match q with
  | PreClr => true
  | SigQ b | SigClr b | Drain b | Chk b _ | Disp b _ _ | Hand b _ _ | GcQ b _ | Coll b | Rearm b | End b => b
  | _ => false
  end.
(** The signals a poll has taken out of the bitmap and not yet dispatched. *)
Definition in_hand (q : pc) (n : nat) : bool :=
  match q with Chk _ p | Disp _ p _ => Z.testbit p (Z.of_nat n - 1) | _ => false end.

(** No poll that has consumed a tick ends with an exception from its signal. *)
Definition no_raise (s : state) (l : label) : Prop :=
  match l with
  | Step f c =>
      match frames s f with
      | Disp true p _ => match lowest p with Some n => trap s n <> TError | None => True end
      | Hand true _ _ => raises c = false
      | _ => True
      end
  | _ => True
  end.

(** [n] is trapped throughout, and whenever a poll dispatches signals it took and [n] is
    among them, [n] is the lowest. *)
Definition trapped_alone (n : nat) (s : state) (l : label) : Prop :=
  match l with
  | Signal m => m = n -> trap s n = TCall
  | Trap m d => m = n -> d = TCall
  | Step f c =>
      match frames s f with
      | Disp _ p _ => Z.testbit p (Z.of_nat n - 1) = true -> lowest p = Some n
      | _ => True
      end
  | _ => True
  end.

(** Nothing is going on and nothing is pending. *)
Definition quiet (s : state) : Prop :=
  word s = 0 /\ pend s = 0 /\ arming s = 0%nat /\ forall f, frames s f = Idle.

(** A whole poll in frame [f] that nothing interferes with. *)
Definition whole (f : nat) (c : choice) (k : nat) : list label := Enter f :: repeat (Step f c) k.
(** Its signal part ends without an exception. *)
Definition fine (s : state) (c : choice) : Prop :=
  delivery c = false \/
  match lowest (pend s) with Some n => trap s n <> TError /\ raises c = false | None => True end.
