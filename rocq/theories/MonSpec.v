(** Ruby's Monitor. *)
From Coq Require Import ZArith List Bool.
From Verif Require Import MonModel.
Import ListNotations.
Local Open Scope Z_scope.

(** None: the thread has to wait. A thread that waits for a condition leaves
    the monitor, and enters it later. *)
Definition ruby_step (s : mon) (t : nat) (o : op) : option (mon * out) :=
  match o with
  | Enter =>
      match owner s with
      | None => Some (mkM (Some t) 1, Done)
      | Some u => if Nat.eqb u t then Some (mkM (Some t) (count s + 1), Done) else None
      end
  | TryEnter =>
      match owner s with
      | None => Some (mkM (Some t) 1, Answer true)
      | Some u => if Nat.eqb u t then Some (mkM (Some t) (count s + 1), Answer true) else Some (s, Answer false)
      end
  | Exit =>
      match owner s with
      | Some u => if Nat.eqb u t then Some (if count s =? 1 then free else mkM (Some t) (count s - 1), Done)
                  else Some (s, Error)
      | None => Some (s, Error)
      end
  | Owned => Some (s, Answer (owns t s))
  | Locked => Some (s, Answer (match owner s with Some _ => true | None => false end))
  | Wait => if owns t s then Some (free, Done) else Some (s, Error)
  end.

Fixpoint ruby_run (s : mon) (h : list (nat * op)) : option (mon * list out) :=
  match h with
  | [] => Some (s, [])
  | (t, o) :: r =>
      match ruby_step s t o with
      | None => None
      | Some (s', x) => match ruby_run s' r with Some (s'', xs) => Some (s'', x :: xs) | None => None end
      end
  end.

(** How often a thread has entered and not left, by what its calls answered. *)
Fixpoint depth (t : nat) (d : Z) (h : list (nat * op)) (xs : list out) : Z :=
  match h, xs with
  | (u, o) :: h, x :: xs =>
      let d' :=
        if Nat.eqb u t then
          match o, x with
          | Enter, Done | TryEnter, Answer true => d + 1
          | Exit, Done => Z.max 0 (d - 1)
          | _, _ => d
          end
        else d in
      depth t d' h xs
  | _, _ => d
  end.
Definition inside (t : nat) (h : list (nat * op)) : Prop := 0 < depth t 0 h (snd (run free h)).

Definition no_wait (h : list (nat * op)) : Prop := forall t, ~ In (t, Wait) h.

(** The same answers, but for a ThreadError that is missing. *)
Definition agree (ruby here : out) : Prop := ruby = here \/ (ruby = Error /\ here = Done).

(** Code of one thread that enters only by synchronize. *)
Inductive blocks (t : nat) : list (nat * op) -> Prop :=
| blocks_nil : blocks t []
| blocks_ask o h : o = Owned \/ o = Locked -> blocks t h -> blocks t ((t, o) :: h)
| blocks_sync b h : blocks t b -> blocks t h -> blocks t (sync t b ++ h).

(** The states that Ruby's monitor has. *)
Definition fine (s : mon) : Prop :=
  match owner s with None => count s = 0 | Some _ => 0 < count s end.
