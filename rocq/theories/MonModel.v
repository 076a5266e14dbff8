(** Monitor.

    Modelled: /repo/monoruby/builtins/monitor.rb:9-100 (enter, exit, try_enter,
    synchronize, owned?, locked?, wait), loaded by startup.rb:55. Each method is one step of a
    thread; switches between threads happen only between them. (Switches
    within a method give more histories.) *)
From Coq Require Import ZArith List Bool.
Import ListNotations.
Local Open Scope Z_scope.

Inductive op := Enter | TryEnter | Exit | Owned | Locked | Wait.
(** self or nil, true or false, ThreadError. *)
Inductive out := Done | Answer (b : bool) | Error.

(** @owner and @count *)
Record mon := mkM { owner : option nat; count : Z }.
Definition free : mon := mkM None 0.

Definition owns (t : nat) (s : mon) : bool :=
  match owner s with Some u => Nat.eqb u t | None => false end.

(** A call by the thread [t]. *)
Definition step (s : mon) (t : nat) (o : op) : mon * out :=
  match o with
  | Enter => (mkM (Some t) (count s + 1), Done)
  | TryEnter =>
      if owns t s then (mkM (owner s) (count s + 1), Answer true)
      else match owner s with
           | None => (mkM (Some t) 1, Answer true)
           | Some _ => (s, Answer false)
           end
  | Exit =>
      if negb (owns t s) && (0 <? count s) then (s, Error)
      else if 0 <? count s then
        let c := count s - 1 in
        (mkM (if c =? 0 then None else owner s) c, Done)
      else (s, Done)
  | Owned => (s, Answer (owns t s))
  | Locked => (s, Answer (0 <? count s))
  | Wait => (s, Done)
  end.

(** Histories of calls by threads. *)
Fixpoint run (s : mon) (h : list (nat * op)) : mon * list out :=
  match h with
  | [] => (s, [])
  | (t, o) :: r => let '(s', x) := step s t o in let '(s'', xs) := run s' r in (s'', x :: xs)
  end.

(** synchronize: exit comes after the block even if that raises. *)
Definition sync (t : nat) (h : list (nat * op)) : list (nat * op) := (t, Enter) :: h ++ [(t, Exit)].
