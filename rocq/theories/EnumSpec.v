(** Ruby's external iteration as a cursor. *)
From Coq Require Import List Bool ZArith.
From Verif Require Import EnumModel.
Import ListNotations.
Open Scope Z_scope.

(** The cursor stands at what the producer does after the answers [given]. When that has been taken with next, the producer
    waits for an answer, which is the fed value or nil when it is asked for more. [over] is what the producer returned. *)
Record cursor := mkC { given : list Z; took : bool; fed : option Z; over : option Z }.
Definition start : cursor := mkC [] false None None.
Definition forward (c : cursor) : cursor :=
  if took c then mkC (given c ++ [match fed c with Some v => v | None => 0 end]) false None (over c) else c.
Definition one (l : list Z) : res := match l with [] => RVal 0 | [v] => RVal v | _ => RArr false l end.
Definition see (p : producer) (c : cursor) (take : bool) (k : list Z -> res) : cursor * res :=
  match over c with
  | Some r => (c, RStop r)
  | None =>
      let c := forward c in
      match p (given c) with
      | Yield l => (mkC (given c) take (fed c) None, k l)
      | Raw v => (mkC (given c) take (fed c) None, RVal v)
      | Return r => (mkC [] false None (Some r), RStop r)
      | Raise e => (mkC [] false (fed c) None, RErr e)
      end
  end.
Definition ruby_step (p : producer) (c : cursor) (o : op) : cursor * res :=
  match o with
  | Next => see p c true one
  | NextValues => see p c true (RArr false)
  | Peek => see p c false one
  | PeekValues => see p c false (RArr false)
  | Rewind => (start, RSelf)
  | Feed v => match fed c with Some _ => (c, RTypeErr) | None => (mkC (given c) (took c) (Some v) (over c), RVal 0) end
  end.
Fixpoint ruby_run (p : producer) (c : cursor) (l : list op) : list res :=
  match l with [] => [] | o :: l => let '(c, r) := ruby_step p c o in r :: ruby_run p c l end.
(** Arrays without the question whose they are. *)
Definition plain (r : res) : res := match r with RArr _ l => RArr false l | _ => r end.
(** A producer that only yields to its enumerator, and does something first. *)
Definition proper (p : producer) : Prop := forall h, match p h with Raw _ => False | _ => True end.
Definition busy (p : producer) : Prop := match p [] with Return _ => False | _ => True end.
