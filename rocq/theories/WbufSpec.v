(** What C32 asks of the write side.

    [done_of] is how much of a call's data has been accepted; an accepted chunk is entered
    into a log at the step that accepts it, with the call it belongs to. *)

From Coq Require Import ZArith Bool List.
From Verif Require Import WbufModel.
Import ListNotations.
Local Open Scope Z_scope.

Definition done_of (c : call) : nat :=
  match c with Unused => 0%nat | Open _ d => d | Ended _ d _ => d end.
Definition data_of (c : call) : list Z :=
  match c with Unused => [] | Open d _ => d | Ended d _ _ => d end.

(** The bytes a step accepted from call [i]: data[done..done'] . *)
Definition chunk (i : nat) (s s' : state) : list Z :=
  firstn (done_of (calls s' i) - done_of (calls s i))
         (skipn (done_of (calls s i)) (data_of (calls s' i))).

Definition entry := (nat * list Z)%type.
Definition entries (l : label) (s s' : state) : list entry :=
  match l with
  | Start i _ | Try i _ _ | Abandon i | Nonblock i _ _ => [(i, chunk i s s')]
  | Flush _ | SetSync _ | Free => []
  end.

(** All bytes accepted, in the order in which they were accepted. *)
Definition accepted (log : list entry) : list Z := concat (map snd log).
(** Those of one call. *)
Definition from_call (i : nat) (log : list entry) : list Z :=
  accepted (filter (fun e => Nat.eqb (fst e) i) log).

Section History.
  Variable ok : state -> label -> Prop.
  Inductive history : state -> list entry -> Prop :=
  | H_init sy ty : history (init sy ty) []
  | H_step s log l s' : history s log -> ok s l -> step s l = Some s' ->
      history s' (log ++ entries l s s').
End History.

Definition any (s : state) (l : label) : Prop := True.
(** No write_nonblock while something is buffered, and the object is not collected with
    something in its buffer. *)
Definition plain (s : state) (l : label) : Prop :=
  match l with Nonblock _ _ _ | Free => buf (wb s) = [] | _ => True end.
