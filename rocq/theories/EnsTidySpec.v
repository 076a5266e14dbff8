(** Programs in which nothing of what EnsSpec.v notes can happen. *)
From Coq Require Import Arith Bool List.
From Verif Require Import EnsModel EnsSpec.
Import ListNotations.

Section tidy.
Variable P : prog.

(** An action that never raises. *)
Definition safe (k : nat) : Prop :=
  forall tr, match p_ask P ((k, 0) :: tr) with Exc _ => False | _ => True end.

(** An ensure body: actions that never raise, conditionals and loops of
    them. *)
Fixpoint plain (s : stmt) : Prop :=
  let all := fix all (l : list stmt) : Prop :=
    match l with [] => True | s :: l => plain s /\ all l end in
  match s with
  | Act k => safe k
  | If_ k a b => safe k /\ all a /\ all b
  | While _ k b => safe k /\ all b
  | _ => False
  end.

Fixpoint plains (l : list stmt) : Prop :=
  match l with [] => True | s :: l => plain s /\ plains l end.

(** [p]: under an ensure of this frame; [r]: a retry here leaves no begin
    with ensure. *)
Fixpoint tidy (p r : bool) (s : stmt) : Prop :=
  let all := fix all (p r : bool) (l : list stmt) : Prop :=
    match l with [] => True | s :: l => tidy p r s /\ all p r l end in
  let allc := fix allc (p : bool) (l : list (nat * list stmt)) : Prop :=
    match l with [] => True | (_, b) :: l => all p true b /\ allc p l end in
  match s with
  | If_ _ a b => all p r a /\ all p r b
  | While _ _ b => all p r b
  | Begin body resc els ens =>
      all (p || some ens) (r && negb (some ens)) body
      /\ allc (p || some ens) resc
      /\ match els with
         | None => True
         | Some el => ens = None /\ all p r el
         end
      /\ (p && negb (some ens) = true -> resc = [])
      /\ match ens with None => True | Some eb => plains eb end
  | Retry => r = true
  | Catch _ b | CallB _ b | Block b => all false false b
  | _ => True
  end.

Fixpoint alls (p r : bool) (l : list stmt) : Prop :=
  match l with [] => True | s :: l => tidy p r s /\ alls p r l end.

Fixpoint allc (p : bool) (l : list (nat * list stmt)) : Prop :=
  match l with [] => True | (_, b) :: l => alls p true b /\ allc p l end.

Definition tidy_prog : Prop := forall f, alls false false (p_meth P f).

End tidy.
