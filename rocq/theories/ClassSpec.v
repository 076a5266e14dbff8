(** Chains of classes, and the invariant of the class heap. *)
From Coq Require Import ZArith List Bool.
From Verif Require Import ClassModel.
Import ListNotations.
Open Scope Z_scope.

(** [l] is [a] followed by everything above it. *)
Inductive chain (h : heap) : nat -> list nat -> Prop :=
| chain_end a : sup h a = None -> chain h a [a]
| chain_next a b l : sup h a = Some b -> chain h b l -> chain h a (a :: l).

(** The ids along the chain of [a], without [a] itself. *)
Definition ids (h : heap) (l : list nat) : list Z := map (idof h) l.
Definition lineage (h : heap) (a : nat) : list Z := ids h (above h a).

(** [x] is what remains of [y] after leaving some elements out. *)
Inductive subseq {A} : list A -> list A -> Prop :=
| sub_nil l : subseq [] l
| sub_keep x l m : subseq l m -> subseq (x :: l) (x :: m)
| sub_skip x l m : subseq l m -> subseq l (x :: m).

(** What including [m] brings: [m] and the modules mixed into it, in order. *)
Fixpoint mixed (h : heap) (l : list nat) : list nat :=
  match l with [] => [] | x :: t => if nic (at_ h x) then x :: mixed h t else [] end.
Definition brings (h : heap) (m : nat) : list Z :=
  match norg (at_ h m) with
  | None => ids h (m :: mixed h (above h m))
  | Some _ => ids h (mixed h (above h m))
  end.

(** The states reached by any history of operations that did not crash. *)
Inductive reachable : state -> Prop :=
| reach_init : reachable init
| reach_step s o s' : reachable s -> (step s o = State s' \/ step s o = Raised s') -> reachable s'.

(** Every chain ends; only classes and iclasses are superclasses; an iclass is the
    superclass of one node only; the origin of a node is an iclass above it, below the
    next class. *)
Record hinv (h : heap) : Prop := {
  inv_chain : forall a, (a < length h)%nat -> exists l, chain h a l;
  inv_range : forall a b, sup h a = Some b -> (b < length h)%nat;
  inv_plain : forall a b, sup h a = Some b -> is_plain_module h b = false;
  inv_one : forall a b x, sup h a = Some x -> sup h b = Some x -> nic (at_ h x) = true -> a = b;
  inv_org : forall a o, norg (at_ h a) = Some o -> nic (at_ h a) = false /\
    nic (at_ h o) = true /\ idof h o = idof h a /\ In o (mixed h (above h a));
  inv_icm : forall a, nic (at_ h a) = true -> nmod (at_ h a) = true
}.
(** The table holds the heads; an iclass stands for a module or is the origin of
    its class. *)
Record inv (s : state) : Prop := {
  inv_heap : hinv (hp s);
  inv_tbl : forall i a, nth_error (tbl s) i = Some a ->
    (a < length (hp s))%nat /\ idof (hp s) a = Z.of_nat i /\ nic (at_ (hp s) a) = false;
  inv_head : forall a, (a < length (hp s))%nat -> nic (at_ (hp s) a) = false ->
    defined s (idof (hp s) a) = true /\ head s (idof (hp s) a) = a;
  inv_icl : forall a, (a < length (hp s))%nat -> nic (at_ (hp s) a) = true ->
    defined s (idof (hp s) a) = true /\
    (is_plain_module (hp s) (head s (idof (hp s) a)) = true \/ norg (at_ (hp s) (head s (idof (hp s) a))) = Some a);
  inv_object : (1 < length (tbl s))%nat /\ is_class (hp s) (head s OBJECT) = true
}.

(** The weaving of the modules [n] into the chain [pre ++ post] below the class:
    one step along the chain for each module.  [None]: the chain is too short. *)
Fixpoint weave (pre post n : list Z) : option (list Z) :=
  match n with
  | [] => Some (pre ++ post)
  | x :: n' =>
      match (if existsb (fun y => y =? x) (pre ++ post) then post else x :: post) with
      | [] => None
      | b :: post' => weave (pre ++ [b]) post' n'
      end
  end.
