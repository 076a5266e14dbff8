(** Ruby's Data. *)
From Coq Require Import ZArith List Bool.
From Verif Require Import StructModel StructSpec DataModel.
Import ListNotations.
Local Open Scope Z_scope.

(** The name of a key; keys that are no names do not occur. *)
Definition kname (k : key) : Z := match k with KSym m | KStr m => m | KObj n => n end.
Definition all_named (kw : list (key * val)) : Prop := forall k v, In (k, v) kw -> forall n, k <> KObj n.

(** The last value given for a member. *)
Fixpoint given (kw : list (key * val)) (m : Z) : option val :=
  match kw with
  | [] => None
  | (k, v) :: r => match given r m with Some w => Some w | None => if kname k =? m then Some v else None end
  end.

(** Every key is a member. *)
Definition known (ms : list Z) (kw : list (key * val)) : Prop := forall k v, In (k, v) kw -> In (kname k) ms.

(** Keywords determine an object if they name all members and nothing else. *)
Definition determines (ms : list Z) (kw : list (key * val)) (vs : list val) : Prop :=
  known ms kw /\ map Some vs = map (given kw) ms.

(** Positions name the members in order, as far as they go; initialize decides about the rest. *)
Definition ruby_data_new (c : dclass) (args : list val) (kw : list (key * val)) : res (list val) :=
  match args, kw with
  | [], _ => init c kw
  | _, [] => if Nat.leb (length args) (length (dmembers c)) then init c (syms (combine (dmembers c) args)) else Raise ArgErr
  | _, _ => Raise ArgErr
  end.

(** with: the given values, otherwise the old ones. *)
Definition updated (ms : list Z) (slots : list val) (kw : list (key * val)) : list val :=
  map (fun e => match given kw (fst e) with Some v => v | None => snd e end) (combine ms slots).

(** The longest beginning of a list of keys that are members. *)
Fixpoint leading (ms : list Z) (keys : list key) : list key :=
  match keys with [] => [] | k :: r => if is_member ms (kname k) then k :: leading ms r else [] end.

(** An initialize with a default for the second of two members. *)
Definition with_default (kw : list (key * val)) : res (list val) :=
  match given kw 2 with Some _ => data_values [1; 2] kw | None => data_values [1; 2] (kw ++ [(KSym 2, VInt 0)]) end.
