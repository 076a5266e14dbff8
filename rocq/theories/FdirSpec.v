(** The parts of a path. *)
From Coq Require Import ZArith List Bool.
From Verif Require Import FdirModel.
Import ListNotations.
Local Open Scope Z_scope.

Definition slashes (k : nat) : list Z := repeat slash k.
(** A name: not empty, without slashes. *)
Definition a_name (b : list Z) : Prop := b <> [] /\ Forall (fun c => c <> slash) b.
(** A directory part: not empty, with no slash at either end. *)
Definition a_body (p : list Z) : Prop := hd slash p <> slash /\ last p slash <> slash.
(** f, n times *)
Fixpoint again {A : Type} (f : A -> A) (n : nat) (x : A) : A := match n with O => x | S n => again f n (f x) end.
