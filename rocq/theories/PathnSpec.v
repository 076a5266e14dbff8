(** Where a path leads, in a tree without symbolic links. *)
From Coq Require Import ZArith List Bool.
From Verif Require Import PathnModel.
Import ListNotations.

(** A directory is the names that lead to it from the root, the last one first. The root is its own parent. *)
Definition go (dir : list Z) (n : name) : list Z :=
  match n with
  | Dot => dir
  | DotDot => tl dir
  | Nm z => z :: dir
  end.
Definition walk (dir : list Z) (ns : list name) : list Z := fold_left go ns dir.

(** Where p leads from dir. *)
Definition leads (dir : list Z) (p : path) : list Z := walk (if absolute p then [] else dir) (names p).

(** A clean path: some .. in front unless it is absolute, then other names; "." alone for the empty one. *)
Definition clean (p : path) : Prop :=
  (absolute p = false /\ names p = [Dot])
  \/ exists k zs, names p = repeat DotDot k ++ map Nm zs /\ (absolute p = true -> k = 0)
       /\ (absolute p = false -> (k + length zs)%nat <> 0).

(** The same in a tree with symbolic links: a name leads to the directory that enter says. *)
Definition go_link (enter : list Z -> Z -> list Z) (dir : list Z) (n : name) : list Z :=
  match n with
  | Dot => dir
  | DotDot => tl dir
  | Nm z => enter dir z
  end.
Definition leads_link (enter : list Z -> Z -> list Z) (dir : list Z) (p : path) : list Z :=
  fold_left (go_link enter) (names p) (if absolute p then [] else dir).
