(** * What the collector and the allocator owe the program (C19-C22)

    Stated on heaps only: which cells are live, which are reachable, what a
    live cell holds. *)

From Coq Require Import ZArith List Bool.
From Verif Require Import GcModel.
Import ListNotations.
Open Scope Z_scope.

Definition live (s : st) (a : Z) : Prop := heap s a <> None.

(** The object at [a] is the same object after as before: same kind, same
    references.  (Age and barrier bits belong to the collector.) *)
Definition preserved (s s' : st) (a : Z) : Prop :=
  exists o o', heap s a = Some o /\ heap s' a = Some o'
               /\ o_prom o' = o_prom o /\ o_kids o' = o_kids o.

(** Reachable from the roots [r] in state [s]. *)
Definition sreach (s : st) (r : list Z) (a : Z) : Prop := reach (kids_of (heap s)) r a.

(** What a collection must do for the program: finish, and keep everything
    reachable as it was. *)
Definition safe_gc (k : gckind) (r : list Z) (s : st) : Prop :=
  exists s', gc k r s = Some s' /\ forall a, sreach s r a -> preserved s s' a.

(** The cell lies in the region reserved by [Allocator::new]. *)
Definition in_region (a : Z) : Prop := 0 <= get_page a < MAX_PAGES.

(** A minor collection treats these as live even if the program cannot reach
    them: old objects, and whatever the remembered ones lead to. *)
Definition minor_roots (s : st) (r : list Z) (a : Z) : Prop :=
  In a r \/ oldb s a = true.
Inductive mreach (s : st) (r : list Z) : Z -> Prop :=
| mreach_root : forall a, minor_roots s r a -> mreach s r a
| mreach_kid : forall a b, mreach s r a -> In b (kids_of (heap s) a) -> mreach s r b.

(** Live cells, counted. *)
Definition is_live (s : st) (a : Z) : bool := match heap s a with Some _ => true | None => false end.
Definition live_count (s : st) : Z := Z.of_nat (length (filter (is_live s) (cells s))).

(** A cell a later allocation may use: on the free list, or on a page waiting
    to be reused. *)
Definition available (s : st) (a : Z) : Prop := In a (free s) \/ In (get_page a) (fpages s).

(** The sweep of one bitmap word: the offsets below [bit] whose bit is clear. *)
Definition clear_bits_below (bit map : Z) : list Z :=
  filter (fun i => negb (Z.testbit map i)) (List.map Z.of_nat (seq 0 (Z.to_nat bit))).
