(** Ruby gives every block of these methods the pair. *)
From Coq Require Import ZArith List Bool.
From Verif Require Import StructModel DataModel HrbModel HrbSpec HitModel.
Import ListNotations.
Local Open Scope Z_scope.

Definition give {A} (b : block A) (k : Z) (v : val) : A :=
  match b with One f => f (Whole k v) | Two f => f k v end.
Definition holds (b : block bool) (e : Z * val) : Prop := give b (fst e) (snd e) = true.

(** count with an argument does not ask the block. *)
Definition ruby_count (b : option (block bool)) (eq : option (Z * val -> bool)) (h : hash) : Z :=
  match eq, b with
  | Some p, _ => Z.of_nat (length (filter p h))
  | None, Some b => Z.of_nat (length (filter (fun e => give b (fst e) (snd e)) h))
  | None, None => Z.of_nat (length h)
  end.

(** flat_map takes apart what to_ary says. *)
Definition parts (a : answer) : list val := match a with AArr l | AToAry l => l | AVal v => [v] end.
Definition ruby_flat_map (b : block answer) (h : hash) : list val :=
  flat_map (fun e => parts (give b (fst e) (snd e))) h.

Definition ruby_min_by_block (b : block Z) (h : hash) : res (option (Z * val)) :=
  ruby_min_by (fun e => Some (give b (fst e) (snd e))) h.

Definition two {A} (b : block A) : Prop := match b with Two _ => True | One _ => False end.
Definition no_to_ary (b : block answer) (h : hash) : Prop :=
  forall k v l, In (k, v) h -> give b k v <> AToAry l.
