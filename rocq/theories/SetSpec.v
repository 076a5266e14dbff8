(** What sets are: membership, and no element twice. *)
From Coq Require Import ZArith List Bool.
From Verif Require Import EnblModel SetModel.
Import ListNotations.
Local Open Scope Z_scope.

(** No element is there twice. *)
Fixpoint distinct {O : objects} (i : bool) (l : list (V O)) : Prop :=
  match l with [] => True | x :: r => mem i r x = false /\ distinct i r end.
Definition wf {O} (s : set O) : Prop := distinct (ident s) (els s).

(** Every member of s is one of t. *)
Definition included {O} (s t : set O) : Prop := forall v, has s v = true -> has t v = true.

(** Ruby's intersect?: stops at the first element that is in the set. *)
Inductive meets {O} (s : set O) : arg O -> Prop :=
| meets_set t v : has s v = true -> has t v = true -> meets s (ASet t)
| meets_enum l v : In v l -> has s v = true -> meets s (AEnum l)
| meets_endless f n : has s (f n) = true -> meets s (AEndless f).

(** Ruby's order: by the sizes first. *)
Definition ruby_order {O} (s t : set O) : option Z :=
  let a := length (els s) in let b := length (els t) in
  if Nat.ltb a b then (if within s t then Some (-1) else None)
  else if Nat.ltb b a then (if within t s then Some 1 else None)
  else if within s t then Some 0 else None.

(** Objects with a value and an identity. *)
Definition pair_eql (a b : Z * Z) : bool := fst a =? fst b.
Definition pair_same (a b : Z * Z) : bool := (fst a =? fst b) && (snd a =? snd b).
Lemma pair_refl : forall a, pair_eql a a = true.
Proof. intros a. apply Z.eqb_refl. Qed.
Lemma pair_sym : forall a b, pair_eql a b = true -> pair_eql b a = true.
Proof. intros a b H. unfold pair_eql in *. rewrite Z.eqb_sym. exact H. Qed.
Lemma pair_trans : forall a b c, pair_eql a b = true -> pair_eql b c = true -> pair_eql a c = true.
Proof. unfold pair_eql. intros a b c H G. apply Z.eqb_eq in H, G. apply Z.eqb_eq. congruence. Qed.
Lemma pair_same_eq : forall a b, pair_same a b = true <-> a = b.
Proof.
  intros [a b] [c d]. unfold pair_same. cbn. rewrite andb_true_iff, !Z.eqb_eq. split.
  - intros (-> & ->). reflexivity.
  - intros [= -> ->]. auto.
Qed.
Definition pairs : objects := mkO (Z * Z) pair_eql pair_same pair_refl pair_sym pair_trans pair_same_eq.
(** A set of them. *)
Definition pset (c : Z) (i : bool) (l : list (Z * Z)) : set pairs := @mkS pairs c i l.
