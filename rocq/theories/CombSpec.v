(** What Ruby's Array combinatorics and binary search mean. *)
From Coq Require Import ZArith List Bool Lia Sorted.
From Verif Require Import CombModel.
Import ListNotations.
Local Open Scope nat_scope.

(** Rows of positions in lexicographic order. *)
Fixpoint lex (a b : list nat) : Prop :=
  match a, b with
  | [], [] => False
  | [], _ :: _ => True
  | _ :: _, [] => False
  | x :: a', y :: b' => x < y \/ (x = y /\ lex a' b')
  end.

(** [rows] is exactly the set given by [P], each once, in lexicographic
    order. *)
Definition enumerates (P : list nat -> Prop) (rows : list (list nat)) : Prop :=
  StronglySorted lex rows /\ forall r, In r rows <-> P r.

(** A generator with fuel yields the rows of P. *)
Definition yields (g : nat -> option (list (list nat))) (P : list nat -> Prop) : Prop :=
  exists rows, enumerates P rows /\
    exists f, forall f', f <= f' -> g f' = Some rows.

(** There are z rows in P. *)
Definition size_of (P : list nat -> Prop) (z : Z) : Prop :=
  exists rows, enumerates P rows /\ Z.of_nat (length rows) = z.

(** n positions below len, … *)
Definition row (len : nat) (n : Z) (r : list nat) : Prop :=
  Z.of_nat (length r) = n /\ Forall (fun i => i < len) r.

(** … each further right than the one before, *)
Definition increasing (r : list nat) : Prop := StronglySorted lt r.

(** … or not further left. *)
Definition nondecreasing (r : list nat) : Prop := StronglySorted le r.

(** Binomial coefficients. *)
Fixpoint binom (n k : nat) : nat :=
  match n, k with
  | _, O => 1
  | O, S _ => 0
  | S n', S k' => binom n' k' + binom n' k
  end.

(** The rows of a product of arrays. *)
Fixpoint cartesian {A : Type} (arrays : list (list A)) : list (list A) :=
  match arrays with
  | [] => [[]]
  | a :: r => flat_map (fun x => map (cons x) (cartesian r)) a
  end.

(** Nothing but StopIteration aside: the rows are shown until the block
    raises, and what it raises leaves the method. *)
Fixpoint shows (b : list nat -> act) (rows : list (list nat)) : list (list nat) * fin :=
  match rows with
  | [] => ([], Returned)
  | r :: rest =>
      match b r with
      | Go => let '(seen, e) := shows b rest in (r :: seen, e)
      | a => ([r], Left a)
      end
  end.

(** Ruby's find-minimum: false or nil before some place, true from there. *)
Definition find_min_block (size : nat) (f : nat -> ans) (p : nat) : Prop :=
  p <= size /\
  (forall i, i < p -> f i = AFalse \/ f i = ANil) /\
  (forall i, p <= i -> i < size -> f i = ATrue).

(** Ruby's find-any: positive before some place, 0 from there to another one,
    negative after it. *)
Definition find_any_block (size : nat) (f : nat -> ans) (p q : nat) : Prop :=
  p <= q <= size /\
  (forall i, i < p -> exists z, f i = ANum z /\ (0 < z)%Z) /\
  (forall i, p <= i -> i < q -> f i = ANum 0) /\
  (forall i, q <= i -> i < size -> exists z, f i = ANum z /\ (z < 0)%Z).

(** The same with the signs the other way round. *)
Definition mirrored_block (size : nat) (f : nat -> ans) (p q : nat) : Prop :=
  p <= q <= size /\
  (forall i, i < p -> exists z, f i = ANum z /\ (z < 0)%Z) /\
  (forall i, p <= i -> i < q -> f i = ANum 0) /\
  (forall i, q <= i -> i < size -> exists z, f i = ANum z /\ (0 < z)%Z).
