(** Where Enumerable and Comparable are not Ruby's. *)
From Coq Require Import ZArith List Bool Lia Floats.SpecFloat.
From Verif Require Import IntModel AseqModel FintModel EnblModel EnblSpec.
Import ListNotations.
Local Open Scope Z_scope.

Lemma slice_size_endless : each_slice_size 3 Infinity = Raise DomainErr.
Proof. vm_compute. reflexivity. Qed.

(** (1..).each_slice(3).size raises FloatDomainError; Ruby gives Infinity. *)
Lemma slice_size_bad : ~ (forall n s, 0 < n -> each_slice_size n s = Val (slice_count n s)).
Proof. intros H. specialize (H 3 Infinity eq_refl). rewrite slice_size_endless in H. discriminate H. Qed.

(** (1..10**18).each_slice(3).size goes through Float and is 22 too small. *)
Lemma slice_size_inexact : ~ (forall n k, 0 < n -> 0 <= k -> each_slice_size n (Count k) = Val (slice_count n (Count k))).
Proof.
  intros H. specialize (H 3 1000000000000000000 eq_refl). cbv beta in H.
  assert (G : 0 <= 1000000000000000000) by lia. specialize (H G). vm_compute in H. discriminate H.
Qed.

(** slice_before(nil) raises NoMethodError; Ruby matches nil against the
    elements. *)
Lemma slice_before_nil_bad : ~ (forall (b : bound (option Z)) l, exists o, slice_before b l = Val o /\ before (pred_of b) l o).
Proof.
  intros H. destruct (H (NilPattern (fun x => match x with None => true | _ => false end)) [Some 1; None; Some 2]) as (o & E & _).
  discriminate E.
Qed.

Lemma slice_after_nil_bad : ~ (forall (b : bound (option Z)) l, exists o, slice_after b l = Val o /\ after (pred_of b) l o).
Proof.
  intros H. destruct (H (NilPattern (fun x => match x with None => true | _ => false end)) [Some 1; None; Some 2]) as (o & E & _).
  discriminate E.
Qed.

(** [1, "a"].each_entry.min_by { |x| x } raises NoMethodError for nil < 0;
    Ruby raises ArgumentError. *)
Lemma min_by_bad : ~ (forall (cmp : Z -> Z -> option Z) (f : Z -> Z) x y l,
  cmp (f y) (f x) = None -> min_by cmp f (x :: y :: l) = Raise ArgErr).
Proof. intros H. specialize (H (fun _ _ => None) (fun x => x) 1 2 [] eq_refl). discriminate H. Qed.

(** (1..3).zip(1..) never ends; Ruby takes three elements of the argument. *)
Lemma zip_bad : ~ (forall (l : list Z) os, zip l os = Val (rows l os)).
Proof. intros H. specialize (H [1; 2; 3] [Endless (fun i => Z.of_nat i + 1)]). discriminate H. Qed.

(** A StopIteration of the block leaves cycle in the first pass, but is
    swallowed afterwards. *)
Lemma cycle_bad : ~ (forall (l : list Z) k, l <> [] -> cycle_stop l k = Stopped).
Proof. intros H. specialize (H [1] 1%nat). discriminate H. discriminate. Qed.

Lemma sum_inf_nan : sum (NI 0) [NF (S754_infinity false); NF (f_of_Z 1)] = NF S754_nan.
Proof. vm_compute. reflexivity. Qed.

(** [Float::INFINITY, 1.0].each_entry.sum is NaN; Ruby gives Infinity. *)
Lemma sum_inf_bad : ~ (forall a b, sum (NI 0) [NF a; NF b] = NF (f_add a b)).
Proof.
  intros H. specialize (H (S754_infinity false) (f_of_Z 1)). rewrite sum_inf_nan in H.
  vm_compute in H. discriminate H.
Qed.

(** [1.0, 2.0**60, 1.0, -(2.0**60)] sums to 0.0 as Kahan's sum does; Kahan
    and Babuska's gives 2.0. *)
Lemma sum_kahan_bad : ~ (forall l, sum (NF f_zero) (map NF l) = NF (kb_sum l)).
Proof.
  intros H. specialize (H [f_of_Z 1; f_of_Z (2 ^ 60); f_of_Z 1; f_of_Z (- 2 ^ 60)]).
  vm_compute in H. discriminate H.
Qed.

(** An object that cannot be compared is not equal: != raises ArgumentError
    where Ruby gives true. *)
Lemma ne_bad : ~ (forall same c, c_ne c = ruby_ne same c).
Proof. intros H. specialize (H false CNil). discriminate H. Qed.

(** and it raises even for the object itself. *)
Lemma ne_same_bad : ~ (forall c, c_ne c = ruby_ne true c).
Proof. intros H. specialize (H CNil). discriminate H. Qed.

(** == hides the NoMethodError of a <=> that fails. *)
Lemma eq_bad : ~ (forall same c, c_eq same c = ruby_eq same c).
Proof. intros H. specialize (H false (CRaise NoMethod)). discriminate H. Qed.

(** clamp raises NoMethodError, not ArgumentError, without an order. *)
Lemma clamp_bad : ~ (forall (cmp : Z -> Z -> option Z) self a,
  cmp self a = None -> clamp cmp self (Some a) None false = Raise ArgErr).
Proof. intros H. specialize (H (fun _ _ => None) 1 2 eq_refl). discriminate H. Qed.

(** between? asks the lower bound, which need not know how to compare. *)
Lemma between_bad : ~ (forall (cmp : Z -> Z -> option Z) self lo hi, between cmp self lo hi = ruby_between cmp self lo hi).
Proof.
  intros H. specialize (H (fun a b => if a =? 100 then Some 0 else None) 100 1 2). discriminate H.
Qed.
