(** Property theorem C44 (eql? values are the same Hash key). *)
From Coq Require Import ZArith List Bool.
From Verif Require Import KeySpec KeyModel KeyProofs.
Import ListNotations.
Open Scope Z_scope.

(** C44 is false: two Hashes with the same pairs in a different order are eql?,
    but feed different digests, so for every hasher that tells the two sequences
    apart a table keyed on one does not find it with the other. *)
Theorem C44_eql_same_key_refuted : exists x y : kval, forall (dg : list item -> Z),
  dg (stream x) <> dg (stream y) ->
  let same := fun _ _ => false in
  eql same dg x y = true /\ eql same dg y x = true /\ stream x <> stream y
  /\ lookup same dg y [(x, 7)] = None.
Proof.
  exists (Hsh [(Packed 3, Packed 21); (Packed 5, Packed 41)]), (Hsh [(Packed 5, Packed 41); (Packed 3, Packed 21)]).
  intros dg hd. cbn in hd. cbn.
  repeat match goal with |- context [(?a =? ?b) && false] => rewrite (andb_false_r (a =? b)) end.
  repeat (rewrite ?Z.eqb_refl, ?andb_true_r, ?andb_false_r; cbn).
  repeat split; try discriminate.
  unfold lookup. cbn [find fst option_map].
  match goal with |- context [?a =? ?b] => replace (a =? b) with false by (symmetry; apply Z.eqb_neq; cbn; congruence) end.
  reflexivity.
Qed.
Print Assumptions C44_eql_same_key_refuted.

(** C44 holds for every value with no multi-pair Hash inside: numbers, strings,
    symbols, ranges, arrays nested to any depth, and every hasher. *)
Theorem C44_eql_same_key_partial : forall (same : kval -> kval -> bool) (dg : list item -> Z),
  (forall x y, same x y = true -> x = y) ->
  digest_law (eql same dg) stream (fun v => small v = true /\ heap_ok v = true).
Proof. exact digest_small. Qed.
Print Assumptions C44_eql_same_key_partial.

Example C44_example :
  let same := fun _ _ => false in let dg := fun l : list item => Z.of_nat (length l) in
  let x := Arr [Str [97; 98]; Rng (Packed 3) (Big 4611686018427387904) true; Hsh [(Str [99], HFloat 1)]] in
  eql same dg x x = true /\ small x = true /\ heap_ok x = true
  /\ stream x = [IBytes [97; 98]; IWord 3; IBig 4611686018427387904; IBool true; IBytes [99]; IBits 1]
  /\ eql same dg (HFloat 0x7ff8000000000000) (HFloat 0x7ff8000000000000) = false.
Proof. repeat split. Qed.
