(** Where the Array methods differ from Ruby: witnesses. *)
From Coq Require Import ZArith List Bool Lia Sorted.
From Verif Require Import CombModel CombSpec CombProofs CombPerm CombSearch.
Import ListNotations.
Local Open Scope nat_scope.

(** A receiver that keeps its size gives the rows of permutation. *)
Lemma perm_live_ok now n : forall fuel t len st,
  (forall k, now k = len) ->
  perm_live now t n fuel st = run (perm_step len n) (shown n) fuel st.
Proof.
  induction fuel as [|fuel IH]; intros t len st H; [reflexivity|]. cbn [perm_live run].
  unfold perm_step at 1. rewrite H.
  destruct (perm_scan len (fst st) (snd st) n) as [st'|]; [|reflexivity].
  rewrite (IH (S t) len st' H). reflexivity.
Qed.

(** [0, 1].combination(2) { raise StopIteration } returns. *)
Lemma stop_swallowed :
  ~ (forall fuel len n b rows, combination fuel len n = Some rows ->
       combination_block fuel len n b = Some (shows b rows)).
Proof.
  intros H. specialize (H 2 2 2%Z (fun _ => Stop) [[0; 1]] eq_refl).
  vm_compute in H. discriminate H.
Qed.

(** a = [0, 1, 2]; a.permutation { a << 9 if a.size == 3 } *)
Lemma permutation_grows :
  ~ (forall now len fuel rows, (forall t, len <= now t) ->
       permutation fuel len None = Some rows ->
       perm_live now 0 len fuel (seq 0 len, cycles0 len len) = Some rows).
Proof.
  intros H.
  specialize (H (fun _ => 4) 3 40 [[0;1;2];[0;2;1];[1;0;2];[1;2;0];[2;0;1];[2;1;0]]
                (fun _ => le_S 3 3 (le_n 3)) eq_refl).
  vm_compute in H. discriminate H.
Qed.

(** a = [0] * 1001; a.product(a) *)
Lemma product_too_big :
  ~ (forall A (arrays : list (list A)), product (fun _ => arrays) = Val (cartesian arrays)).
Proof.
  intros H. pose (a := repeat tt (S (10 * 10 * 10))). specialize (H unit [a; a]).
  assert (E : product (fun _ => [a; a]) = Err) by (vm_compute; reflexivity).
  rewrite E in H. discriminate H.
Qed.

(** a = [1, 2, 3]; a.product([1, 2]) { a.clear } *)
Lemma product_panics :
  ~ (forall A (live : nat -> list (list A)), product live <> Panic).
Proof.
  intros H.
  specialize (H nat (fun k => match k with O => [[1; 2; 3]; [1; 2]] | S _ => [[]; [1; 2]] end)).
  apply H. vm_compute. reflexivity.
Qed.

(** a = [1, 2]; a.product([3]) { a[1] = 7 } *)
Lemma product_not_copied :
  ~ (forall A (live : nat -> list (list A)) rows, product (fun _ => live 0) = Val rows ->
       product live = Val rows).
Proof.
  intros H.
  specialize (H nat (fun k => match k with O => [[1; 2]; [3]] | S _ => [[1; 7]; [3]] end) [[1;3];[2;3]] eq_refl).
  vm_compute in H. discriminate H.
Qed.

(** [0, 4, 7, 10, 12].bsearch { |x| 4 <=> x } *)
Lemma find_any_inverted :
  ~ (forall size f p q, find_any_block size f p q -> p < q ->
       exists i, p <= i < q /\ bsearch_index size f = Some (Val (Some i))).
Proof.
  intros H.
  pose (f := fun i => match i with 0 => ANum 1 | 1 => ANum 0 | _ => ANum (-1) end).
  destruct (H 5 f 1 2) as (i & _ & Hi).
  - split; [lia|]. split; [|split].
    + intros [|i] Hi; [|lia]. exists 1%Z. split; [reflexivity|lia].
    + intros [|[|i]] H1 H2; try lia. reflexivity.
    + intros [|[|i]] H1 H2; try lia. exists (-1)%Z. split; [reflexivity|lia].
  - lia.
  - vm_compute in Hi. discriminate Hi.
Qed.
