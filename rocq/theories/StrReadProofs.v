(** The facts about parts of strings in the vocabulary of [StrPartSpec]. *)
From Coq Require Import ZArith List Bool Lia.
From Verif Require Import Utf8Model Utf8Spec Utf8Proofs IdModel StrModel StrSpec StrProofs StrSafeProofs StrRightProofs StrCharModel StrCharProofs StrPartProofs StrSplitProofs.
From Verif Require Import StrCharSpec StrPartSpec.
Import ListNotations.
Open Scope Z_scope.

Lemma normal_usable s : normal s -> usable s.
Proof. intros (h1 & h2 & h3 & h4). split; [apply safe_iff; exact h1|]. split; [exact h2|]. split; [exact h3|exact h4]. Qed.
Lemma regular_split s : normal s -> regular s -> split (se s) (sb s) (chars s).
Proof. intros (_ & h & _) hr. apply split_all; [exact h|]. exact hr. Qed.
Section J.
Variable jis : list Z -> option nat.
Lemma length_read s : normal s -> regular s -> exists cs, split (se s) (sb s) cs /\ char_length jis s = length cs /\ chars s = cs.
Proof.
  intros h hr. exists (chars s). split; [apply regular_split; assumption|]. split; [|reflexivity].
  destruct (normal_usable s h) as (a & b & c & _). apply char_length_right; assumption.
Qed.
Lemma index1_read s i : normal s -> regular s -> exists cs, split (se s) (sb s) cs /\ answers (se s) (one cs i) (index1 jis s i).
Proof. intros h hr. exists (chars s). split; [apply regular_split; assumption|]. apply index1_right. apply normal_usable; exact h. Qed.
Lemma index2_read s i len : normal s -> regular s -> 0 < len < 2 ^ 63 -> (multi (se s) = false \/ len < 2 ^ 60) ->
  exists cs, split (se s) (sb s) cs /\ answers (se s) (some cs i len) (index2 jis s i len).
Proof.
  intros h hr hl hw. exists (chars s). split; [apply regular_split; assumption|].
  assert (q := index2_right jis s i len (normal_usable s h) ltac:(lia) hw). rewrite (proj2 (Z.eqb_neq len 0)) in q by lia. exact q.
Qed.
Lemma range_read s a b excl : normal s -> regular s -> int64 a -> int64 b -> end_fits (se s) b excl ->
  exists cs, split (se s) (sb s) cs /\ answers (se s) (between cs a b excl) (index_range jis s a b excl).
Proof. intros h hr ha hb he. exists (chars s). split; [apply regular_split; assumption|]. apply (range_right jis s a b excl (normal_usable s h) ha hb he). Qed.
Lemma bytes_read s : Z.of_nat (length (sb s)) < 2 ^ 60 ->
  (forall i, answers (se s) (one (each_byte (sb s)) i) (byteslice1 jis s s i)) /\
  (forall i len, len < 2 ^ 63 -> answers (se s) (some (each_byte (sb s)) i len) (byteslice2 jis s s i len)) /\
  (forall a b excl, int64 b -> match b with Some b => - Z.of_nat (length (sb s)) <= b | None => True end ->
     answers (se s) (between (each_byte (sb s)) a b excl) (byteslice_range jis s s a b excl)).
Proof.
  intro h. split; [intro i; apply byteslice1_right|]. split; [intros i len hl; apply (byteslice2_right jis s i len h hl)|].
  intros a b excl hb hn. apply (byteslice_range_right jis s a b excl h hb hn).
Qed.
Lemma valid_read s : byte_wise (se s) -> Forall is_byte (sb s) -> (is_well (classify jis (se s) (sb s)) = true <-> valid_in (se s) (sb s)).
Proof. intros h hb. apply classify_valid; [exact h|]. revert hb. apply Forall_impl. unfold is_byte. lia. Qed.
Lemma valid_wide s : multi (se s) = true -> valid_in (se s) (sb s) -> is_well (classify jis (se s) (sb s)) = true.
Proof. intros h hv. apply classify_wide; [|exact hv]. destruct (se s); try discriminate h; reflexivity. Qed.
Lemma ascii_read e b : ascii_compatible e = true -> (classify jis e b = C7 <-> Forall (fun x => x < 128) b).
Proof. apply classify_ascii. Qed.
End J.
