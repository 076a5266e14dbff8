(** Proofs for C44. *)
From Coq Require Import ZArith List Bool Lia Btauto.
From Verif Require Import KeySpec KeyModel.
Import ListNotations.
Open Scope Z_scope.

(** A heap Float is never +0.0 (flonum storage keeps it immediate, C02), and its
    pattern is 64 bits wide. *)
Fixpoint heap_ok (v : kval) : bool :=
  match v with
  | HFloat b => (0 <=? b) && (b <? 2 ^ 64) && negb (b =? 0)
  | Arr l => (fix go l := match l with [] => true | x :: t => heap_ok x && go t end) l
  | Rng a b _ => heap_ok a && heap_ok b
  | Hsh l => (fix go l := match l with [] => true | (k, x) :: t => heap_ok k && heap_ok x && go t end) l
  | _ => true
  end.

Lemma bytes_eq_ok a : forall b, bytes_eq a b = true -> a = b.
Proof. induction a as [|x a IH]; intros [|y b]; cbn; try discriminate; auto. intro h. apply andb_true_iff in h as [h1 h2]. apply Z.eqb_eq in h1. f_equal; auto. Qed.

Lemma zero_bits b : 0 <= b < 2 ^ 64 -> Z.land b 0x7fffffffffffffff = 0 -> b <> 0 -> b = 2 ^ 63.
Proof.
  intros h e n. change 0x7fffffffffffffff with (Z.ones 63) in e. rewrite Z.land_ones in e by lia.
  apply Z.div_exact in e; [|lia].
  assert (0 <= b / 2 ^ 63 < 2) by (split; [apply Z.div_pos; lia|apply Z.div_lt_upper_bound; lia]).
  assert (b / 2 ^ 63 = 0 \/ b / 2 ^ 63 = 1) by lia. lia.
Qed.
Lemma f_eq_bits a b : 0 <= a < 2 ^ 64 -> 0 <= b < 2 ^ 64 -> a <> 0 -> b <> 0 -> f_eq a b = true -> a = b.
Proof.
  intros ha hb na nb h. unfold f_eq in h. apply andb_true_iff in h as [_ h]. apply orb_true_iff in h as [h|h].
  - apply Z.eqb_eq; auto.
  - apply andb_true_iff in h as [h1 h2]. unfold f_zero in *. apply Z.eqb_eq in h1, h2. rewrite (zero_bits a), (zero_bits b); auto.
Qed.

Section E.
Variables (same : kval -> kval -> bool) (dg : list item -> Z).
Hypothesis same_eq : forall x y, same x y = true -> x = y.

(** Size of a value, to reason about nested lists. *)
Fixpoint sz (v : kval) : nat :=
  match v with
  | Arr l => S ((fix go l := match l with [] => O | x :: t => (sz x + go t)%nat end) l)
  | Rng a b _ => S (sz a + sz b)
  | Hsh l => S ((fix go l := match l with [] => O | (k, x) :: t => (sz k + sz x + go t)%nat end) l)
  | _ => 1%nat
  end.

Lemma stream_eql n : forall x y, (sz x <= n)%nat -> small x = true -> small y = true -> heap_ok x = true -> heap_ok y = true ->
  eql same dg x y = true -> stream x = stream y.
Proof.
  induction n as [|n IH]; intros x y hn sx sy ox oy h; [destruct x; cbn in hn; lia|].
  destruct (same x y) eqn:S; [apply same_eq in S; congruence|].
  destruct x as [w|b|b|l|l|a b e|l|i]; destruct y as [w'|b'|b'|l'|l'|a' b' e'|l'|i']; cbn [eql] in h; rewrite S in h; cbn [orb] in h; try discriminate.
  - apply Z.eqb_eq in h. congruence.
  - apply Z.eqb_eq in h. congruence.
  - cbn in ox, oy. apply andb_true_iff in ox as [ox o3], oy as [oy o6]. apply andb_true_iff in ox as [o1 o2], oy as [o4 o5].
    apply negb_true_iff, Z.eqb_neq in o3, o6. apply Z.leb_le in o1, o4. apply Z.ltb_lt in o2, o5.
    apply f_eq_bits in h; auto. cbn. congruence.
  - apply bytes_eq_ok in h. cbn. congruence.
  - clear S. revert l' sy oy h. cbn in sx. cbn in ox. cbn in hn. apply le_S_n in hn. induction l as [|u l IHl]; intros [|v t] sy oy h; try discriminate; auto.
    cbn in sx, ox, sy, oy, hn. apply andb_true_iff in sx as [s1 s2], ox as [o1 o2], sy as [s3 s4], oy as [o3 o4], h as [h1 h2].
    cbn. f_equal; [apply IH; auto; lia|]. apply IHl; auto. lia.
  - cbn in *. repeat match goal with H : _ && _ = true |- _ => apply andb_true_iff in H as [? ?] end.
    apply eqb_prop in H0. subst. rewrite (IH a a'), (IH b b'); auto; lia.
  - apply andb_true_iff in h as [h1 h2]. apply Nat.eqb_eq in h1.
    destruct l as [|[k u] [|[]]]; [|cbn in h1|cbn in sx; discriminate].
    + destruct l'; [reflexivity|discriminate].
    + destruct l' as [|[k' u'] [|[]]]; try discriminate. cbn [find fst snd] in h2.
      destruct ((dg (stream k) =? dg (stream k')) && eql same dg k k') eqn:F; [|discriminate].
      apply andb_true_iff in F as [_ F]. apply andb_true_iff in h2 as [h2 _]. cbn [snd] in h2.
      cbn in *. repeat match goal with H : _ && _ = true |- _ => apply andb_true_iff in H as [? ?] end.
      rewrite (IH k k'), (IH u u'); auto; lia.
  - apply Z.eqb_eq in h. congruence.
Qed.
End E.

Theorem digest_small same dg : (forall x y, same x y = true -> x = y) ->
  digest_law (eql same dg) stream (fun v => small v = true /\ heap_ok v = true).
Proof. intros hs x y [h1 h2] [h3 h4] h. eapply stream_eql; eauto. Qed.
