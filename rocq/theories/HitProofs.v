(** Proofs about blocks given to the methods of Hash. *)
From Coq Require Import ZArith List Bool Lia.
From Verif Require Import StructModel DataModel HrbModel HrbSpec HrbProofs HitModel HitSpec.
Import ListNotations.
Local Open Scope Z_scope.

Lemma any_ok : forall b h, any_block b h = true <-> exists e, In e h /\ holds b e.
Proof.
  intros b h; induction h as [|e r IH]; cbn.
  - split; [discriminate | intros [e [[] _]]].
  - change (yield_pair b e) with (give b (fst e) (snd e)). destruct (give b (fst e) (snd e)) eqn:E.
    + split; [intros _; exists e; split; [left; reflexivity | exact E] | reflexivity].
    + rewrite IH. split; intros [x [H1 H2]].
      * exists x; split; [right; exact H1 | exact H2].
      * destruct H1 as [<-|H1]; [unfold holds in H2; congruence | exists x; split; assumption].
Qed.

Lemma all_ok : forall b h, all_block b h = true <-> forall e, In e h -> holds b e.
Proof.
  intros b h; induction h as [|e r IH]; cbn.
  - split; [intros _ e [] | reflexivity].
  - change (yield_pair b e) with (give b (fst e) (snd e)). destruct (give b (fst e) (snd e)) eqn:E.
    + rewrite IH. split.
      * intros H x [<-|Hx]; [exact E | apply H, Hx].
      * intros H x Hx; apply H; right; exact Hx.
    + split; [discriminate|]. intros H. specialize (H e (or_introl eq_refl)). unfold holds in H; congruence.
Qed.

Lemma any_plain_ok : forall h, any_plain h = true <-> h <> [].
Proof. intros [|e r]; cbn; split; congruence. Qed.

Lemma tally_ok : forall p h n, tally p h n = n + Z.of_nat (length (filter p h)).
Proof.
  intros p h; induction h as [|e r IH]; intros n; cbn -[Z.of_nat]; [lia|]. rewrite IH.
  destruct (p e); cbn [length]; lia.
Qed.

Lemma count_ok : forall b eq h, b = None \/ eq = None -> count b eq h = ruby_count b eq h.
Proof.
  intros [b|] [p|] h [H|H]; try discriminate; unfold count, ruby_count; rewrite ?tally_ok; reflexivity.
Qed.

Lemma flat_loop_ok : forall b h out, two b -> no_to_ary b h -> flat_loop b h out = out ++ ruby_flat_map b h.
Proof.
  intros b h; induction h as [|[k v] r IH]; intros out T N; [cbn; rewrite app_nil_r; reflexivity|].
  destruct b as [f|f]; [destruct T|]. cbn.
  assert (N' : no_to_ary (Two f) r) by (intros k' v' l H; apply N; right; exact H).
  pose proof (N k v) as Q. cbn in Q. unfold ruby_flat_map in IH.
  destruct (f k v) as [l|l|w]; cbn [parts].
  - rewrite (IH _ T N'), <- app_assoc; reflexivity.
  - destruct (Q l (or_introl eq_refl) eq_refl).
  - rewrite (IH _ T N'), <- app_assoc; reflexivity.
Qed.

Lemma flat_map_ok : forall b h, two b -> no_to_ary b h -> flat_map_block b h = ruby_flat_map b h.
Proof. intros b h T N; exact (flat_loop_ok b h [] T N). Qed.

Lemma min_block_ok : forall b h, two b -> min_by_block b h = ruby_min_by_block b h.
Proof.
  intros [f|f] h T; [destruct T|]. unfold min_by_block, ruby_min_by_block; cbn.
  apply (min_by_ruby (fun e => f (fst e) (snd e)) h).
Qed.

(* ------------------------------------------------------------------ *)
(** ** What does not hold *)

Lemma flat_one_bad : ~ (forall b h, no_to_ary b h -> flat_map_block b h = ruby_flat_map b h).
Proof.
  intros H. specialize (H (One (fun a => AVal (match a with Whole _ v => v | Only k => VInt k end))) [(1, VInt 5)]).
  assert (N : no_to_ary (One (fun a => AVal (match a with Whole _ v => v | Only k => VInt k end))) [(1, VInt 5)])
    by (intros k v l _; discriminate).
  specialize (H N). discriminate H.
Qed.

Lemma flat_to_ary_bad : ~ (forall b h, two b -> flat_map_block b h = ruby_flat_map b h).
Proof.
  intros H. specialize (H (Two (fun _ v => AToAry [v; v])) [(1, VInt 5)] I). discriminate H.
Qed.

Lemma min_one_bad : ~ (forall b h, min_by_block b h = ruby_min_by_block b h).
Proof.
  intros H. specialize (H (One (fun a => match a with Whole _ (VInt z) => z | Whole k _ | Only k => k end)) [(1, VInt 6); (2, VInt 5)]).
  discriminate H.
Qed.

Lemma count_both_bad : ~ (forall b eq h, count b eq h = ruby_count b eq h).
Proof.
  intros H. specialize (H (Some (Two (fun _ _ => true))) (Some (fun e => fst e =? 1)) [(1, VInt 6); (2, VInt 5)]).
  discriminate H.
Qed.
