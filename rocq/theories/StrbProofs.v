(** Proofs about the Ruby code of String. *)
From Coq Require Import ZArith List Bool Lia.
From Verif Require Import StrbModel StrbSpec.
Import ListNotations.
Local Open Scope Z_scope.

(** insert makes Ruby's String, and raises where Ruby does. *)
Lemma insert_ok : forall s z o r, insert s z o = Good r <-> ruby_insert s z o = Good r.
Proof.
  intros s z o r; unfold insert, ruby_insert. set (size := Z.of_nat (length s)). assert (0 <= size) by (unfold size; lia).
  destruct (Z.ltb_spec z 0).
  - destruct (Z.leb_spec 0 z); [lia|]. cbn [andb].
    destruct (Z.ltb_spec (size + 1 + z) 0), (Z.leb_spec (- size - 1) z); try lia; cbn [orb]; [split; discriminate|].
    destruct (Z.ltb_spec size (size + 1 + z)); [lia|]. reflexivity.
  - destruct (Z.leb_spec 0 z); [|lia]. destruct (Z.ltb_spec z 0); [lia|].
    destruct (Z.ltb_spec size z), (Z.leb_spec z size); try lia; cbn; [split; discriminate | reflexivity].
Qed.

Lemma flat_no_self : forall s t args, ~ In Self args -> flat_map (value s) args = flat_map (value t) args.
Proof.
  intros s t args N; induction args as [|[|o] r IH]; cbn; [reflexivity | exfalso; apply N; left; reflexivity|].
  f_equal. apply IH; intros I; apply N; right; exact I.
Qed.

Lemma concat_no_self : forall args s, ~ In Self args -> concat_ s args = ruby_concat s args.
Proof.
  intros args; induction args as [|a r IH]; intros s N; unfold ruby_concat in *; cbn; [rewrite app_nil_r; reflexivity|].
  assert (N' : ~ In Self r) by (intros I; apply N; right; exact I).
  unfold concat_ in IH. rewrite IH by exact N'. rewrite <- app_assoc. f_equal. f_equal. apply flat_no_self; exact N'.
Qed.

(** concat is Ruby's if only the first argument may be the receiver. *)
Lemma concat_ok : forall args s, ~ In Self (tl args) -> concat_ s args = ruby_concat s args.
Proof.
  intros [|a r] s N; [unfold ruby_concat; cbn; rewrite app_nil_r; reflexivity|]. cbn [tl] in N.
  change (concat_ s (a :: r)) with (concat_ (s ++ value s a) r). rewrite concat_no_self by exact N.
  unfold ruby_concat; cbn. rewrite <- app_assoc. f_equal. f_equal. apply flat_no_self; exact N.
Qed.

Lemma prepend_snoc : forall s a args, prepend s (args ++ [a]) = prepend (value s a ++ s) args.
Proof. intros s a args; unfold prepend. rewrite rev_app_distr. reflexivity. Qed.

Lemma prepend_no_self : forall args s, ~ In Self args -> prepend s args = ruby_prepend s args.
Proof.
  intros args; induction args as [|a r IH] using rev_ind; intros s N; [reflexivity|].
  assert (N' : ~ In Self r) by (intros I; apply N, in_or_app; left; exact I).
  rewrite prepend_snoc, IH by exact N'. unfold ruby_prepend. rewrite flat_map_app. cbn. rewrite app_nil_r, <- app_assoc.
  f_equal. apply flat_no_self; exact N'.
Qed.

(** prepend is Ruby's if only the last argument may be the receiver. *)
Lemma prepend_ok : forall args a s, ~ In Self args -> prepend s (args ++ [a]) = ruby_prepend s (args ++ [a]).
Proof.
  intros args a s N. rewrite prepend_snoc, prepend_no_self by exact N. unfold ruby_prepend. rewrite flat_map_app. cbn.
  rewrite app_nil_r, <- app_assoc. f_equal. apply flat_no_self; exact N.
Qed.

(** chop *)
Lemma chop_crlf : forall s, chop (s ++ [13; 10]) = s.
Proof. intros s; unfold chop. rewrite rev_app_distr. cbn. apply rev_involutive. Qed.
Lemma chop_one : forall s x, (forall t, s ++ [x] <> t ++ [13; 10]) -> chop (s ++ [x]) = s.
Proof.
  intros s x N; unfold chop. rewrite rev_app_distr. cbn. transitivity (rev (rev s)); [|apply rev_involutive].
  destruct (rev s) as [|y r] eqn:E; [reflexivity|].
  destruct ((x =? 10) && (y =? 13)) eqn:X; [|reflexivity]. apply andb_true_iff in X as [X Y].
  apply Z.eqb_eq in X, Y; subst. exfalso. apply (N (rev r)).
  rewrite <- (rev_involutive s), E. cbn. rewrite <- app_assoc. reflexivity.
Qed.

Lemma eqs_ok : forall a b, eqs a b = true <-> a = b.
Proof.
  intros a; induction a as [|x a IH]; intros [|y b]; cbn; split; intros H; try discriminate; try reflexivity.
  - apply andb_true_iff in H as [H G]. apply Z.eqb_eq in H; apply IH in G; subst; reflexivity.
  - injection H as -> ->. rewrite Z.eqb_refl; apply IH; reflexivity.
Qed.

Lemma end_with_ok : forall s suf, end_with s suf = true <-> exists t, s = t ++ suf.
Proof.
  intros s suf; unfold end_with. rewrite andb_true_iff, eqs_ok, Nat.leb_le. split.
  - intros [_ E]. exists (firstn (length s - length suf) s). rewrite <- E at 2. rewrite firstn_skipn; reflexivity.
  - intros [t ->]. rewrite app_length. split; [lia|]. replace (length t + length suf - length suf)%nat with (length t) by lia.
    rewrite skipn_app, skipn_all, Nat.sub_diag; reflexivity.
Qed.

(** delete_suffix *)
Lemma delete_suffix_there : forall t suf, delete_suffix (t ++ suf) suf = t.
Proof.
  intros t suf; unfold delete_suffix. rewrite (proj2 (end_with_ok (t ++ suf) suf)) by (exists t; reflexivity).
  rewrite app_length. replace (length t + length suf - length suf)%nat with (length t) by lia.
  rewrite firstn_app, firstn_all, Nat.sub_diag. cbn. apply app_nil_r.
Qed.
Lemma delete_suffix_not : forall s suf, (forall t, s <> t ++ suf) -> delete_suffix s suf = s.
Proof.
  intros s suf N; unfold delete_suffix. destruct (end_with s suf) eqn:E; [|reflexivity].
  apply end_with_ok in E as [t E]. exfalso; exact (N t E).
Qed.

Lemma starts_ok : forall sep s, starts sep s = true <-> exists c, s = sep ++ c.
Proof.
  intros sep; induction sep as [|x a IH]; intros s; cbn.
  - split; [intros _; exists s; reflexivity | reflexivity].
  - destruct s as [|y b]; [split; [discriminate | intros [c H]; discriminate]|].
    rewrite andb_true_iff, IH. split.
    + intros [E [c ->]]. apply Z.eqb_eq in E; subst. exists c; reflexivity.
    + intros [c H]. injection H as -> ->. split; [apply Z.eqb_refl | exists c; reflexivity].
Qed.

Lemma occurs_cons : forall x r sep a, occurs (x :: r) sep a ->
  (a = [] /\ starts sep (x :: r) = true) \/ exists b, a = x :: b /\ occurs r sep b.
Proof.
  intros x r sep [|y b] [c H].
  - left; split; [reflexivity | apply starts_ok; exists c; exact H].
  - right. injection H as -> ->. exists b; split; [reflexivity | exists c; reflexivity].
Qed.

Lemma cut : forall a sep c : str, firstn (length a) (a ++ sep ++ c) = a /\ skipn (length a + length sep) (a ++ sep ++ c) = c.
Proof.
  intros a sep c; split.
  - rewrite firstn_app, firstn_all, Nat.sub_diag. cbn. apply app_nil_r.
  - rewrite app_assoc, <- app_length, skipn_app, skipn_all, Nat.sub_diag; reflexivity.
Qed.

Lemma index_some : forall s sep i, index s sep = Some i ->
  exists a, length a = i /\ occurs s sep a /\ forall b, occurs s sep b -> (i <= length b)%nat.
Proof.
  intros s sep; induction s as [|x r IH]; intros i H; cbn in H.
  - destruct (starts sep []) eqn:E; [|discriminate]. injection H as <-. apply starts_ok in E as [c E].
    exists []. repeat split; [exists c; exact E | intros; lia].
  - destruct (starts sep (x :: r)) eqn:E.
    + injection H as <-. apply starts_ok in E as [c E]. exists []. repeat split; [exists c; exact E | intros; lia].
    + destruct (index r sep) as [j|] eqn:J; [|discriminate]. injection H as <-.
      destruct (IH j eq_refl) as [a [L [[c O] M]]]. exists (x :: a). repeat split.
      * cbn; lia.
      * exists c; cbn; rewrite O; reflexivity.
      * intros b B. apply occurs_cons in B as [[-> S]|[b' [-> B]]]; [congruence|]. specialize (M b' B). cbn; lia.
Qed.
Lemma index_none : forall s sep, index s sep = None -> forall a, ~ occurs s sep a.
Proof.
  intros s sep; induction s as [|x r IH]; intros H a O; cbn in H.
  - destruct (starts sep []) eqn:E; [discriminate|]. destruct O as [c O]. destruct a; [|discriminate].
    assert (X : starts sep [] = true) by (apply starts_ok; exists c; exact O). congruence.
  - destruct (starts sep (x :: r)) eqn:E; [discriminate|]. destruct (index r sep); [discriminate|].
    apply occurs_cons in O as [[_ S]|[b [_ B]]]; [congruence | exact (IH eq_refl b B)].
Qed.

Lemma rindex_some : forall s sep i, rindex s sep = Some i ->
  exists a, length a = i /\ occurs s sep a /\ forall b, occurs s sep b -> (length b <= i)%nat.
Proof.
  intros s sep; induction s as [|x r IH]; intros i H; cbn in H.
  - destruct (starts sep []) eqn:E; [|discriminate]. injection H as <-. apply starts_ok in E as [c E].
    exists []. repeat split; [exists c; exact E|]. intros b [d B]. destruct b; [cbn; lia | discriminate].
  - destruct (rindex r sep) as [j|] eqn:J.
    + injection H as <-. destruct (IH j eq_refl) as [a [L [[c O] M]]]. exists (x :: a). repeat split.
      * cbn; lia.
      * exists c; cbn; rewrite O; reflexivity.
      * intros b B. apply occurs_cons in B as [[-> S]|[b' [-> B]]]; [cbn; lia|]. specialize (M b' B). cbn; lia.
    + destruct (starts sep (x :: r)) eqn:E; [|discriminate]. injection H as <-. apply starts_ok in E as [c E].
      exists []. repeat split; [exists c; exact E|].
      intros b B. apply occurs_cons in B as [[-> S]|[b' [-> B]]]; [cbn; lia|].
      exfalso. clear - J B. revert b' B. induction r as [|y r IH]; intros b' [c B].
      * cbn in J. destruct (starts sep []) eqn:E; [discriminate|]. destruct b'; [|discriminate].
        assert (X : starts sep [] = true) by (apply starts_ok; exists c; exact B). congruence.
      * cbn in J. destruct (rindex r sep); [discriminate|]. destruct (starts sep (y :: r)) eqn:E; [discriminate|].
        assert (O : occurs (y :: r) sep b') by (exists c; exact B).
        apply occurs_cons in O as [[_ S]|[b2 [_ B2]]]; [congruence | exact (IH eq_refl b2 B2)].
Qed.
Lemma rindex_none : forall s sep, rindex s sep = None -> forall a, ~ occurs s sep a.
Proof.
  intros s sep; induction s as [|x r IH]; intros H a O; cbn in H.
  - destruct (starts sep []) eqn:E; [discriminate|]. destruct O as [c O]. destruct a; [|discriminate].
    assert (X : starts sep [] = true) by (apply starts_ok; exists c; exact O). congruence.
  - destruct (rindex r sep); [discriminate|]. destruct (starts sep (x :: r)) eqn:E; [discriminate|].
    apply occurs_cons in O as [[_ S]|[b [_ B]]]; [congruence | exact (IH eq_refl b B)].
Qed.

(** partition cuts at the first occurrence. *)
Lemma partition_there : forall s sep a0, occurs s sep a0 -> exists a c, partition s sep = (a, sep, c) /\ s = a ++ sep ++ c
  /\ forall b, occurs s sep b -> (length a <= length b)%nat.
Proof.
  intros s sep a0 O; unfold partition. destruct (index s sep) as [i|] eqn:E; [|exfalso; exact (index_none s sep E a0 O)].
  destruct (index_some s sep i E) as [a [L [[c H] M]]]. subst i. exists a, c. destruct (cut a sep c) as [A C].
  split; [rewrite H, A, C; reflexivity|]. split; [exact H | exact M].
Qed.
Lemma partition_not : forall s sep, (forall a, ~ occurs s sep a) -> partition s sep = (s, [], []).
Proof.
  intros s sep N; unfold partition. destruct (index s sep) as [i|] eqn:E; [|reflexivity].
  destruct (index_some s sep i E) as [a [_ [O _]]]. exfalso; exact (N a O).
Qed.

(** rpartition cuts at the last one. *)
Lemma rpartition_there : forall s sep a0, occurs s sep a0 -> exists a c, rpartition s sep = (a, sep, c) /\ s = a ++ sep ++ c
  /\ forall b, occurs s sep b -> (length b <= length a)%nat.
Proof.
  intros s sep a0 O; unfold rpartition. destruct (rindex s sep) as [i|] eqn:E; [|exfalso; exact (rindex_none s sep E a0 O)].
  destruct (rindex_some s sep i E) as [a [L [[c H] M]]]. subst i. exists a, c. destruct (cut a sep c) as [A C].
  split; [rewrite H, A, C; reflexivity|]. split; [exact H | exact M].
Qed.
Lemma rpartition_not : forall s sep, (forall a, ~ occurs s sep a) -> rpartition s sep = ([], [], s).
Proof.
  intros s sep N; unfold rpartition. destruct (rindex s sep) as [i|] eqn:E; [|reflexivity].
  destruct (rindex_some s sep i E) as [a [_ [O _]]]. exfalso; exact (N a O).
Qed.

(* ------------------------------------------------------------------ *)
(** ** What does not hold *)
Lemma insert_index_bad : ~ (forall s z o, insert s z o = ruby_insert s z o).
Proof. intros H. specialize (H [1; 2; 3] (-6) []). discriminate H. Qed.
Lemma concat_self_bad : ~ (forall s args, concat_ s args = ruby_concat s args).
Proof. intros H. specialize (H [1; 2] [Self; Self]). discriminate H. Qed.
Lemma prepend_self_bad : ~ (forall s args, prepend s args = ruby_prepend s args).
Proof. intros H. specialize (H [1; 2] [Self; Self]). discriminate H. Qed.
