From Coq Require Import ZArith List Bool Arith Lia Permutation.
From Verif Require Import MapSpec MapModel.
Import ListNotations.

Local Arguments Nat.ltb : simpl never.
Local Arguments Nat.leb : simpl never.

Ltac bool_nat :=
  repeat match goal with
  | H : context [if ?b then _ else _] |- _ => destruct b eqn:?
  | |- context [if ?b then _ else _] => destruct b eqn:?
  end;
  repeat match goal with
  | H : (_ && _)%bool = true |- _ => apply andb_prop in H; destruct H
  | H : (_ && _)%bool = false |- _ => apply andb_false_iff in H; destruct H
  | H : (_ <=? _) = true |- _ => apply Nat.leb_le in H
  | H : (_ <=? _) = false |- _ => apply Nat.leb_gt in H
  | H : (_ <? _) = true |- _ => apply Nat.ltb_lt in H
  | H : (_ <? _) = false |- _ => apply Nat.ltb_ge in H
  | H : (_ =? _) = true |- _ => apply Nat.eqb_eq in H
  | H : (_ =? _) = false |- _ => apply Nat.eqb_neq in H
  end.
Ltac fnext := intros; bool_nat; subst; try reflexivity; try lia; try assumption; try (f_equal; lia).

Lemma nth_error_nil {A} i : nth_error (@nil A) i = None.
Proof. now destruct i. Qed.

Section TF.
Variable vis : Z -> Z -> bool.
Hypothesis vis_refl : forall h, vis h h = true.
Variable ins : list (Z * nat) -> Z * nat -> list (Z * nat).
Hypothesis ins_perm : forall l x, Permutation (ins l x) (x :: l).
Variable grow : nat -> nat.
Hypothesis grow_ge : forall n, n <= grow n.

(** The table represents exactly the partial map index -> hash. *)
Definition TF (l : list (Z * nat)) (f : nat -> option Z) : Prop :=
  NoDup (map snd l) /\ forall h i, In (h, i) l <-> f i = Some h.

Definition upd (f : nat -> option Z) (i : nat) (o : option Z) : nat -> option Z :=
  fun j => if j =? i then o else f j.

Lemma TF_ext l f f' : (forall i, f i = f' i) -> TF l f -> TF l f'.
Proof. intros E [N H]; split; auto. intros h i. rewrite <- E; auto. Qed.

Lemma TF_perm l l' f : Permutation l l' -> TF l f -> TF l' f.
Proof.
  intros P [N H]; split.
  - eapply Permutation_NoDup; [apply Permutation_map, P|auto].
  - intros h i. rewrite <- H. split; apply Permutation_in; auto. now symmetry.
Qed.

Lemma TF_nil : TF [] (fun _ => None).
Proof. split; [constructor|]. intros; cbn; split; [tauto|discriminate]. Qed.

Lemma split_first_some {A} (q : A -> bool) l a x b :
  split_first q l = Some (a, x, b) -> l = a ++ x :: b /\ q x = true.
Proof.
  revert a x b; induction l as [|y l IH]; cbn; [discriminate|]; intros a x b.
  destruct (q y) eqn:E.
  - intros [= <- <- <-]; auto.
  - destruct (split_first q l) as [[[a' x'] b']|] eqn:S; [|discriminate].
    intros [= <- <- <-]. destruct (IH _ _ _ eq_refl) as [-> ?]; auto.
Qed.

Lemma split_first_none {A} (q : A -> bool) l :
  split_first q l = None -> forall x, In x l -> q x = false.
Proof.
  induction l as [|y l IH]; cbn; [tauto|].
  destruct (q y) eqn:E; [discriminate|].
  destruct (split_first q l) as [[[a' x'] b']|] eqn:S; [discriminate|].
  intros _ x [->|]; auto.
Qed.

Lemma TF_remove a h i b f : TF (a ++ (h, i) :: b) f -> TF (a ++ b) (upd f i None).
Proof.
  intros [N H].
  rewrite map_app in N; cbn in N. pose proof (NoDup_remove _ _ _ N) as [N1 N2].
  rewrite <- map_app in N1, N2.
  split; auto. intros h' j. unfold upd.
  destruct (Nat.eqb_spec j i) as [->|NE].
  - split; [|discriminate]. intros HI. destruct N2. apply in_map_iff. exists (h', i); auto.
  - rewrite <- H, !in_app_iff; cbn. intuition congruence.
Qed.

Lemma TF_add l h i f : TF l f -> f i = None -> TF ((h, i) :: l) (upd f i (Some h)).
Proof.
  intros [N H] E; split.
  - cbn; constructor; auto. intros HI; apply in_map_iff in HI as [[h' j] [? HI]]; cbn in *; subst.
    apply H in HI; congruence.
  - intros h' j; unfold upd; cbn.
    destruct (Nat.eqb_spec j i) as [->|NE].
    + split; [intros [|HI]; [congruence|apply H in HI; congruence]|intros [= ->]; auto].
    + rewrite <- H. intuition congruence.
Qed.

(** One visited item of index [i]. *)
Lemma take_idx t f h i : TF (items t) f -> f i = Some h ->
  exists a b, split_first (fun x => vis h (fst x) && Nat.eqb i (snd x)) (items t) = Some (a, (h, i), b)
              /\ items t = a ++ (h, i) :: b.
Proof.
  intros HT E. destruct HT as [N H].
  destruct (split_first _ _) as [[[a [h' j]] b]|] eqn:S.
  - apply split_first_some in S as [EQ Q]. cbn in Q. apply andb_prop in Q as [_ Q].
    apply Nat.eqb_eq in Q; subst j.
    assert (In (h', i) (items t)) by (rewrite EQ; apply in_elt).
    apply H in H0. assert (h' = h) by congruence; subst. eauto.
  - pose proof (split_first_none _ _ S (h, i)) as F. cbn in F.
    rewrite vis_refl, Nat.eqb_refl in F. discriminate F. now apply H.
Qed.

Lemma erase_index_ok t f h i : TF (items t) f -> f i = Some h ->
  TF (items (erase_index vis t h i)) (upd f i None) /\ tcap (erase_index vis t h i) = tcap t
  /\ S (t_len (erase_index vis t h i)) = t_len t.
Proof.
  intros HT E. destruct (take_idx _ _ _ _ HT E) as (a & b & S & EQ).
  unfold erase_index, t_take. rewrite S; cbn. rewrite EQ in HT.
  repeat split; [apply (TF_remove _ _ _ _ _ HT)| apply (TF_remove _ _ _ _ _ HT) |apply (TF_remove _ _ _ _ _ HT)|].
  unfold t_len; cbn; rewrite EQ, !app_length; cbn; lia.
Qed.

Lemma update_index_ok t f h i j : TF (items t) f -> f i = Some h -> i = j \/ f j = None ->
  exists t', update_index vis t h i j = Some t' /\ TF (items t') (upd (upd f i None) j (Some h))
             /\ tcap t' = tcap t /\ t_len t' = t_len t.
Proof.
  intros HT E D. destruct (take_idx _ _ _ _ HT E) as (a & b & S & EQ).
  unfold update_index; rewrite S; cbn. eexists; split; [reflexivity|]; cbn.
  rewrite EQ in HT. pose proof (TF_remove _ _ _ _ _ HT) as HR.
  split; [|unfold t_len; cbn; rewrite EQ, !app_length; cbn; lia].
  apply TF_perm with ((h, j) :: a ++ b); [apply Permutation_middle|].
  apply TF_add; auto. unfold upd. destruct (Nat.eqb_spec j i); auto. destruct D; congruence.
Qed.

Lemma t_insert_ok t f h i : TF (items t) f -> f i = None -> t_len t <= tcap t ->
  TF (items (t_insert ins grow h i t)) (upd f i (Some h))
  /\ t_len (t_insert ins grow h i t) = S (t_len t)
  /\ t_len (t_insert ins grow h i t) <= tcap (t_insert ins grow h i t)
  /\ tcap t <= tcap (t_insert ins grow h i t).
Proof.
  intros HT E L. pose proof (ins_perm (items t) (h, i)) as P.
  assert (LE : length (ins (items t) (h, i)) = S (t_len t))
    by (rewrite (Permutation_length P); reflexivity).
  split; [|split; [|split]]; unfold t_insert, t_len in *; cbn in *.
  - eapply TF_perm; [symmetry; apply P|]. now apply TF_add.
  - auto.
  - rewrite LE. pose proof (grow_ge (S (length (items t)))). bool_nat; lia.
  - pose proof (grow_ge (S (length (items t)))). bool_nat; lia.
Qed.

(** Every index sweep. *)
Lemma TF_sweep l f g f' : TF l f ->
  (forall i j k h h', f i = Some h -> f j = Some h' -> g i = Some k -> g j = Some k -> i = j) ->
  (forall h k, f' k = Some h <-> exists i, f i = Some h /\ g i = Some k) ->
  TF (flat_map (fun x : Z * nat => match g (snd x) with Some k => [(fst x, k)] | None => [] end) l) f'.
Proof.
  intros [N H] INJ FE; split.
  - assert (G : forall i h, In (h, i) l -> f i = Some h) by (intros; now apply H).
    clear H FE. induction l as [|[h i] l IH]; cbn; [constructor|].
    cbn in N; inversion N; subst.
    assert (IH' : NoDup (map snd (flat_map
        (fun x : Z * nat => match g (snd x) with Some k => [(fst x, k)] | None => [] end) l)))
      by (apply IH; auto; intros; apply G; now right).
    destruct (g i) as [k|] eqn:Eg; cbn; auto. constructor; auto.
    intros HI. apply in_map_iff in HI as [[h' k'] [? HI]]; cbn in *; subst k'.
    apply in_flat_map in HI as [[h2 j] [Hj HI]]. cbn in HI.
    destruct (g j) as [k2|] eqn:Ej; [|destruct HI]. destruct HI as [HI|[]]. injection HI as -> ->.
    assert (i = j) by (eapply INJ; [apply G; left; reflexivity|apply G; right; exact Hj| |]; eauto).
    subst. apply H1. apply in_map_iff. exists (h', j); auto.
  - intros h k. rewrite FE, in_flat_map. split.
    + intros [[h' i] [HI HJ]]. cbn in HJ. destruct (g i) as [k'|] eqn:E; [|destruct HJ].
      destruct HJ as [HJ|[]]. injection HJ as -> ->. exists i; split; auto. now apply H.
    + intros (i & E1 & E2). exists (h, i). split; [now apply H|]. cbn. rewrite E2. now left.
Qed.

Lemma sweep_len (g : nat -> option nat) (l : list (Z * nat)) :
  length (flat_map (fun x => match g (snd x) with Some k => [(fst x, k)] | None => [] end) l) <= length l.
Proof.
  induction l as [|x l IH]; [apply Nat.le_refl|]. cbn [flat_map]. rewrite app_length.
  destruct (g (snd x)); cbn [length]; lia.
Qed.

Lemma flat_map_single {A B} (g : A -> B) l : flat_map (fun x => [g x]) l = map g l.
Proof. induction l; cbn; congruence. Qed.

(** *** Buckets *)
Context {K V : Type}.
Variable eqk : K -> K -> bool.
Variable hash : K -> Z.
Variable dead : K -> bool.
Hypothesis eqk_live : forall x y, eqk x y = true -> dead x = false /\ dead y = false.
Hypothesis eqk_refl : forall x, dead x = false -> eqk x x = true.
Hypothesis eqk_sym : forall x y, eqk x y = eqk y x.
Hypothesis eqk_trans : forall x y z, eqk x y = true -> eqk y z = true -> eqk x z = true.
Hypothesis eqk_hash : forall x y, eqk x y = true -> hash x = hash y.

Notation bucket := (bucket K V).
Notation core := (core K V).

Definition fh (es : list bucket) : nat -> option Z :=
  fun i => match nth_error es i with
           | Some b => if dead (bk b) then None else Some (bh b)
           | None => None
           end.

Definition clean (es : list bucket) : Prop := Forall (fun b => dead (bk b) = false) es.
Definition distinct (es : list bucket) : Prop :=
  ForallOrdPairs (fun a b => eqk (bk a) (bk b) = false) es.
Definition hashed (es : list bucket) : Prop :=
  Forall (fun b => dead (bk b) = false -> bh b = hash (bk b)) es.

Definition Inv (c : core) : Prop :=
  (if linear c then items (tbl c) = [] /\ clean (ents c) else TF (items (tbl c)) (fh (ents c)))
  /\ t_len (tbl c) <= tcap (tbl c) /\ distinct (ents c) /\ hashed (ents c).

Lemma clean_fh es i : clean es -> fh es i = option_map bh (nth_error es i).
Proof.
  intros Cl. unfold fh. destruct (nth_error es i) eqn:E; auto.
  unfold clean in Cl. rewrite Forall_forall in Cl. rewrite (Cl b); auto. eapply nth_error_In; eauto.
Qed.

Lemma clean_len l es : clean es -> TF l (fh es) -> length l = length es.
Proof.
  intros Cl [N H].
  assert (P : Permutation (map snd l) (seq 0 (length es))).
  { apply NoDup_Permutation; auto using seq_NoDup. intros i. rewrite in_seq, in_map_iff. split.
    - intros [[h j] [? HI]]; cbn in *; subst. apply H in HI. rewrite clean_fh in HI by auto.
      destruct (nth_error es i) eqn:E; [|discriminate]. split; [lia|]. apply nth_error_Some; congruence.
    - intros [_ L]. destruct (nth_error es i) as [b|] eqn:E; [|apply nth_error_None in E; lia].
      exists (bh b, i); split; auto. apply H. rewrite clean_fh, E; auto. }
  apply Permutation_length in P. rewrite map_length, seq_length in P. auto.
Qed.

Lemma insert_bulk_ok t es0 es : clean (es0 ++ es) -> TF (items t) (fh es0) ->
  t_len t + length es <= tcap t ->
  exists t', insert_bulk ins grow t es = Some t' /\ TF (items t') (fh (es0 ++ es))
             /\ t_len t' <= tcap t'.
Proof.
  intros Cl HT L. unfold insert_bulk.
  destruct (Nat.leb_spec (length es) (tcap t - t_len t)); [|lia].
  eexists; split; [reflexivity|].
  assert (L0 : t_len t <= tcap t) by lia. clear L H.
  revert t es0 Cl HT L0. induction es as [|b es IH]; intros t es0 Cl HT L; cbn.
  - rewrite app_nil_r; auto.
  - assert (C0 : clean es0) by (apply Forall_app in Cl; tauto).
    assert (Cb : dead (bk b) = false)
      by (apply Forall_app in Cl as [_ Cl]; inversion Cl; auto).
    assert (LE : t_len t = length es0) by (apply clean_len; auto).
    assert (FN : fh es0 (t_len t) = None)
      by (unfold fh; rewrite LE, (proj2 (nth_error_None _ _)); auto).
    destruct (t_insert_ok t _ (bh b) (t_len t) HT FN L) as (HT' & _ & L' & _).
    replace (es0 ++ b :: es) with ((es0 ++ [b]) ++ es) in * by (rewrite <- app_assoc; auto).
    apply IH; auto.
    eapply TF_ext; [|exact HT'].
    intros i. unfold upd, fh. rewrite LE.
    destruct (Nat.eqb_spec i (length es0)) as [->|NE].
    + rewrite nth_error_app2, Nat.sub_diag by lia. cbn. now rewrite Cb.
    + destruct (lt_dec i (length es0)).
      * rewrite nth_error_app1 by lia; auto.
      * rewrite nth_error_app2 by lia. rewrite (proj2 (nth_error_None es0 i)) by lia.
        destruct (i - length es0) eqn:E; [lia|]. cbn. rewrite nth_error_nil. auto.
Qed.

Lemma fh_nil i : fh [] i = None.
Proof. unfold fh. now rewrite nth_error_nil. Qed.

Lemma insert_bulk_fresh t es : clean es -> items t = [] -> length es <= tcap t ->
  exists t', insert_bulk ins grow t es = Some t' /\ TF (items t') (fh es) /\ t_len t' <= tcap t'.
Proof.
  intros Cl E L. apply (insert_bulk_ok t [] es); auto.
  - rewrite E. eapply TF_ext; [|apply TF_nil]. intros; now rewrite fh_nil.
  - unfold t_len; rewrite E; cbn; lia.
Qed.

Lemma ensure_indexed_ok c : Inv c ->
  exists c', ensure_indexed ins grow c = Some c' /\ Inv c' /\ linear c' = false /\ ents c' = ents c.
Proof.
  intros (HT & L & D & HH). unfold ensure_indexed. destruct (linear c) eqn:EL.
  - destruct HT as [E Cl].
    destruct (insert_bulk_fresh (t_reserve grow (length (ents c)) (tbl c)) (ents c))
      as (t' & -> & HT' & L'); auto.
    { unfold t_reserve, t_len; rewrite E; cbn. pose proof (grow_ge (length (ents c))). bool_nat; lia. }
    eexists; split; [reflexivity|]. cbn. unfold Inv; cbn; auto.
  - exists c; repeat split; auto. rewrite EL; auto.
Qed.

(** *** Lookups *)
Lemma find_idx_some (q : bucket -> bool) l i : find_idx q l = Some i ->
  exists b, nth_error l i = Some b /\ q b = true.
Proof.
  revert i; induction l as [|x l IH]; cbn; [discriminate|]; intros i.
  destruct (q x) eqn:E; [intros [= <-]; cbn; eauto|].
  destruct (find_idx q l) as [j|]; cbn; [|discriminate]. intros [= <-]; cbn; auto.
Qed.

Lemma find_idx_none (q : bucket -> bool) l : find_idx q l = None -> forall b, In b l -> q b = false.
Proof.
  induction l as [|x l IH]; cbn; [tauto|]. destruct (q x) eqn:E; [discriminate|].
  destruct (find_idx q l); [discriminate|]. intros _ b [->|]; auto.
Qed.

Lemma find_idx_ext (q q' : bucket -> bool) l : (forall b, In b l -> q b = q' b) ->
  find_idx q l = find_idx q' l.
Proof.
  induction l as [|x l IH]; cbn; auto; intros E. rewrite (E x) by auto.
  destruct (q' x); auto. rewrite IH; auto.
Qed.

Definition pos (k : K) (es : list bucket) : option nat := find_idx (fun b => eqk k (bk b)) es.

Lemma distinct_uniq k es i j a b : distinct es -> nth_error es i = Some a -> nth_error es j = Some b ->
  eqk k (bk a) = true -> eqk k (bk b) = true -> i = j.
Proof.
  intros D. revert i j. induction D as [|x l F D IH]; intros i j Ei Ej Ha Hb.
  - rewrite nth_error_nil in Ei; discriminate.
  - rewrite Forall_forall in F.
    destruct i, j; cbn in *; auto.
    + injection Ei as ->. apply nth_error_In, F in Ej.
      rewrite eqk_sym in Ha. rewrite (eqk_trans _ _ _ Ha Hb) in Ej; discriminate.
    + injection Ej as ->. apply nth_error_In, F in Ei.
      rewrite eqk_sym in Hb. rewrite (eqk_trans _ _ _ Hb Ha) in Ei; discriminate.
Qed.

Lemma equivalent_fh k es i h : fh es i = Some h -> hashed es -> equivalent eqk k es i = true -> h = hash k.
Proof.
  unfold fh, equivalent. intros E HH. destruct (nth_error es i) as [b|] eqn:N; [|discriminate].
  destruct (dead (bk b)) eqn:Db; [discriminate|]. injection E as <-.
  intros Q. apply nth_error_In in N. unfold hashed in HH; rewrite Forall_forall in HH.
  rewrite (HH b N Db). symmetry; auto.
Qed.

Lemma t_take_ok t es k : TF (items t) (fh es) -> distinct es -> hashed es ->
  match pos k es with
  | Some i => exists t', t_take vis (hash k) (equivalent eqk k es) t = Some (i, t')
                /\ TF (items t') (upd (fh es) i None) /\ tcap t' = tcap t /\ S (t_len t') = t_len t
  | None => t_take vis (hash k) (equivalent eqk k es) t = None
  end.
Proof.
  intros HT D HH. unfold t_take. destruct (pos k es) as [i|] eqn:P.
  - apply find_idx_some in P as (b & N & Q).
    assert (F : fh es i = Some (hash k)).
    { unfold fh; rewrite N. rewrite (proj2 (eqk_live _ _ Q)).
      f_equal. unfold hashed in HH; rewrite Forall_forall in HH. rewrite (HH b); [|eapply nth_error_In; eauto|].
      symmetry; auto. apply (eqk_live _ _ Q). }
    destruct (split_first _ _) as [[[a [h j]] b']|] eqn:S.
    + apply split_first_some in S as [EQ Q']. cbn in Q'. apply andb_prop in Q' as [_ Q'].
      assert (j = i).
      { unfold equivalent in Q'. destruct (nth_error es j) as [b2|] eqn:N2; [|discriminate].
        eapply distinct_uniq; eauto. }
      subst j. cbn. eexists; split; [reflexivity|]; cbn. rewrite EQ in HT. split.
      * apply (TF_remove _ _ _ _ _ HT).
      * unfold t_len; cbn; rewrite EQ, !app_length; cbn; lia.
    + pose proof (split_first_none _ _ S (hash k, i)) as G. cbn in G.
      unfold equivalent in G. rewrite N, Q, vis_refl in G. discriminate G. now apply HT.
  - destruct (split_first _ _) as [[[a [h j]] b']|] eqn:S; auto.
    apply split_first_some in S as [EQ Q']. cbn in Q'. apply andb_prop in Q' as [_ Q'].
    unfold equivalent in Q'. destruct (nth_error es j) as [b2|] eqn:N2; [|discriminate].
    apply nth_error_In in N2. apply (find_idx_none _ _ P) in N2. congruence.
Qed.

Lemma t_find_take h p t : t_find vis h p t = option_map fst (t_take vis h p t).
Proof.
  unfold t_find, t_take. generalize (fun x : Z * nat => vis h (fst x) && p (snd x)); intros q.
  enough (G : find q (items t) = option_map (fun y => snd (fst y)) (split_first q (items t))).
  { rewrite G. destruct (split_first q (items t)) as [[[? ?] ?]|]; reflexivity. }
  induction (items t) as [|x l IH]; cbn; auto.
  destruct (q x); cbn; auto. rewrite IH. destruct (split_first q l) as [[[? ?] ?]|]; reflexivity.
Qed.

Lemma t_find_ok t es k : TF (items t) (fh es) -> distinct es -> hashed es ->
  t_find vis (hash k) (equivalent eqk k es) t = pos k es.
Proof.
  intros HT D HH. rewrite t_find_take. pose proof (t_take_ok t es k HT D HH) as G.
  destruct (pos k es). destruct G as (t' & -> & _); auto. now rewrite G.
Qed.

Lemma linear_find_ok c k : hashed (ents c) -> linear_find eqk (hash k) k c = pos k (ents c).
Proof.
  intros HH. apply find_idx_ext. intros b Hb. destruct (eqk k (bk b)) eqn:E; [|apply andb_false_r].
  unfold hashed in HH; rewrite Forall_forall in HH. rewrite (HH b Hb (proj2 (eqk_live _ _ E))).
  rewrite (eqk_hash _ _ E), Z.eqb_refl. auto.
Qed.

Lemma get_index_of_ok c k : Inv c -> get_index_of eqk vis (hash k) k c = pos k (ents c).
Proof.
  intros (HT & L & D & HH). unfold get_index_of. destruct (linear c).
  - now apply linear_find_ok.
  - now apply t_find_ok.
Qed.

(** *** Entry-list edits *)
Lemma nth_error_ext' {A} (l l' : list A) : (forall i, nth_error l i = nth_error l' i) -> l = l'.
Proof.
  revert l'; induction l as [|x l IH]; destruct l' as [|y l']; intros E; auto.
  - specialize (E 0); discriminate.
  - specialize (E 0); discriminate.
  - pose proof (E 0) as E0; cbn in E0; injection E0 as ->. f_equal. apply IH. intros i; apply (E (S i)).
Qed.

Lemma nth_error_firstn_ {A} (l : list A) n i : nth_error (firstn n l) i = if i <? n then nth_error l i else None.
Proof.
  revert n i; induction l as [|x l IH]; intros n i.
  - rewrite firstn_nil, nth_error_nil. now destruct (i <? n).
  - destruct n; cbn; [now rewrite nth_error_nil|]. destruct i; cbn; auto.
    rewrite IH. reflexivity.
Qed.
Lemma nth_error_skipn_ {A} (l : list A) n i : nth_error (skipn n l) i = nth_error l (n + i).
Proof.
  revert n; induction l as [|x l IH]; intros n.
  - now rewrite skipn_nil, !nth_error_nil.
  - destruct n; cbn; auto.
Qed.
Lemma nth_error_rev_ {A} (l : list A) i : i < length l -> nth_error (rev l) i = nth_error l (length l - S i).
Proof.
  revert i; induction l as [|x l IH]; cbn; intros i Hi; [lia|].
  destruct (lt_dec i (length l)).
  - rewrite nth_error_app1 by (rewrite rev_length; lia). rewrite IH by lia.
    replace (length l - i) with (S (length l - S i)) by lia. reflexivity.
  - rewrite nth_error_app2 by (rewrite rev_length; lia). rewrite rev_length.
    replace i with (length l) by lia. now rewrite !Nat.sub_diag.
Qed.

Lemma nth_error_insert {A} (l : list A) i b j : i <= length l ->
  nth_error (firstn i l ++ b :: skipn i l) j =
  if j <? i then nth_error l j else if j =? i then Some b else nth_error l (j - 1).
Proof.
  intros Hi. assert (LF : length (firstn i l) = i) by (rewrite firstn_length; lia).
  destruct (j <? i) eqn:E; bool_nat.
  - rewrite nth_error_app1 by lia. rewrite nth_error_firstn_. bool_nat; auto; lia.
  - rewrite nth_error_app2, LF by lia. now replace (j - i) with 0 by lia.
  - rewrite nth_error_app2, LF by lia. replace (j - i) with (S (j - i - 1)) by lia. cbn.
    rewrite nth_error_skipn_. f_equal; lia.
Qed.

Lemma nth_error_replace {A} (l : list A) i b j : i < length l ->
  nth_error (firstn i l ++ b :: skipn (S i) l) j = if j =? i then Some b else nth_error l j.
Proof.
  intros Hi. assert (LF : length (firstn i l) = i) by (rewrite firstn_length; lia).
  destruct (lt_dec j i).
  - rewrite nth_error_app1 by lia. rewrite nth_error_firstn_. bool_nat; auto; lia.
  - rewrite nth_error_app2, LF by lia. destruct (Nat.eqb_spec j i) as [->|].
    + now rewrite Nat.sub_diag.
    + replace (j - i) with (S (j - i - 1)) by lia. cbn [nth_error]. rewrite nth_error_skipn_. f_equal; lia.
Qed.

Lemma nth_error_remove (es : list bucket) i j :
  nth_error (remove_nth i es) j = if j <? i then nth_error es j else nth_error es (S j).
Proof.
  unfold remove_nth. destruct (le_dec i (length es)).
  - assert (LF : length (firstn i es) = i) by (rewrite firstn_length; lia).
    destruct (j <? i) eqn:E; bool_nat.
    + rewrite nth_error_app1 by lia. rewrite nth_error_firstn_. bool_nat; auto; lia.
    + rewrite nth_error_app2, LF by lia. rewrite nth_error_skipn_. f_equal; lia.
  - rewrite firstn_all2, skipn_all2, app_nil_r by lia. bool_nat; auto.
    rewrite !(proj2 (nth_error_None _ _)) by lia; auto.
Qed.

Lemma upd_some f i h j : upd f i (Some h) j = if j =? i then Some h else f j.
Proof. reflexivity. Qed.

(** Sublists keep everything. *)
Lemma distinct_app a b : distinct (a ++ b) <->
  distinct a /\ distinct b /\ forall x y, In x a -> In y b -> eqk (bk x) (bk y) = false.
Proof.
  unfold distinct. induction a as [|x a IH]; cbn.
  - split; [intros; repeat split; auto; try constructor; tauto|tauto].
  - split.
    + intros H; inversion H; subst. apply IH in H3 as (A & B' & C'). rewrite Forall_app in H2.
      destruct H2 as [F1 F2]. repeat split; auto; [constructor; auto|].
      intros u v [->|] Hv; auto. rewrite Forall_forall in F2; auto.
    + intros (A & B' & C'). inversion A; subst. constructor.
      * apply Forall_app; split; auto. apply Forall_forall; auto.
      * apply IH; repeat split; auto.
Qed.

Lemma distinct_filter p es : distinct es -> distinct (filter p es).
Proof.
  unfold distinct; induction 1 as [|x l F D IH]; cbn; [constructor|].
  destruct (p x); auto. constructor; auto. rewrite Forall_forall in *. intros y Hy.
  apply filter_In in Hy as []; auto.
Qed.

Lemma distinct_perm es es' : Permutation es es' -> distinct es -> distinct es'.
Proof.
  unfold distinct; induction 1; intros D; auto.
  - inversion D; subst. constructor; auto. eapply Permutation_Forall; eauto.
  - inversion D; subst. inversion H2; subst. inversion H1; subst.
    constructor; [constructor; auto; now rewrite eqk_sym|constructor; auto].
Qed.

Lemma Forall_filter {A} (P : A -> Prop) p l : Forall P l -> Forall P (filter p l).
Proof. rewrite !Forall_forall. intros H x Hx. apply filter_In in Hx as []; auto. Qed.
Lemma Forall_firstn_ {A} (P : A -> Prop) n l : Forall P l -> Forall P (firstn n l).
Proof. intros H. rewrite <- (firstn_skipn n) in H. now apply Forall_app in H. Qed.
Lemma Forall_skipn_ {A} (P : A -> Prop) n l : Forall P l -> Forall P (skipn n l).
Proof. intros H. rewrite <- (firstn_skipn n) in H. now apply Forall_app in H. Qed.

Lemma split_nth {A} (es : list A) i b : nth_error es i = Some b ->
  es = firstn i es ++ b :: skipn (S i) es.
Proof.
  revert i; induction es as [|x es IH]; intros i E; [rewrite nth_error_nil in E; discriminate|].
  destruct i; cbn in *; [congruence|]. f_equal; auto.
Qed.
Lemma firstn_len {A} (es : list A) i b : nth_error es i = Some b -> length (firstn i es) = i.
Proof. intros E. assert (i < length es) by (apply nth_error_Some; congruence). rewrite firstn_length; lia. Qed.

(** *** Index shifting *)
Definition dec (f : nat -> option Z) (s e : nat) : nat -> option Z :=
  fun i => if (s <=? S i) && (S i <? e) then f (S i) else if S i =? e then None else f i.
Definition inc (f : nat -> option Z) (s e : nat) : nat -> option Z :=
  fun j => if (s <? j) && (j <=? e) then f (j - 1) else if j =? s then None else f j.

Lemma upd_down_ok (es : list bucket) f s : forall n i t, 1 <= s <= i -> TF (items t) (dec f s i) ->
  (forall j, i <= j < i + n -> exists b, nth_error es j = Some b /\ f j = Some (bh b)) ->
  exists t', upd_down vis t es i n = Some t' /\ TF (items t') (dec f s (i + n))
             /\ tcap t' = tcap t /\ t_len t' = t_len t.
Proof.
  induction n as [|n IH]; intros i t Hs HT R; cbn.
  - exists t. rewrite Nat.add_0_r. auto.
  - destruct (R i) as (b & -> & Fi); [lia|].
    destruct (update_index_ok t _ (bh b) i (i - 1) HT) as (t' & -> & HT' & C' & L').
    + unfold dec; fnext.
    + right. unfold dec; fnext.
    + destruct (IH (S i) t') as (t2 & -> & HT2 & C2 & L2); [lia| | |].
      * eapply TF_ext; [|exact HT']. intros j. unfold upd, dec; fnext; auto.
        all: try (rewrite <- Fi; f_equal; lia).
      * intros j Hj; apply R; lia.
      * exists t2; split; [reflexivity|]. split; [|split; congruence].
        now replace (i + S n) with (S i + n) by lia.
Qed.

Lemma decrement_ok t (es : list bucket) f s e : 1 <= s <= e -> TF (items t) f -> f (s - 1) = None ->
  (forall j, s <= j < e -> exists b, nth_error es j = Some b /\ f j = Some (bh b)) ->
  exists t', decrement_indices vis t es s e = Some t' /\ TF (items t') (dec f s e)
             /\ tcap t' = tcap t /\ t_len t' = t_len t.
Proof.
  intros Hs HT F0 R. unfold decrement_indices.
  destruct (_ <? _).
  - eexists; split; [reflexivity|]. cbn. split; [|unfold t_len; cbn; rewrite map_length; auto].
    set (g := fun i => Some (if (s <=? i) && (i <? e) then i - 1 else i)).
    replace (map _ (items t)) with
      (flat_map (fun x : Z * nat => match g (snd x) with Some k => [(fst x, k)] | None => [] end) (items t)).
    2:{ rewrite <- flat_map_single. apply flat_map_ext. intros [h i]; cbn. f_equal. now destruct (_ && _). }
    eapply TF_sweep; eauto; unfold g.
    + intros i j k h h' Ei Ej [= <-] [= E].
      assert (i <> s - 1) by congruence. assert (j <> s - 1) by congruence. bool_nat; lia.
    + intros h k. unfold dec. split.
      * intros E. destruct ((s <=? S k) && (S k <? e)) eqn:B1.
        -- exists (S k); split; auto. f_equal. bool_nat; lia.
        -- destruct (S k =? e) eqn:B2; [discriminate|]. exists k; split; auto. f_equal.
           assert (k <> s - 1) by congruence. bool_nat; lia.
      * intros (i & Ei & [= <-]). assert (i <> s - 1) by congruence.
        bool_nat; try lia; rewrite <- Ei; try (f_equal; lia).
  - destruct (upd_down_ok es f s (e - s) s t) as (t' & E' & HT' & ?); [lia| | |].
    + eapply TF_ext; [|exact HT]. intros i; unfold dec; fnext. all: try (rewrite <- F0; f_equal; lia).
    + intros j Hj; apply R; lia.
    + exists t'; split; auto. split; auto. now replace e with (s + (e - s)) at 1 by lia.
Qed.

Lemma upd_up_ok (es : list bucket) f e s : forall n t, s + n <= e -> TF (items t) (inc f (s + n) e) ->
  (forall j, s <= j < s + n -> exists b, nth_error es j = Some b /\ f j = Some (bh b)) ->
  exists t', upd_up vis t es s n = Some t' /\ TF (items t') (inc f s e)
             /\ tcap t' = tcap t /\ t_len t' = t_len t.
Proof.
  induction n as [|n IH]; intros t Hs HT R; cbn.
  - exists t. rewrite Nat.add_0_r in HT. auto.
  - destruct (R (s + n)) as (b & -> & Fi); [lia|].
    destruct (update_index_ok t _ (bh b) (s + n) (s + n + 1) HT) as (t' & -> & HT' & C' & L').
    + unfold inc; fnext.
    + right. unfold inc; fnext.
    + destruct (IH t') as (t2 & -> & HT2 & C2 & L2); [lia| | |].
      * eapply TF_ext; [|exact HT']. intros j. unfold upd, inc; fnext; auto.
        all: try (rewrite <- Fi; f_equal; lia).
      * intros j Hj; apply R; lia.
      * exists t2; split; [reflexivity|]. split; [auto|split; congruence].
Qed.

Lemma increment_ok t (es : list bucket) f s e : s <= e -> TF (items t) f -> f e = None ->
  (forall j, s <= j < e -> exists b, nth_error es j = Some b /\ f j = Some (bh b)) ->
  exists t', increment_indices vis t es s e = Some t' /\ TF (items t') (inc f s e)
             /\ tcap t' = tcap t /\ t_len t' = t_len t.
Proof.
  intros Hs HT F0 R. unfold increment_indices.
  destruct (_ <? _).
  - eexists; split; [reflexivity|]. cbn. split; [|unfold t_len; cbn; rewrite map_length; auto].
    set (g := fun i => Some (if (s <=? i) && (i <? e) then i + 1 else i)).
    replace (map _ (items t)) with
      (flat_map (fun x : Z * nat => match g (snd x) with Some k => [(fst x, k)] | None => [] end) (items t)).
    2:{ rewrite <- flat_map_single. apply flat_map_ext. intros [h i]; cbn. f_equal. now destruct (_ && _). }
    eapply TF_sweep; eauto; unfold g.
    + intros i j k h h' Ei Ej [= <-] [= E].
      assert (i <> e) by congruence. assert (j <> e) by congruence. bool_nat; lia.
    + intros h k. unfold inc. split.
      * intros E. destruct ((s <? k) && (k <=? e)) eqn:B1.
        -- exists (k - 1); split; auto. f_equal. bool_nat; lia.
        -- destruct (k =? s) eqn:B2; [discriminate|]. exists k; split; auto. f_equal.
           assert (k <> e) by congruence. bool_nat; lia.
      * intros (i & Ei & [= <-]). assert (i <> e) by congruence.
        bool_nat; try lia; rewrite <- Ei; try (f_equal; lia).
  - destruct (upd_up_ok es f e s (e - s) t) as (t' & E' & HT' & ?); auto; [lia| | |].
    + replace (s + (e - s)) with e by lia.
      eapply TF_ext; [|exact HT]. intros i; unfold inc; fnext.
    + intros j Hj; apply R; lia.
    + exists t'; auto.
Qed.

(** *** Removing a range *)
Definition cutf (f : nat -> option Z) (s e : nat) : nat -> option Z :=
  fun i => if i <? s then f i else f (i + (e - s)).

Lemma erase_run_ok (es : list bucket) f s : forall n i t, s <= i ->
  TF (items t) (fun j => if (s <=? j) && (j <? i) then None else f j) ->
  (forall j, i <= j < i + n -> exists b, nth_error es j = Some b /\ f j = Some (bh b)) ->
  t_len t <= tcap t ->
  exists t', erase_run vis t es i n = Some t'
     /\ TF (items t') (fun j => if (s <=? j) && (j <? i + n) then None else f j)
     /\ t_len t' <= tcap t'.
Proof.
  induction n as [|n IH]; intros i t Hs HT R L; cbn.
  - exists t. rewrite Nat.add_0_r. auto.
  - destruct (R i) as (b & -> & Fi); [lia|].
    destruct (erase_index_ok t _ (bh b) i HT) as (HT' & C' & L'); [fnext|].
    destruct (IH (S i) (erase_index vis t (bh b) i)) as (t2 & -> & HT2 & L2); [lia| | |lia|].
    + eapply TF_ext; [|exact HT']. unfold upd; fnext.
    + intros j Hj; apply R; lia.
    + exists t2; split; [reflexivity|]. split; auto. now replace (i + S n) with (S i + n) by lia.
Qed.

Lemma shift_run_ok (es : list bucket) f s e : s < e -> forall n m t,
  TF (items t) (fun j => if (s <=? j) && (j <? s + m) then f (j + (e - s))
                         else if (s <=? j) && (j <? e + m) then None else f j) ->
  (forall j, e + m <= j < e + m + n -> exists b, nth_error es j = Some b /\ f j = Some (bh b)) ->
  t_len t <= tcap t ->
  exists t', shift_run vis t es (e + m) (s + m) n = Some t' /\
    TF (items t') (fun j => if (s <=? j) && (j <? s + (m + n)) then f (j + (e - s))
                         else if (s <=? j) && (j <? e + (m + n)) then None else f j)
    /\ t_len t' <= tcap t'.
Proof.
  intros Hse. induction n as [|n IH]; intros m t HT R L; cbn.
  - exists t. rewrite Nat.add_0_r. auto.
  - destruct (R (e + m)) as (b & -> & Fi); [lia|].
    destruct (update_index_ok t _ (bh b) (e + m) (s + m) HT) as (t' & -> & HT' & C' & L').
    + fnext.
    + right. fnext.
    + destruct (IH (S m) t') as (t2 & E2 & HT2 & L2); [| |lia|].
      * eapply TF_ext; [|exact HT']. intros j; unfold upd; fnext; try (rewrite <- Fi; f_equal; lia).
      * intros j Hj; apply R; lia.
      * exists t2. replace (S (e + m)) with (e + S m) by lia. replace (S (s + m)) with (s + S m) by lia.
        split; auto. split; auto. now replace (m + S n) with (S m + n) by lia.
Qed.

Lemma cut_nth (es : list bucket) s e i : s <= e <= length es ->
  nth_error (firstn s es ++ skipn e es) i = if i <? s then nth_error es i else nth_error es (i + (e - s)).
Proof.
  intros H. assert (LF : length (firstn s es) = s) by (rewrite firstn_length; lia).
  destruct (i <? s) eqn:E; bool_nat.
  - rewrite nth_error_app1 by lia. rewrite nth_error_firstn_. bool_nat; auto; lia.
  - rewrite nth_error_app2, LF by lia. rewrite nth_error_skipn_. f_equal; lia.
Qed.

Lemma clean_cut es s e : clean es -> clean (firstn s es ++ skipn e es).
Proof. intros Cl. apply Forall_app; split; [apply Forall_firstn_|apply Forall_skipn_]; auto. Qed.

Lemma cutf_fh es s e : clean es -> s <= e <= length es ->
  forall i, cutf (fh es) s e i = fh (firstn s es ++ skipn e es) i.
Proof.
  intros Cl H i. rewrite (clean_fh _ i (clean_cut es s e Cl)), cut_nth by lia. unfold cutf.
  destruct (i <? s); now rewrite clean_fh.
Qed.

Lemma nth_some {A} (l : list A) i : i < length l -> exists b, nth_error l i = Some b.
Proof. intros H. destruct (nth_error l i) eqn:E; eauto. apply nth_error_None in E; lia. Qed.

Lemma erase_indices_ok c s e : Inv c -> clean (ents c) -> s <= e <= length (ents c) ->
  exists t', erase_indices vis ins grow c s e = Some t' /\ t_len t' <= tcap t' /\
    (if linear c then items t' = [] else TF (items t') (fh (firstn s (ents c) ++ skipn e (ents c)))).
Proof.
  intros (HT & L & D & HH) Cl H. unfold erase_indices. destruct (linear c) eqn:EL.
  { exists (tbl c). tauto. }
  set (es := ents c) in *.
  assert (R : forall j, j < length es -> exists b, nth_error es j = Some b /\ fh es j = Some (bh b)).
  { intros j Hj. destruct (nth_some es j Hj) as [b E]. exists b; split; auto. rewrite clean_fh, E; auto. }
  assert (FO : forall j, length es <= j -> fh es j = None)
    by (intros j Hj; unfold fh; now rewrite (proj2 (nth_error_None _ _))).
  destruct (Nat.eqb_spec (e - s) 0) as [E0|E0].
  { exists (tbl c); split; [reflexivity|split; [exact L|]]. eapply TF_ext; [|exact HT].
    intros i. rewrite <- (cutf_fh es s e) by auto. unfold cutf. rewrite E0, Nat.add_0_r.
    destruct (i <? s); reflexivity. }
  pose proof (Nat.div_le_upper_bound (tcap (tbl c)) 2 (tcap (tbl c))) as HALF.
  destruct ((s + (length es - e) <? tcap (tbl c) / 2) && (s <? e - s)) eqn:B1.
  { apply andb_prop in B1 as [B1 _]. apply Nat.ltb_lt in B1.
    assert (HC : tcap (tbl c) / 2 <= tcap (tbl c)) by (apply HALF; lia).
    destruct (insert_bulk_ok (t_clear (tbl c)) [] (firstn s es)) as (t1 & E1 & HT1 & L1).
    - apply Forall_firstn_; auto.
    - cbn. eapply TF_ext; [|apply TF_nil]. intros; now rewrite fh_nil.
    - unfold t_len; cbn. rewrite firstn_length. lia.
    - rewrite E1. cbn [app] in HT1.
      assert (L1' : t_len t1 = s) by (unfold t_len; rewrite (clean_len _ _ (Forall_firstn_ _ s _ Cl) HT1), firstn_length; lia).
      destruct (insert_bulk_ok t1 (firstn s es) (skipn e es)) as (t2 & E2 & HT2 & L2); auto.
      + apply clean_cut; auto.
      + rewrite skipn_length, L1'.
        unfold insert_bulk in E1. destruct (_ <=? _) eqn:B; [|discriminate]. injection E1 as <-.
        clear -B1 HC H grow_ge ins.
        assert (G : forall (l : list bucket) (t : table), tcap t <= tcap (fold_left (fun t b => t_insert ins grow (bh b) (t_len t) t) l t)).
        { induction l as [|b l IH]; intros t; cbn; auto. etransitivity; [|apply IH].
          cbn. pose proof (grow_ge (S (t_len t))). bool_nat; lia. }
        specialize (G (firstn s es) (t_clear (tbl c))). cbn in G. lia.
      + exists t2; auto. }
  destruct (e - s + (length es - e) <? tcap (tbl c) / 2).
  { destruct (erase_run_ok es (fh es) s (e - s) s (tbl c)) as (t1 & -> & HT1 & L1); auto.
    - eapply TF_ext; [|exact HT]. fnext.
    - intros j Hj; apply R; lia.
    - destruct (shift_run_ok es (fh es) s e ltac:(lia) (length es - e) 0 t1) as (t2 & E2 & HT2 & L2); auto.
      + eapply TF_ext; [|exact HT1]. fnext.
      + intros j Hj; apply R; lia.
      + rewrite !Nat.add_0_r in E2. exists t2; split; auto. split; auto.
        eapply TF_ext; [|exact HT2]. intros i. rewrite <- cutf_fh by auto. unfold cutf.
        fnext; first [symmetry; apply FO; lia | transitivity (@None Z); [apply FO; lia|symmetry; apply FO; lia]]. }
  eexists; split; [reflexivity|]. cbn.
  set (g := fun i => if e <=? i then Some (i - (e - s)) else if i <? s then Some i else None).
  replace (flat_map _ (items (tbl c))) with
    (flat_map (fun x : Z * nat => match g (snd x) with Some k => [(fst x, k)] | None => [] end) (items (tbl c))).
  2:{ apply flat_map_ext. intros [h i]; cbn [fst snd]. unfold g. destruct (e <=? i); auto. now destruct (i <? s). }
  split.
  - unfold t_len; cbn. transitivity (length (items (tbl c))); auto. apply sweep_len.
  - eapply TF_sweep; eauto; unfold g.
    + intros i j k h h' Ei Ej E1 E2. bool_nat; try discriminate; injection E1; injection E2; lia.
    + intros h k. rewrite <- cutf_fh by auto. unfold cutf. split.
      * intros E. destruct (k <? s) eqn:B; [apply Nat.ltb_lt in B|apply Nat.ltb_ge in B].
        -- exists k; split; auto. bool_nat; try lia; auto.
        -- exists (k + (e - s)); split; auto. replace (e <=? k + (e - s)) with true by (symmetry; apply Nat.leb_le; lia). f_equal; lia.
      * intros (i & Ei & E). bool_nat; try discriminate; injection E; intros <-; bool_nat; try lia;
          rewrite <- Ei; f_equal; lia.
Qed.

(** *** The operations *)
Variables (dk : K) (dv : V).
Hypothesis dk_dead : dead dk = true.

Definition live (b : bucket) : bool := negb (dead (bk b)).
Definition absl (es : list bucket) : list (K * V) := map kv (filter live es).
Definition abs (c : core) : list (K * V) := absl (ents c).

Lemma clean_filter (es : list bucket) : clean es -> filter live es = es.
Proof.
  unfold clean, live; induction 1 as [|b l E _ IH]; cbn; auto. rewrite E; cbn. congruence.
Qed.
Lemma clean_abs (es : list bucket) : clean es -> absl es = map kv es.
Proof. intros; unfold absl; now rewrite clean_filter. Qed.

Lemma absl_cons b (es : list bucket) : absl (b :: es) = if dead (bk b) then absl es else kv b :: absl es.
Proof. unfold absl, live; cbn. destruct (dead (bk b)); reflexivity. Qed.
Lemma absl_app a b : absl (a ++ b) = absl a ++ absl b.
Proof. unfold absl. now rewrite filter_app, map_app. Qed.

Lemma pos_cons k b (es : list bucket) : pos k (b :: es) = if eqk k (bk b) then Some 0 else option_map S (pos k es).
Proof. reflexivity. Qed.

Lemma dead_eqk k (b : bucket) : dead (bk b) = true -> eqk k (bk b) = false.
Proof. intros Db. destruct (eqk k (bk b)) eqn:E; auto. apply eqk_live in E as [_ E]; congruence. Qed.

Lemma get_abs k (es : list bucket) :
  match pos k es with Some i => option_map kv (nth_error es i) | None => None end = s_get eqk k (absl es).
Proof.
  induction es as [|b es IH]; auto. rewrite pos_cons, absl_cons.
  destruct (dead (bk b)) eqn:Db.
  - rewrite dead_eqk by auto. rewrite <- IH. destruct (pos k es); reflexivity.
  - unfold s_get in *; cbn. destruct (eqk k (bk b)); auto.
    rewrite <- IH. destruct (pos k es); reflexivity.
Qed.

Lemma set_val_S i v (b : bucket) (es : list bucket) : set_val (S i) v (b :: es) = b :: set_val i v es.
Proof. unfold set_val; cbn. now destruct (nth_error es i). Qed.
Lemma set_kv_S i k v (b : bucket) (es : list bucket) : set_kv (S i) k v (b :: es) = b :: set_kv i k v es.
Proof. unfold set_kv; cbn. now destruct (nth_error es i). Qed.

Lemma put_abs h k v (es : list bucket) : dead k = false ->
  absl (match pos k es with Some i => set_val i v es | None => es ++ [B h k v] end) = s_put eqk k v (absl es).
Proof.
  intros Dk. induction es as [|b es IH].
  - unfold absl, live. cbn. rewrite Dk. reflexivity.
  - rewrite pos_cons. rewrite absl_cons.
    destruct (dead (bk b)) eqn:Db.
    + rewrite dead_eqk by auto. rewrite <- IH.
      destruct (pos k es); cbn [option_map]; [rewrite set_val_S|cbn [app]]; rewrite absl_cons, Db; reflexivity.
    + cbn [s_put kv]. destruct (eqk k (bk b)).
      * unfold set_val; cbn [nth_error firstn app skipn]. rewrite absl_cons. cbn. now rewrite Db.
      * rewrite <- IH. destruct (pos k es); cbn [option_map]; [rewrite set_val_S|cbn [app]];
          rewrite absl_cons, Db; reflexivity.
Qed.

Lemma replace_abs h k v (es : list bucket) : dead k = false ->
  absl (match pos k es with Some i => set_kv i k v es | None => es ++ [B h k v] end) = s_replace eqk k v (absl es).
Proof.
  intros Dk. induction es as [|b es IH].
  - unfold absl, live. cbn. rewrite Dk. reflexivity.
  - rewrite pos_cons. rewrite absl_cons.
    destruct (dead (bk b)) eqn:Db.
    + rewrite dead_eqk by auto. rewrite <- IH.
      destruct (pos k es); cbn [option_map]; [rewrite set_kv_S|cbn [app]]; rewrite absl_cons, Db; reflexivity.
    + cbn [s_replace kv]. destruct (eqk k (bk b)).
      * unfold set_kv; cbn [nth_error firstn app skipn]. rewrite absl_cons. cbn. now rewrite Dk.
      * rewrite <- IH. destruct (pos k es); cbn [option_map]; [rewrite set_kv_S|cbn [app]];
          rewrite absl_cons, Db; reflexivity.
Qed.

Lemma s_delete_absent k (es : list bucket) : (forall b, In b es -> eqk k (bk b) = false) -> s_delete eqk k (absl es) = absl es.
Proof.
  induction es as [|b es IH]; intros H; auto. rewrite absl_cons.
  destruct (dead (bk b)).
  - apply IH; intros; apply H; now right.
  - unfold s_delete in *; cbn. rewrite (H b) by now left. cbn. f_equal. apply IH; intros; apply H; now right.
Qed.

Lemma distinct_cons_absent k b (es : list bucket) : distinct (b :: es) -> eqk k (bk b) = true ->
  forall x, In x es -> eqk k (bk x) = false.
Proof.
  intros D E x Hx. inversion D; subst. rewrite Forall_forall in H1. specialize (H1 x Hx).
  destruct (eqk k (bk x)) eqn:E'; auto. rewrite eqk_sym in E.
  rewrite (eqk_trans _ _ _ E E') in H1. discriminate.
Qed.

Lemma remove_S i (b : bucket) es : remove_nth (S i) (b :: es) = b :: remove_nth i es.
Proof. reflexivity. Qed.

Lemma delete_abs k (es : list bucket) : distinct es ->
  absl (match pos k es with Some i => remove_nth i es | None => es end) = s_delete eqk k (absl es).
Proof.
  intros D. induction es as [|b es IH]; auto. rewrite pos_cons, absl_cons.
  assert (D' : distinct es) by (inversion D; auto).
  specialize (IH D').
  destruct (eqk k (bk b)) eqn:E.
  - rewrite (proj2 (eqk_live _ _ E)). cbn [remove_nth firstn skipn app]. unfold s_delete; cbn.
    rewrite E; cbn. fold (s_delete eqk k (absl es)). symmetry. apply s_delete_absent.
    eapply distinct_cons_absent; eauto.
  - destruct (dead (bk b)) eqn:Db; [rewrite <- IH|unfold s_delete in *; cbn; rewrite E; cbn; rewrite <- IH];
    destruct (pos k es); cbn [option_map]; rewrite ?remove_S, absl_cons, Db; auto.
Qed.

Lemma tomb_abs k (es : list bucket) : distinct es ->
  absl (match pos k es with Some i => set_kv i dk dv es | None => es end) = s_delete eqk k (absl es).
Proof.
  intros D. rewrite <- delete_abs by auto. clear D. destruct (pos k es) as [i|] eqn:P; auto. clear P.
  unfold set_kv, remove_nth. destruct (nth_error es i) eqn:E.
  - rewrite !absl_app, absl_cons. cbn. now rewrite dk_dead.
  - apply nth_error_None in E. now rewrite firstn_all2, skipn_all2, app_nil_r by lia.
Qed.

Lemma fh_set_val i v (es : list bucket) j : fh (set_val i v es) j = fh es j.
Proof.
  unfold set_val. destruct (nth_error es i) eqn:E; auto. unfold fh.
  rewrite nth_error_replace by (apply nth_error_Some; congruence).
  destruct (Nat.eqb_spec j i) as [->|]; auto. now rewrite E.
Qed.

Lemma fh_set_dead i (es : list bucket) j : fh (set_kv i dk dv es) j = upd (fh es) i None j.
Proof.
  unfold set_kv, upd. destruct (nth_error es i) eqn:E; unfold fh.
  - rewrite nth_error_replace by (apply nth_error_Some; congruence).
    destruct (Nat.eqb_spec j i) as [->|]; auto. cbn. now rewrite dk_dead.
  - destruct (Nat.eqb_spec j i) as [->|]; auto. now rewrite E.
Qed.

Lemma fh_set_live i k v (es : list bucket) b j : nth_error es i = Some b -> dead (bk b) = false -> dead k = false ->
  fh (set_kv i k v es) j = fh es j.
Proof.
  intros E Db Dk. unfold set_kv, fh; rewrite E.
  rewrite nth_error_replace by (apply nth_error_Some; congruence).
  destruct (Nat.eqb_spec j i) as [->|]; auto. cbn. now rewrite E, Db, Dk.
Qed.

Lemma fh_push (es : list bucket) b j : fh (es ++ [b]) j = upd (fh es) (length es) (if dead (bk b) then None else Some (bh b)) j.
Proof.
  unfold upd, fh. destruct (Nat.eqb_spec j (length es)) as [->|NE].
  - now rewrite nth_error_app2, Nat.sub_diag by lia.
  - destruct (lt_dec j (length es)).
    + now rewrite nth_error_app1 by lia.
    + rewrite nth_error_app2 by lia. rewrite (proj2 (nth_error_None es j)) by lia.
      destruct (j - length es) eqn:E; [lia|]. cbn. now rewrite nth_error_nil.
Qed.

Lemma distinct_replace (es : list bucket) i b b' : distinct es -> nth_error es i = Some b ->
  (forall y, eqk (bk b') y = true -> eqk (bk b) y = true) ->
  distinct (firstn i es ++ b' :: skipn (S i) es).
Proof.
  intros D E H. rewrite (split_nth _ _ _ E) in D. apply distinct_app in D as (D1 & D2 & D3).
  inversion D2; subst. apply distinct_app. split; [auto|split].
  - constructor; auto. rewrite Forall_forall in *. intros x Hx. specialize (H2 x Hx).
    destruct (eqk (bk b') (bk x)) eqn:E'; auto. apply H in E'; congruence.
  - intros x y Hx [<-|Hy].
    + specialize (D3 x b Hx (or_introl eq_refl)). rewrite eqk_sym.
      destruct (eqk (bk b') (bk x)) eqn:E'; auto. apply H in E'. rewrite eqk_sym in E'. congruence.
    + apply D3; auto. now right.
Qed.

Lemma Forall_replace (P : bucket -> Prop) es i b' : Forall P es -> P b' ->
  Forall P (firstn i es ++ b' :: skipn (S i) es).
Proof.
  intros F H. apply Forall_app; split; [apply Forall_firstn_|constructor; [|apply Forall_skipn_]]; auto.
Qed.

Lemma distinct_set_val i v (es : list bucket) : distinct es -> distinct (set_val i v es).
Proof.
  intros D. unfold set_val. destruct (nth_error es i) eqn:E; auto. eapply distinct_replace; eauto.
Qed.
Lemma hashed_set_val i v (es : list bucket) : hashed es -> hashed (set_val i v es).
Proof.
  intros H. unfold set_val. destruct (nth_error es i) eqn:E; auto. apply Forall_replace; auto. cbn.
  unfold hashed in H; rewrite Forall_forall in H. apply H. eapply nth_error_In; eauto.
Qed.
Lemma clean_set_val i v (es : list bucket) : clean es -> clean (set_val i v es).
Proof.
  intros H. unfold set_val. destruct (nth_error es i) eqn:E; auto. apply Forall_replace; auto. cbn.
  unfold clean in H; rewrite Forall_forall in H. apply H. eapply nth_error_In; eauto.
Qed.
Lemma distinct_set_dead i (es : list bucket) : distinct es -> distinct (set_kv i dk dv es).
Proof.
  intros D. unfold set_kv. destruct (nth_error es i) eqn:E; auto. eapply distinct_replace; eauto.
  cbn. intros y H. apply eqk_live in H as []; congruence.
Qed.
Lemma hashed_set_dead i (es : list bucket) : hashed es -> hashed (set_kv i dk dv es).
Proof.
  intros H. unfold set_kv. destruct (nth_error es i) eqn:E; auto. apply Forall_replace; auto. cbn. congruence.
Qed.

Lemma pos_some k (es : list bucket) i : pos k es = Some i -> exists b, nth_error es i = Some b /\ eqk k (bk b) = true.
Proof. apply find_idx_some. Qed.
Lemma pos_none k (es : list bucket) : pos k es = None -> forall b, In b es -> eqk k (bk b) = false.
Proof. apply find_idx_none. Qed.

Lemma distinct_push k v h (es : list bucket) : distinct es -> pos k es = None -> distinct (es ++ [B h k v]).
Proof.
  intros D P. apply distinct_app; repeat split; auto.
  - repeat constructor.
  - intros x y Hx [<-|[]]. cbn. rewrite eqk_sym. eapply pos_none; eauto.
Qed.
Lemma hashed_push k v (es : list bucket) : hashed es -> hashed (es ++ [B (hash k) k v]).
Proof. intros H. apply Forall_app; split; auto. Qed.
Lemma clean_push h k v (es : list bucket) : clean es -> dead k = false -> clean (es ++ [B h k v]).
Proof. intros H Dk. apply Forall_app; split; auto. Qed.

Notation insert_full := (insert_full eqk vis ins grow).
Notation insert_indexed := (insert_indexed eqk vis ins grow).

Lemma insert_indexed_ok k v c : Inv c -> linear c = false -> dead k = false ->
  let c' := fst (insert_indexed (hash k) k v c) in
  insert_indexed (hash k) k v c =
    (c', match pos k (ents c) with
         | Some i => (i, option_map bv (nth_error (ents c) i))
         | None => (length (ents c), None) end)
  /\ Inv c' /\ ents c' = match pos k (ents c) with
                         | Some i => set_val i v (ents c)
                         | None => ents c ++ [B (hash k) k v] end.
Proof.
  intros (HT & L & D & HH) EL Dk. unfold insert_indexed. rewrite EL in HT.
  rewrite t_find_ok by auto. destruct (pos k (ents c)) as [i|] eqn:P; cbn.
  - split; [reflexivity|]. split; [|reflexivity]. unfold Inv; cbn. rewrite EL.
    split; [|repeat split; auto using distinct_set_val, hashed_set_val].
    eapply TF_ext; [|exact HT]. intros; now rewrite fh_set_val.
  - split; [reflexivity|]. split; [|reflexivity]. unfold Inv; cbn. rewrite EL.
    assert (FN : fh (ents c) (length (ents c)) = None)
      by (unfold fh; rewrite (proj2 (nth_error_None _ _)); auto).
    destruct (t_insert_ok (tbl c) _ (hash k) _ HT FN L) as (HT' & _ & L' & _).
    split; [|repeat split; auto using distinct_push, hashed_push].
    eapply TF_ext; [|exact HT']. intros; rewrite fh_push; cbn. now rewrite Dk.
Qed.

Lemma insert_full_ok k v c : Inv c -> dead k = false ->
  exists c', insert_full (hash k) k v c =
     Some (c', match pos k (ents c) with
               | Some i => (i, option_map bv (nth_error (ents c) i))
               | None => (length (ents c), None) end)
  /\ Inv c' /\ ents c' = match pos k (ents c) with
                         | Some i => set_val i v (ents c)
                         | None => ents c ++ [B (hash k) k v] end.
Proof.
  intros I Dk. unfold insert_full. destruct (linear c) eqn:EL.
  - pose proof I as (HT & L & D & HH). rewrite EL in HT. destruct HT as [E Cl].
    rewrite linear_find_ok by auto. destruct (pos k (ents c)) as [i|] eqn:P.
    + eexists; split; [reflexivity|]; cbn. unfold Inv; cbn. intuition auto using clean_set_val, distinct_set_val, hashed_set_val.
    + destruct (_ <? _).
      * eexists; split; [reflexivity|]; cbn. unfold Inv; cbn. intuition auto using clean_push, distinct_push, hashed_push.
      * destruct (ensure_indexed_ok c I) as (c1 & -> & I1 & EL1 & EE).
        destruct (insert_indexed_ok k v c1 I1 EL1 Dk) as (Q & I' & E').
        rewrite EE, P in *. cbn [option_map]. rewrite Q. eexists; split; [reflexivity|]. auto.
  - destruct (insert_indexed_ok k v c I EL Dk) as (Q & I' & E').
    rewrite Q. eexists; split; [reflexivity|]. auto.
Qed.

Lemma replace_full_ok k v c : Inv c -> dead k = false ->
  exists c', replace_full eqk vis ins grow (hash k) k v c =
     Some (c', match pos k (ents c) with
               | Some i => (i, option_map kv (nth_error (ents c) i))
               | None => (length (ents c), None) end)
  /\ Inv c' /\ ents c' = match pos k (ents c) with
                         | Some i => set_kv i k v (ents c)
                         | None => ents c ++ [B (hash k) k v] end.
Proof.
  intros I Dk. unfold replace_full.
  destruct (ensure_indexed_ok c I) as (c1 & -> & (HT & L & D & HH) & EL & EE).
  rewrite EL in HT. rewrite t_find_ok by auto. rewrite <- EE.
  destruct (pos k (ents c1)) as [i|] eqn:P.
  - destruct (pos_some _ _ _ P) as (b & N & Q). eexists; split; [reflexivity|].
    split; [|reflexivity]. unfold Inv; cbn. rewrite EL.
    split; [|split; [auto|split]].
    + eapply TF_ext; [|exact HT]. intros. symmetry. eapply fh_set_live; eauto; apply (eqk_live _ _ Q).
    + unfold set_kv; rewrite N. rewrite eqk_sym in Q. eapply distinct_replace; eauto.
    + unfold set_kv; rewrite N. apply Forall_replace; auto. cbn. intros _.
      unfold hashed in HH; rewrite Forall_forall in HH. rewrite (HH b); [symmetry; auto|eapply nth_error_In; eauto|].
      apply (eqk_live _ _ Q).
  - eexists; split; [reflexivity|]. split; [|reflexivity]. unfold Inv; cbn. rewrite EL.
    assert (FN : fh (ents c1) (length (ents c1)) = None)
      by (unfold fh; rewrite (proj2 (nth_error_None _ _)); auto).
    destruct (t_insert_ok (tbl c1) _ (hash k) _ HT FN L) as (HT' & _ & L' & _).
    split; [|repeat split; auto using distinct_push, hashed_push].
    eapply TF_ext; [|exact HT']. intros; rewrite fh_push; cbn. now rewrite Dk.
Qed.

(** Removing one bucket by shifting. *)
Lemma sub_remove (P : bucket -> Prop) i es : Forall P es -> Forall P (remove_nth i es).
Proof. intros; apply Forall_app; split; [apply Forall_firstn_|apply Forall_skipn_]; auto. Qed.

Lemma distinct_cut (es : list bucket) s e : s <= e -> distinct es -> distinct (firstn s es ++ skipn e es).
Proof.
  intros Hse D. rewrite <- (firstn_skipn s es) in D.
  replace (skipn e es) with (skipn (e - s) (skipn s es)).
  2:{ apply nth_error_ext'. intros i. rewrite !nth_error_skipn_. f_equal; lia. }
  apply distinct_app in D as (D1 & D2 & D3). rewrite <- (firstn_skipn (e - s) (skipn s es)) in D2, D3.
  apply distinct_app in D2 as (_ & D2 & _). apply distinct_app; repeat split; auto.
  intros x y Hx Hy. apply D3; auto. apply in_or_app; auto.
Qed.
Lemma distinct_remove i (es : list bucket) : distinct es -> distinct (remove_nth i es).
Proof. apply distinct_cut; lia. Qed.
Lemma distinct_firstn n (es : list bucket) : distinct es -> distinct (firstn n es).
Proof. intros D. rewrite <- (firstn_skipn n) in D. now apply distinct_app in D. Qed.
Lemma distinct_skipn n (es : list bucket) : distinct es -> distinct (skipn n es).
Proof. intros D. rewrite <- (firstn_skipn n) in D. now apply distinct_app in D. Qed.

Lemma nth_fh (es : list bucket) j : clean es -> j < length es -> exists b, nth_error es j = Some b /\ fh es j = Some (bh b).
Proof.
  intros Cl Hj. destruct (nth_some es j Hj) as [b E]. exists b; split; auto. rewrite clean_fh, E; auto.
Qed.
Lemma fh_out (es : list bucket) j : length es <= j -> fh es j = None.
Proof. intros; unfold fh; now rewrite (proj2 (nth_error_None _ _)). Qed.

Ltac fhs := bool_nat; subst; try lia; rewrite <- ?clean_fh by assumption; auto;
  first [reflexivity | f_equal; lia | apply fh_out; lia | symmetry; apply fh_out; lia
        | transitivity (@None Z); [apply fh_out; lia|symmetry; apply fh_out; lia] | idtac].

Lemma shift_remove_finish_ok t (es : list bucket) i : clean es -> i < length es -> TF (items t) (upd (fh es) i None) ->
  t_len t <= tcap t ->
  exists t', shift_remove_finish vis t es i = Some (t', remove_nth i es)
     /\ TF (items t') (fh (remove_nth i es)) /\ t_len t' <= tcap t'.
Proof.
  intros Cl Hi HT L. unfold shift_remove_finish.
  destruct (decrement_ok t es _ (S i) (length es) ltac:(lia) HT) as (t' & -> & HT' & C' & L').
  - unfold upd. replace (S i - 1) with i by lia. now rewrite Nat.eqb_refl.
  - intros j Hj. destruct (nth_fh es j Cl ltac:(lia)) as (b & E & F). exists b; split; auto.
    unfold upd. bool_nat; auto; lia.
  - exists t'; split; [reflexivity|]. split; [|lia].
    eapply TF_ext; [|exact HT']. intros j. rewrite (clean_fh (remove_nth i es)) by (now apply sub_remove).
    rewrite nth_error_remove. unfold dec, upd.
    fhs.
Qed.

Lemma shift_remove_full_ok k c : Inv c -> clean (ents c) ->
  exists c', shift_remove_full eqk vis (hash k) k c =
    Some (c', match pos k (ents c) with
              | Some i => option_map (fun b => (i, kv b)) (nth_error (ents c) i)
              | None => None end)
  /\ Inv c' /\ ents c' = match pos k (ents c) with Some i => remove_nth i (ents c) | None => ents c end.
Proof.
  intros I Cl. pose proof I as (HT & L & D & HH). unfold shift_remove_full.
  destruct (linear c) eqn:EL.
  - rewrite linear_find_ok by auto. destruct (pos k (ents c)) as [i|] eqn:P.
    + eexists; split; [reflexivity|]. split; [|reflexivity]. unfold Inv; cbn.
      destruct HT. repeat split; auto using distinct_remove; now apply sub_remove.
    + exists c; auto.
  - pose proof (t_take_ok (tbl c) (ents c) k HT D HH) as G.
    destruct (pos k (ents c)) as [i|] eqn:P.
    + destruct G as (t1 & -> & HT1 & C1 & L1).
      assert (Hi : i < length (ents c))
        by (apply pos_some in P as (b & E & _); apply nth_error_Some; congruence).
      destruct (shift_remove_finish_ok t1 (ents c) i Cl Hi HT1 ltac:(lia)) as (t2 & -> & HT2 & L2).
      eexists; split; [reflexivity|]. split; [|reflexivity]. unfold Inv; cbn.
      repeat split; auto using distinct_remove; try apply HT2. now apply sub_remove.
    + rewrite G. exists c; auto.
Qed.

Lemma shift_remove_index_ok i c : Inv c -> clean (ents c) ->
  exists c', shift_remove_index vis i c = Some (c', option_map kv (nth_error (ents c) i))
  /\ Inv c' /\ ents c' = remove_nth i (ents c).
Proof.
  intros I Cl. pose proof I as (HT & L & D & HH). unfold shift_remove_index.
  destruct (nth_error (ents c) i) as [b|] eqn:E.
  - assert (Hi : i < length (ents c)) by (apply nth_error_Some; congruence).
    destruct (linear c) eqn:EL.
    + eexists; split; [reflexivity|]. split; [|reflexivity]. unfold Inv; cbn.
      destruct HT. repeat split; auto using distinct_remove; now apply sub_remove.
    + assert (F : fh (ents c) i = Some (bh b)) by (rewrite clean_fh, E; auto).
      destruct (erase_index_ok (tbl c) _ (bh b) i HT F) as (HT1 & C1 & L1).
      destruct (shift_remove_finish_ok _ (ents c) i Cl Hi HT1 ltac:(lia)) as (t2 & -> & HT2 & L2).
      eexists; split; [reflexivity|]. split; [|reflexivity]. unfold Inv; cbn.
      repeat split; auto using distinct_remove; try apply HT2. now apply sub_remove.
  - exists c; repeat split; try apply I. unfold remove_nth. apply nth_error_None in E.
    now rewrite firstn_all2, skipn_all2, app_nil_r by lia.
Qed.

(** Removing one bucket by swapping in the last. *)
Lemma swap_nth (es : list bucket) i j : i < length es ->
  nth_error (swap_remove_nth i es) j =
  if j <? length es - 1 then (if j =? i then nth_error es (length es - 1) else nth_error es j) else None.
Proof.
  intros Hi. unfold swap_remove_nth.
  destruct (nth_some es (length es - 1) ltac:(lia)) as [z E]. rewrite E, nth_error_firstn_.
  rewrite nth_error_replace by lia. bool_nat; auto.
Qed.
Lemma swap_len (es : list bucket) i : i < length es -> length (swap_remove_nth i es) = length es - 1.
Proof.
  intros Hi. unfold swap_remove_nth.
  destruct (nth_some es (length es - 1) ltac:(lia)) as [z E]. rewrite E, firstn_length, app_length.
  cbn [length]. rewrite firstn_length, skipn_length. lia.
Qed.

Lemma swap_perm (es : list bucket) i b : nth_error es i = Some b ->
  Permutation es (b :: swap_remove_nth i es).
Proof.
  intros E. assert (Hi : i < length es) by (apply nth_error_Some; congruence).
  unfold swap_remove_nth. destruct (nth_some es (length es - 1) ltac:(lia)) as [z Ez]. rewrite Ez.
  destruct (Nat.eq_dec i (length es - 1)) as [->|NE].
  - assert (z = b) by congruence; subst.
    rewrite firstn_app, firstn_length. replace (length es - 1 - Nat.min (length es - 1) (length es)) with 0 by lia.
    rewrite firstn_firstn, Nat.min_id, app_nil_r.
    rewrite (split_nth _ _ _ Ez) at 1. rewrite skipn_all2 by lia.
    symmetry; apply Permutation_cons_append.
  - rewrite (split_nth _ _ _ E) at 1. set (a := firstn i es). set (m := skipn (S i) es).
    assert (La : length a = i) by (unfold a; rewrite firstn_length; lia).
    assert (Lm : length m = length es - S i) by (unfold m; rewrite skipn_length; lia).
    assert (EM : m = firstn (length m - 1) m ++ [z]).
    { assert (NZ : nth_error m (length m - 1) = Some z).
      { unfold m at 1. rewrite nth_error_skipn_. rewrite <- Ez. f_equal. lia. }
      rewrite (split_nth _ _ _ NZ) at 1. f_equal. f_equal. apply skipn_all2. lia. }
    rewrite firstn_app, firstn_all2 by lia. rewrite La.
    replace (length es - 1 - i) with (S (length m - 1)) by lia. cbn [firstn].
    rewrite EM at 1. rewrite <- Permutation_middle. apply perm_skip.
    apply Permutation_app_head. symmetry. apply Permutation_cons_append.
Qed.

Lemma sub_swap (P : bucket -> Prop) i es : i < length es -> Forall P es -> Forall P (swap_remove_nth i es).
Proof.
  intros Hi F. destruct (nth_some es i Hi) as [b E]. pose proof (swap_perm es i b E) as HP.
  apply (Permutation_Forall HP) in F. now inversion F.
Qed.
Lemma distinct_swap i (es : list bucket) : i < length es -> distinct es -> distinct (swap_remove_nth i es).
Proof.
  intros Hi F. destruct (nth_some es i Hi) as [b E]. pose proof (swap_perm es i b E) as HP.
  apply (distinct_perm _ _ HP) in F. now inversion F.
Qed.

Lemma swap_remove_finish_ok t (es : list bucket) i : clean es -> i < length es -> TF (items t) (upd (fh es) i None) ->
  t_len t <= tcap t ->
  exists t', swap_remove_finish vis t es i = Some (t', swap_remove_nth i es)
     /\ TF (items t') (fh (swap_remove_nth i es)) /\ t_len t' <= tcap t'.
Proof.
  intros Cl Hi HT L. unfold swap_remove_finish.
  assert (Cs : clean (swap_remove_nth i es)) by (apply sub_swap; auto).
  rewrite swap_nth, swap_len by auto. rewrite Nat.eqb_refl.
  destruct (Nat.ltb_spec i (length es - 1)).
  - destruct (nth_fh es (length es - 1) Cl ltac:(lia)) as (z & -> & F).
    destruct (update_index_ok t _ (bh z) (length es - 1) i HT) as (t' & -> & HT' & C' & L').
    + unfold upd. bool_nat; auto; lia.
    + right. unfold upd. now rewrite Nat.eqb_refl.
    + exists t'; split; [reflexivity|]. split; [|lia].
      eapply TF_ext; [|exact HT']. intros j. rewrite (clean_fh _ _ Cs), swap_nth by auto.
      unfold upd. fhs.
  - exists t; split; [reflexivity|]. split; auto.
    eapply TF_ext; [|exact HT]. intros j. rewrite (clean_fh _ _ Cs), swap_nth by auto.
    unfold upd. fhs.
Qed.

Lemma swap_remove_full_ok k c : Inv c -> clean (ents c) ->
  exists c', swap_remove_full eqk vis (hash k) k c =
    Some (c', match pos k (ents c) with
              | Some i => option_map (fun b => (i, kv b)) (nth_error (ents c) i)
              | None => None end)
  /\ Inv c' /\ ents c' = match pos k (ents c) with Some i => swap_remove_nth i (ents c) | None => ents c end.
Proof.
  intros I Cl. pose proof I as (HT & L & D & HH). unfold swap_remove_full.
  assert (HI : forall i, pos k (ents c) = Some i -> i < length (ents c))
    by (intros i P; apply pos_some in P as (b & E & _); apply nth_error_Some; congruence).
  destruct (linear c) eqn:EL.
  - rewrite linear_find_ok by auto. destruct (pos k (ents c)) as [i|] eqn:P.
    + eexists; split; [reflexivity|]. split; [|reflexivity]. unfold Inv; cbn.
      destruct HT. repeat split; auto using distinct_swap; apply sub_swap; auto.
    + exists c; auto.
  - pose proof (t_take_ok (tbl c) (ents c) k HT D HH) as G.
    destruct (pos k (ents c)) as [i|] eqn:P.
    + destruct G as (t1 & -> & HT1 & C1 & L1). pose proof (HI i eq_refl) as Hi.
      destruct (swap_remove_finish_ok t1 (ents c) i Cl Hi HT1 ltac:(lia)) as (t2 & -> & HT2 & L2).
      eexists; split; [reflexivity|]. split; [|reflexivity]. unfold Inv; cbn.
      repeat split; auto using distinct_swap; try apply HT2. apply sub_swap; auto.
    + rewrite G. exists c; auto.
Qed.

Lemma swap_remove_index_ok i c : Inv c -> clean (ents c) ->
  exists c', swap_remove_index vis i c = Some (c', option_map kv (nth_error (ents c) i))
  /\ Inv c' /\ ents c' = if i <? length (ents c) then swap_remove_nth i (ents c) else ents c.
Proof.
  intros I Cl. pose proof I as (HT & L & D & HH). unfold swap_remove_index.
  destruct (nth_error (ents c) i) as [b|] eqn:E.
  - assert (Hi : i < length (ents c)) by (apply nth_error_Some; congruence).
    rewrite (proj2 (Nat.ltb_lt _ _) Hi). destruct (linear c) eqn:EL.
    + eexists; split; [reflexivity|]. split; [|reflexivity]. unfold Inv; cbn.
      destruct HT. repeat split; auto using distinct_swap; apply sub_swap; auto.
    + assert (F : fh (ents c) i = Some (bh b)) by (rewrite clean_fh, E; auto).
      destruct (erase_index_ok (tbl c) _ (bh b) i HT F) as (HT1 & C1 & L1).
      destruct (swap_remove_finish_ok _ (ents c) i Cl Hi HT1 ltac:(lia)) as (t2 & -> & HT2 & L2).
      eexists; split; [reflexivity|]. split; [|reflexivity]. unfold Inv; cbn.
      repeat split; auto using distinct_swap; try apply HT2. apply sub_swap; auto.
  - exists c; repeat split; try apply I. apply nth_error_None in E.
    now rewrite (proj2 (Nat.ltb_ge _ _)) by lia.
Qed.

Lemma pop_ok c : Inv c -> clean (ents c) ->
  let c' := fst (pop vis c) in
  pop vis c = (c', option_map kv (nth_error (ents c) (length (ents c) - 1)))
  /\ Inv c' /\ ents c' = firstn (length (ents c) - 1) (ents c).
Proof.
  intros I Cl. pose proof I as (HT & L & D & HH). unfold pop.
  destruct (nth_error (ents c) (length (ents c) - 1)) as [b|] eqn:E; cbn.
  - assert (Hi : length (ents c) - 1 < length (ents c)) by (apply nth_error_Some; congruence).
    split; [reflexivity|]. split; [|reflexivity]. unfold Inv; cbn.
    rewrite firstn_length, Nat.min_l by lia.
    destruct (linear c).
    + destruct HT. repeat split; auto using distinct_firstn; now apply Forall_firstn_.
    + assert (F : fh (ents c) (length (ents c) - 1) = Some (bh b)) by (rewrite clean_fh, E; auto).
      destruct (erase_index_ok (tbl c) _ (bh b) _ HT F) as (HT1 & C1 & L1).
      split; [|repeat split; auto using distinct_firstn; [lia|now apply Forall_firstn_]].
      eapply TF_ext; [|exact HT1]. intros j. rewrite (clean_fh (firstn _ _)) by now apply Forall_firstn_.
      rewrite nth_error_firstn_. unfold upd.
      fhs.
  - split; [reflexivity|]. split; [auto|]. apply nth_error_None in E.
    destruct (ents c); [reflexivity|cbn in *; lia].
Qed.

Lemma clear_ok c : Inv (clear c).
Proof. unfold Inv; cbn. repeat split; try constructor. unfold t_len; cbn; lia. Qed.

Lemma cut_inv c s e t : Inv c -> clean (ents c) -> s <= e <= length (ents c) ->
  t_len t <= tcap t ->
  (if linear c then items t = [] else TF (items t) (fh (firstn s (ents c) ++ skipn e (ents c)))) ->
  Inv (C (linear c) t (firstn s (ents c) ++ skipn e (ents c))).
Proof.
  intros (HT & L & D & HH) Cl H L' HT'. unfold Inv; cbn.
  split; [destruct (linear c); auto using clean_cut|].
  split; [auto|]. split; [apply distinct_cut; auto; lia|].
  apply Forall_app; split; [apply Forall_firstn_|apply Forall_skipn_]; auto.
Qed.

Lemma truncate_ok n c : Inv c -> clean (ents c) ->
  exists c', truncate vis ins grow n c = Some c' /\ Inv c' /\ ents c' = firstn n (ents c).
Proof.
  intros I Cl. unfold truncate. destruct (Nat.ltb_spec n (length (ents c))).
  - destruct (erase_indices_ok c n (length (ents c)) I Cl ltac:(lia)) as (t & -> & L & HT).
    pose proof (cut_inv c n (length (ents c)) t I Cl ltac:(lia) L HT) as I'.
    rewrite skipn_all, app_nil_r in I'. eexists; split; [reflexivity|]. auto.
  - exists c; repeat split; try apply I. now rewrite firstn_all2.
Qed.

Lemma drain_ok s e c : Inv c -> clean (ents c) -> s <= e <= length (ents c) ->
  exists c', drain vis ins grow s e c = Some (c', map kv (firstn (e - s) (skipn s (ents c))))
    /\ Inv c' /\ ents c' = firstn s (ents c) ++ skipn e (ents c).
Proof.
  intros I Cl H. unfold drain.
  rewrite (proj2 (Nat.leb_le s e)), (proj2 (Nat.leb_le e (length (ents c)))) by lia. cbn [andb].
  destruct (erase_indices_ok c s e I Cl H) as (t & -> & L & HT).
  eexists; split; [reflexivity|]. split; [|reflexivity]. now apply cut_inv.
Qed.

Lemma split_off_ok n c : Inv c -> clean (ents c) -> n <= length (ents c) ->
  exists c1 c2, split_off vis ins grow n c = Some (c1, c2) /\ Inv c1 /\ Inv c2
    /\ ents c1 = firstn n (ents c) /\ ents c2 = skipn n (ents c).
Proof.
  intros I Cl H. unfold split_off. rewrite (proj2 (Nat.leb_le _ _) H).
  destruct (erase_indices_ok c n (length (ents c)) I Cl ltac:(lia)) as (t & -> & L & HT).
  pose proof (cut_inv c n (length (ents c)) t I Cl ltac:(lia) L HT) as I'.
  rewrite skipn_all, app_nil_r in I'. pose proof I as (_ & _ & D & HH).
  assert (Cs : clean (skipn n (ents c))) by now apply Forall_skipn_.
  assert (Hs : hashed (skipn n (ents c))) by now apply Forall_skipn_.
  destruct (linear c) eqn:EL.
  - do 2 eexists; split; [reflexivity|]. repeat split; auto; try apply I'. now apply distinct_skipn.
  - destruct (insert_bulk_fresh (t_with_capacity grow (length (skipn n (ents c)))) (skipn n (ents c)) Cs)
      as (t2 & -> & HT2 & L2); [reflexivity|apply grow_ge|].
    do 2 eexists; split; [reflexivity|]. repeat split; auto; try apply I'; try apply HT2. now apply distinct_skipn.
Qed.

Lemma reserve_ok n c : Inv c ->
  exists c', reserve ins grow n c = Some c' /\ Inv c' /\ ents c' = ents c.
Proof.
  intros I. unfold reserve.
  assert (G : forall c, Inv c -> Inv (C (linear c) (t_reserve grow n (tbl c)) (ents c))).
  { intros x (HT & L & D & HH). unfold Inv; cbn. repeat split; auto. unfold t_reserve, t_len in *; cbn.
    pose proof (grow_ge (length (items (tbl x)) + n)). bool_nat; lia. }
  destruct (linear c) eqn:EL.
  - destruct (_ <? _); [|exists c; auto].
    destruct (ensure_indexed_ok c I) as (c1 & -> & I1 & EL1 & EE). eexists; split; [reflexivity|]. auto.
  - eexists; split; [reflexivity|]. specialize (G c I). rewrite EL in G. auto.
Qed.

Lemma rebuild_ok lin t (es : list bucket) : clean es -> distinct es -> hashed es -> (lin = true -> items t = []) ->
  t_len t <= tcap t -> (lin = false -> length es <= tcap t) ->
  exists c', rebuild ins grow (C lin t es) = Some c' /\ Inv c' /\ ents c' = es.
Proof.
  intros Cl D HH LI L LC. unfold rebuild; cbn [linear tbl ents]. destruct lin.
  - eexists; split; [reflexivity|]. split; [|reflexivity]. unfold Inv; cbn; auto.
  - destruct (insert_bulk_fresh (t_clear t) es Cl eq_refl) as (t' & -> & HT' & L'); [apply LC; auto|].
    eexists; split; [reflexivity|]. split; [|reflexivity]. unfold Inv; cbn; auto.
Qed.

Lemma filter_len {A} p (l : list A) : length (filter p l) <= length l.
Proof. induction l as [|x l IH]; cbn; [lia|]. destruct (p x); cbn; lia. Qed.
Lemma filter_all {A} p (l : list A) : length (filter p l) = length l -> filter p l = l.
Proof.
  induction l as [|x l IH]; cbn; auto. destruct (p x); cbn; intros E; [f_equal; apply IH; lia|].
  pose proof (filter_len p l); lia.
Qed.

Lemma retain_ok p c : Inv c -> clean (ents c) ->
  exists c', retain ins grow p c = Some c' /\ Inv c'
     /\ ents c' = filter (fun b => p (bk b) (bv b)) (ents c).
Proof.
  intros (HT & L & D & HH) Cl. unfold retain.
  set (es := filter _ (ents c)). pose proof (filter_len (fun b => p (bk b) (bv b)) (ents c)) as LE. fold es in LE.
  assert (Cs : clean es) by (apply Forall_filter; auto).
  assert (Hs : hashed es) by (apply Forall_filter; auto).
  assert (Ds : distinct es) by (apply distinct_filter; auto).
  destruct (linear c) eqn:EL; cbn [negb andb].
  - eexists; split; [reflexivity|]. split; [|reflexivity]. unfold Inv; cbn. tauto.
  - pose proof (clean_len _ _ Cl HT) as LL. fold (t_len (tbl c)) in LL.
    destruct (Nat.ltb_spec (length es) (t_len (tbl c))).
    + apply rebuild_ok; auto; [discriminate|lia].
    + assert (E : es = ents c) by (apply filter_all; fold es; lia).
      eexists; split; [reflexivity|]. split; [|reflexivity]. unfold Inv; cbn. rewrite E. auto.
Qed.

Lemma pick_seq {A} (l : list A) : s_pick (seq 0 (length l)) l = l.
Proof.
  unfold s_pick.
  assert (G : forall (p s : list A), flat_map (fun i => match nth_error (p ++ s) i with Some x => [x] | None => [] end)
      (seq (length p) (length s)) = s).
  { intros p s; revert p; induction s as [|x s IH]; intros p; auto.
    cbn [length seq flat_map]. rewrite nth_error_app2, Nat.sub_diag by lia. cbn [nth_error app].
    f_equal. specialize (IH (p ++ [x])). rewrite <- app_assoc in IH. cbn [app] in IH.
    rewrite app_length in IH. cbn in IH. now rewrite Nat.add_1_r in IH. }
  apply (G [] l).
Qed.
Lemma pick_perm {A} idx (l : list A) : Permutation idx (seq 0 (length l)) -> Permutation (s_pick idx l) l.
Proof. intros P. rewrite <- (pick_seq l) at 2. now apply Permutation_flat_map. Qed.
Lemma pick_map idx (es : list bucket) : map kv (pick idx es) = s_pick idx (map (@kv K V) es).
Proof.
  unfold pick, s_pick. induction idx as [|i idx IH]; auto. cbn [flat_map]. rewrite map_app, IH. f_equal.
  rewrite nth_error_map. now destruct (nth_error es i).
Qed.

Lemma reorder_ok idx c : Inv c -> clean (ents c) -> Permutation idx (seq 0 (length (ents c))) ->
  exists c', with_entries ins grow (pick idx) c = Some c' /\ Inv c' /\ ents c' = pick idx (ents c).
Proof.
  intros (HT & L & D & HH) Cl P. unfold with_entries.
  pose proof (pick_perm idx (ents c) P) as PP. change (s_pick idx (ents c)) with (pick idx (ents c)) in PP.
  symmetry in PP.
  apply rebuild_ok; auto.
  - eapply Permutation_Forall; eauto.
  - eapply distinct_perm; eauto.
  - eapply Permutation_Forall; eauto.
  - intros E; rewrite E in HT; tauto.
  - intros E; rewrite E in HT. rewrite <- (Permutation_length PP).
    rewrite <- (clean_len _ _ Cl HT). exact L.
Qed.

Lemma reverse_ok c : Inv c -> clean (ents c) -> Inv (reverse c) /\ ents (reverse c) = rev (ents c).
Proof.
  intros (HT & L & D & HH) Cl. split; [|reflexivity].
  pose proof (Permutation_rev (ents c)) as P.
  assert (Cr : clean (rev (ents c))) by (eapply Permutation_Forall; eauto).
  unfold Inv, reverse; cbn. split; [|repeat split].
  - destruct (linear c).
    + destruct HT as [-> _]. cbn; auto.
    + set (g := fun i => Some (length (ents c) - i - 1)).
      replace (map _ (items (tbl c))) with
        (flat_map (fun x : Z * nat => match g (snd x) with Some k => [(fst x, k)] | None => [] end) (items (tbl c)))
        by apply flat_map_single.
      assert (B : forall i h, fh (ents c) i = Some h -> i < length (ents c)).
      { intros i h E. destruct (lt_dec i (length (ents c))); auto. rewrite fh_out in E by lia. discriminate. }
      eapply TF_sweep; [exact HT| |].
      * intros i j k h h' Ei Ej [= <-] [= E]. apply B in Ei, Ej. lia.
      * intros h k. rewrite clean_fh by auto. split.
        -- intros E. destruct (lt_dec k (length (ents c))) as [Hk|Hk].
           2:{ rewrite (proj2 (nth_error_None _ _)) in E; [discriminate|rewrite rev_length; lia]. }
           rewrite nth_error_rev_ in E by auto. exists (length (ents c) - S k).
           split; [rewrite clean_fh; auto|]. unfold g; f_equal; lia.
        -- intros (i & Ei & [= <-]). pose proof (B _ _ Ei). rewrite nth_error_rev_ by lia.
           rewrite clean_fh in Ei by auto. rewrite <- Ei. f_equal. f_equal. lia.
  - unfold t_len; cbn; rewrite map_length; exact L.
  - eapply distinct_perm; eauto.
  - eapply Permutation_Forall; eauto.
Qed.

(** Moving a bucket. *)
Lemma rotate_nth (es : list bucket) a b j : a < length es -> b < length es ->
  nth_error (rotate a b es) j =
  if j =? b then nth_error es a
  else if (a <=? j) && (j <? b) then nth_error es (S j)
  else if (b <? j) && (j <=? a) then nth_error es (j - 1)
  else nth_error es j.
Proof.
  intros Ha Hb. unfold rotate. destruct (nth_some es a Ha) as [x E]. rewrite E.
  assert (LR : length (remove_nth a es) = length es - 1)
    by (unfold remove_nth; rewrite app_length, firstn_length, skipn_length; lia).
  rewrite nth_error_insert by lia. rewrite !nth_error_remove. bool_nat; subst; try lia; auto.
  all: f_equal; lia.
Qed.

Lemma rotate_perm (es : list bucket) a b : Permutation es (rotate a b es).
Proof.
  unfold rotate. destruct (nth_error es a) as [x|] eqn:E; auto.
  rewrite <- Permutation_middle, firstn_skipn. unfold remove_nth.
  rewrite (split_nth _ _ _ E) at 1. symmetry. apply Permutation_middle.
Qed.

Lemma move_index_ok a b c : Inv c -> clean (ents c) -> a < length (ents c) -> b < length (ents c) ->
  exists c', move_index vis a b c = Some c' /\ Inv c' /\ ents c' = rotate a b (ents c).
Proof.
  intros I Cl Ha Hb. pose proof I as (HT & L & D & HH). unfold move_index.
  destruct (nth_fh _ a Cl Ha) as (x & -> & Fx). destruct (nth_some _ b Hb) as [y ->].
  pose proof (rotate_perm (ents c) a b) as P.
  assert (Cr : clean (rotate a b (ents c))) by (eapply Permutation_Forall; eauto).
  assert (Hr : hashed (rotate a b (ents c))) by (eapply Permutation_Forall; eauto).
  assert (Dr : distinct (rotate a b (ents c))) by (eapply distinct_perm; eauto).
  destruct (linear c) eqn:EL.
  { eexists; split; [reflexivity|]. split; [|reflexivity]. unfold Inv; cbn; tauto. }
  destruct (Nat.eqb_spec a b) as [->|NE].
  { exists c; split; [reflexivity|]. split; [auto|]. apply nth_error_ext'. intros j.
    rewrite rotate_nth by auto. bool_nat; subst; auto; lia. }
  set (n := length (ents c)) in *.
  destruct (update_index_ok (tbl c) _ (bh x) a (S n) HT Fx) as (t1 & -> & HT1 & C1 & L1).
  { right. apply fh_out. unfold n; lia. }
  assert (R : forall j, j <> a -> j < n -> exists z, nth_error (ents c) j = Some z /\
     upd (upd (fh (ents c)) a None) (S n) (Some (bh x)) j = Some (bh z)).
  { intros j Hj Hn. destruct (nth_fh _ j Cl Hn) as (z & Ez & Fz). exists z; split; auto.
    unfold upd. bool_nat; auto; lia. }
  assert (FIN : forall t2 (f2 : nat -> option Z), TF (items t2) f2 -> t_len t2 <= tcap t2 -> f2 (S n) = Some (bh x) -> f2 b = None ->
    (forall j, upd (upd f2 (S n) None) b (Some (bh x)) j = fh (rotate a b (ents c)) j) ->
    exists c', match update_index vis t2 (bh x) (S n) b with Some t3 => Some (C false t3 (rotate a b (ents c))) | None => None end
      = Some c' /\ Inv c' /\ ents c' = rotate a b (ents c)).
  { intros t2 f2 HT2 L2 F2 F2b EX. destruct (update_index_ok t2 f2 (bh x) (S n) b HT2 F2) as (t3 & -> & HT3 & C3 & L3); auto.
    eexists; split; [reflexivity|]. split; [|reflexivity]. unfold Inv; cbn. repeat split; auto; try lia; apply (TF_ext _ _ _ EX HT3). }
  assert (XR : forall j, fh (rotate a b (ents c)) j = if j =? b then Some (bh x)
      else if (a <=? j) && (j <? b) then fh (ents c) (S j)
      else if (b <? j) && (j <=? a) then fh (ents c) (j - 1)
      else fh (ents c) j).
  { intros j. rewrite clean_fh by auto. rewrite rotate_nth by auto. rewrite <- Fx.
    rewrite !clean_fh by auto. repeat (match goal with |- context [if ?q then _ else _] => destruct q end; auto). }
  destruct (Nat.ltb_spec a b).
  - destruct (decrement_ok t1 (ents c) _ (S a) (S b) ltac:(lia) HT1) as (t2 & -> & HT2 & C2 & L2).
    + unfold upd. replace (S a - 1) with a by lia. bool_nat; auto; lia.
    + intros j Hj. apply R; lia.
    + apply (FIN t2 _ HT2); [lia| | |].
      * unfold dec, upd. bool_nat; auto; lia.
      * unfold dec, upd. bool_nat; auto; lia.
      * intros j. rewrite XR. unfold dec, upd. fold n in Ha, Hb; fhs.
  - destruct (increment_ok t1 (ents c) _ b a ltac:(lia) HT1) as (t2 & -> & HT2 & C2 & L2).
    + unfold upd. bool_nat; auto; lia.
    + intros j Hj. apply R; lia.
    + apply (FIN t2 _ HT2); [lia| | |].
      * unfold inc, upd. bool_nat; auto; lia.
      * unfold inc, upd. bool_nat; auto; lia.
      * intros j. rewrite XR. unfold inc, upd. fold n in Ha, Hb; fhs.
Qed.

Lemma shift_insert_ok i k v c : Inv c -> clean (ents c) -> linear c = false -> dead k = false ->
  i <= length (ents c) -> pos k (ents c) = None ->
  exists c', shift_insert_unique vis ins grow i (hash k) k v c = Some c' /\ Inv c'
    /\ ents c' = firstn i (ents c) ++ B (hash k) k v :: skipn i (ents c).
Proof.
  intros (HT & L & D & HH) Cl EL Dk Hi P. unfold shift_insert_unique. rewrite EL in *.
  assert (LL : t_len (tbl c) = length (ents c)) by (apply clean_len; auto). rewrite LL.
  rewrite (proj2 (Nat.leb_le _ _) Hi).
  destruct (increment_ok (tbl c) (ents c) _ i (length (ents c)) Hi HT) as (t1 & -> & HT1 & C1 & L1).
  { apply fh_out; lia. }
  { intros j Hj; apply nth_fh; auto; lia. }
  destruct (t_insert_ok t1 _ (hash k) i HT1) as (HT2 & _ & L2 & _).
  { unfold inc. bool_nat; auto; try lia. }
  { lia. }
  eexists; split; [reflexivity|]. split; [|reflexivity]. unfold Inv; cbn.
  set (b := B (hash k) k v).
  assert (PM : Permutation (b :: ents c) (firstn i (ents c) ++ b :: skipn i (ents c)))
    by (rewrite <- Permutation_middle, firstn_skipn; auto).
  assert (Cb : clean (firstn i (ents c) ++ b :: skipn i (ents c)))
    by (eapply Permutation_Forall; [exact PM|constructor; auto]).
  split; [|repeat split; auto].
  - eapply TF_ext; [|exact HT2]. intros j. rewrite (clean_fh _ _ Cb), nth_error_insert by auto.
    unfold upd, inc. fhs.
  - eapply distinct_perm; [exact PM|]. constructor; auto. apply Forall_forall. intros x Hx.
    eapply pos_none; eauto.
  - eapply Permutation_Forall; [exact PM|constructor; auto].
Qed.

Lemma tombstone_remove_ok k c : Inv c ->
  exists c', tombstone_remove eqk vis ins grow (hash k) k dk dv c =
    Some (c', match pos k (ents c) with
              | Some i => option_map (fun b => (i, kv b)) (nth_error (ents c) i)
              | None => None end)
  /\ Inv c' /\ ents c' = match pos k (ents c) with Some i => set_kv i dk dv (ents c) | None => ents c end.
Proof.
  intros I. unfold tombstone_remove.
  destruct (ensure_indexed_ok c I) as (c1 & -> & I1 & EL & EE). pose proof I1 as (HT & L & D & HH).
  rewrite EL in HT. rewrite <- EE. pose proof (t_take_ok (tbl c1) (ents c1) k HT D HH) as G.
  destruct (pos k (ents c1)) as [i|] eqn:P.
  - destruct G as (t1 & -> & HT1 & C1 & L1). eexists; split; [reflexivity|].
    split; [|reflexivity]. unfold Inv; cbn. rewrite EL.
    split; [|repeat split; auto using distinct_set_dead, hashed_set_dead; lia].
    eapply TF_ext; [|exact HT1]. intros; now rewrite fh_set_dead.
  - rewrite G. exists c1; auto.
Qed.

Lemma tombstone_index_ok i c b : Inv c -> nth_error (ents c) i = Some b -> dead (bk b) = false ->
  exists c', tombstone_index vis ins grow i dk dv c = Some (c', Some (kv b))
  /\ Inv c' /\ ents c' = set_kv i dk dv (ents c).
Proof.
  intros I E Db. unfold tombstone_index. rewrite E.
  destruct (ensure_indexed_ok c I) as (c1 & -> & I1 & EL & EE). pose proof I1 as (HT & L & D & HH).
  rewrite EL in HT. rewrite EE in *.
  assert (F : fh (ents c) i = Some (bh b)) by (unfold fh; now rewrite E, Db).
  destruct (erase_index_ok (tbl c1) _ (bh b) i HT F) as (HT1 & C1 & L1).
  eexists; split; [reflexivity|]. split; [|reflexivity]. unfold Inv; cbn. rewrite EL.
  split; [|repeat split; auto using distinct_set_dead, hashed_set_dead; lia].
  eapply TF_ext; [|exact HT1]. intros; now rewrite fh_set_dead.
Qed.

Lemma compact_ok c : Inv c ->
  exists c', compact ins grow dead c = Some c' /\ Inv c' /\ ents c' = filter live (ents c) /\ clean (ents c').
Proof.
  intros (HT & L & D & HH). unfold compact. change (fun b : bucket => negb (dead (bk b))) with live.
  set (es := filter live (ents c)).
  assert (Cs : clean es).
  { apply Forall_forall. intros b Hb. apply filter_In in Hb as [_ Hb]. unfold live in Hb. now destruct (dead (bk b)). }
  assert (Hs : hashed es) by (apply Forall_filter; auto).
  assert (Ds : distinct es) by (apply distinct_filter; auto).
  destruct (linear c) eqn:EL.
  - eexists; split; [reflexivity|]. repeat split; auto. unfold Inv; cbn. tauto.
  - destruct (insert_bulk_fresh (t_reserve grow (length es) (t_clear (tbl c))) es Cs eq_refl) as (t' & -> & HT' & L').
    { cbn. pose proof (grow_ge (length es)). bool_nat; lia. }
    eexists; split; [reflexivity|]. repeat split; auto; apply HT'.
Qed.

(** *** Simulation *)
Lemma find_live (es : list bucket) :
  match find_idx live es with
  | Some i => exists b, nth_error es i = Some b /\ dead (bk b) = false
                /\ hd_error (absl es) = Some (kv b) /\ tl (absl es) = absl (set_kv i dk dv es)
  | None => absl es = []
  end.
Proof.
  induction es as [|b es IH]; [reflexivity|]. cbn [find_idx]. pose proof (absl_cons b es) as AC. unfold live at 1.
  destruct (dead (bk b)) eqn:Db; cbn [negb].
  - destruct (find_idx live es) as [i|]; cbn [option_map]; rewrite AC; auto.
    destruct IH as (x & E & Dx & Hh & Ht). exists x. rewrite set_kv_S, absl_cons, Db. auto.
  - exists b. rewrite AC. unfold set_kv; cbn [nth_error firstn skipn app]. rewrite absl_cons. cbn. rewrite dk_dead. auto.
Qed.

Lemma s_pos_map k (es : list bucket) : s_pos eqk k (map (@kv K V) es) = pos k es.
Proof. induction es as [|b es IH]; auto. cbn. rewrite IH. reflexivity. Qed.

Lemma removelast_firstn {A} (l : list A) : removelast l = firstn (length l - 1) l.
Proof. rewrite removelast_firstn_len. f_equal. lia. Qed.

Lemma swap_map (es : list bucket) i : i < length es -> map kv (swap_remove_nth i es) = s_swap_nth i (map (@kv K V) es).
Proof.
  intros Hi. unfold s_swap_nth, swap_remove_nth. rewrite map_length.
  destruct (nth_some es (length es - 1) ltac:(lia)) as [z E]. rewrite E.
  destruct (Nat.eqb_spec (S i) (length es)).
  - rewrite removelast_firstn, map_length. rewrite <- firstn_map. rewrite map_app. cbn [map].
    rewrite <- firstn_map. rewrite skipn_all2 by lia. cbn [map].
    replace (length es - 1) with i by lia. rewrite firstn_app, firstn_firstn, firstn_length, map_length.
    replace (i - Nat.min i (length es)) with 0 by lia. now rewrite Nat.min_id, app_nil_r.
  - assert (R : exists r, rev (map (@kv K V) es) = kv z :: r).
    { destruct (rev (map kv es)) as [|y r] eqn:R.
      - apply (f_equal (@length _)) in R. rewrite rev_length, map_length in R. cbn in R; lia.
      - exists r. f_equal. assert (N : nth_error (rev (map (@kv K V) es)) 0 = Some y) by now rewrite R.
        rewrite nth_error_rev_ in N by (rewrite map_length; lia). rewrite map_length in N.
        rewrite nth_error_map, E in N. now injection N. }
    destruct R as [r ->]. rewrite removelast_firstn, app_length. cbn [length].
    rewrite firstn_length, skipn_length, map_length.
    replace (Nat.min i (length es) + S (length es - S i) - 1) with (length es - 1) by lia.
    rewrite <- firstn_map, map_app. cbn [map]. now rewrite <- firstn_map, <- skipn_map.
Qed.

Lemma rotate_map a b (es : list bucket) : map kv (rotate a b es) = s_move a b (map (@kv K V) es).
Proof.
  unfold rotate, s_move. rewrite nth_error_map. destruct (nth_error es a); cbn [option_map]; auto.
  unfold s_delete_nth, remove_nth. rewrite map_app. cbn [map]. rewrite <- firstn_map, <- skipn_map.
  now rewrite map_app, <- !firstn_map, <- skipn_map.
Qed.

Lemma filter_map_kv p (es : list bucket) : map (@kv K V) (filter (fun b => p (bk b) (bv b)) es)
  = filter (fun x => p (fst x) (snd x)) (map (@kv K V) es).
Proof. induction es as [|b es IH]; auto. cbn. destruct (p (bk b) (bv b)); cbn; congruence. Qed.

Definition live_op (o : op K V) : Prop :=
  match o with
  | Get k | Put k _ | Replace k _ | Delete k | SwapDelete k | InsertAt _ k _ | LazyDelete k => dead k = false
  | _ => True
  end.

Notation step := (step eqk vis ins grow hash dead dk dv).
Notation run := (run eqk vis ins grow hash dead dk dv).

Definition sim (c : core) (s : list (K * V) * bool) : Prop :=
  Inv c /\ abs c = fst s /\ (snd s = false -> clean (ents c)).

Lemma clean_of c l d : sim c (l, d) -> d = false ->
  Inv c /\ clean (ents c) /\ l = map kv (ents c) /\ length l = length (ents c).
Proof.
  intros (I & A & Cl) E. cbn in *. specialize (Cl E). unfold abs in A. rewrite clean_abs in A by auto.
  subst. now rewrite map_length.
Qed.

Lemma one_pos k (es : list bucket) : one (match pos k es with Some i => option_map kv (nth_error es i) | None => None end)
  = match s_get eqk k (absl es) with Some p => [p] | None => [] end.
Proof. rewrite get_abs. reflexivity. Qed.

Lemma one_pos_clean k (es : list bucket) : clean es ->
  one (match pos k es with Some i => option_map kv (nth_error es i) | None => None end)
  = match s_get eqk k (map kv es) with Some p => [p] | None => [] end.
Proof. intros. rewrite one_pos, clean_abs; auto. Qed.

Lemma step_ok o c s : sim c s -> live_op o -> allowed eqk o s ->
  exists c', step o c = Some (c', snd (spec_step eqk o s)) /\ sim c' (fst (spec_step eqk o s)).
Proof.
  destruct s as [l d]. intros S LO A. pose proof S as (I & AB & Cl). cbn [fst snd] in AB, Cl.
  unfold abs in AB.
  destruct o as [k|k v|k v|k|k|i|i| | |n|s e|n|n|p|idx| |a b|i k v|k| | ]; cbn [allowed live_op spec_step step fst snd] in *.
  - (* Get *)
    exists c; split; [|exact S]. unfold got. rewrite get_index_of_ok by auto. do 2 f_equal.
    rewrite <- AB, <- one_pos. now destruct (pos k (ents c)).
  - (* Put *)
    destruct (insert_full_ok k v c I LO) as (c' & -> & I' & E').
    exists c'. split; [|split; [auto|]].
    + destruct (pos k (ents c)) as [i|] eqn:P.
      * rewrite E'. do 2 f_equal. rewrite <- AB, <- one_pos, P.
        destruct (pos_some _ _ _ P) as (b & N & _). rewrite N. cbn [option_map one].
        unfold set_val; rewrite N. rewrite nth_error_replace by (apply nth_error_Some; congruence).
        rewrite Nat.eqb_refl. reflexivity.
      * do 2 f_equal. rewrite <- AB, <- one_pos, P. reflexivity.
    + cbn [fst snd]. split.
      * unfold abs. rewrite E'. rewrite <- AB. apply put_abs; auto.
      * intros E. rewrite E'. destruct (pos k (ents c)); auto using clean_set_val, clean_push.
  - (* Replace *)
    destruct (replace_full_ok k v c I LO) as (c' & -> & I' & E').
    exists c'. split; [|split; [auto|]].
    + cbn. do 2 f_equal. rewrite <- AB, <- one_pos. now destruct (pos k (ents c)).
    + cbn [fst snd]. split.
      * unfold abs. rewrite E'. rewrite <- AB. apply replace_abs; auto.
      * intros E. rewrite E'. destruct (pos k (ents c)); auto using clean_push.
        unfold set_kv. destruct (nth_error (ents c) n); auto. apply Forall_replace; [apply Cl, E|exact LO].
  - (* Delete *)
    destruct (clean_of _ _ _ S A) as (_ & Cc & El & _).
    destruct (shift_remove_full_ok k c I Cc) as (c' & -> & I' & E').
    exists c'. split; [|split; [auto|]].
    + cbn. do 2 f_equal. rewrite El, <- one_pos_clean by auto. destruct (pos k (ents c)); auto.
      now destruct (nth_error (ents c) n).
    + cbn [fst snd]. split.
      * unfold abs. rewrite E'. rewrite <- AB. apply delete_abs, I.
      * intros _. rewrite E'. destruct (pos k (ents c)); auto. now apply sub_remove.
  - (* SwapDelete *)
    destruct (clean_of _ _ _ S A) as (_ & Cc & El & _).
    destruct (swap_remove_full_ok k c I Cc) as (c' & -> & I' & E').
    assert (HI : forall i, pos k (ents c) = Some i -> i < length (ents c))
      by (intros i P; apply pos_some in P as (b & E & _); apply nth_error_Some; congruence).
    assert (Cc' : clean (ents c')) by (rewrite E'; destruct (pos k (ents c)); auto; apply sub_swap; auto).
    exists c'. split; [|split; [auto|]].
    + cbn. do 2 f_equal. rewrite El, <- one_pos_clean by auto. destruct (pos k (ents c)); auto.
      now destruct (nth_error (ents c) n).
    + cbn [fst snd]. split; auto. unfold abs. rewrite clean_abs, E' by auto. rewrite El, s_pos_map.
      destruct (pos k (ents c)); auto. apply swap_map; auto.
  - (* DeleteAt *)
    destruct (clean_of _ _ _ S A) as (_ & Cc & El & _).
    destruct (shift_remove_index_ok i c I Cc) as (c' & -> & I' & E').
    assert (Cc' : clean (ents c')) by (rewrite E'; now apply sub_remove).
    exists c'. split; [|split; [auto|]].
    + cbn. do 2 f_equal. rewrite El, nth_error_map. now destruct (nth_error (ents c) i).
    + cbn [fst snd]. split; auto. unfold abs. rewrite clean_abs, E' by auto. rewrite El.
      unfold remove_nth, s_delete_nth. now rewrite map_app, <- firstn_map, <- skipn_map.
  - (* SwapDeleteAt *)
    destruct (clean_of _ _ _ S A) as (_ & Cc & El & Ll).
    destruct (swap_remove_index_ok i c I Cc) as (c' & -> & I' & E').
    assert (Cc' : clean (ents c')).
    { rewrite E'. destruct (Nat.ltb_spec i (length (ents c))); auto. now apply sub_swap. }
    exists c'. split; [|split; [auto|]].
    + cbn. do 2 f_equal. rewrite El, nth_error_map. now destruct (nth_error (ents c) i).
    + cbn [fst snd]. split; auto. unfold abs. rewrite clean_abs, E', Ll by auto. rewrite El.
      destruct (Nat.ltb_spec i (length (ents c))); auto. now apply swap_map.
  - (* Pop *)
    destruct (clean_of _ _ _ S A) as (_ & Cc & El & Ll).
    destruct (pop_ok c I Cc) as (E1 & I' & E'). rewrite E1. set (c' := fst (pop vis c)) in *.
    assert (Cc' : clean (ents c')) by (rewrite E'; now apply Forall_firstn_).
    exists c'. split; [|split; [auto|]].
    + do 2 f_equal. rewrite Ll. rewrite El, nth_error_map. now destruct (nth_error (ents c) _).
    + cbn [fst snd]. split; auto. unfold abs. rewrite clean_abs, E' by auto. rewrite El.
      now rewrite removelast_firstn, map_length, firstn_map.
  - (* Clear *)
    exists (clear c). split; [reflexivity|]. split; [apply clear_ok|]. cbn. split; auto. intros; constructor.
  - (* Truncate *)
    destruct (clean_of _ _ _ S A) as (_ & Cc & El & Ll).
    destruct (truncate_ok n c I Cc) as (c' & -> & I' & E').
    assert (Cc' : clean (ents c')) by (rewrite E'; now apply Forall_firstn_).
    exists c'. split; [reflexivity|]. split; [auto|]. cbn [fst snd]. split; auto.
    unfold abs. rewrite clean_abs, E' by auto. now rewrite El, firstn_map.
  - (* Drain *)
    destruct A as [A R]. destruct (clean_of _ _ _ S A) as (_ & Cc & El & Ll).
    destruct (drain_ok s e c I Cc ltac:(lia)) as (c' & -> & I' & E').
    assert (Cc' : clean (ents c')) by (rewrite E'; now apply clean_cut).
    exists c'. split; [|split; [auto|]].
    + do 2 f_equal. now rewrite El, skipn_map, firstn_map.
    + cbn [fst snd]. split; auto. unfold abs. rewrite clean_abs, E' by auto.
      now rewrite El, map_app, firstn_map, skipn_map.
  - (* SplitOff *)
    destruct A as [A R]. destruct (clean_of _ _ _ S A) as (_ & Cc & El & Ll).
    destruct (split_off_ok n c I Cc ltac:(lia)) as (c1 & c2 & -> & I1 & I2 & E1 & E2).
    assert (Cc' : clean (ents c1)) by (rewrite E1; now apply Forall_firstn_).
    exists c1. split; [|split; [auto|]].
    + cbn. do 2 f_equal. now rewrite E2, El, skipn_map.
    + cbn [fst snd]. split; auto. unfold abs. rewrite clean_abs, E1 by auto. now rewrite El, firstn_map.
  - (* Reserve *)
    destruct (reserve_ok n c I) as (c' & -> & I' & E').
    exists c'. split; [reflexivity|]. split; [auto|]. cbn [fst snd]. unfold abs. rewrite E'. auto.
  - (* Retain *)
    destruct (clean_of _ _ _ S A) as (_ & Cc & El & Ll).
    destruct (retain_ok p c I Cc) as (c' & -> & I' & E').
    assert (Cc' : clean (ents c')) by (rewrite E'; now apply Forall_filter).
    exists c'. split; [reflexivity|]. split; [auto|]. cbn [fst snd]. split; auto.
    unfold abs. rewrite clean_abs, E' by auto. now rewrite El, filter_map_kv.
  - (* Reorder *)
    destruct A as [A R]. destruct (clean_of _ _ _ S A) as (_ & Cc & El & Ll). rewrite Ll in R.
    destruct (reorder_ok idx c I Cc R) as (c' & -> & I' & E').
    assert (Cc' : clean (ents c')).
    { rewrite E'. eapply Permutation_Forall; [symmetry; exact (pick_perm idx (ents c) R)|auto]. }
    exists c'. split; [reflexivity|]. split; [auto|]. cbn [fst snd]. split; auto.
    unfold abs. rewrite clean_abs, E' by auto. now rewrite El, pick_map.
  - (* Reverse *)
    destruct (clean_of _ _ _ S A) as (_ & Cc & El & Ll).
    destruct (reverse_ok c I Cc) as [I' E'].
    assert (Cc' : clean (ents (reverse c))).
    { rewrite E'. eapply Permutation_Forall; [apply Permutation_rev|auto]. }
    exists (reverse c). split; [reflexivity|]. split; [auto|]. cbn [fst snd]. split; auto.
    unfold abs. rewrite clean_abs, E' by auto. now rewrite El, map_rev.
  - (* Move *)
    destruct A as (A & Ra & Rb). destruct (clean_of _ _ _ S A) as (_ & Cc & El & Ll). rewrite Ll in Ra, Rb.
    destruct (move_index_ok a b c I Cc Ra Rb) as (c' & -> & I' & E').
    assert (Cc' : clean (ents c')).
    { rewrite E'. eapply Permutation_Forall; [apply rotate_perm|auto]. }
    exists c'. split; [reflexivity|]. split; [auto|]. cbn [fst snd]. split; auto.
    unfold abs. rewrite clean_abs, E' by auto. now rewrite El, rotate_map.
  - (* InsertAt *)
    destruct A as (A & Ra & Rb). destruct (clean_of _ _ _ S A) as (_ & Cc & El & Ll). rewrite Ll in Ra.
    rewrite El, s_pos_map in Rb.
    destruct (ensure_indexed_ok c I) as (c1 & -> & I1 & EL1 & EE). rewrite <- EE in *.
    destruct (shift_insert_ok i k v c1 I1 Cc EL1 LO Ra Rb) as (c' & -> & I' & E').
    assert (Cc' : clean (ents c')).
    { rewrite E'. apply Forall_app; split; [now apply Forall_firstn_|constructor; auto; now apply Forall_skipn_]. }
    exists c'. split; [reflexivity|]. split; [auto|]. cbn [fst snd]. split; auto.
    unfold abs. rewrite clean_abs, E' by auto. rewrite El, map_app. cbn [map]. now rewrite firstn_map, skipn_map.
  - (* LazyDelete *)
    destruct (tombstone_remove_ok k c I) as (c' & -> & I' & E').
    exists c'. split; [|split; [auto|]].
    + cbn. do 2 f_equal. rewrite <- AB, <- one_pos. destruct (pos k (ents c)); auto.
      now destruct (nth_error (ents c) n).
    + cbn [fst snd]. split; [|discriminate]. unfold abs. rewrite E', <- AB. apply tomb_abs, I.
  - (* LazyShift *)
    pose proof (find_live (ents c)) as G. change (fun b : bucket => negb (dead (bk b))) with live.
    destruct (find_idx live (ents c)) as [i|].
    + destruct G as (b & N & Db & Hh & Ht).
      destruct (tombstone_index_ok i c b I N Db) as (c' & -> & I' & E').
      exists c'. split; [cbn; now rewrite <- AB, Hh|]. split; [auto|]. cbn [fst snd].
      split; [|discriminate]. unfold abs. now rewrite E', <- AB, Ht.
    + exists c. rewrite <- AB, G. split; [reflexivity|]. split; [auto|]. cbn. split; [|discriminate].
      exact G.
  - (* Compact *)
    destruct (compact_ok c I) as (c' & -> & I' & E' & Cc').
    exists c'. split; [reflexivity|]. split; [auto|]. cbn [fst snd]. split; auto.
    unfold abs. rewrite <- AB, clean_abs by auto. rewrite E'. reflexivity.
Qed.

Lemma run_ok os : forall c s, sim c s -> Forall live_op os -> all_allowed eqk os s ->
  exists c', run os c = Some (c', snd (spec_run eqk os s)) /\ sim c' (fst (spec_run eqk os s)).
Proof.
  induction os as [|o os IH]; intros c s S LO A; cbn.
  - exists c; auto.
  - inversion LO; subst. cbn in A. destruct A as [A1 A2].
    destruct (step_ok o c s S H1 A1) as (c1 & -> & S1).
    destruct (spec_step eqk o s) as [s1 x]. cbn [fst snd] in *.
    destruct (IH c1 s1 S1 H2 A2) as (c2 & -> & S2).
    destruct (spec_run eqk os s1) as [s2 xs]. exists c2; auto.
Qed.

Lemma init_sim n : sim (c_with_capacity grow n) ([], false).
Proof.
  unfold sim, c_with_capacity. destruct (_ <=? _); cbn; (split; [|split; [reflexivity|constructor]]);
    unfold Inv; cbn; repeat split; try constructor; unfold t_len; cbn; try lia; try tauto.
  rewrite fh_nil; discriminate.
Qed.

Lemma ordered_map os n : Forall live_op os -> all_allowed eqk os ([], false) ->
  exists c, run os (c_with_capacity grow n) = Some (c, snd (spec_run eqk os ([], false)))
    /\ abs c = fst (fst (spec_run eqk os ([], false)))
    /\ ForallOrdPairs (fun a b => eqk (fst a) (fst b) = false) (abs c)
    /\ (linear c = true -> items (tbl c) = []).
Proof.
  intros LO A. destruct (run_ok os _ _ (init_sim n) LO A) as (c & R & (I & AB & Cl)).
  exists c; split; [exact R|]. split; [auto|]. destruct I as (HT & _ & D & _). split.
  - unfold abs, absl. apply (distinct_filter live) in D. unfold distinct in D.
    induction D as [|x q F D IH]; cbn; constructor; auto.
    rewrite Forall_forall in *. intros y Hy. apply in_map_iff in Hy as (b & <- & Hb). cbn. auto.
  - intros E; rewrite E in HT; tauto.
Qed.
End TF.
