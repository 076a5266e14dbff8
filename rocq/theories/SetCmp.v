(** Proofs about the comparisons and the hash of sets. *)
From Coq Require Import ZArith List Bool Lia.
From Verif Require Import EnblModel SetModel SetSpec SetProofs.
Import ListNotations.
Local Open Scope Z_scope.

Lemma filter_shorter {A} (p : A -> bool) l x : In x l -> p x = false -> (length (filter p l) < length l)%nat.
Proof.
  induction l as [|y r IH]; [intros []|]. intros [->|H] E; cbn.
  - rewrite E. assert (G : (length (filter p r) <= length r)%nat).
    { clear. induction r as [|y r IH]; cbn; [lia|]. destruct (p y); cbn; lia. }
    lia.
  - specialize (IH H E). destruct (p y); cbn; lia.
Qed.

(** The pigeonholes. *)
Lemma pigeon {O : objects} i : forall (a b : list (V O)), distinct i a ->
  (forall x, In x a -> mem i b x = true) -> (length a <= length b)%nat.
Proof.
  induction a as [|x r IH]; intros b Hd H; [cbn; lia|]. destruct Hd as (H1 & H2).
  assert (Hx : mem i b x = true) by (apply H; left; reflexivity).
  apply mem_iff in Hx. destruct Hx as (k & Hk & R).
  assert (G : (length r <= length (rem i b x))%nat).
  { apply IH; [exact H2|]. intros y Hy. rewrite rem_mem, (H y (or_intror Hy)). cbn.
    rewrite rel_sym. rewrite (proj1 (mem_not i r x) H1 y Hy). reflexivity. }
  assert (F : (length (rem i b x) < length b)%nat).
  { apply (filter_shorter (fun k => negb (rel i k x)) b k Hk). rewrite R. reflexivity. }
  cbn. lia.
Qed.

Lemma pigeon_strict {O : objects} i (a b : list (V O)) y : distinct i a ->
  (forall x, In x a -> mem i b x = true) -> In y b -> mem i a y = false -> (length a < length b)%nat.
Proof.
  intros Hd H Hy Hn.
  assert (G : (length a <= length (rem i b y))%nat).
  { apply (pigeon i); [exact Hd|]. intros x Hx. rewrite rem_mem, (H x Hx). cbn.
    rewrite rel_sym. rewrite (proj1 (mem_not i a y) Hn x Hx). reflexivity. }
  assert (F : (length (rem i b y) < length b)%nat).
  { apply (filter_shorter (fun k => negb (rel i k y)) b y Hy). rewrite rel_refl. reflexivity. }
  lia.
Qed.

Lemma within_ok {O} (s t : set O) : ident s = ident t -> (within s t = true <-> included s t).
Proof.
  intros Hi. unfold within, included. rewrite forallb_forall. split.
  - intros H v Hv. unfold has in Hv. apply mem_iff in Hv. destruct Hv as (k & Hk & R).
    specialize (H k Hk). unfold has in *. rewrite Hi in R. rewrite <- (mem_rel (ident t) (els t) k v R). exact H.
  - intros H k Hk. apply H. apply mem_in. exact Hk.
Qed.

Lemma within_le {O} (s t : set O) : wf s -> ident s = ident t -> included s t ->
  (length (els s) <= length (els t))%nat.
Proof.
  intros H Hi G. apply (pigeon (ident s)); [exact H|]. intros x Hx. rewrite Hi. apply G. apply mem_in. exact Hx.
Qed.

(** A subset of at least the same size is all of it. *)
Lemma within_back {O} (s t : set O) : wf s -> ident s = ident t -> included s t ->
  (length (els t) <= length (els s))%nat -> included t s.
Proof.
  intros H Hi G L. apply within_ok; [congruence|]. unfold within. apply forallb_forall. intros y Hy.
  destruct (has s y) eqn:E; [reflexivity|].
  assert (F : (length (els s) < length (els t))%nat); [|lia].
  apply (pigeon_strict (ident s) (els s) (els t) y); auto.
  intros x Hx. rewrite Hi. apply G. apply mem_in. exact Hx.
Qed.

(** subset? and superset? *)
Lemma subset_ok {O} (s t : set O) : wf s -> ident s = ident t -> (subset s t = true <-> included s t).
Proof.
  intros H Hi. unfold subset. rewrite andb_true_iff, (within_ok s t Hi). split; [tauto|].
  intros G. split; [|exact G]. apply negb_true_iff, Nat.ltb_ge. apply within_le; assumption.
Qed.

Lemma superset_ok {O} (s t : set O) : wf t -> ident s = ident t -> (superset s t = true <-> included t s).
Proof. intros H Hi. apply (subset_ok t s H). congruence. Qed.

(** The proper ones: and not the other way round. *)
Lemma proper_subset_ok {O} (s t : set O) : wf s -> wf t -> ident s = ident t ->
  (proper_subset s t = true <-> included s t /\ ~ included t s).
Proof.
  intros H Ht Hi. unfold proper_subset. rewrite andb_true_iff, (within_ok s t Hi).
  rewrite negb_true_iff, Nat.leb_gt. split.
  - intros (L & G). split; [exact G|]. intros B. apply within_le in B; [lia|exact Ht|congruence].
  - intros (G & B). split; [|exact G]. destruct (Nat.lt_ge_cases (length (els s)) (length (els t))) as [L|L]; [exact L|].
    exfalso. apply B. apply within_back; assumption.
Qed.

Lemma proper_superset_ok {O} (s t : set O) : wf s -> wf t -> ident s = ident t ->
  (proper_superset s t = true <-> included t s /\ ~ included s t).
Proof. intros H Ht Hi. apply (proper_subset_ok t s Ht H). congruence. Qed.

(** == : the same members and the same way to compare. *)
Lemma set_eq_ok {O} (s t : set O) : wf s -> wf t ->
  (set_eq s t = true <-> ident s = ident t /\ forall v, has s v = has t v).
Proof.
  intros H Ht. unfold set_eq. rewrite !andb_true_iff, eqb_true_iff, Nat.eqb_eq. split.
  - intros ((Hi & L) & W). split; [exact Hi|]. apply within_ok in W; [|exact Hi].
    assert (B : included t s) by (apply within_back; auto; lia).
    intros v. destruct (has s v) eqn:E; [symmetry; apply W; exact E|].
    destruct (has t v) eqn:F; [|reflexivity]. apply B in F. congruence.
  - intros (Hi & G).
    assert (A : included s t) by (intros v Hv; rewrite <- G; exact Hv).
    assert (B : included t s) by (intros v Hv; rewrite G; exact Hv).
    split; [split; [exact Hi|]|apply within_ok; assumption].
    apply within_le in A; auto. apply within_le in B; auto. lia.
Qed.

(** <=> : what the others say. *)
Lemma spaceship_ok {O} (s t : set O) : wf s -> wf t -> ident s = ident t ->
  spaceship s t =
    if set_eq s t then Some 0
    else if proper_subset s t then Some (-1)
    else if proper_superset s t then Some 1
    else None.
Proof.
  intros H Ht Hi. assert (Hi' : ident t = ident s) by congruence.
  unfold spaceship.
  destruct (within s t) eqn:A, (within t s) eqn:B;
    rewrite ?(within_ok s t Hi), ?(within_ok t s Hi') in *.
  - assert (E : set_eq s t = true).
    { apply set_eq_ok; auto. split; [exact Hi|]. intros v. destruct (has s v) eqn:E.
      - symmetry. apply A. exact E.
      - destruct (has t v) eqn:F; [|reflexivity]. apply B in F. congruence. }
    rewrite E. reflexivity.
  - assert (B' : ~ included t s) by (intros G; apply within_ok in G; [congruence|exact Hi']).
    destruct (set_eq s t) eqn:E.
    + apply set_eq_ok in E; auto. destruct E as (_ & E). exfalso. apply B'. intros v Hv. rewrite E. exact Hv.
    + rewrite (proj2 (proper_subset_ok s t H Ht Hi)) by auto. reflexivity.
  - assert (A' : ~ included s t) by (intros G; apply within_ok in G; [congruence|exact Hi]).
    destruct (set_eq s t) eqn:E.
    + apply set_eq_ok in E; auto. destruct E as (_ & E). exfalso. apply A'. intros v Hv. rewrite <- E. exact Hv.
    + destruct (proper_subset s t) eqn:P.
      * apply proper_subset_ok in P; auto. tauto.
      * rewrite (proj2 (proper_superset_ok s t H Ht Hi)) by auto. reflexivity.
  - assert (A' : ~ included s t) by (intros G; apply within_ok in G; [congruence|exact Hi]).
    assert (B' : ~ included t s) by (intros G; apply within_ok in G; [congruence|exact Hi']).
    destruct (set_eq s t) eqn:E.
    + apply set_eq_ok in E; auto. destruct E as (_ & E). exfalso. apply A'. intros v Hv. rewrite <- E. exact Hv.
    + destruct (proper_subset s t) eqn:P; [apply proper_subset_ok in P; tauto|].
      destruct (proper_superset s t) eqn:Q; [apply proper_superset_ok in Q; tauto|]. reflexivity.
Qed.

(** intersect? of a set and of a finite enumeration; disjoint? is the
    opposite. *)
Lemma common {O} (s t : set O) : ident s = ident t ->
  (existsb (has t) (els s) = true <-> exists v, has s v = true /\ has t v = true).
Proof.
  intros Hi. rewrite existsb_exists. split.
  - intros (k & Hk & E). exists k. split; [apply mem_in; exact Hk|exact E].
  - intros (v & Hs & Ht). unfold has in Hs. apply mem_iff in Hs. destruct Hs as (k & Hk & R). exists k.
    split; [exact Hk|]. unfold has in *. rewrite Hi in R. rewrite (mem_rel _ _ _ _ R). exact Ht.
Qed.

Lemma intersect_set {O} (s t : set O) : ident s = ident t ->
  exists b, intersect_q s (ASet t) = Val b /\ (b = true <-> exists v, has s v = true /\ has t v = true).
Proof.
  intros Hi. eexists. split; [reflexivity|]. destruct (Nat.leb _ _); [apply common; exact Hi|].
  rewrite (common t s) by congruence. split; intros (v & A & B); exists v; auto.
Qed.

Lemma intersect_enum {O} (s : set O) l :
  exists b, intersect_q s (AEnum l) = Val b /\ (b = true <-> exists v, In v l /\ has s v = true).
Proof. eexists. split; [reflexivity|]. apply existsb_exists. Qed.

Lemma disjoint_ok {O} (s : set O) a :
  disjoint_q s a = match intersect_q s a with Val b => Val (negb b) | Raise e => Raise e | Forever => Forever end.
Proof. destruct a; reflexivity. Qed.

(* ------------------------------------------------------------------ *)
(** ** hash *)

Definition xors {O : objects} (h : V O -> Z) (l : list (V O)) : Z := fold_right (fun k acc => Z.lxor (h k) acc) 0 l.

Lemma hash_xors {O : objects} (h : V O -> Z) l : forall c, fold_left (fun acc k => Z.lxor acc (h k)) l c = Z.lxor c (xors h l).
Proof.
  induction l as [|x r IH]; intros c; cbn; [rewrite Z.lxor_0_r; reflexivity|].
  rewrite IH, Z.lxor_assoc. reflexivity.
Qed.

Lemma xors_app {O : objects} (h : V O -> Z) a b : xors h (a ++ b) = Z.lxor (xors h a) (xors h b).
Proof.
  induction a as [|x r IH]; [symmetry; apply Z.lxor_0_l|].
  change (Z.lxor (h x) (xors h (r ++ b)) = Z.lxor (Z.lxor (h x) (xors h r)) (xors h b)).
  rewrite IH, Z.lxor_assoc. reflexivity.
Qed.

Lemma distinct_mid {O : objects} i (a b : list (V O)) k : distinct i (a ++ k :: b) ->
  distinct i (a ++ b) /\ mem i (a ++ b) k = false.
Proof.
  intros H. apply distinct_app in H. destruct H as (H1 & (H2 & H3) & H4). split.
  - apply distinct_app. split; [exact H1|]. split; [exact H3|]. intros x Hx. specialize (H4 x Hx).
    cbn in H4. apply orb_false_iff in H4. apply H4.
  - rewrite mem_app, H2, orb_false_r. apply mem_not. intros x Hx. specialize (H4 x Hx).
    cbn in H4. apply orb_false_iff in H4. rewrite rel_sym. apply H4.
Qed.

Lemma xors_same {O : objects} i (h : V O -> Z) : (forall a b, rel i a b = true -> h a = h b) ->
  forall a b : list (V O), distinct i a -> distinct i b -> (forall v, mem i a v = mem i b v) -> xors h a = xors h b.
Proof.
  intros Hh. induction a as [|x r IH]; intros b Ha Hb H.
  - destruct b as [|y b]; [reflexivity|]. specialize (H y). cbn in H. rewrite rel_refl in H. discriminate H.
  - assert (Hx : mem i b x = true) by (rewrite <- H; cbn; rewrite rel_refl; reflexivity).
    apply mem_iff in Hx. destruct Hx as (k & Hk & R). apply in_split in Hk. destruct Hk as (b1 & b2 & ->).
    destruct Ha as (Ha1 & Ha2). destruct (distinct_mid i b1 b2 k Hb) as (Hb1 & Hb2).
    rewrite xors_app. cbn [xors fold_right]. fold (xors h r). fold (xors h b2).
    rewrite (IH (b1 ++ b2) Ha2 Hb1).
    + rewrite xors_app, (Hh k x R). rewrite (Z.lxor_comm (xors h b1) (Z.lxor (h x) (xors h b2))), Z.lxor_assoc.
      rewrite (Z.lxor_comm (xors h b2)). reflexivity.
    + intros v. specialize (H v). rewrite mem_app in *. cbn in H. fold (mem i r v) in H. fold (mem i b2 v) in H.
      destruct (rel i x v) eqn:E.
      * assert (Ek : rel i k v = true) by (apply (rel_trans i k x v R E)).
        rewrite <- (mem_rel i r x v E), Ha1.
        rewrite <- (mem_rel i b1 k v Ek), <- (mem_rel i b2 k v Ek), Hb2. reflexivity.
      * rewrite (rel_left i k x v R), E in H. exact H.
Qed.

(** Equal sets have the same hash, whatever the order of their elements. *)
Lemma set_hash_ok {O} (h : V O -> Z) (s t : set O) : wf s -> wf t ->
  (forall a b, eql a b = true -> h a = h b) -> set_eq s t = true -> set_hash h s = set_hash h t.
Proof.
  intros H Ht Hh E. apply set_eq_ok in E; [|assumption|assumption]. destruct E as (Hi & E).
  unfold set_hash. rewrite !hash_xors. f_equal. apply (xors_same (ident s)).
  - intros a b R. apply Hh. destruct (ident s); cbn in R; [|exact R]. apply same_eq in R. subst. apply eql_refl.
  - exact H.
  - rewrite Hi. exact Ht.
  - intros v. specialize (E v). unfold has in E. rewrite <- Hi in E. exact E.
Qed.
