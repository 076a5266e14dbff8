(** * Proofs about the collector and the allocator *)

From Coq Require Import ZArith List Bool Lia Permutation.
From Verif Require Import GcModel GcSpec.
Import ListNotations.
Open Scope Z_scope.

Local Arguments Z.mul : simpl never.
Local Arguments Z.add : simpl never.
Local Arguments cells_upto : simpl never.
Local Arguments page_cells : simpl never.

(** ** Small lemmas *)

Definition inb (a : Z) (l : list Z) : bool := existsb (Z.eqb a) l.

Lemma inb_In : forall a l, inb a l = true <-> In a l.
Proof.
  intros a l; unfold inb; rewrite existsb_exists; split.
  - intros (x & H & E); apply Z.eqb_eq in E; subst; auto.
  - intros H; exists a; split; auto; apply Z.eqb_refl.
Qed.

Lemma inb_not : forall a l, inb a l = false <-> ~ In a l.
Proof. intros; rewrite <- inb_In; destruct (inb a l); intuition congruence. Qed.

Lemma upd_same : forall A (f : Z -> A) a x, upd f a x a = x.
Proof. intros; unfold upd; rewrite Z.eqb_refl; auto. Qed.
Lemma upd_other : forall A (f : Z -> A) a x b, b <> a -> upd f a x b = f b.
Proof. intros; unfold upd; destruct (Z.eqb_spec b a); congruence. Qed.

Lemma NoDup_app : forall A (l1 l2 : list A),
  NoDup l1 -> NoDup l2 -> (forall x, In x l1 -> ~ In x l2) -> NoDup (l1 ++ l2).
Proof.
  induction l1; cbn; intros; auto.
  inversion H; subst; constructor.
  - rewrite in_app_iff; intros [?|?]; [ auto | eapply H1; eauto ].
  - apply IHl1; auto; intros; apply H1; auto.
Qed.

Lemma filter_length_le : forall A (f : A -> bool) l, (length (filter f l) <= length l)%nat.
Proof. induction l; cbn; auto. destruct (f a); cbn; lia. Qed.

Lemma NoDup_filter' : forall A (f : A -> bool) l, NoDup l -> NoDup (filter f l).
Proof. intros; apply NoDup_filter; auto. Qed.

(** ** Cells and pages *)

Lemma DL_pos : 0 < DATA_LEN. Proof. reflexivity. Qed.

Lemma get_page_cell : forall p i, 0 <= i < DATA_LEN -> get_page (cell p i) = p.
Proof.
  intros; unfold get_page, cell. rewrite Z.add_comm, Z.div_add by (pose proof DL_pos; lia).
  rewrite Z.div_small by auto; lia.
Qed.
Lemma get_index_cell : forall p i, 0 <= i < DATA_LEN -> get_index (cell p i) = i.
Proof.
  intros; unfold get_index, cell. rewrite Z.add_comm, Z.mod_add by (pose proof DL_pos; lia).
  apply Z.mod_small; auto.
Qed.
Lemma cell_eta : forall a, cell (get_page a) (get_index a) = a.
Proof.
  intros; unfold cell, get_page, get_index.
  pose proof (Z.div_mod a DATA_LEN ltac:(pose proof DL_pos; lia)); lia.
Qed.
Lemma index_range : forall a, 0 <= get_index a < DATA_LEN.
Proof. intros; apply Z.mod_pos_bound, DL_pos. Qed.

Lemma in_cells_upto : forall n p a, 0 <= n <= DATA_LEN ->
  In a (cells_upto n p) <-> get_page a = p /\ get_index a < n.
Proof.
  intros n p a Hn; unfold cells_upto; rewrite in_map_iff; split.
  - intros (i & E & Hi). apply in_seq in Hi. subst a.
    rewrite get_page_cell, get_index_cell by lia. split; auto; lia.
  - intros (E & H). pose proof (index_range a).
    exists (Z.to_nat (get_index a)); split.
    + rewrite Z2Nat.id by lia. subst p; apply cell_eta.
    + apply in_seq; lia.
Qed.

Lemma in_page_cells : forall p a, In a (page_cells p) <-> get_page a = p.
Proof.
  intros; unfold page_cells; rewrite in_cells_upto by (pose proof DL_pos; lia).
  pose proof (index_range a); intuition lia.
Qed.

Lemma in_pages_cells : forall l a, In a (flat_map page_cells l) <-> In (get_page a) l.
Proof.
  intros; rewrite in_flat_map; split.
  - intros (p & H & H1); apply in_page_cells in H1; subst; auto.
  - intros; exists (get_page a); split; auto; apply in_page_cells; auto.
Qed.

Lemma NoDup_cells_upto : forall n p, NoDup (cells_upto n p).
Proof.
  intros; unfold cells_upto. apply FinFun.Injective_map_NoDup; [ | apply seq_NoDup ].
  intros i j E; unfold cell in E; lia.
Qed.

Lemma NoDup_pages_cells : forall l, NoDup l -> NoDup (flat_map page_cells l).
Proof.
  induction l; intros H; [ constructor | ].
  inversion H; subst. change (flat_map page_cells (a :: l)) with (page_cells a ++ flat_map page_cells l).
  apply NoDup_app; auto.
  - apply NoDup_cells_upto.
  - intros x H1 H4; apply in_page_cells in H1; apply in_pages_cells in H4; subst; auto.
Qed.

Lemma length_cells_upto : forall n p, 0 <= n -> Z.of_nat (length (cells_upto n p)) = n.
Proof. intros; unfold cells_upto; rewrite map_length, seq_length; lia. Qed.

Lemma cells_upto_full : forall p, cells_upto DATA_LEN p = page_cells p.
Proof. reflexivity. Qed.

Lemma cells_upto_snoc : forall n p, 0 <= n -> cells_upto (n + 1) p = cells_upto n p ++ [cell p n].
Proof.
  intros; unfold cells_upto. rewrite Z2Nat.inj_add by lia.
  replace (Z.to_nat n + Z.to_nat 1)%nat with (S (Z.to_nat n)) by lia.
  rewrite seq_S, map_app; cbn [map]. rewrite Nat.add_0_l, Z2Nat.id by lia; auto.
Qed.

Lemma in_cells : forall s a, 0 <= used s <= DATA_LEN ->
  In a (cells s) <-> In (get_page a) (pages s) \/ (get_page a = cur s /\ get_index a < used s).
Proof.
  intros; unfold cells; rewrite in_app_iff, in_pages_cells, in_cells_upto by auto; tauto.
Qed.

Lemma on_page_spec : forall p a, on_page p a = true <-> get_page a = p.
Proof. intros; unfold on_page; apply Z.eqb_eq. Qed.

Lemma on_pages_spec : forall l a, on_pages l a = true <-> In (get_page a) l.
Proof.
  intros; unfold on_pages; rewrite existsb_exists; split.
  - intros (p & H & E); apply on_page_spec in E; subst; auto.
  - intros; exists (get_page a); split; auto; apply on_page_spec; auto.
Qed.

(** ** The mark phase *)

Section MarkProofs.
  Variable h : Z -> option obj.
  Variable old : Z -> bool.
  Variable major : bool.
  Variable U : list Z.
  Hypothesis U_nd : NoDup U.
  Hypothesis U_live : forall a, h a <> None -> In a U.
  Hypothesis closed : forall a o k, h a = Some o -> In k (o_kids o) -> h k <> None.

  Notation kids := (kids_of h).

  Definition unmarked (m : mst) : nat := length (filter (fun x => negb (mk m x)) U).

  Definition ages (a : Z) : bool :=
    match h a with Some o => o_prom o && negb (major && old a) | None => false end.

  (** [m'] extends [m]: everything newly marked satisfies [S] and is either
      queued or has all its children marked. *)
  Record ext (S : Z -> Prop) (m m' : mst) : Prop := {
    ex_mono : forall x, mk m x = true -> mk m' x = true;
    ex_q : exists q, queue m' = queue m ++ q;
    ex_new : forall x, mk m' x = true -> mk m x = false -> h x <> None /\ S x;
    ex_done : forall x, mk m' x = true -> mk m x = false ->
              In x (queue m') \/ forall k, In k (kids x) -> mk m' k = true;
    ex_meas : (length (queue m') + unmarked m' <= length (queue m) + unmarked m)%nat;
    ex_qm : forall x, In x (queue m') -> In x (queue m) \/ (mk m x = false /\ mk m' x = true);
    ex_age : exists l, aging m' = aging m ++ l /\ NoDup l /\
             forall x, In x l -> mk m x = false /\ mk m' x = true /\ ages x = true
  }.

  Lemma ext_refl : forall S m, ext S m m.
  Proof.
    intros; split; auto; try congruence.
    - exists []; rewrite app_nil_r; auto.
    - exists []; rewrite app_nil_r; split; [ auto | split; [ constructor | intros x [] ] ].
  Qed.

  Lemma ext_trans : forall S m1 m2 m3, ext S m1 m2 -> ext S m2 m3 -> ext S m1 m3.
  Proof.
    intros S m1 m2 m3 A B.
    destruct (ex_q _ _ _ A) as (q1 & E1), (ex_q _ _ _ B) as (q2 & E2).
    destruct (ex_age _ _ _ A) as (l1 & L1 & N1 & P1), (ex_age _ _ _ B) as (l2 & L2 & N2 & P2).
    split.
    - intros; apply (ex_mono _ _ _ B), (ex_mono _ _ _ A); auto.
    - exists (q1 ++ q2); rewrite E2, E1, app_assoc; auto.
    - intros x H H0. destruct (mk m2 x) eqn:E.
      + apply (ex_new _ _ _ A); auto.
      + apply (ex_new _ _ _ B); auto.
    - intros x H H0. destruct (mk m2 x) eqn:E.
      + destruct (ex_done _ _ _ A x E H0) as [Q|K].
        * left; rewrite E2; apply in_or_app; auto.
        * right; intros; apply (ex_mono _ _ _ B); auto.
      + apply (ex_done _ _ _ B); auto.
    - pose proof (ex_meas _ _ _ A); pose proof (ex_meas _ _ _ B); lia.
    - intros x H. destruct (ex_qm _ _ _ B x H) as [Q|Q].
      + destruct (ex_qm _ _ _ A x Q) as [Q'|(Q' & Q2)]; auto.
        right; split; auto; apply (ex_mono _ _ _ B); auto.
      + destruct Q as (Q1 & Q2); right; split; auto.
        destruct (mk m1 x) eqn:E; auto. apply (ex_mono _ _ _ A) in E; congruence.
    - exists (l1 ++ l2); split; [ rewrite L2, L1, app_assoc; auto | split ].
      + apply NoDup_app; auto. intros x X1 X2.
        destruct (P1 x X1) as (_ & T & _), (P2 x X2) as (T' & _ & _); congruence.
      + intros x X; apply in_app_or in X as [X|X].
        * destruct (P1 x X) as (? & ? & ?); repeat split; auto; apply (ex_mono _ _ _ B); auto.
        * destruct (P2 x X) as (X1 & ? & ?); repeat split; auto.
          destruct (mk m1 x) eqn:E; auto. apply (ex_mono _ _ _ A) in E; congruence.
  Qed.

  Lemma unmarked_step : forall m a ag q,
    In a U -> mk m a = false ->
    (S (unmarked (Mst (upd (mk m) a true) ag q)) = unmarked m)%nat.
  Proof.
    intros m a ag q. unfold unmarked; cbn [mk]. generalize U_nd. clear.
    induction U as [|u l IH]; [ intros _ [] | ].
    intros ND Hin Hm. inversion ND as [|? ? Hni ND']; subst. cbn [filter].
    destruct (Z.eq_dec u a) as [->|Hne].
    - rewrite upd_same, Hm; cbn [negb]. cbn [length]. f_equal.
      assert (E : filter (fun x => negb (upd (mk m) a true x)) l = filter (fun x => negb (mk m x)) l).
      { apply filter_ext_in; intros x Hx. rewrite upd_other; auto. intros ->; auto. }
      rewrite E; auto.
    - rewrite upd_other by auto. destruct Hin as [?|Hin]; [ congruence | ].
      specialize (IH ND' Hin Hm). destruct (mk m u); cbn [negb length]; lia.
  Qed.

  Definition fold_mark (n : nat) := fun (acc : option mst) (k : Z) =>
    match acc with Some m' => mark h old major n m' k | None => None end.

  Lemma mark_eq : forall n m a, mark h old major n m a =
    match h a with
    | None => None
    | Some o =>
        if mk m a then Some m
        else
          let m1 := Mst (upd (mk m) a true)
                        (if o_prom o && negb (major && old a)
                         then aging m ++ [a] else aging m)
                        (queue m) in
          match n with
          | O => Some (Mst (mk m1) (aging m1) (queue m1 ++ [a]))
          | S n' => marks h old major n' (o_kids o) m1
          end
    end.
  Proof. intros [|n] m a; reflexivity. Qed.

  Lemma marks_cons : forall n k l m, marks h old major n (k :: l) m =
    match mark h old major n m k with Some m' => marks h old major n l m' | None => None end.
  Proof.
    intros; unfold marks; cbn [fold_left].
    destruct (mark h old major n m k); auto.
    induction l; auto.
  Qed.

  Definition mark_good (n : nat) : Prop := forall (S : Z -> Prop) m a,
    h a <> None -> S a -> (forall x k, S x -> In k (kids x) -> S k) ->
    exists m', mark h old major n m a = Some m' /\ ext S m m' /\ mk m' a = true.

  Lemma marks_good_of : forall n, mark_good n -> forall (S : Z -> Prop) l m,
    (forall k, In k l -> h k <> None /\ S k) -> (forall x k, S x -> In k (kids x) -> S k) ->
    exists m', marks h old major n l m = Some m' /\ ext S m m' /\ (forall k, In k l -> mk m' k = true).
  Proof.
    intros n G S l; induction l as [|k l IH]; intros m Hl HS.
    - exists m; split; [ reflexivity | split; [ apply ext_refl | intros k [] ] ].
    - destruct (Hl k (or_introl eq_refl)) as (Hk & HSk).
      destruct (G S m k Hk HSk HS) as (m1 & E1 & X1 & K1).
      destruct (IH m1 (fun x Hx => Hl x (or_intror Hx)) HS) as (m2 & E2 & X2 & K2).
      exists m2; split; [ | split ].
      + rewrite marks_cons, E1; auto.
      + eapply ext_trans; eauto.
      + intros x [<-|Hx]; auto. apply (ex_mono _ _ _ X2); auto.
  Qed.

  Lemma mark_good_all : forall n, mark_good n.
  Proof.
    assert (AG : forall m a o, h a = Some o -> mk m a = false ->
      exists l, (if o_prom o && negb (major && old a) then aging m ++ [a] else aging m) = aging m ++ l
        /\ NoDup l /\ forall x, In x l -> x = a /\ ages x = true).
    { intros m a o Ho Hm. destruct (o_prom o && negb (major && old a)) eqn:E.
      - exists [a]; split; auto; split; [ constructor; auto; constructor | ].
        intros x [<-|[]]; split; auto. unfold ages; rewrite Ho; auto.
      - exists []; rewrite app_nil_r; split; auto; split; [ constructor | intros x [] ]. }
    induction n as [|n IH]; intros S m a Ha HSa HS; rewrite mark_eq;
      destruct (h a) as [o|] eqn:Ho; try congruence;
      destruct (mk m a) eqn:Hm; try solve [ exists m; split; [ reflexivity | split; [ apply ext_refl | auto ] ] ];
      cbv zeta; cbn [mk aging queue].
    - set (m' := @Mst _ _ _). exists m'; split; [ reflexivity | ].
      destruct (AG m a o Ho Hm) as (l & El & Nl & Pl).
      assert (Hma : mk m' a = true) by apply upd_same.
      assert (Hmo : forall x, x <> a -> mk m' x = mk m x) by (intros; apply upd_other; auto).
      split; auto. split.
      + intros x Hx. destruct (Z.eq_dec x a); subst; auto. rewrite Hmo; auto.
      + exists [a]; reflexivity.
      + intros x H1 H2. destruct (Z.eq_dec x a) as [->|Hne]; [ | rewrite Hmo in H1; congruence ].
        split; auto. rewrite Ho; congruence.
      + intros x H1 H2. destruct (Z.eq_dec x a) as [->|Hne]; [ | rewrite Hmo in H1; congruence ].
        left; cbn; apply in_or_app; right; left; auto.
      + pose proof (unmarked_step m a (aging m') (queue m') (U_live a ltac:(congruence)) Hm) as Q.
        change (Mst (upd (mk m) a true) (aging m') (queue m')) with m' in Q.
        cbn [queue m']. rewrite app_length; cbn [length]. lia.
      + intros x Hx; cbn in Hx; apply in_app_or in Hx as [Hx|[<-|[]]]; auto.
      + exists l; split; [ exact El | split; auto ].
        intros x Hx; destruct (Pl x Hx) as (-> & ?); auto.
    - set (m1 := @Mst _ _ _).
      destruct (AG m a o Ho Hm) as (l & El & Nl & Pl).
      assert (Hma : mk m1 a = true) by apply upd_same.
      assert (Hmo : forall x, x <> a -> mk m1 x = mk m x) by (intros; apply upd_other; auto).
      assert (Hka : kids a = o_kids o) by (unfold kids_of; rewrite Ho; auto).
      destruct (marks_good_of n IH S (o_kids o) m1) as (m' & E & X & K); auto.
      { intros k Hk; split; [ eapply closed; eauto | apply (HS a); auto; rewrite Hka; auto ]. }
      exists m'; split; [ exact E | ].
      destruct (ex_age _ _ _ X) as (l' & El' & Nl' & Pl').
      split; [ | apply (ex_mono _ _ _ X); auto ]. split.
      + intros x Hx. apply (ex_mono _ _ _ X). destruct (Z.eq_dec x a); subst; auto. rewrite Hmo; auto.
      + apply (ex_q _ _ _ X).
      + intros x H1 H2. destruct (mk m1 x) eqn:E1.
        * destruct (Z.eq_dec x a) as [->|Hne]; [ | rewrite Hmo in E1; congruence ].
          split; auto. rewrite Ho; congruence.
        * apply (ex_new _ _ _ X); auto.
      + intros x H1 H2. destruct (mk m1 x) eqn:E1.
        * destruct (Z.eq_dec x a) as [->|Hne]; [ | rewrite Hmo in E1; congruence ].
          right; intros k Hk; apply K; rewrite <- Hka; auto.
        * apply (ex_done _ _ _ X); auto.
      + pose proof (unmarked_step m a (aging m1) (queue m1) (U_live a ltac:(congruence)) Hm) as Q.
        change (Mst (upd (mk m) a true) (aging m1) (queue m1)) with m1 in Q.
        pose proof (ex_meas _ _ _ X) as Q2. cbn [queue m1] in Q2. lia.
      + intros x Hx. apply (ex_qm _ _ _ X) in Hx as [Hx|(H1 & H2)]; auto. right; split; auto.
        destruct (Z.eq_dec x a) as [->|Hne]; auto. rewrite Hmo in H1; auto.
      + exists (l ++ l'); split; [ rewrite El'; cbn [aging m1]; rewrite El, app_assoc; auto | split ].
        * apply NoDup_app; auto. intros x X1 X2.
          destruct (Pl x X1) as (-> & _), (Pl' a X2) as (T & _ & _); congruence.
        * intros x Hx; apply in_app_or in Hx as [Hx|Hx].
          -- destruct (Pl x Hx) as (-> & ?); repeat split; auto. apply (ex_mono _ _ _ X); auto.
          -- destruct (Pl' x Hx) as (T & ? & ?); repeat split; auto.
             destruct (Z.eq_dec x a) as [->|Hne]; auto. rewrite Hmo in T; auto.
  Qed.

  Lemma marks_good : forall n (S : Z -> Prop) l m,
    (forall k, In k l -> h k <> None /\ S k) -> (forall x k, S x -> In k (kids x) -> S k) ->
    exists m', marks h old major n l m = Some m' /\ ext S m m' /\ (forall k, In k l -> mk m' k = true).
  Proof. intros n; apply marks_good_of, mark_good_all. Qed.

  Lemma live_kids : forall a k, In k (kids a) -> h k <> None.
  Proof. intros a k; unfold kids_of; destruct (h a) eqn:E; [ eapply closed; eauto | intros [] ]. Qed.

  (** Everything marked is a seed, queued, or has its children marked. *)
  Definition tri (seed : Z -> Prop) (m : mst) : Prop :=
    forall x, mk m x = true -> seed x \/ In x (queue m) \/ forall k, In k (kids x) -> mk m k = true.

  Lemma ext_tri : forall S seed m m', ext S m m' -> tri seed m -> tri seed m'.
  Proof.
    intros S seed m m' X T x Hx. destruct (mk m x) eqn:E.
    - destruct (T x E) as [?|[Q|K]]; auto.
      + destruct (ex_q _ _ _ X) as (q & Eq). right; left; rewrite Eq; apply in_or_app; auto.
      + right; right; intros; apply (ex_mono _ _ _ X); auto.
    - right; apply (ex_done _ _ _ X); auto.
  Qed.

  Record ext0 (S : Z -> Prop) (m m' : mst) : Prop := {
    e0_mono : forall x, mk m x = true -> mk m' x = true;
    e0_new : forall x, mk m' x = true -> mk m x = false -> h x <> None /\ S x;
    e0_meas : (length (queue m') + unmarked m' <= length (queue m) + unmarked m)%nat;
    e0_age : exists l, aging m' = aging m ++ l /\ NoDup l /\
             forall x, In x l -> mk m x = false /\ mk m' x = true /\ ages x = true
  }.

  Lemma ext_ext0 : forall S m m', ext S m m' -> ext0 S m m'.
  Proof. intros S m m' X; split; apply X. Qed.

  Lemma ext0_trans : forall S m1 m2 m3, ext0 S m1 m2 -> ext0 S m2 m3 -> ext0 S m1 m3.
  Proof.
    intros S m1 m2 m3 A B.
    destruct (e0_age _ _ _ A) as (l1 & L1 & N1 & P1), (e0_age _ _ _ B) as (l2 & L2 & N2 & P2).
    split.
    - intros; apply (e0_mono _ _ _ B), (e0_mono _ _ _ A); auto.
    - intros x H H0. destruct (mk m2 x) eqn:E.
      + apply (e0_new _ _ _ A); auto.
      + apply (e0_new _ _ _ B); auto.
    - pose proof (e0_meas _ _ _ A); pose proof (e0_meas _ _ _ B); lia.
    - exists (l1 ++ l2); split; [ rewrite L2, L1, app_assoc; auto | split ].
      + apply NoDup_app; auto. intros x X1 X2.
        destruct (P1 x X1) as (_ & T & _), (P2 x X2) as (T' & _ & _); congruence.
      + intros x X; apply in_app_or in X as [X|X].
        * destruct (P1 x X) as (? & ? & ?); repeat split; auto; apply (e0_mono _ _ _ B); auto.
        * destruct (P2 x X) as (X1 & ? & ?); repeat split; auto.
          destruct (mk m1 x) eqn:E; auto. apply (e0_mono _ _ _ A) in E; congruence.
  Qed.

  Lemma drain_good : forall (S : Z -> Prop) seed fuel m,
    (forall x k, S x -> In k (kids x) -> S k) ->
    (forall x, In x (queue m) -> S x) -> tri seed m ->
    (length (queue m) + unmarked m <= fuel)%nat ->
    exists m', drain h old major fuel m = Some m' /\ ext0 S m m' /\ queue m' = [] /\ tri seed m'.
  Proof.
    intros S seed fuel; induction fuel as [|fuel IH]; intros m HS HQ HT HM.
    - destruct (queue m) as [|a q] eqn:E; [ | cbn in HM; lia ].
      exists m; split; [ cbn; rewrite E; auto | ].
      split; [ apply ext_ext0, ext_refl | split; auto ].
    - destruct (queue m) as [|a q] eqn:E.
      + exists m; split; [ cbn; rewrite E; auto | ].
        split; [ apply ext_ext0, ext_refl | split; auto ].
      + set (m1 := Mst (mk m) (aging m) q).
        assert (X1 : ext0 S m m1).
        { split; auto; try (cbn; congruence).
          - rewrite E; cbn [queue m1 length]; unfold unmarked; cbn [mk m1]; lia.
          - exists []; rewrite app_nil_r; split; [ auto | split; [ constructor | intros x [] ] ]. }
        destruct (marks_good MARK_RECURSION_LIMIT S (kids a) m1) as (m2 & E2 & X2 & K2); auto.
        { intros k Hk; split; [ eapply live_kids; eauto | apply (HS a); auto; apply HQ; left; auto ]. }
        assert (T2 : tri seed m2).
        { intros x Hx. destruct (mk m1 x) eqn:Ex.
          - cbn in Ex. destruct (HT x Ex) as [?|[Q|K]]; auto.
            + rewrite E in Q; destruct Q as [<-|Q].
              * right; right; auto.
              * destruct (ex_q _ _ _ X2) as (q2 & Eq). right; left; rewrite Eq; apply in_or_app; auto.
            + right; right; intros; apply (ex_mono _ _ _ X2); cbn; auto.
          - right; apply (ex_done _ _ _ X2); auto. }
        destruct (IH m2) as (m3 & E3 & X3 & Q3 & T3); auto.
        { intros x Hx. destruct (ex_qm _ _ _ X2 x Hx) as [Q|(Q1 & Q2)].
          - apply HQ; right; auto.
          - apply (ex_new _ _ _ X2); auto. }
        { pose proof (ex_meas _ _ _ X2) as M2. cbn [queue m1] in M2.
          assert (unmarked m1 = unmarked m) by reflexivity. cbn [length] in HM. lia. }
        exists m3; split; [ cbn; rewrite E; fold m1; rewrite E2; auto | ].
        split; [ | split; auto ].
        eapply ext0_trans; [ exact X1 | ]. eapply ext0_trans; [ apply ext_ext0; exact X2 | exact X3 ].
  Qed.
End MarkProofs.

Local Arguments MARK_RECURSION_LIMIT : simpl never.

(** ** Passes over headers *)

Lemma kids_ext : forall h h' a, (forall o, h a = Some o -> exists o', h' a = Some o' /\ o_kids o' = o_kids o) ->
  (h a = None -> h' a = None) -> kids_of h' a = kids_of h a.
Proof.
  intros h h' a H1 H2; unfold kids_of. destruct (h a) as [o|].
  - destruct (H1 o eq_refl) as (o' & -> & ->); auto.
  - rewrite H2; auto.
Qed.

Lemma young_ext : forall h h' old a, kids_of h' a = kids_of h a -> young_child h' old a = young_child h old a.
Proof. intros h h' old a E; unfold young_child; rewrite E; auto. Qed.

Lemma arm_spec : forall h a b, arm h a b =
  match h b with Some o => Some (if b =? a then set_armed o true else o) | None => None end.
Proof.
  intros; unfold arm. destruct (Z.eqb_spec b a) as [->|Hne].
  - destruct (h a) eqn:E; [ rewrite upd_same; auto | rewrite E; auto ].
  - destruct (h a); [ rewrite upd_other by auto | ]; destruct (h b); auto.
Qed.
Lemma disarm_spec : forall h a b, disarm h a b =
  match h b with Some o => Some (if b =? a then set_armed o false else o) | None => None end.
Proof.
  intros; unfold disarm. destruct (Z.eqb_spec b a) as [->|Hne].
  - destruct (h a) eqn:E; [ rewrite upd_same; auto | rewrite E; auto ].
  - destruct (h a); [ rewrite upd_other by auto | ]; destruct (h b); auto.
Qed.

Lemma kids_arm : forall h a b, kids_of (arm h a) b = kids_of h b.
Proof.
  intros; unfold kids_of; rewrite arm_spec. destruct (h b); auto. destruct (b =? a); auto.
Qed.
Lemma kids_disarm : forall h a b, kids_of (disarm h a) b = kids_of h b.
Proof.
  intros; unfold kids_of; rewrite disarm_spec. destruct (h b); auto. destruct (b =? a); auto.
Qed.

Lemma keep_or_arm_spec : forall old l h k h', keep_or_arm old l h = (k, h') ->
  k = filter (young_child h old) l /\
  forall a, h' a = match h a with
                   | Some o => Some (if inb a l && negb (young_child h old a) then set_armed o true else o)
                   | None => None
                   end.
Proof.
  intros old l; induction l as [|r l IH]; intros h k h' E; cbn in E.
  - assert (k = [] /\ h' = h) as (-> & ->) by (split; congruence).
    split; auto. intros a; cbn. destruct (h a); auto.
  - destruct (young_child h old r) eqn:Y.
    + destruct (keep_or_arm old l h) as (k1 & h1) eqn:E1.
      assert (k = r :: k1 /\ h' = h1) as (-> & ->) by (split; congruence).
      destruct (IH _ _ _ E1) as (-> & Hh). split; [ cbn; rewrite Y; auto | ].
      intros a; rewrite Hh. destruct (h a); auto. cbn [inb existsb].
      destruct (Z.eqb_spec a r) as [->|]; auto. rewrite Y; cbn. rewrite !andb_false_r; auto.
    + destruct (IH _ _ _ E) as (-> & Hh). split.
      * cbn [filter]; rewrite Y. apply filter_ext; intros a; apply young_ext, kids_arm.
      * intros a; rewrite Hh, arm_spec. destruct (h a); auto.
        rewrite (young_ext _ _ old a (kids_arm h r a)). cbn [inb existsb].
        destruct (Z.eqb_spec a r) as [->|]; auto.
        rewrite Y; cbn. destruct (inb r l); cbn; destruct o; auto.
Qed.

Definition promotes (h : Z -> option obj) (a : Z) : bool :=
  match h a with Some o => RGENGC_OLD_AGE <=? sat_age (o_age o) | None => false end.

Lemma age_pass_spec : forall l h old p0 h' old' p, NoDup l ->
  age_pass l h old p0 = (h', old', p) ->
  p = p0 ++ filter (promotes h) l /\
  (forall a, h' a = match h a with
                    | Some o => Some (if inb a l then set_age o (sat_age (o_age o)) else o)
                    | None => None
                    end) /\
  (forall a, old' a = old a || (inb a l && promotes h a)).
Proof.
  induction l as [|r l IH]; intros h old p0 h' old' p ND E; cbn in E.
  - assert (h' = h /\ old' = old /\ p = p0) as (-> & -> & ->) by (repeat split; congruence).
    split; [ cbn; rewrite app_nil_r; auto | split; intros a ].
    + destruct (h a); auto.
    + cbn; rewrite orb_false_r; auto.
  - inversion ND as [|? ? Hni ND']; subst.
    destruct (h r) as [o|] eqn:Hr.
    + set (h1 := upd h r (Some (set_age o (sat_age (o_age o))))) in *.
      assert (PE : forall a, In a l -> promotes h1 a = promotes h a).
      { intros a Ha; unfold promotes, h1. rewrite upd_other; auto. intros ->; auto. }
      assert (FE : filter (promotes h1) l = filter (promotes h) l) by (apply filter_ext_in; auto).
      assert (HH : forall a, match h1 a with
                    | Some o => Some (if inb a l then set_age o (sat_age (o_age o)) else o)
                    | None => None end =
                   match h a with
                    | Some o => Some (if inb a (r :: l) then set_age o (sat_age (o_age o)) else o)
                    | None => None end).
      { intros a; unfold h1. cbn [inb existsb]. destruct (Z.eqb_spec a r) as [->|Hne].
        - rewrite upd_same, Hr. assert (inb r l = false) as -> by (apply inb_not; auto). auto.
        - rewrite upd_other by auto. destruct (h a); auto. }
      assert (PR : promotes h r = (RGENGC_OLD_AGE <=? sat_age (o_age o))) by (unfold promotes; rewrite Hr; auto).
      destruct (RGENGC_OLD_AGE <=? sat_age (o_age o)) eqn:A;
        destruct (IH _ _ _ _ _ _ ND' E) as (-> & H2 & H3); (split; [ | split ]).
      * rewrite FE. cbn [filter]; rewrite PR. rewrite <- app_assoc; auto.
      * intros a; rewrite H2; auto.
      * intros a; rewrite H3. unfold upd. cbn [inb existsb].
        destruct (Z.eqb_spec a r) as [->|Hne].
        -- rewrite PR; cbn. rewrite orb_true_r; auto.
        -- cbn [orb]. destruct (inb a l) eqn:I.
           ++ rewrite PE; [ unfold inb in I; rewrite I; auto | apply inb_In; auto ].
           ++ unfold inb in I; rewrite I; auto.
      * rewrite FE. cbn [filter]; rewrite PR; auto.
      * intros a; rewrite H2; auto.
      * intros a; rewrite H3. cbn [inb existsb].
        destruct (Z.eqb_spec a r) as [->|Hne].
        -- rewrite PR; cbn. assert (inb r l = false) as -> by (apply inb_not; auto). auto.
        -- cbn [orb]. destruct (inb a l) eqn:I.
           ++ rewrite PE; [ unfold inb in I; rewrite I; auto | apply inb_In; auto ].
           ++ unfold inb in I; rewrite I; auto.
    + destruct (IH _ _ _ _ _ _ ND' E) as (-> & H2 & H3).
      assert (PR : promotes h r = false) by (unfold promotes; rewrite Hr; auto).
      split; [ cbn [filter]; rewrite PR; auto | split ]; intros a; rewrite ?H2, ?H3; cbn [inb existsb];
        destruct (Z.eqb_spec a r) as [->|Hne]; auto.
      * rewrite Hr; auto.
      * rewrite PR, !andb_false_r; auto.
Qed.

Lemma promote_pass_spec : forall old l h rem h' rem', NoDup l ->
  promote_pass old l h rem = (h', rem') ->
  rem' = rem ++ filter (young_child h old) l /\
  (forall a, h' a = match h a with
                    | Some o => Some (if inb a l then set_armed o (negb (young_child h old a)) else o)
                    | None => None
                    end).
Proof.
  intros old; induction l as [|r l IH]; intros h rem h' rem' ND E; cbn in E.
  - assert (h' = h /\ rem' = rem) as (-> & ->) by (split; congruence).
    split; [ cbn; rewrite app_nil_r; auto | intros a; destruct (h a); auto ].
  - inversion ND as [|? ? Hni ND']; subst.
    assert (NI : inb r l = false) by (apply inb_not; auto).
    destruct (young_child h old r) eqn:Y.
    + destruct (IH _ _ _ _ ND' E) as (-> & H2). split.
      * cbn [filter]; rewrite Y, <- app_assoc; cbn [app]. do 2 f_equal.
        apply filter_ext; intros a; apply young_ext, kids_disarm.
      * intros a; rewrite H2, disarm_spec. destruct (h a); auto.
        rewrite (young_ext _ _ old a (kids_disarm h r a)). cbn [inb existsb].
        destruct (Z.eqb_spec a r) as [->|]; auto.
        rewrite NI, Y; auto.
    + destruct (IH _ _ _ _ ND' E) as (-> & H2). split.
      * cbn [filter]; rewrite Y. f_equal.
        apply filter_ext; intros a; apply young_ext, kids_arm.
      * intros a; rewrite H2, arm_spec. destruct (h a); auto.
        rewrite (young_ext _ _ old a (kids_arm h r a)). cbn [inb existsb].
        destruct (Z.eqb_spec a r) as [->|]; auto.
        rewrite NI, Y; auto.
Qed.

Lemma salvage_spec : forall mkd l kept gone, salvage mkd l = (kept, gone) ->
  kept = filter (fun p => negb (all_dead mkd p)) l /\
  gone = rev (filter (all_dead mkd) l).
Proof.
  intros mkd; induction l as [|p l IH]; intros kept gone E; cbn in E.
  - cbn; split; congruence.
  - destruct (salvage mkd l) as (k1 & g1). destruct (IH _ _ eq_refl) as (-> & ->).
    cbn [filter]. destruct (all_dead mkd p); cbn [negb]; inversion E; subst; split; auto.
Qed.

Lemma all_dead_spec : forall mkd p, all_dead mkd p = true <-> forall a, get_page a = p -> mkd a = false.
Proof.
  intros; unfold all_dead; rewrite forallb_forall; split; intros H a Ha.
  - apply in_page_cells in Ha. specialize (H a Ha). destruct (mkd a); auto; discriminate.
  - apply in_page_cells in Ha. rewrite H; auto.
Qed.

(** ** The invariant *)

Record WF (s : st) (r : list Z) : Prop := {
  wf_pg : NoDup (cur s :: pages s ++ fpages s);
  wf_rng : forall p, In p (cur s :: pages s ++ fpages s) -> 0 <= p <= hpage s;
  wf_used : 0 <= used s <= DATA_LEN;
  wf_free_nd : NoDup (free s);
  wf_free : forall a, In a (free s) <-> In a (cells s) /\ heap s a = None;
  wf_live : forall a, heap s a <> None -> In a (cells s);
  wf_kids : forall a o k, heap s a = Some o -> In k (o_kids o) -> heap s k <> None;
  wf_old_live : forall a, In (get_page a) (cur s :: pages s) -> oldb s a = true ->
                exists o, heap s a = Some o /\ o_prom o = true;
  wf_rem_nd : NoDup (remem s);
  wf_rem : forall a, In a (remem s) ->
           exists o, heap s a = Some o /\ o_armed o = false /\ oldb s a = true;
  wf_armed : forall a o, heap s a = Some o -> o_armed o = true -> oldb s a = true;
  wf_old : forall a o, heap s a = Some o -> oldb s a = true -> ~ In a (remem s) ->
           o_armed o = true /\ forall k, In k (o_kids o) -> oldb s k = true;
  wf_roots : forall a, In a r -> heap s a <> None;
  wf_fcnt : free_cnt s = Z.of_nat (length (free s));
  wf_ocnt : old_count s = popcount (oldb s) (cells s)
}.

Lemma cells_page : forall s a, 0 <= used s <= DATA_LEN -> In a (cells s) ->
  In (get_page a) (cur s :: pages s).
Proof. intros s a U H. apply in_cells in H as [H|(H & _)]; auto; [ right | left ]; auto. Qed.

Lemma NoDup_cells : forall s r, WF s r -> NoDup (cells s).
Proof.
  intros s r W. pose proof (wf_pg _ _ W) as N. inversion N as [|? ? N1 N2]; subst.
  unfold cells; apply NoDup_app.
  - apply NoDup_pages_cells. clear - N2. induction (pages s); [ constructor | ].
    cbn in N2; inversion N2; subst. constructor; auto. rewrite in_app_iff in *; tauto.
  - apply NoDup_cells_upto.
  - intros x H1 H2. apply in_pages_cells in H1. apply in_cells_upto in H2 as (H2 & _); [ | apply (wf_used _ _ W) ].
    apply N1; rewrite in_app_iff; subst; rewrite <- H2; auto.
Qed.

Lemma live_kids_of : forall s r a k, WF s r -> In k (kids_of (heap s) a) -> heap s k <> None.
Proof.
  intros s r a k W; unfold kids_of. destruct (heap s a) eqn:E; [ eapply wf_kids; eauto | intros [] ].
Qed.

Lemma reach_live : forall s r a, WF s r -> sreach s r a -> heap s a <> None.
Proof.
  intros s r a W H; induction H; [ eapply wf_roots; eauto | eapply live_kids_of; eauto ].
Qed.

Lemma init_WF : forall g, WF (init g) [].
Proof.
  intros g; split; cbn.
  - repeat constructor; auto.
  - intros p [<-|[]]; lia.
  - pose proof DL_pos; lia.
  - constructor.
  - unfold cells; cbn. intros a; split; [ intros [] | intros ([] & _) ].
  - congruence.
  - congruence.
  - intros a [E|[]] H. unfold clear_old_page, on_page in H. rewrite <- E, Z.eqb_refl in H; discriminate.
  - constructor.
  - intros a [].
  - discriminate.
  - discriminate.
  - intros a [].
  - reflexivity.
  - reflexivity.
Qed.

(** ** The mark phase on a well-formed state *)

Record marked_ok (kind : gckind) (s : st) (r : list Z) (m : mst) : Prop := {
  mo_seed : kind = Minor -> forall a, oldb s a = true -> mk m a = true;
  mo_root : forall a, In a r -> mk m a = true;
  mo_closed : forall a, In a (cells s) -> mk m a = true -> forall k, In k (kids_of (heap s) a) -> mk m k = true;
  mo_live : forall a, In (get_page a) (cur s :: pages s) -> mk m a = true -> heap s a <> None;
  mo_major : kind = Major -> forall a, mk m a = true -> sreach s r a;
  mo_minor : forall a, mk m a = true -> mreach s r a;
  mo_age_nd : NoDup (aging m);
  mo_age : forall a, In a (aging m) -> mk m a = true /\ oldb s a = false /\
             exists o, heap s a = Some o /\ o_prom o = true
}.

Lemma mark_rem_good : forall h old major U (S : Z -> Prop),
  NoDup U -> (forall a, h a <> None -> In a U) ->
  (forall a o k, h a = Some o -> In k (o_kids o) -> h k <> None) ->
  (forall x k, S x -> In k (kids_of h x) -> S k) ->
  forall l m, (forall x, In x l -> S x) ->
  exists m', mark_rem h old major l m = Some m' /\ ext h old major U S m m' /\
             forall x k, In x l -> In k (kids_of h x) -> mk m' k = true.
Proof.
  intros h old major U S ND UL CL HS; induction l as [|x l IH]; intros m Hl.
  - exists m; split; [ reflexivity | split; [ apply ext_refl | intros ? ? [] ] ].
  - destruct (marks_good h old major U ND UL CL MARK_RECURSION_LIMIT S (kids_of h x) m) as (m1 & E1 & X1 & K1); auto.
    { intros k Hk; split; [ eapply live_kids; eauto | apply (HS x); auto; apply Hl; left; auto ]. }
    destruct (IH m1) as (m2 & E2 & X2 & K2); [ intros; apply Hl; right; auto | ].
    exists m2; split; [ cbn; rewrite E1; auto | split; [ eapply ext_trans; eauto | ] ].
    intros y k [<-|Hy] Hk; eauto. apply (ex_mono _ _ _ _ _ _ _ X2); auto.
Qed.

Lemma drop_map_pages : forall s r, WF s r -> forall a, oldb s a = true ->
  In (get_page a) (cur s :: pages s) -> heap s a <> None.
Proof. intros s r W a H1 H2. destruct (wf_old_live _ _ W a H2 H1) as (o & E & _); congruence. Qed.

Lemma mark_phase_ok : forall kind s r, WF s r ->
  exists m, mark_phase kind r s = Some m /\ marked_ok kind s r m.
Proof.
  intros kind s r W.
  pose proof (NoDup_cells _ _ W) as ND.
  pose proof (wf_live _ _ W) as UL.
  assert (CL : forall a o k, heap s a = Some o -> In k (o_kids o) -> heap s k <> None) by (eapply wf_kids; eauto).
  set (S := fun a => match kind with Major => sreach s r a | Minor => mreach s r a end).
  assert (HS : forall x k, S x -> In k (kids_of (heap s) x) -> S k).
  { unfold S; destruct kind; intros x k Hx Hk; [ eapply mreach_kid; eauto | eapply reach_kid; eauto ]. }
  set (old := oldb s) in *.
  set (m0 := Mst (match kind with Major => fun _ => false | Minor => oldb s end) [] []).
  set (seed := fun a => mk m0 a = true).
  assert (T0 : tri (heap s) seed m0) by (intros x Hx; left; auto).
  destruct (marks_good (heap s) old (is_major kind) (cells s) ND UL CL MARK_RECURSION_LIMIT S r m0)
    as (m1 & E1 & X1 & R1).
  { intros k Hk; split; [ eapply wf_roots; eauto | unfold S; destruct kind ];
      [ apply mreach_root; left; auto | apply reach_root; auto ]. }
  { auto. }
  assert (M0 : (length (queue m0) + unmarked (cells s) m0 <= length (cells s))%nat).
  { cbn [queue m0 length Nat.add]; unfold unmarked; apply filter_length_le. }
  destruct (drain_good (heap s) old (is_major kind) (cells s) ND UL CL S seed (length (cells s)) m1)
    as (m2 & E2 & X2 & Q2 & T2); auto.
  { intros x Hx. destruct (ex_qm _ _ _ _ _ _ _ X1 x Hx) as [[]|(N1 & N2)].
    apply (ex_new _ _ _ _ _ _ _ X1); auto. }
  { eapply ext_tri; eauto. }
  { pose proof (ex_meas _ _ _ _ _ _ _ X1); lia. }
  assert (X02 : ext0 (heap s) old (is_major kind) (cells s) S m0 m2).
  { eapply ext0_trans; [ apply ext_ext0; exact X1 | exact X2 ]. }
  assert (FIN : exists m, mark_phase kind r s = Some m /\
            ext0 (heap s) old (is_major kind) (cells s) S m0 m /\ queue m = [] /\ tri (heap s) seed m /\
            (forall a, In a r -> mk m a = true) /\
            (kind = Minor -> forall x k, In x (remem s) -> In k (kids_of (heap s) x) -> mk m k = true)).
  { unfold mark_phase. fold m0 old. rewrite E1, E2. destruct kind.
    - destruct (mark_rem_good (heap s) old (is_major Minor) (cells s) S ND UL CL HS (remem s) m2) as (m3 & E3 & X3 & K3).
      { intros x Hx. destruct (wf_rem _ _ W x Hx) as (o & _ & _ & O). apply mreach_root; right; auto. }
      destruct (drain_good (heap s) old (is_major Minor) (cells s) ND UL CL S seed (length (cells s)) m3)
        as (m4 & E4 & X4 & Q4 & T4); auto.
      { intros x Hx. destruct (ex_qm _ _ _ _ _ _ _ X3 x Hx) as [Q|(N1 & N2)].
        - rewrite Q2 in Q; destruct Q.
        - apply (ex_new _ _ _ _ _ _ _ X3); auto. }
      { eapply ext_tri; eauto. }
      { pose proof (ex_meas _ _ _ _ _ _ _ X3). pose proof (e0_meas _ _ _ _ _ _ _ X02). lia. }
      exists m4; split; [ rewrite E3; auto | ].
      split; [ eapply ext0_trans; [ exact X02 | eapply ext0_trans; [ apply ext_ext0; exact X3 | exact X4 ] ] | ].
      split; auto. split; auto. split.
      + intros a Ha. apply (e0_mono _ _ _ _ _ _ _ X4), (ex_mono _ _ _ _ _ _ _ X3), (e0_mono _ _ _ _ _ _ _ X2); auto.
      + intros _ x k Hx Hk. apply (e0_mono _ _ _ _ _ _ _ X4); eauto.
    - exists m2; split; auto. split; [ exact X02 | ]. split; auto. split; auto.
      split; [ | discriminate ].
      intros a Ha. apply (e0_mono _ _ _ _ _ _ _ X2); auto. }
  destruct FIN as (m & E & X & Q & T & R & K).
  exists m; split; auto.
  assert (SEEDW : forall a, mk m0 a = true -> kind = Minor /\ oldb s a = true).
  { intros a; cbn; destruct kind; [ auto | discriminate ]. }
  assert (INS : forall a, mk m a = true -> S a).
  { intros a Ha. destruct (mk m0 a) eqn:E0.
    - destruct (SEEDW a E0) as (-> & O). apply mreach_root; right; auto.
    - apply (e0_new _ _ _ _ _ _ _ X); auto. }
  assert (RM : forall a, sreach s r a -> mreach s r a).
  { intros a H; induction H; [ apply mreach_root; left; auto | eapply mreach_kid; eauto ]. }
  destruct (e0_age _ _ _ _ _ _ _ X) as (l & El & Nl & Pl). cbn [aging m0 app] in El.
  split.
  - intros -> a Ha. apply (e0_mono _ _ _ _ _ _ _ X); auto.
  - auto.
  - intros a Hc Ha k Hk. destruct (T a Ha) as [Sd|[Qx|Kx]]; auto.
    + destruct (SEEDW a Sd) as (-> & O).
      destruct (in_dec Z.eq_dec a (remem s)) as [Hr|Hr]; [ eapply K; eauto | ].
      unfold kids_of in Hk. destruct (heap s a) as [o|] eqn:Ho; [ | destruct Hk ].
      destruct (wf_old _ _ W a o Ho O Hr) as (_ & KO).
      apply (e0_mono _ _ _ _ _ _ _ X). cbn. auto.
    + rewrite Q in Qx; destruct Qx.
  - intros a Hp Ha. destruct (mk m0 a) eqn:E0.
    + destruct (SEEDW a E0) as (_ & O). eapply drop_map_pages; eauto.
    + apply (e0_new _ _ _ _ _ _ _ X); auto.
  - intros -> a Ha. apply INS; auto.
  - intros a Ha. specialize (INS a Ha). unfold S in INS; destruct kind; auto.
  - rewrite El; auto.
  - intros a Ha; rewrite El in Ha. destruct (Pl a Ha) as (P1 & P2 & P3). split; auto.
    unfold ages in P3. destruct (heap s a) as [o|] eqn:Ho; [ | discriminate ].
    apply andb_prop in P3 as (P3 & P4). split; [ | eauto ].
    destruct kind; cbn in *; auto. apply negb_true_iff in P4; auto.
Qed.

(** ** After the mark phase *)

Record classified (kind : gckind) (s : st) (m : mst) (h4 : Z -> option obj)
       (old2 : Z -> bool) (rem4 promoted : list Z) : Prop := {
  cl_obj : forall a, match heap s a with
             | Some o => exists o', h4 a = Some o' /\ o_prom o' = o_prom o /\ o_kids o' = o_kids o
             | None => h4 a = None
             end;
  cl_old2 : forall a, old2 a = oldb s a || inb a promoted;
  cl_prom_nd : NoDup promoted;
  cl_prom : forall a, In a promoted -> In a (aging m);
  cl_rem_nd : NoDup rem4;
  cl_rem : forall a, In a rem4 -> mk m a = true /\ old2 a = true /\
             exists o, h4 a = Some o /\ o_armed o = false;
  cl_armed : forall a o, h4 a = Some o -> o_armed o = true -> old2 a = true;
  cl_old : forall a o, h4 a = Some o -> old2 a = true -> mk m a = true -> ~ In a rem4 ->
           o_armed o = true /\ forall k, In k (o_kids o) -> old2 k = true
}.

Lemma young_false : forall h old a o, h a = Some o -> young_child h old a = false ->
  forall k, In k (o_kids o) -> old k = true.
Proof.
  intros h old a o Ha Y k Hk. unfold young_child, kids_of in Y; rewrite Ha in Y.
  destruct (old k) eqn:E; auto. rewrite <- Y. apply existsb_exists.
  exists k; rewrite E; auto.
Qed.

Lemma classify_ok : forall kind s r m, WF s r -> marked_ok kind s r m ->
  forall h4 old2 rem4 promoted, classify kind s m = (h4, old2, rem4, promoted) ->
  classified kind s m h4 old2 rem4 promoted.
Proof.
  intros kind s r m W M h4 old2 rem4 promoted E. unfold classify in E.
  destruct (match kind with Major => (remem s, heap s) | Minor => keep_or_arm (oldb s) (remem s) (heap s) end)
    as (rem1 & h1) eqn:E1.
  destruct (age_pass (aging m) h1 (oldb s) []) as ((h2 & o2) & pr) eqn:E2.
  destruct (promote_pass o2 pr h2 rem1) as (h3 & rem2) eqn:E3.
  destruct (match kind with Major => keep_or_arm o2 (filter (mk m) rem2) h3 | Minor => (filter (mk m) rem2, h3) end)
    as (r4 & h4') eqn:E4.
  assert (h4' = h4 /\ o2 = old2 /\ r4 = rem4 /\ pr = promoted) as (-> & -> & -> & ->) by (repeat split; congruence).
  clear E.
  destruct (age_pass_spec _ _ _ _ _ _ _ (mo_age_nd _ _ _ _ M) E2) as (P2 & H2 & O2). cbn [app] in P2.
  assert (ND2 : NoDup promoted) by (rewrite P2; apply NoDup_filter', (mo_age_nd _ _ _ _ M)).
  destruct (promote_pass_spec _ _ _ _ _ _ ND2 E3) as (R3 & H3).
  assert (PIN : forall a, In a promoted -> In a (aging m)).
  { intros a; rewrite P2, filter_In; tauto. }
  assert (PNO : forall a, In a promoted -> oldb s a = false).
  { intros a Ha; apply PIN in Ha; apply (mo_age _ _ _ _ M) in Ha; tauto. }
  assert (PMK : forall a, In a promoted -> mk m a = true).
  { intros a Ha; apply PIN in Ha; apply (mo_age _ _ _ _ M) in Ha; tauto. }
  assert (OLD2 : forall a, old2 a = oldb s a || inb a promoted).
  { intros a; rewrite O2. f_equal. apply eq_true_iff_eq. rewrite andb_true_iff, !inb_In.
    rewrite P2, filter_In; tauto. }
  assert (MONO : forall a, oldb s a = true -> old2 a = true) by (intros a Ha; rewrite OLD2, Ha; auto).
  (* shapes *)
  assert (H1 : (forall a, h1 a = match heap s a with
                 | Some o => Some (if (match kind with Minor => inb a (remem s) && negb (young_child (heap s) (oldb s) a)
                                                     | Major => false end) then set_armed o true else o)
                 | None => None end) /\
               rem1 = match kind with Minor => filter (young_child (heap s) (oldb s)) (remem s) | Major => remem s end).
  { destruct kind.
    - destruct (keep_or_arm_spec _ _ _ _ _ E1) as (A & B); split; auto.
    - assert (h1 = heap s /\ rem1 = remem s) as (-> & ->) by (split; congruence).
      split; auto. intros a; destruct (heap s a); auto. }
  destruct H1 as (H1 & R1).
  assert (K1 : forall a, kids_of h1 a = kids_of (heap s) a).
  { intros a; unfold kids_of; rewrite H1. destruct (heap s a); auto.
    match goal with |- o_kids (if ?b then _ else _) = _ => destruct b; auto end. }
  assert (K2 : forall a, kids_of h2 a = kids_of (heap s) a).
  { intros a; rewrite <- K1; unfold kids_of; rewrite H2. destruct (h1 a); auto. destruct (inb a (aging m)); auto. }
  assert (K3 : forall a, kids_of h3 a = kids_of (heap s) a).
  { intros a; rewrite <- K2; unfold kids_of; rewrite H3. destruct (h2 a); auto. destruct (inb a promoted); auto. }
  assert (H4 : (forall a, h4 a = match h3 a with
                 | Some o => Some (if (match kind with Major => inb a (filter (mk m) rem2) && negb (young_child h3 old2 a)
                                                     | Minor => false end) then set_armed o true else o)
                 | None => None end) /\
               rem4 = match kind with Major => filter (young_child h3 old2) (filter (mk m) rem2)
                                    | Minor => filter (mk m) rem2 end).
  { destruct kind.
    - assert (h4 = h3 /\ rem4 = filter (mk m) rem2) as (-> & ->) by (split; congruence).
      split; auto. intros a; destruct (h3 a); auto.
    - destruct (keep_or_arm_spec _ _ _ _ _ E4) as (A & B); split; auto. }
  destruct H4 as (H4 & R4).
  (* the header of a cell, all passes together *)
  assert (SH : forall a, match heap s a with
             | Some o => exists o1 o2 o3 o4, h1 a = Some o1 /\ h2 a = Some o2 /\ h3 a = Some o3 /\ h4 a = Some o4
                  /\ o_armed o1 = (match kind with Minor => inb a (remem s) && negb (young_child (heap s) (oldb s) a)
                                                 | Major => false end) || o_armed o
                  /\ o_armed o2 = o_armed o1
                  /\ o_armed o3 = (if inb a promoted then negb (young_child (heap s) old2 a) else o_armed o2)
                  /\ o_armed o4 = (match kind with Major => inb a (filter (mk m) rem2) && negb (young_child (heap s) old2 a)
                                                 | Minor => false end) || o_armed o3
                  /\ o_prom o4 = o_prom o /\ o_kids o4 = o_kids o
             | None => h4 a = None
             end).
  { intros a. pose proof (H1 a) as A1; pose proof (H2 a) as A2; pose proof (H3 a) as A3; pose proof (H4 a) as A4.
    rewrite (young_ext _ _ old2 a (K2 a)) in A3. rewrite (young_ext _ _ old2 a (K3 a)) in A4.
    destruct (heap s a) as [o|].
    - rewrite A1 in A2. rewrite A2 in A3. rewrite A3 in A4.
      do 4 eexists; split; [ exact A1 | split; [ exact A2 | split; [ exact A3 | split; [ exact A4 | ] ] ] ].
      repeat match goal with |- context [if ?b then _ else _] => destruct b end; cbn; repeat split; auto.
    - rewrite A1 in A2; rewrite A2 in A3; rewrite A3 in A4; auto. }
  assert (INR2 : forall a, In a rem2 <-> In a rem1 \/ (In a promoted /\ young_child (heap s) old2 a = true)).
  { intros a; rewrite R3, in_app_iff, filter_In. rewrite (young_ext _ _ old2 a (K2 a)); tauto. }
  assert (INR1 : forall a, In a rem1 <-> In a (remem s) /\
            (match kind with Minor => young_child (heap s) (oldb s) a = true | Major => True end)).
  { intros a; rewrite R1. destruct kind; [ rewrite filter_In; tauto | tauto ]. }
  assert (INR4 : forall a, In a rem4 <-> (In a rem2 /\ mk m a = true) /\
            (match kind with Major => young_child (heap s) old2 a = true | Minor => True end)).
  { intros a; rewrite R4. destruct kind; rewrite ?filter_In; [ tauto | rewrite (young_ext _ _ old2 a (K3 a)); tauto ]. }
  assert (REMP : forall a, In a (remem s) -> ~ In a promoted).
  { intros a Ha Hp. apply PNO in Hp. destruct (wf_rem _ _ W a Ha) as (o & _ & _ & ?); congruence. }
  split.
  - intros a. specialize (SH a). destruct (heap s a) as [o|]; auto.
    destruct SH as (o1 & o2 & o3 & o4 & A1 & A2 & A3 & A4 & _ & _ & _ & _ & P & K). eauto.
  - auto.
  - auto.
  - auto.
  - assert (NoDup rem2).
    { rewrite R3; apply NoDup_app.
      - rewrite R1; destruct kind; [ apply NoDup_filter' | ]; apply (wf_rem_nd _ _ W).
      - apply NoDup_filter'; auto.
      - intros x X1 X2. apply INR1 in X1 as (X1 & _). apply filter_In in X2 as (X2 & _). eapply REMP; eauto. }
    rewrite R4; destruct kind; repeat apply NoDup_filter'; auto.
  - intros a Ha. apply INR4 in Ha as ((H & Hm) & Y4). split; auto.
    apply INR2 in H as [H|(Hp & Y)].
    + apply INR1 in H as (Hr & Y1). destruct (wf_rem _ _ W a Hr) as (o & Ho & Ar & Od).
      split; auto. specialize (SH a); rewrite Ho in SH.
      destruct SH as (o1 & o2 & o3 & o4 & A1 & A2 & A3 & A4 & B1 & B2 & B3 & B4 & _ & _).
      exists o4; split; auto.
      assert (NP : inb a promoted = false) by (apply inb_not, REMP; auto).
      rewrite NP in B3. rewrite B4, B3, B2, B1, Ar.
      destruct kind; rewrite ?Y1, ?Y4; cbn; rewrite ?andb_false_r; auto.
    + split; [ rewrite OLD2; apply inb_In in Hp; rewrite Hp, orb_true_r; auto | ].
      destruct (mo_age _ _ _ _ M a (PIN a Hp)) as (_ & _ & o & Ho & _).
      specialize (SH a); rewrite Ho in SH.
      destruct SH as (o1 & o2 & o3 & o4 & A1 & A2 & A3 & A4 & B1 & B2 & B3 & B4 & _ & _).
      exists o4; split; auto. apply inb_In in Hp. rewrite Hp in B3.
      rewrite B4, B3, Y. destruct kind; cbn; rewrite ?andb_false_r; auto.
  - intros a o' Ho' Ar'. specialize (SH a). destruct (heap s a) as [o|] eqn:Ho; [ | congruence ].
    destruct SH as (o1 & o2 & o3 & o4 & A1 & A2 & A3 & A4 & B1 & B2 & B3 & B4 & _ & _).
    assert (o' = o4) by congruence; subst o'.
    rewrite OLD2. destruct (inb a promoted) eqn:I; [ apply orb_true_r | ].
    rewrite orb_false_r.
    assert (RR : In a (remem s) -> oldb s a = true).
    { intros Hr; destruct (wf_rem _ _ W a Hr) as (? & _ & _ & ?); auto. }
    rewrite B4 in Ar'; apply orb_prop in Ar' as [Ar'|Ar'].
    + destruct kind; [ discriminate | ]. apply andb_prop in Ar' as (Ar' & _).
      apply inb_In in Ar'. apply filter_In in Ar' as (Ar' & _). apply INR2 in Ar' as [Ar'|(Ar' & _)].
      * apply INR1 in Ar' as (Ar' & _); auto.
      * apply inb_In in Ar'; congruence.
    + rewrite B3, B2, B1 in Ar'. apply orb_prop in Ar' as [Ar'|Ar'].
      * destruct kind; [ | discriminate ]. apply andb_prop in Ar' as (Ar' & _). apply inb_In in Ar'; auto.
      * eapply wf_armed; eauto.
  - intros a o' Ho' Od Hm Nr. specialize (SH a). destruct (heap s a) as [o|] eqn:Ho; [ | congruence ].
    destruct SH as (o1 & o2 & o3 & o4 & A1 & A2 & A3 & A4 & B1 & B2 & B3 & B4 & _ & Kd).
    assert (o' = o4) by congruence; subst o'. rewrite Kd.
    rewrite INR4, INR2, INR1 in Nr.
    destruct (inb a promoted) eqn:I.
    + apply inb_In in I.
      assert (Y : young_child (heap s) old2 a = false).
      { destruct (young_child (heap s) old2 a) eqn:Y; auto. exfalso; apply Nr.
        split; [ split; auto | destruct kind; auto ]. }
      split; [ | exact (young_false _ _ _ _ Ho Y) ].
      rewrite B4, B3, Y; apply orb_true_r.
    + rewrite OLD2, I, orb_false_r in Od.
      destruct (in_dec Z.eq_dec a (remem s)) as [Hr|Hr].
      * assert (IR : inb a (remem s) = true) by (apply inb_In; auto).
        destruct kind.
        -- assert (Y : young_child (heap s) (oldb s) a = false).
           { destruct (young_child (heap s) (oldb s) a) eqn:Y; auto. exfalso; apply Nr.
             split; [ split; auto | auto ]. }
           split; [ rewrite B4, B3, B2, B1, IR, Y; auto | ].
           intros k Hk; apply MONO. exact (young_false _ _ _ _ Ho Y k Hk).
        -- assert (Y : young_child (heap s) old2 a = false).
           { destruct (young_child (heap s) old2 a) eqn:Y; auto. exfalso; apply Nr.
             split; [ split; auto | auto ]. }
           split; [ | exact (young_false _ _ _ _ Ho Y) ].
           rewrite B4, Y.
           assert (inb a (filter (mk m) rem2) = true) as ->; [ | auto ].
           apply inb_In, filter_In; split; auto. apply INR2; left; apply INR1; auto.
      * destruct (wf_old _ _ W a o Ho Od Hr) as (Ar & KO).
        split; [ | intros; apply MONO; auto ].
        rewrite B4, B3, B2, B1, Ar, !orb_true_r; auto.
Qed.

(** ** Counting *)

Lemma popcount_app : forall f l1 l2, popcount f (l1 ++ l2) = popcount f l1 + popcount f l2.
Proof. intros; unfold popcount; rewrite filter_app, app_length; lia. Qed.

Lemma popcount_nonneg : forall f l, 0 <= popcount f l.
Proof. intros; unfold popcount; lia. Qed.

Lemma filter_perm : forall (f : Z -> bool) l1 l2, Permutation l1 l2 -> Permutation (filter f l1) (filter f l2).
Proof.
  intros f l1 l2 P; induction P; cbn; auto.
  - destruct (f x); auto.
  - destruct (f x), (f y); auto. apply perm_swap.
  - eapply perm_trans; eauto.
Qed.

Lemma popcount_perm : forall f l1 l2, Permutation l1 l2 -> popcount f l1 = popcount f l2.
Proof. intros; unfold popcount. rewrite (Permutation_length (filter_perm f _ _ H)); auto. Qed.

Lemma popcount_ext : forall f g l, (forall x, In x l -> f x = g x) -> popcount f l = popcount g l.
Proof. intros; unfold popcount; rewrite (filter_ext_in f g l H); auto. Qed.

Lemma popcount_or : forall f p l, NoDup l -> NoDup p -> (forall x, In x p -> In x l) ->
  (forall x, In x p -> f x = false) ->
  popcount (fun a => f a || inb a p) l = popcount f l + Z.of_nat (length p).
Proof.
  intros f p l Nl Np S F; unfold popcount.
  assert (P : Permutation (filter (fun a => f a || inb a p) l) (filter f l ++ p)).
  { apply NoDup_Permutation.
    - apply NoDup_filter'; auto.
    - apply NoDup_app; auto; [ apply NoDup_filter'; auto | ].
      intros x H1 H2; apply filter_In in H1 as (_ & H1). rewrite F in H1; auto; discriminate.
    - intros x; rewrite in_app_iff, !filter_In, orb_true_iff, inb_In.
      split; [ tauto | intros [?|?]; auto; tauto ]. }
  rewrite (Permutation_length P), app_length; lia.
Qed.

Lemma popcount_split : forall f g l,
  popcount f l = popcount f (filter (fun a => negb (g a)) l) + popcount (fun a => f a && g a) l.
Proof.
  intros f g l; unfold popcount. induction l as [|a l IH]; auto. cbn [filter].
  destruct (f a) eqn:F, (g a) eqn:G; cbn [filter negb andb]; rewrite ?F; cbn [length]; lia.
Qed.

Lemma perm_filter_split : forall (f : Z -> bool) l,
  Permutation l (filter (fun p => negb (f p)) l ++ rev (filter f l)).
Proof.
  intros f l. apply perm_trans with (filter (fun p => negb (f p)) l ++ filter f l).
  - induction l as [|a l IH]; auto. cbn [filter]. destruct (f a); cbn [negb app].
    + apply Permutation_cons_app; auto.
    + apply perm_skip; auto.
  - apply Permutation_app_head, Permutation_rev.
Qed.

Lemma flat_map_perm : forall l1 l2, Permutation l1 l2 ->
  Permutation (flat_map page_cells l1) (flat_map page_cells l2).
Proof. intros; apply Permutation_flat_map; auto. Qed.

(** ** A collection preserves the invariant *)

Record collected (kind : gckind) (s : st) (r : list Z) (m : mst) (s' : st) : Prop := {
  co_wf : WF s' r;
  co_heap : forall a, heap s' a <> None <-> mk m a = true /\ heap s a <> None;
  co_pres : forall a, mk m a = true -> heap s a <> None -> preserved s s' a;
  co_cells : forall a, In a (cells s') -> In a (cells s);
  co_hpage : hpage s' = hpage s
}.

Lemma finish_ok : forall kind s r m, WF s r -> marked_ok kind s r m ->
  collected kind s r m (finish kind s m).
Proof.
  intros kind s r m W M.
  destruct (classify kind s m) as (((h4 & old2) & rem4) & promoted) eqn:EC.
  pose proof (classify_ok kind s r m W M _ _ _ _ EC) as C.
  destruct (salvage (mk m) (pages s)) as (kept & gone) eqn:ES.
  destruct (salvage_spec _ _ _ _ ES) as (Ek & Eg).
  pose proof (wf_pg _ _ W) as NP. inversion NP as [|? ? NP1 NP2]; subst x l.
  pose proof (NoDup_cells _ _ W) as NC.
  pose proof (wf_used _ _ W) as Us.
  set (s' := finish kind s m).
  assert (F1 : pages s' = kept /\ cur s' = cur s /\ used s' = used s /\ fpages s' = fpages s ++ gone /\
               hpage s' = hpage s /\ remem s' = rem4 /\
               free s' = dead_cells (mk m) (cells s') /\ free_cnt s' = Z.of_nat (length (free s')) /\
               old_count s' = Z.max 0 (Z.max 0 (old_count s + Z.of_nat (length promoted)
                                 - popcount old2 (flat_map page_cells gone)) - popcount old2 (free s')) /\
               (forall a, heap s' a = if on_pages gone a then None
                     else if on_pages (kept ++ [cur s]) a then (if mk m a then h4 a else None) else h4 a) /\
               (forall a, oldb s' a = if on_pages gone a then false
                       else if on_pages (kept ++ [cur s]) a then old2 a && mk m a else old2 a)).
  { unfold s', finish. rewrite EC, ES. cbn [pages cur used fpages hpage remem free free_cnt old_count heap oldb cells].
    unfold cells; cbn [pages cur used]. repeat split; auto. }
  destruct F1 as (Fp & Fc & Fu & Ff & Fh & Fr & Ffr & Fcn & Foc & HH & HO).
  assert (INK : forall p, In p kept <-> In p (pages s) /\ all_dead (mk m) p = false).
  { intros p; rewrite Ek, filter_In, negb_true_iff; tauto. }
  assert (ING : forall p, In p gone <-> In p (pages s) /\ all_dead (mk m) p = true).
  { intros p; rewrite Eg, <- in_rev, filter_In; tauto. }
  assert (PER : Permutation (pages s) (kept ++ gone)) by (rewrite Ek, Eg; apply perm_filter_split).
  assert (GD : forall a, In (get_page a) gone -> mk m a = false).
  { intros a Ha; apply ING in Ha as (_ & Ha). eapply (proj1 (all_dead_spec _ _)); eauto. }
  assert (SRV : forall a, In (get_page a) (cur s :: pages s) <-> In (get_page a) gone \/ In (get_page a) (kept ++ [cur s])).
  { intros a. rewrite in_app_iff. cbn [In]. rewrite INK, ING.
    destruct (all_dead (mk m) (get_page a)); intuition congruence. }
  assert (OUT : forall a, ~ In (get_page a) (cur s :: pages s) -> heap s a = None).
  { intros a Ha. destruct (heap s a) eqn:E; auto. exfalso; apply Ha.
    apply cells_page; auto. eapply wf_live; eauto; congruence. }
  assert (H4N : forall a, heap s a = None -> h4 a = None).
  { intros a Ha. pose proof (cl_obj _ _ _ _ _ _ _ C a) as Q. rewrite Ha in Q; auto. }
  assert (HH' : forall a, heap s' a = if mk m a then h4 a else None).
  { intros a; rewrite HH. destruct (on_pages gone a) eqn:G.
    - apply on_pages_spec in G. rewrite GD; auto.
    - destruct (on_pages (kept ++ [cur s]) a) eqn:K; auto.
      assert (heap s a = None).
      { apply OUT; rewrite SRV, <- !on_pages_spec, G, K. intuition discriminate. }
      rewrite H4N by auto. destruct (mk m a); auto. }
  assert (HO' : forall a, In (get_page a) (cur s :: pages s) -> oldb s' a = old2 a && mk m a).
  { intros a Ha; rewrite HO. apply SRV in Ha. rewrite <- !on_pages_spec in Ha.
    destruct (on_pages gone a) eqn:G.
    - apply on_pages_spec in G; rewrite GD by auto. rewrite andb_false_r; auto.
    - destruct Ha as [?|Ha]; [ discriminate | rewrite Ha; auto ]. }
  assert (INC : forall a, In a (cells s') <-> In a (cells s) /\ ~ In (get_page a) gone).
  { intros a. rewrite !in_cells by (rewrite ?Fu; auto). rewrite Fp, Fc, Fu, INK, ING.
    split.
    - intros [(? & ?)|(E & ?)].
      + split; [ auto | intros (_ & ?); congruence ].
      + split; auto. intros (Hp & _). apply NP1. rewrite <- E. apply in_or_app; auto.
    - intros ([H|H] & N); [ left; split; auto | right; auto ].
      destruct (all_dead (mk m) (get_page a)); auto. exfalso; apply N; auto. }
  assert (H4S : forall a o', h4 a = Some o' -> exists o, heap s a = Some o /\ o_prom o' = o_prom o /\ o_kids o' = o_kids o).
  { intros a o' Ha. pose proof (cl_obj _ _ _ _ _ _ _ C a) as Q. destruct (heap s a) as [o|]; [ | congruence ].
    destruct Q as (o2 & E2 & ? & ?). assert (o' = o2) by congruence; subst; eauto. }
  assert (HL : forall a, heap s' a <> None <-> mk m a = true /\ heap s a <> None).
  { intros a; rewrite HH'. pose proof (cl_obj _ _ _ _ _ _ _ C a) as Q.
    destruct (mk m a), (heap s a) as [o|].
    - destruct Q as (o' & -> & _). intuition congruence.
    - rewrite Q; intuition congruence.
    - intuition congruence.
    - intuition congruence. }
  assert (MKL : forall a, heap s' a <> None -> In a (cells s')).
  { intros a Ha. apply HL in Ha as (Hm & Ha). apply INC; split; [ eapply wf_live; eauto | ].
    intros G; apply GD in G; congruence. }
  assert (NS' : NoDup (cells s')).
  { unfold cells. rewrite Fp, Fu, Fc. unfold cells in NC.
    apply NoDup_app; [ | apply NoDup_cells_upto | ].
    - apply NoDup_pages_cells. rewrite Ek. apply NoDup_filter'.
      clear - NP2. induction (pages s); [ constructor | ]. cbn in NP2; inversion NP2; subst.
      constructor; auto. rewrite in_app_iff in *; tauto.
    - intros x H1 H2. apply in_pages_cells in H1. apply in_cells_upto in H2 as (H2 & _); auto.
      apply NP1; rewrite in_app_iff. left. rewrite <- H2. apply INK; auto. }
  assert (OLD2L : forall a, In (get_page a) (cur s :: pages s) -> old2 a = true ->
            exists o, heap s a = Some o /\ o_prom o = true).
  { intros a Hp Ho. rewrite (cl_old2 _ _ _ _ _ _ _ C) in Ho. apply orb_prop in Ho as [Ho|Ho].
    - eapply wf_old_live; eauto.
    - apply inb_In in Ho. apply (cl_prom _ _ _ _ _ _ _ C) in Ho. apply (mo_age _ _ _ _ M) in Ho.
      destruct Ho as (_ & _ & ?); auto. }
  assert (LP : forall a, heap s a <> None -> In (get_page a) (cur s :: pages s)).
  { intros a Ha; apply cells_page; auto; eapply wf_live; eauto. }
  split.
  - split.
    + rewrite Fc, Fp, Ff.
      assert (P2 : Permutation (cur s :: pages s ++ fpages s) (cur s :: kept ++ fpages s ++ gone)).
      { apply perm_skip. apply perm_trans with ((kept ++ gone) ++ fpages s).
        - apply Permutation_app_tail; auto.
        - rewrite <- app_assoc. apply Permutation_app_head, Permutation_app_comm. }
      eapply Permutation_NoDup; eauto.
    + rewrite Fc, Fp, Ff, Fh. intros p Hp. apply (wf_rng _ _ W). cbn [In] in *; rewrite !in_app_iff in *.
      rewrite INK, ING in Hp; intuition.
    + rewrite Fu; auto.
    + rewrite Ffr; apply NoDup_filter'; auto.
    + intros a; rewrite Ffr. unfold dead_cells; rewrite filter_In.
      assert (forall x, x = None <-> ~ (x <> (None : option obj))).
      { intros x; destruct x; split; try congruence. intros H; exfalso; apply H; congruence. }
      rewrite (H (heap s' a)), HL. split.
      * intros (Hc & Hm); split; auto. destruct (mk m a); [ discriminate | intros (? & _); congruence ].
      * intros (Hc & Hn); split; auto. destruct (mk m a) eqn:E; auto. exfalso; apply Hn; split; auto.
        eapply mo_live; eauto. apply cells_page; auto. apply INC; auto.
    + auto.
    + intros a o' k Ha Hk. assert (mk m a = true /\ h4 a = Some o') as (Hm & Ha').
      { rewrite HH' in Ha. destruct (mk m a); [ auto | congruence ]. }
      destruct (H4S _ _ Ha') as (o & Ho & _ & Ek'). rewrite Ek' in Hk.
      apply HL; split.
      * eapply (mo_closed _ _ _ _ M a); eauto; [ eapply wf_live; eauto; congruence | ].
        unfold kids_of; rewrite Ho; auto.
      * eapply wf_kids; eauto.
    + rewrite Fc, Fp. intros a Hp Ho.
      assert (Hp' : In (get_page a) (cur s :: pages s)).
      { destruct Hp as [?|Hp]; [ left; auto | right; apply INK in Hp; tauto ]. }
      rewrite HO' in Ho by auto. apply andb_prop in Ho as (Ho & Hm).
      destruct (OLD2L a Hp' Ho) as (o & E & P).
      pose proof (cl_obj _ _ _ _ _ _ _ C a) as Q. rewrite E in Q. destruct Q as (o' & E' & P' & _).
      exists o'; split; [ rewrite HH', Hm; auto | congruence ].
    + rewrite Fr; apply (cl_rem_nd _ _ _ _ _ _ _ C).
    + rewrite Fr. intros a Ha. destruct (cl_rem _ _ _ _ _ _ _ C a Ha) as (Hm & Ho & o & E & A).
      exists o. rewrite HH', Hm. split; auto. split; auto.
      rewrite HO', Ho, Hm; auto. apply LP. destruct (H4S _ _ E) as (o0 & -> & _); congruence.
    + intros a o' Ha Ar. rewrite HH' in Ha. destruct (mk m a) eqn:Hm; [ | congruence ].
      rewrite HO', Hm, andb_true_r; [ eapply (cl_armed _ _ _ _ _ _ _ C); eauto | ].
      apply LP. destruct (H4S _ _ Ha) as (o0 & -> & _); congruence.
    + rewrite Fr. intros a o' Ha Ho Nr. rewrite HH' in Ha. destruct (mk m a) eqn:Hm; [ | congruence ].
      destruct (H4S _ _ Ha) as (o0 & E0 & _ & K0).
      rewrite HO' in Ho by (apply LP; congruence). rewrite Hm, andb_true_r in Ho.
      destruct (cl_old _ _ _ _ _ _ _ C a o' Ha Ho Hm Nr) as (Ar & KO). split; auto.
      intros k Hk. assert (Hk0 : In k (kids_of (heap s) a)) by (unfold kids_of; rewrite E0, <- K0; auto).
      assert (mk m k = true).
      { eapply (mo_closed _ _ _ _ M a); eauto. eapply wf_live; eauto; congruence. }
      rewrite HO', KO, H; auto. apply LP. eapply live_kids_of; eauto.
    + intros a Ha. apply HL; split; [ apply (mo_root _ _ _ _ M); auto | eapply wf_roots; eauto ].
    + auto.
    + (* old_count *)
      rewrite Foc.
      assert (Q1 : popcount old2 (cells s) = old_count s + Z.of_nat (length promoted)).
      { rewrite (wf_ocnt _ _ W).
        rewrite (popcount_ext old2 (fun a => oldb s a || inb a promoted)) by (intros; apply (cl_old2 _ _ _ _ _ _ _ C)).
        apply popcount_or; auto.
        - apply (cl_prom_nd _ _ _ _ _ _ _ C).
        - intros x Hx. apply (cl_prom _ _ _ _ _ _ _ C), (mo_age _ _ _ _ M) in Hx as (_ & _ & o & E & _).
          eapply wf_live; eauto; congruence.
        - intros x Hx. apply (cl_prom _ _ _ _ _ _ _ C), (mo_age _ _ _ _ M) in Hx; tauto. }
      assert (Q2 : popcount old2 (cells s) = popcount old2 (flat_map page_cells gone) + popcount old2 (cells s')).
      { unfold cells. rewrite Fp, Fu, Fc, !popcount_app.
        rewrite (popcount_perm old2 _ _ (flat_map_perm _ _ PER)), flat_map_app, popcount_app. lia. }
      assert (Q3 : popcount old2 (cells s') = popcount old2 (free s') + popcount (oldb s') (cells s')).
      { rewrite (popcount_split old2 (mk m) (cells s')). rewrite Ffr. unfold dead_cells. f_equal.
        apply popcount_ext. intros x Hx. symmetry; apply HO'. apply cells_page; auto. apply INC; auto. }
      pose proof (popcount_nonneg old2 (free s')). pose proof (popcount_nonneg (oldb s') (cells s')).
      pose proof (popcount_nonneg old2 (flat_map page_cells gone)). lia.
  - auto.
  - intros a Hm Ha. pose proof (cl_obj _ _ _ _ _ _ _ C a) as Q.
    destruct (heap s a) as [o|] eqn:E; [ | congruence ]. destruct Q as (o' & E' & P' & K').
    exists o, o'; repeat split; auto. rewrite HH', Hm; auto.
  - intros a Ha; apply INC; auto.
  - auto.
Qed.

Lemma gc_ok : forall kind s r, WF s r -> exists m s', gc kind r s = Some s' /\
  marked_ok kind s r m /\ collected kind s r m s'.
Proof.
  intros kind s r W. destruct (mark_phase_ok kind s r W) as (m & E & M).
  exists m, (finish kind s m). split; [ unfold gc; rewrite E; auto | split; auto ].
  apply finish_ok; auto.
Qed.

Lemma reach_marked : forall kind s r m, WF s r -> marked_ok kind s r m ->
  forall a, sreach s r a -> mk m a = true.
Proof.
  intros kind s r m W M a H. induction H as [a H|a b H IH Hb]; [ eapply mo_root; eauto | ].
  eapply mo_closed; eauto. eapply wf_live; eauto. eapply reach_live; eauto.
Qed.

(** ** The mutator preserves the invariant *)

Lemma upd_obj_WF : forall s r p o o' rem' h', WF s r -> heap s p = Some o ->
  o_prom o' = o_prom o -> (forall k, In k (o_kids o') -> heap s k <> None) ->
  (rem' = remem s /\ o_armed o' = o_armed o /\
     (oldb s p = true -> ~ In p (remem s) -> forall k, In k (o_kids o') -> oldb s k = true)
   \/ rem' = remem s ++ [p] /\ o_armed o = true /\ o_armed o' = false) ->
  (forall a, h' a = upd (heap s) p (Some o') a) ->
  WF (with_heap s h' rem') r.
Proof.
  intros s r p o o' rem' h' W Hp Pr Kl CASE Hh.
  assert (HL : forall a, h' a = None <-> heap s a = None).
  { intros a; rewrite Hh. destruct (Z.eq_dec a p) as [->|Hne].
    - rewrite upd_same, Hp; split; congruence.
    - rewrite upd_other by auto; tauto. }
  assert (HL' : forall a, h' a <> None <-> heap s a <> None) by (intros a; rewrite HL; tauto).
  assert (NR : o_armed o = true -> ~ In p (remem s)).
  { intros A Hin. destruct (wf_rem _ _ W p Hin) as (o1 & E1 & A1 & _); congruence. }
  assert (RIN : forall a, a <> p -> In a rem' <-> In a (remem s)).
  { intros a Hne. destruct CASE as [(-> & _)|(-> & _)]; [ tauto | ].
    rewrite in_app_iff; cbn; intuition congruence. }
  split; cbn [with_heap cur pages fpages hpage used free heap oldb remem free_cnt old_count].
  - apply (wf_pg _ _ W).
  - apply (wf_rng _ _ W).
  - apply (wf_used _ _ W).
  - apply (wf_free_nd _ _ W).
  - intros a. change (cells (with_heap s h' rem')) with (cells s). rewrite HL. apply (wf_free _ _ W).
  - intros a Ha. apply HL' in Ha. apply (wf_live _ _ W); auto.
  - intros a o1 k Ha Hk. apply HL'. rewrite Hh in Ha. destruct (Z.eq_dec a p) as [->|Hne].
    + rewrite upd_same in Ha. assert (o1 = o') by congruence; subst; auto.
    + rewrite upd_other in Ha by auto. eapply wf_kids; eauto.
  - intros a Ha Ho. destruct (wf_old_live _ _ W a Ha Ho) as (o1 & E1 & P1).
    rewrite Hh. destruct (Z.eq_dec a p) as [->|Hne].
    + rewrite upd_same. exists o'; split; auto. congruence.
    + rewrite upd_other by auto. eauto.
  - destruct CASE as [(-> & _)|(-> & A & _)]; [ apply W | ].
    apply NoDup_app; [ apply W | repeat constructor; auto | ].
    intros x Hx [<-|[]]. apply NR; auto.
  - intros a Ha. rewrite Hh. destruct (Z.eq_dec a p) as [->|Hne].
    + rewrite upd_same. exists o'; split; auto.
      destruct CASE as [(-> & A & _)|(-> & A & A')].
      * destruct (wf_rem _ _ W p Ha) as (o1 & E1 & A1 & O1). split; auto. congruence.
      * split; auto. eapply wf_armed; eauto.
    + rewrite upd_other by auto. apply (wf_rem _ _ W). apply RIN; auto.
  - intros a o1 Ha A. rewrite Hh in Ha. destruct (Z.eq_dec a p) as [->|Hne].
    + rewrite upd_same in Ha. assert (o1 = o') by congruence; subst.
      destruct CASE as [(_ & A' & _)|(_ & _ & A')]; [ | congruence ].
      apply (wf_armed _ _ W p o); congruence.
    + rewrite upd_other in Ha by auto. eapply wf_armed; eauto.
  - intros a o1 Ha O N. rewrite Hh in Ha. destruct (Z.eq_dec a p) as [->|Hne].
    + rewrite upd_same in Ha. assert (o1 = o') by congruence; subst.
      destruct CASE as [(-> & A' & K)|(-> & _ & A')].
      * destruct (wf_old _ _ W p o Hp O N) as (A & _). split; [ congruence | auto ].
      * exfalso; apply N; apply in_or_app; right; left; auto.
    + rewrite upd_other in Ha by auto. rewrite RIN in N by auto. eapply wf_old; eauto.
  - intros a Ha. apply HL'. eapply wf_roots; eauto.
  - apply (wf_fcnt _ _ W).
  - change (cells (with_heap s h' rem')) with (cells s). apply (wf_ocnt _ _ W).
Qed.

Lemma roots_WF : forall s r r', WF s r -> (forall a, In a r' -> heap s a <> None) -> WF s r'.
Proof. intros s r r' W H. destruct W; split; auto. Qed.

Lemma store_WF : forall s r p k, WF s r -> heap s p <> None -> (forall x, In x k -> heap s x <> None) ->
  WF (barrier (put_kids s p k) p) r.
Proof.
  intros s r p k W Hp Hk. destruct (heap s p) as [o|] eqn:Ho; [ | congruence ]. clear Hp.
  unfold put_kids; rewrite Ho. unfold barrier; cbn [heap with_heap]. rewrite upd_same. cbn [o_armed set_kids].
  destruct (o_armed o) eqn:A.
  - apply (upd_obj_WF s r p o (Obj (o_prom o) k (o_age o) false) (remem s ++ [p])
             (upd (upd (heap s) p (Some (set_kids o k))) p (Some (set_armed (set_kids o k) false)))); auto.
    intros a. destruct (Z.eq_dec a p) as [->|Hne]; [ rewrite !upd_same; auto | rewrite !upd_other by auto; auto ].
  - eapply upd_obj_WF with (o := o) (o' := set_kids o k); eauto.
    left; split; auto. split; auto. intros O N.
    destruct (wf_old _ _ W p o Ho O N); congruence.
Qed.

Lemma drop_WF : forall s r p k, WF s r -> (forall x, In x k -> In x (kids_of (heap s) p)) ->
  WF (put_kids s p k) r.
Proof.
  intros s r p k W Hk. unfold put_kids. destruct (heap s p) as [o|] eqn:Ho; [ | auto ].
  assert (Hk' : forall x, In x k -> In x (o_kids o)).
  { intros x Hx; specialize (Hk x Hx). unfold kids_of in Hk; rewrite Ho in Hk; auto. }
  eapply upd_obj_WF with (o := o) (o' := set_kids o k); eauto.
  - cbn; intros x Hx; eapply wf_kids; eauto.
  - left; split; auto. split; auto. cbn. intros O N x Hx.
    destruct (wf_old _ _ W p o Ho O N) as (_ & K); auto.
Qed.

Lemma plain_WF : forall s r p k o, WF s r -> heap s p = Some o -> o_prom o = false ->
  (forall x, In x k -> heap s x <> None) -> WF (put_kids s p k) r.
Proof.
  intros s r p k o W Ho P Hk. unfold put_kids. rewrite Ho.
  eapply upd_obj_WF with (o := o) (o' := set_kids o k); eauto.
  left; split; auto. split; auto. intros O N.
  destruct (wf_old_live _ _ W p) as (o1 & E1 & P1); auto.
  - apply cells_page; [ apply W | eapply wf_live; eauto; congruence ].
  - congruence.
Qed.

(** ** Allocation *)

Record fresh (s : st) (o : obj) (a : Z) (s' : st) : Prop := {
  fr_dead : heap s a = None;
  fr_heap : forall b, heap s' b = upd (heap s) a (Some o) b;
  fr_cells : forall b, In b (cells s') <-> In b (cells s) \/ b = a
}.

Lemma alloc_fresh_WF : forall s r prom k, WF s r -> (forall x, In x k -> heap s x <> None) ->
  fresh s (newborn prom k) (fst (alloc s (newborn prom k))) (snd (alloc s (newborn prom k))) /\
  WF (snd (alloc s (newborn prom k))) (fst (alloc s (newborn prom k)) :: r).
Proof.
  intros s r prom k W Hk. set (o := newborn prom k).
  pose proof (wf_used _ _ W) as Us.
  pose proof (wf_pg _ _ W) as NP. inversion NP as [|? ? NP1 NP2]; subst x l.
  pose proof (NoDup_cells _ _ W) as NC.
  (* facts that hold for any dead cell [a] handed out by a step to [s'] that
     clears the old bit of [a] and leaves the other cells in service alone *)
  assert (GEN : forall a s',
    heap s a = None -> (forall b, heap s' b = upd (heap s) a (Some o) b) ->
    oldb s' a = false -> (forall b, In b (cells s) -> oldb s' b = oldb s b) ->
    (forall b, In b (cells s') <-> In b (cells s) \/ b = a) ->
    NoDup (cur s' :: pages s' ++ fpages s') ->
    (forall p, In p (cur s' :: pages s' ++ fpages s') -> 0 <= p <= hpage s') ->
    0 <= used s' <= DATA_LEN -> NoDup (free s') ->
    (forall b, In b (free s') <-> In b (free s) /\ b <> a) ->
    (forall b, In (get_page b) (cur s' :: pages s') -> oldb s' b = true ->
       exists o, heap s b = Some o /\ o_prom o = true) ->
    remem s' = remem s -> free_cnt s' = Z.of_nat (length (free s')) ->
    old_count s' = popcount (oldb s') (cells s') ->
    (In a (cells s) -> In a (free s)) ->
    fresh s o a s' /\ WF s' (a :: r)).
  { intros a s' Hd Hh Oa Ob Cl Npg Rng Us' Nfr Fr Ol Rm Fc Oc Af.
    assert (HL : forall b, b <> a -> heap s' b = heap s b) by (intros; rewrite Hh; apply upd_other; auto).
    assert (HA : heap s' a = Some o) by (rewrite Hh; apply upd_same).
    assert (LIV : forall b, heap s b <> None -> heap s' b <> None).
    { intros b Hb. rewrite HL; auto. intros ->; auto. }
    split; [ split; auto | ].
    split; auto.
    - intros b; rewrite Fr, Cl, (wf_free _ _ W). destruct (Z.eq_dec b a) as [->|Hne].
      + rewrite HA. intuition congruence.
      + rewrite HL by auto. intuition congruence.
    - intros b Hb; apply Cl. destruct (Z.eq_dec b a); auto. rewrite HL in Hb by auto.
      left; eapply wf_live; eauto.
    - intros b o1 x Hb Hx. apply LIV. destruct (Z.eq_dec b a) as [->|Hne].
      + assert (o1 = o) by congruence; subst; auto.
      + rewrite HL in Hb by auto. eapply wf_kids; eauto.
    - intros b Hb Ho. destruct (Ol b Hb Ho) as (o1 & E1 & P1). exists o1; split; auto.
      rewrite HL; auto. intros ->; congruence.
    - rewrite Rm; apply W.
    - rewrite Rm; intros b Hb. destruct (wf_rem _ _ W b Hb) as (o1 & E1 & A1 & O1).
      exists o1; rewrite HL by (intros ->; congruence). repeat split; auto.
      rewrite Ob; auto. eapply wf_live; eauto; congruence.
    - intros b o1 Hb A. destruct (Z.eq_dec b a) as [->|Hne].
      + assert (o1 = o) by congruence; subst; discriminate.
      + rewrite HL in Hb by auto. rewrite Ob; [ eapply wf_armed; eauto | eapply wf_live; eauto; congruence ].
    - rewrite Rm; intros b o1 Hb O N. destruct (Z.eq_dec b a) as [->|Hne]; [ congruence | ].
      rewrite HL in Hb by auto. assert (In b (cells s)) by (eapply wf_live; eauto; congruence).
      rewrite Ob in O by auto. destruct (wf_old _ _ W b o1 Hb O N) as (A & K). split; auto.
      intros x Hx. rewrite Ob; auto. eapply wf_live; eauto. eapply wf_kids; eauto.
    - intros b [<-|Hb]; [ congruence | apply LIV; eapply wf_roots; eauto ]. }
  unfold alloc. destruct (free s) as [|f fl] eqn:Ef.
  - destruct (Z.eqb_spec (used s) DATA_LEN) as [Eu|Nu].
    + (* a page enters service *)
      set (pf := match fpages s with p :: rest => (p, rest, hpage s) | [] => (hpage s + 1, [], hpage s + 1) end).
      assert (PF : exists p fp hp, pf = (p, fp, hp) /\ ~ In p (cur s :: pages s) /\
                 NoDup (p :: (pages s ++ [cur s]) ++ fp) /\
                 (forall q, In q (p :: (pages s ++ [cur s]) ++ fp) -> 0 <= q <= hp)).
      { unfold pf. destruct (fpages s) as [|p rest] eqn:Efp.
        - exists (hpage s + 1), [], (hpage s + 1). split; auto.
          assert (NN : ~ In (hpage s + 1) (cur s :: pages s)).
          { intros H. pose proof (wf_rng _ _ W (hpage s + 1)) as R. rewrite Efp, app_nil_r in R.
            specialize (R H); lia. }
          split; auto. rewrite app_nil_r. rewrite app_nil_r in NP1, NP2. split.
          + constructor.
            * rewrite in_app_iff; cbn. cbn in NN; tauto.
            * apply NoDup_app; auto; [ repeat constructor; auto | ].
              intros x Hx [<-|[]]; auto.
          + intros q [<-|Hq].
            * pose proof (wf_rng _ _ W (cur s) (or_introl eq_refl)); lia.
            * pose proof (wf_rng _ _ W q) as R. rewrite Efp, app_nil_r in R. apply in_app_iff in Hq.
              cbn in Hq. assert (0 <= q <= hpage s) by (apply R; cbn; tauto). lia.
        - exists p, rest, (hpage s). split; auto.
          assert (P : Permutation (cur s :: pages s ++ p :: rest) (p :: (pages s ++ [cur s]) ++ rest)).
          { apply perm_trans with (p :: cur s :: pages s ++ rest).
            - change (cur s :: pages s ++ p :: rest) with ((cur s :: pages s) ++ p :: rest).
              symmetry. apply (Permutation_middle (cur s :: pages s)).
            - apply perm_skip. rewrite <- app_assoc. cbn. apply Permutation_middle. }
          assert (N2 : NoDup (p :: (pages s ++ [cur s]) ++ rest)) by (eapply Permutation_NoDup; eauto).
          split; [ | split; auto ].
          + inversion N2; subst. rewrite !in_app_iff in *. cbn in *; tauto.
          + intros q Hq. apply (wf_rng _ _ W). rewrite Efp. eapply Permutation_in; [ symmetry; exact P | auto ]. }
      destruct PF as (p & fp & hp & Epf & Npp & Npg & Rng). rewrite Epf. cbn [fst snd].
      set (s' := St _ _ _ _ _ _ _ _ _ _ _ _ _ _ _ _ _).
      assert (PC : get_page (cell p 0) = p) by (apply get_page_cell; pose proof DL_pos; lia).
      assert (CE : cells s' = cells s ++ [cell p 0]).
      { unfold cells; cbn [pages cur used s']. rewrite flat_map_app, Eu. cbn [flat_map].
        rewrite app_nil_r. reflexivity. }
      assert (NPC : forall b, In b (cells s) -> get_page b <> p).
      { intros b Hb E. apply Npp. rewrite <- E. apply cells_page; auto. }
      assert (OB : forall b, In b (cells s) -> oldb s' b = oldb s b).
      { intros b Hb. cbn [oldb s']. unfold clear_old_page.
        destruct (on_page p b) eqn:E; auto. apply on_page_spec in E. exfalso; eapply NPC; eauto. }
      apply GEN; auto.
      * destruct (heap s (cell p 0)) eqn:E; auto. exfalso. apply (NPC (cell p 0)); auto.
        eapply wf_live; eauto; congruence.
      * cbn [oldb s']. unfold clear_old_page. rewrite (proj2 (on_page_spec p (cell p 0)) PC); auto.
      * intros b; rewrite CE, in_app_iff; cbn [In]. intuition.
      * cbn [used s']; pose proof DL_pos; lia.
      * constructor.
      * cbn [free s' In]; tauto.
      * intros b Hb Ho. cbn [cur pages s' oldb] in *. unfold clear_old_page in Ho.
        destruct (on_page p b) eqn:E; [ discriminate | ]. destruct Hb as [Hb|Hb].
        -- symmetry in Hb. apply on_page_spec in Hb. congruence.
        -- eapply wf_old_live; eauto. apply in_app_iff in Hb as [Hb|[Hb|[]]]; [ right | left ]; auto.
      * cbn [free_cnt free s']. rewrite (wf_fcnt _ _ W), Ef; auto.
      * rewrite CE, popcount_app. rewrite (popcount_ext _ _ _ OB).
        cbn [old_count s']. rewrite (wf_ocnt _ _ W).
        assert (popcount (oldb s') [cell p 0] = 0) as ->; [ | lia ].
        unfold popcount; cbn [filter oldb s']. unfold clear_old_page.
        rewrite (proj2 (on_page_spec p (cell p 0)) PC); auto.
      * intros H. exfalso; apply (NPC _ H); auto.
    + (* bump *)
      cbn [fst snd]. set (s' := St _ _ _ _ _ _ _ _ _ _ _ _ _ _ _ _ _). set (a := cell (cur s) (used s)).
      assert (PC : get_page a = cur s) by (apply get_page_cell; lia).
      assert (IC : get_index a = used s) by (apply get_index_cell; lia).
      assert (NA : ~ In a (cells s)).
      { rewrite in_cells by auto. rewrite PC, IC. intros [H|(_ & H)]; [ | lia ].
        apply NP1; apply in_or_app; auto. }
      assert (DA : heap s a = None).
      { destruct (heap s a) eqn:E; auto. exfalso; apply NA; eapply wf_live; eauto; congruence. }
      assert (OA : oldb s a = false).
      { destruct (oldb s a) eqn:E; auto. destruct (wf_old_live _ _ W a) as (o1 & E1 & _); auto.
        - left; auto.
        - congruence. }
      assert (CE : cells s' = cells s ++ [a]).
      { unfold cells; cbn [pages cur used s']. rewrite cells_upto_snoc by lia. apply app_assoc. }
      apply GEN; auto.
      * intros b; rewrite CE, in_app_iff; cbn [In]. intuition.
      * apply (wf_rng _ _ W).
      * cbn [used s']; pose proof DL_pos; lia.
      * constructor.
      * cbn [free s' In]; tauto.
      * intros b Hb Ho. eapply wf_old_live; eauto.
      * cbn [free_cnt free s']. rewrite (wf_fcnt _ _ W), Ef; auto.
      * rewrite CE, popcount_app. cbn [oldb old_count s']. rewrite (wf_ocnt _ _ W).
        unfold popcount at 3; cbn [filter]. rewrite OA; cbn; lia.
  - (* free list *)
    cbn [fst snd]. set (s' := St _ _ _ _ _ _ _ _ _ _ _ _ _ _ _ _ _).
    assert (INF : In f (cells s) /\ heap s f = None).
    { apply (wf_free _ _ W). rewrite Ef; left; auto. }
    destruct INF as (IC & DF).
    pose proof (wf_free_nd _ _ W) as NF. rewrite Ef in NF. inversion NF as [|? ? NF1 NF2]; subst x l.
    apply GEN; auto.
    + destruct (oldb s' f) eqn:E; auto. cbn [oldb s'] in E.
      destruct (wf_old_live _ _ W f) as (o1 & E1 & _); auto; [ apply cells_page; auto | congruence ].
    + intros b. change (cells s') with (cells s). split; [ auto | intros [? | ->]; auto ].
    + apply (wf_rng _ _ W).
    + cbn [free s' In]. intros b; split; [ intros H; split; auto; intros ->; auto | intros ([-> | ?] & ?); auto; congruence ].
    + intros b Hb Ho. eapply wf_old_live; eauto.
    + cbn [free_cnt free s']. rewrite (wf_fcnt _ _ W), Ef. cbn [length]. lia.
    + change (cells s') with (cells s). apply W.
    + intros; left; auto.
Qed.

(** ** Every history is well-formed *)

Lemma step_WF : forall w w', WF (ws w) (roots w) -> step false w w' -> WF (ws w') (roots w').
Proof.
  intros w w' W H.
  assert (RL : forall x, wreach w x -> heap (ws w) x <> None) by (intros; eapply reach_live; eauto).
  inversion H; subst; cbn [ws roots].
  - apply alloc_fresh_WF; auto.
  - eapply roots_WF; eauto.
  - apply store_WF; auto.
  - apply drop_WF; auto.
  - eapply plain_WF; eauto.
  - destruct W; split; auto.
  - destruct (gc_ok (gc_kind force (ws w)) (ws w) (roots w) W) as (m & s2 & E & _ & C).
    assert (s2 = s') by congruence; subst. apply C.
  - discriminate.
Qed.

Lemma history_WF : forall w, history false w -> WF (ws w) (roots w).
Proof.
  intros w H; induction H; [ apply init_WF | eapply step_WF; eauto ].
Qed.

(** ** C19, C20 *)

Lemma safe_gc_ok : forall w, history false w -> forall kind, safe_gc kind (roots w) (ws w).
Proof.
  intros w H kind. pose proof (history_WF _ H) as W.
  destruct (gc_ok kind _ _ W) as (m & s' & E & M & C). exists s'; split; auto.
  intros a Ha. apply (co_pres _ _ _ _ _ C); [ eapply reach_marked; eauto | eapply reach_live; eauto ].
Qed.

Lemma reach_same : forall s s' r, (forall a, sreach s r a -> preserved s s' a) ->
  forall a, sreach s r a <-> sreach s' r a.
Proof.
  intros s s' r P.
  assert (KS : forall a, sreach s r a -> kids_of (heap s') a = kids_of (heap s) a).
  { intros a Ha. destruct (P a Ha) as (o & o' & E & E' & _ & K). unfold kids_of. rewrite E, E'; auto. }
  intros a; split; intros H.
  - induction H as [a H|a b H IH Hb]; [ apply reach_root; auto | ].
    eapply reach_kid; eauto. rewrite KS; auto.
  - induction H as [a H|a b H IH Hb]; [ apply reach_root; auto | ].
    eapply reach_kid; eauto. rewrite <- KS; auto.
Qed.

Lemma gc_reach_same : forall w, history false w -> forall kind s', gc kind (roots w) (ws w) = Some s' ->
  forall a, sreach (ws w) (roots w) a <-> sreach s' (roots w) a.
Proof.
  intros w H kind s' E. destruct (safe_gc_ok w H kind) as (s2 & E2 & P).
  assert (s2 = s') by congruence; subst. apply reach_same; auto.
Qed.

Lemma history_live : forall w, history false w -> forall a, wreach w a -> live (ws w) a.
Proof. intros w H a Ha. eapply reach_live; eauto. apply history_WF; auto. Qed.

Lemma alloc_keeps : forall w, history false w -> forall prom k, (forall x, In x k -> wreach w x) ->
  forall a, live (ws w) a -> heap (snd (alloc (ws w) (newborn prom k))) a = heap (ws w) a.
Proof.
  intros w H prom k Hk a Ha. pose proof (history_WF _ H) as W.
  destruct (alloc_fresh_WF _ _ prom k W) as (F & _).
  { intros x Hx; eapply reach_live; eauto. apply Hk; auto. }
  rewrite (fr_heap _ _ _ _ F). apply upd_other. intros ->. apply Ha, (fr_dead _ _ _ _ F).
Qed.

Lemma major_exact : forall w, history false w -> forall s', gc Major (roots w) (ws w) = Some s' ->
  forall a, live s' a <-> wreach w a.
Proof.
  intros w H s' E a. pose proof (history_WF _ H) as W.
  destruct (gc_ok Major _ _ W) as (m & s2 & E2 & M & C). assert (s2 = s') by congruence; subst s2.
  unfold live; rewrite (co_heap _ _ _ _ _ C). split.
  - intros (Hm & _). eapply mo_major; eauto.
  - intros Ha; split; [ eapply reach_marked; eauto | eapply reach_live; eauto ].
Qed.

Lemma mreach_marked : forall s r m, WF s r -> marked_ok Minor s r m ->
  forall a, mreach s r a -> heap s a <> None -> mk m a = true.
Proof.
  intros s r m W M a H. induction H as [a [H|H]|a b H IH Hb]; intros L.
  - eapply mo_root; eauto.
  - eapply mo_seed; eauto.
  - assert (La : heap s a <> None) by (intros E; unfold kids_of in Hb; rewrite E in Hb; destruct Hb).
    eapply mo_closed; eauto. eapply wf_live; eauto.
Qed.

Lemma minor_exact : forall w, history false w -> forall s', gc Minor (roots w) (ws w) = Some s' ->
  forall a, live s' a <-> live (ws w) a /\ mreach (ws w) (roots w) a.
Proof.
  intros w H s' E a. pose proof (history_WF _ H) as W.
  destruct (gc_ok Minor _ _ W) as (m & s2 & E2 & M & C). assert (s2 = s') by congruence; subst s2.
  unfold live; rewrite (co_heap _ _ _ _ _ C). split.
  - intros (Hm & Hl); split; auto. eapply mo_minor; eauto.
  - intros (Hl & Ha); split; auto. eapply mreach_marked; eauto.
Qed.

Lemma freed_available : forall w, history false w -> forall kind s', gc kind (roots w) (ws w) = Some s' ->
  forall a, live (ws w) a -> ~ live s' a -> available s' a.
Proof.
  intros w H kind s' E a L D. pose proof (history_WF _ H) as W.
  destruct (gc_ok kind _ _ W) as (m & s2 & E2 & M & C). assert (s2 = s') by congruence; subst s2.
  assert (D' : heap s' a = None) by (destruct (heap s' a) eqn:X; auto; exfalso; apply D; unfold live; congruence).
  pose proof (wf_used _ _ W) as Us.
  assert (EF : s' = finish kind (ws w) m \/ True) by (right; auto). clear EF.
  (* the page of [a] is still in service, or was salvaged *)
  unfold gc in E. destruct (mark_phase_ok kind _ _ W) as (m' & Em & M'). rewrite Em in E.
  assert (Es : s' = finish kind (ws w) m') by congruence. clear E.
  pose proof (wf_live _ _ W a L) as Hc.
  unfold finish in Es. destruct (classify kind (ws w) m') as (((h4 & old2) & rem4) & promoted).
  destruct (salvage (mk m') (pages (ws w))) as (kept & gone) eqn:ES.
  destruct (salvage_spec _ _ _ _ ES) as (Ek & Eg).
  apply in_cells in Hc; auto.
  assert (P : pages s' = kept /\ cur s' = cur (ws w) /\ used s' = used (ws w) /\ fpages s' = fpages (ws w) ++ gone)
    by (subst s'; auto). destruct P as (P1 & P2 & P3 & P4).
  destruct (all_dead (mk m') (get_page a)) eqn:AD.
  - destruct Hc as [Hc|(Hc & Hi)].
    + right. rewrite P4. apply in_or_app; right. rewrite Eg, <- in_rev, filter_In; auto.
    + left. apply (wf_free _ _ (co_wf _ _ _ _ _ C)). split; auto.
      apply in_cells; [ rewrite P3; auto | ]. right; rewrite P2, P3; auto.
  - left. apply (wf_free _ _ (co_wf _ _ _ _ _ C)). split; auto.
    apply in_cells; [ rewrite P3; auto | ]. rewrite P1, P2, P3.
    destruct Hc as [Hc|Hc]; [ left | right; auto ]. rewrite Ek, filter_In, AD; auto.
Qed.

Lemma start_is_major : forall s, gc_kind true s = Major.
Proof. reflexivity. Qed.

Lemma minors_bounded : forall s, allow_full s = true -> MAX_MINORS_PER_MAJOR <= minors s ->
  gc_kind false s = Major.
Proof.
  intros s A H. unfold gc_kind, decide_gc_kind. rewrite A; cbn [negb].
  assert ((MAX_MINORS_PER_MAJOR <=? minors s) = true) as -> by (apply Z.leb_le; auto).
  rewrite orb_true_r; auto.
Qed.

Lemma gc_kind_exact : forall s, gc_kind false s = Major <->
  allow_full s = true /\ (old_thr s <= old_count s \/ MAX_MINORS_PER_MAJOR <= minors s).
Proof.
  intros s. unfold gc_kind, decide_gc_kind. destruct (allow_full s); cbn [negb]; [ | intuition discriminate ].
  destruct (Z.leb_spec (old_thr s) (old_count s)); destruct (Z.leb_spec MAX_MINORS_PER_MAJOR (minors s)); cbn;
    intuition (try discriminate; try (exfalso; lia)).
Qed.

Lemma gc_minors : forall kind s r s', gc kind r s = Some s' ->
  minors s' = match kind with Major => 0 | Minor => minors s + 1 end.
Proof.
  intros kind s r s' E. unfold gc in E. destruct (mark_phase kind r s); [ | discriminate ].
  assert (s' = finish kind s m) as -> by congruence. unfold finish.
  destruct (classify kind s m) as (((? & ?) & ?) & ?). destruct (salvage (mk m) (pages s)). auto.
Qed.

Lemma gc_threshold : forall kind s r s', gc kind r s = Some s' ->
  old_thr s' = match kind with Major => Z.max (2 * old_count s') 16384 | Minor => old_thr s end.
Proof.
  intros kind s r s' E. unfold gc in E. destruct (mark_phase kind r s); [ | discriminate ].
  assert (s' = finish kind s m) as -> by congruence. unfold finish.
  destruct (classify kind s m) as (((? & ?) & ?) & ?). destruct (salvage (mk m) (pages s)).
  cbn [old_thr old_count]. destruct kind; auto. unfold OLD_GROWTH_FACTOR, OLD_OBJECT_FLOOR. rewrite Z.mul_comm. auto.
Qed.

(** ** C21 *)

Lemma alloc_dead_cell : forall w, history false w -> forall o, heap (ws w) (fst (alloc (ws w) o)) = None.
Proof.
  intros w H o. pose proof (history_WF _ H) as W.
  destruct (alloc_fresh_WF _ _ true [] W) as (F & _); [ intros x [] | ].
  assert (E : fst (alloc (ws w) o) = fst (alloc (ws w) (newborn true []))).
  { unfold alloc. destruct (free (ws w)); auto. destruct (used (ws w) =? DATA_LEN); auto.
    destruct (fpages (ws w)); auto. }
  rewrite E. apply (fr_dead _ _ _ _ F).
Qed.

Lemma free_list_ok : forall w, history false w -> NoDup (free (ws w)) /\
  (forall a, In a (free (ws w)) <-> In a (cells (ws w)) /\ ~ live (ws w) a) /\
  free_cnt (ws w) = Z.of_nat (length (free (ws w))).
Proof.
  intros w H. pose proof (history_WF _ H) as W. split; [ apply (wf_free_nd _ _ W) | split ].
  - intros a; rewrite (wf_free _ _ W). unfold live.
    destruct (heap (ws w) a); intuition congruence.
  - apply (wf_fcnt _ _ W).
Qed.

Lemma free_page_dead : forall w, history false w -> forall a, In (get_page a) (fpages (ws w)) -> ~ live (ws w) a.
Proof.
  intros w H a Ha L. pose proof (history_WF _ H) as W.
  apply (wf_live _ _ W) in L. apply cells_page in L; [ | apply W ].
  pose proof (wf_pg _ _ W) as N. cbn in L. inversion N as [|? ? N1 N2]; subst.
  destruct L as [L|L].
  - apply N1; rewrite L; apply in_or_app; auto.
  - clear - N2 Ha L. induction (pages (ws w)) as [|p l IH]; [ destruct L | ].
    cbn in N2; inversion N2; subst. destruct L as [->|L]; auto.
    apply H1; apply in_or_app; auto.
Qed.

Lemma stub_alloc : forall s o x, alloc_stub s o = Some x -> alloc s o = x.
Proof.
  intros s o x E. unfold alloc_stub in E; unfold alloc. destruct (free s); [ | congruence ].
  destruct (Z.leb_spec THRESHOLD (used s)); [ discriminate | ].
  destruct (Z.eqb_spec (used s) DATA_LEN); [ unfold DATA_LEN, THRESHOLD in *; lia | ].
  destruct (Z.eqb_spec (used s) THRESHOLD); [ lia | ]. congruence.
Qed.

Lemma stub_runs : forall s o, alloc_stub s o = None <-> free s = [] /\ THRESHOLD <= used s.
Proof.
  intros s o; unfold alloc_stub. destruct (free s).
  - destruct (Z.leb_spec THRESHOLD (used s)); split; intuition (discriminate || lia).
  - split; [ discriminate | intros (? & _); discriminate ].
Qed.

Lemma mask_page_cell : forall base a, base mod ALLOC_SIZE = 0 ->
  mask_page (cell_addr base a) = page_addr base (get_page a).
Proof.
  intros base a Hb. unfold mask_page.
  change (ALLOC_SIZE - 1) with (Z.ones 18).
  rewrite <- Z.ldiff_land, Z.ldiff_ones_r by lia.
  rewrite Z.shiftl_mul_pow2, Z.shiftr_div_pow2 by lia.
  change (2 ^ 18) with ALLOC_SIZE.
  pose proof (index_range a) as R.
  assert (E : base = ALLOC_SIZE * (base / ALLOC_SIZE)).
  { apply Z_div_exact_full_2; auto. unfold ALLOC_SIZE; lia. }
  unfold cell_addr, page_addr. rewrite E at 1.
  replace (ALLOC_SIZE * (base / ALLOC_SIZE) + get_page a * ALLOC_SIZE + CELL_SIZE * get_index a)
    with (CELL_SIZE * get_index a + (base / ALLOC_SIZE + get_page a) * ALLOC_SIZE) by ring.
  rewrite Z.div_add by (unfold ALLOC_SIZE; lia).
  rewrite Z.div_small.
  - rewrite E at 2. ring.
  - unfold CELL_SIZE, ALLOC_SIZE, DATA_LEN in *; lia.
Qed.

(** *** [sweep_bits] *)

Lemma sweep_loop_spec : forall n off map, 0 <= off ->
  sweep_loop n off (Z.shiftr map off) =
  filter (fun i => negb (Z.testbit map i)) (List.map (fun i => off + Z.of_nat i) (seq 0 n)).
Proof.
  induction n as [|n IH]; intros off map H; auto.
  cbn [sweep_loop]. rewrite <- cons_seq. cbn [List.map]. rewrite Z.add_0_r.
  rewrite <- seq_shift, map_map.
  rewrite (map_ext (fun x => off + Z.of_nat (S x)) (fun i => off + 1 + Z.of_nat i)) by (intros; lia).
  rewrite <- Z.div2_div, Z.div2_spec, Z.shiftr_shiftr by lia. rewrite IH by lia.
  cbn [filter]. rewrite <- Z.negb_odd, <- Z.bit0_odd, Z.shiftr_spec, Z.add_0_l by lia. reflexivity.
Qed.

Lemma trailing_spec : forall n map, 0 <= trailing_ones n map <= Z.of_nat n /\
  forall i, 0 <= i < trailing_ones n map -> Z.testbit map i = true.
Proof.
  induction n as [|n IH]; intros map; cbn [trailing_ones].
  - split; [ lia | intros; lia ].
  - destruct (Z.odd map) eqn:O; [ | split; intros; lia ].
    destruct (IH (map / 2)) as (R & B). split; [ lia | ].
    intros i Hi. destruct (Z.eq_dec i 0) as [->|Hne]; [ rewrite Z.bit0_odd; auto | ].
    specialize (B (i - 1) ltac:(lia)). rewrite <- Z.div2_div, Z.div2_spec, Z.shiftr_spec in B by lia.
    rewrite <- B; f_equal; lia.
Qed.

Lemma sweep_bits_spec : forall bit map, 0 <= bit <= 64 -> 0 <= map < 2 ^ 64 ->
  sweep_bits bit map = clear_bits_below bit map.
Proof.
  intros bit map Hb Hm. unfold sweep_bits, clear_bits_below.
  destruct (trailing_spec 64 map) as (R & B). set (min := trailing_ones 64 map) in *.
  change (Z.of_nat 64) with 64 in R.
  assert (SH : (if min <? 64 then Z.shiftr map min else 0) = Z.shiftr map min).
  { destruct (Z.ltb_spec min 64); auto. assert (min = 64) as -> by lia.
    rewrite Z.shiftr_div_pow2 by lia. rewrite Z.div_small; auto. }
  rewrite SH, sweep_loop_spec by lia.
  destruct (Z.le_gt_cases min bit) as [L|L].
  - replace (Z.to_nat bit) with (Z.to_nat min + Z.to_nat (bit - min))%nat by lia.
    rewrite seq_app, map_app, filter_app.
    assert (E : filter (fun i => negb (Z.testbit map i)) (List.map Z.of_nat (seq 0 (Z.to_nat min))) = []).
    { assert (F : forall l, (forall x, In x l -> Z.testbit map x = true) -> filter (fun i => negb (Z.testbit map i)) l = []).
      { induction l as [|x l IH]; intros F; auto. cbn [filter]. rewrite F by (left; auto). cbn.
        apply IH; intros; apply F; right; auto. }
      apply F. intros x Hx. apply in_map_iff in Hx as (i & <- & Hi). apply in_seq in Hi. apply B; lia. }
    rewrite E; cbn [app]. f_equal.
    replace (0 + Z.to_nat min)%nat with (Z.to_nat min + 0)%nat by lia.
    generalize (Z.to_nat (bit - min)) 0%nat. intros n. induction n as [|n IH]; intros k; auto.
    cbn [seq List.map]. f_equal; [ lia | ].
    replace (S (Z.to_nat min + k)) with (Z.to_nat min + S k)%nat by lia. apply IH.
  - replace (Z.to_nat (bit - min)) with 0%nat by lia. cbn [seq List.map filter].
    symmetry.
    assert (F : forall l, (forall x, In x l -> Z.testbit map x = true) -> filter (fun i => negb (Z.testbit map i)) l = []).
    { induction l as [|x l IH]; intros F; auto. cbn [filter]. rewrite F by (left; auto). cbn.
      apply IH; intros; apply F; right; auto. }
    apply F. intros x Hx. apply in_map_iff in Hx as (i & <- & Hi). apply in_seq in Hi. apply B; lia.
Qed.

(** ** C22 *)

Lemma live_page_range : forall w, history false w -> forall a, live (ws w) a -> 0 <= get_page a <= hpage (ws w).
Proof.
  intros w H a L. pose proof (history_WF _ H) as W.
  apply (wf_live _ _ W) in L. apply cells_page in L; [ | apply W ].
  apply (wf_rng _ _ W). destruct L as [L|L]; [ left; auto | right; apply in_or_app; auto ].
Qed.

Lemma in_region_while : forall w, history false w -> hpage (ws w) < MAX_PAGES ->
  forall a, live (ws w) a -> in_region a.
Proof. intros w H R a L. pose proof (live_page_range w H a L). unfold in_region; lia. Qed.

Fixpoint fill (n : nat) : world :=
  match n with
  | O => World (init (fun _ => false)) []
  | S n' => let w := fill n' in
            World (snd (alloc (ws w) (newborn true [])))
                  (fst (alloc (ws w) (newborn true [])) :: roots w)
  end.

Lemma fill_history : forall n, history false (fill n).
Proof.
  induction n; [ apply hist_init | ]. eapply hist_step; [ exact IHn | ].
  apply step_alloc. intros x [].
Qed.

Lemma fill_shape : forall n,
  free (ws (fill n)) = [] /\ fpages (ws (fill n)) = [] /\ hpage (ws (fill n)) = cur (ws (fill n)) /\
  cur (ws (fill n)) * DATA_LEN + used (ws (fill n)) = Z.of_nat n /\ 0 <= used (ws (fill n)) <= DATA_LEN /\
  (forall a, 0 <= a < Z.of_nat n -> live (ws (fill n)) a /\ In a (roots (fill n))).
Proof.
  induction n as [|n (F & Fp & Hp & N & U & L)].
  - cbn. repeat split; auto; try (pose proof DL_pos; lia); intros; lia.
  - cbn [fill]. set (w := fill n) in *. set (s := ws w) in *.
    assert (A : fst (alloc s (newborn true [])) = Z.of_nat n).
    { unfold alloc; rewrite F, Fp. destruct (Z.eqb_spec (used s) DATA_LEN) as [E|E]; cbn [fst].
      - unfold cell. rewrite Hp. lia.
      - unfold cell. lia. }
    assert (FRS : fresh s (newborn true []) (fst (alloc s (newborn true []))) (snd (alloc s (newborn true [])))).
    { apply (alloc_fresh_WF s (roots w)); [ apply history_WF, fill_history | intros x [] ]. }
    cbn [ws roots].
    assert (REST : let s' := snd (alloc s (newborn true [])) in
      free s' = [] /\ fpages s' = [] /\ hpage s' = cur s' /\
      cur s' * DATA_LEN + used s' = Z.of_nat (S n) /\ 0 <= used s' <= DATA_LEN).
    { unfold alloc; rewrite F, Fp. destruct (Z.eqb_spec (used s) DATA_LEN) as [E|E]; cbn [snd free fpages hpage cur used];
        repeat split; auto; pose proof DL_pos; lia. }
    cbv zeta in REST. destruct REST as (R1 & R2 & R3 & R4 & R5).
    repeat split; auto; try lia.
    + unfold live. rewrite (fr_heap _ _ _ _ FRS), A. destruct (Z.eq_dec a (Z.of_nat n)) as [->|Hne].
      * rewrite upd_same; discriminate.
      * rewrite upd_other by auto. apply L; lia.
    + rewrite A. destruct (Z.eq_dec a (Z.of_nat n)) as [->|Hne]; [ left; auto | right; apply L; lia ].
Qed.

Definition REGION_CELLS : Z := MAX_PAGES * DATA_LEN.

Lemma region_cell : forall a, in_region a <-> 0 <= a < REGION_CELLS.
Proof.
  intros a. unfold in_region, get_page, REGION_CELLS.
  pose proof DL_pos.
  pose proof (Z.div_mod a DATA_LEN ltac:(lia)). pose proof (Z.mod_pos_bound a DATA_LEN ltac:(lia)).
  assert (MAX_PAGES = 8192) by reflexivity.
  split; intros; nia.
Qed.

Lemma exhausted : exists w, history false w /\
  (forall a, live (ws w) a -> in_region a) /\
  (forall o, ~ in_region (fst (alloc (ws w) o))) /\
  (forall kind s' o, gc kind (roots w) (ws w) = Some s' -> ~ in_region (fst (alloc s' o))).
Proof.
  set (N := Z.to_nat REGION_CELLS).
  assert (EN : Z.of_nat N = REGION_CELLS) by (unfold N; rewrite Z2Nat.id; [ auto | unfold REGION_CELLS, MAX_PAGES, DATA_LEN; lia ]).
  clearbody N. exists (fill N).
  pose proof (fill_history N) as H. destruct (fill_shape N) as (F & Fp & Hp & C & U & L).
  set (w := fill N) in *. clearbody w. rewrite EN in *.
  split; auto. split; [ | split ].
  - intros a La. pose proof (live_page_range w H a La). rewrite Hp in H0. apply (history_WF _ H) in La.
    apply in_cells in La; auto. apply region_cell.
    pose proof (cell_eta a) as Ea. unfold cell in Ea. pose proof (index_range a).
    destruct La as [La|(La & Li)].
    + assert (get_page a <> cur (ws w)).
      { intros E. pose proof (wf_pg _ _ (history_WF _ H)) as NP. inversion NP; subst.
        apply H4; apply in_or_app; left; congruence. }
      nia.
    + rewrite La in *. nia.
  - intros o R. apply region_cell in R. pose proof (alloc_dead_cell w H o) as D.
    destruct (L _ R) as (La & _). apply La; auto.
  - intros kind s' o E R. apply region_cell in R.
    assert (H' : history false (World s' (roots w)) \/ True) by auto. clear H'.
    destruct (gc_ok kind _ _ (history_WF _ H)) as (m & s2 & E2 & M & Co). assert (s2 = s') by congruence; subst s2.
    assert (D : heap s' (fst (alloc s' o)) = None).
    { destruct (alloc_fresh_WF s' (roots w) true [] (co_wf _ _ _ _ _ Co)) as (Fr & _); [ intros x [] | ].
      assert (EQ : fst (alloc s' o) = fst (alloc s' (newborn true []))).
      { unfold alloc. destruct (free s'); auto. destruct (used s' =? DATA_LEN); auto. destruct (fpages s'); auto. }
      rewrite EQ. apply (fr_dead _ _ _ _ Fr). }
    destruct (L _ R) as (La & Ra).
    apply (proj2 (co_heap _ _ _ _ _ Co (fst (alloc s' o)))); auto.
    split; auto. apply (mo_root _ _ _ _ M); auto.
Qed.

(** ** Statistics *)

Lemma live_plus_free : forall w, history false w ->
  live_count (ws w) + free_cnt (ws w) = Z.of_nat (length (cells (ws w))).
Proof.
  intros w H. pose proof (history_WF _ H) as W. rewrite (wf_fcnt _ _ W).
  assert (P : Permutation (cells (ws w)) (filter (is_live (ws w)) (cells (ws w)) ++ free (ws w))).
  { apply NoDup_Permutation.
    - eapply NoDup_cells; eauto.
    - apply NoDup_app; [ apply NoDup_filter'; eapply NoDup_cells; eauto | apply (wf_free_nd _ _ W) | ].
      intros x X1 X2. apply filter_In in X1 as (_ & X1). apply (wf_free _ _ W) in X2 as (_ & X2).
      unfold is_live in X1; rewrite X2 in X1; discriminate.
    - intros x. rewrite in_app_iff, filter_In, (wf_free _ _ W). unfold is_live.
      destruct (heap (ws w) x); intuition congruence. }
  rewrite (Permutation_length P), app_length. unfold live_count; lia.
Qed.

Lemma freed_exact : forall w, history false w -> forall kind s', gc kind (roots w) (ws w) = Some s' ->
  pages s' = pages (ws w) ->
  tot_freed s' - tot_freed (ws w) = live_count (ws w) - live_count s'.
Proof.
  intros w H kind s' E P. pose proof (history_WF _ H) as W.
  destruct (gc_ok kind _ _ W) as (m & s2 & E2 & M & C). assert (s2 = s') by congruence; subst s2.
  assert (T : cur s' = cur (ws w) /\ used s' = used (ws w) /\ tot_freed s' = tot_freed (ws w) + Z.max 0 (free_cnt s' - free_cnt (ws w))).
  { unfold gc in E. destruct (mark_phase kind (roots w) (ws w)) as [m'|]; [ | discriminate ].
    assert (s' = finish kind (ws w) m') as -> by congruence. unfold finish.
    destruct (classify kind (ws w) m') as (((? & ?) & ?) & ?). destruct (salvage (mk m') (pages (ws w))). auto. }
  destruct T as (T1 & T2 & T3).
  assert (CE : cells s' = cells (ws w)) by (unfold cells; rewrite P, T1, T2; auto).
  assert (LP : forall s r, WF s r -> live_count s + free_cnt s = Z.of_nat (length (cells s))).
  { intros s r Ws. rewrite (wf_fcnt _ _ Ws).
    assert (PP : Permutation (cells s) (filter (is_live s) (cells s) ++ free s)).
    { apply NoDup_Permutation.
      - eapply NoDup_cells; eauto.
      - apply NoDup_app; [ apply NoDup_filter'; eapply NoDup_cells; eauto | apply (wf_free_nd _ _ Ws) | ].
        intros x X1 X2. apply filter_In in X1 as (_ & X1). apply (wf_free _ _ Ws) in X2 as (_ & X2).
        unfold is_live in X1; rewrite X2 in X1; discriminate.
      - intros x. rewrite in_app_iff, filter_In, (wf_free _ _ Ws). unfold is_live.
        destruct (heap s x); intuition congruence. }
    rewrite (Permutation_length PP), app_length. unfold live_count; lia. }
  pose proof (LP _ _ W) as L1. pose proof (LP _ _ (co_wf _ _ _ _ _ C)) as L2. rewrite CE in L2.
  assert (LE : live_count s' <= live_count (ws w)).
  { unfold live_count. rewrite CE. apply Nat2Z.inj_le. apply NoDup_incl_length.
    - apply NoDup_filter'; eapply NoDup_cells; eauto.
    - intros x Hx. apply filter_In in Hx as (Hc & Hx). apply filter_In; split; auto.
      assert (heap s' x <> None) by (unfold is_live in Hx; destruct (heap s' x); congruence).
      apply (co_heap _ _ _ _ _ C) in H0 as (_ & H0). unfold is_live. destruct (heap (ws w) x); congruence. }
  lia.
Qed.

(** ** [String#replace] without a barrier *)

Definition the (o : option st) : st := match o with Some s => s | None => init (fun _ => false) end.
Definition col (r : list Z) (s : st) : st := the (gc (gc_kind false s) r s).
Definition al (k : list Z) (s : st) : st := snd (alloc s (newborn true k)).
Definition b1 : st := al [] (init (fun _ => false)).
Definition b2 : st := col [0] (col [0] (col [0] b1)).
Definition b3 : st := al [1] (al [] b2).
Definition b4 : st := put_kids b3 0 (kids_of (heap b3) 2).
Definition b5 : st := col [0] b4.

Lemma wreach_root : forall w x, In x (roots w) -> wreach w x.
Proof. intros; apply reach_root; auto. Qed.

Lemma hist_al : forall bug s r k, history bug (World s r) -> (forall x, In x k -> In x r) ->
  history bug (World (al k s) (fst (alloc s (newborn true k)) :: r)).
Proof.
  intros bug s r k H Hk. eapply hist_step; [ exact H | ].
  apply (step_alloc bug (World s r) true k). intros x Hx; apply wreach_root; auto.
Qed.

Lemma hist_col : forall bug s r, history bug (World s r) -> gc (gc_kind false s) r s <> None ->
  history bug (World (col r s) r).
Proof.
  intros bug s r H N. unfold col. destruct (gc (gc_kind false s) r s) as [s'|] eqn:E; [ | congruence ].
  eapply hist_step; [ exact H | ]. apply (step_gc bug (World s r) false); auto.
Qed.

Ltac some_gc := match goal with |- ?x <> None => let y := fresh in
  assert (y : match x with Some _ => true | None => false end = true) by (vm_compute; reflexivity);
  destruct x; [ discriminate | discriminate y ] end.

Lemma b4_history : history true (World b4 [0]).
Proof.
  assert (H1 : history true (World b1 [0])).
  { apply (hist_al true (init (fun _ => false)) [] []); [ apply hist_init | intros x [] ]. }
  assert (H2 : history true (World b2 [0])).
  { unfold b2. apply hist_col; [ apply hist_col; [ apply hist_col; auto | ] | ]; some_gc. }
  assert (H3 : history true (World b3 [2; 1; 0])).
  { pose proof (hist_al true b2 [0] [] H2 ltac:(intros x [])) as A.
    assert (E : fst (alloc b2 (newborn true [])) = 1) by (vm_compute; reflexivity). rewrite E in A.
    pose proof (hist_al true (al [] b2) [1; 0] [1] A ltac:(intros x [<-|[]]; left; auto)) as B.
    assert (E2 : fst (alloc (al [] b2) (newborn true [1])) = 2) by (vm_compute; reflexivity). rewrite E2 in B.
    exact B. }
  assert (H4 : history true (World b4 [2; 1; 0])).
  { eapply hist_step; [ exact H3 | ]. apply (step_replace true (World b3 [2; 1; 0]) 0 2); auto;
      apply wreach_root; cbn; auto. }
  eapply hist_step; [ exact H4 | ]. apply (step_roots true (World b4 [2; 1; 0])).
  intros x [<-|[]]; apply wreach_root; cbn; auto.
Qed.

Lemma b4_kid : In 1 (kids_of (heap b4) 0).
Proof. vm_compute; auto. Qed.

Lemma replace_frees : exists w a s', history true w /\ wreach w a /\ live (ws w) a /\
  gc (gc_kind false (ws w)) (roots w) (ws w) = Some s' /\ ~ live s' a.
Proof.
  exists (World b4 [0]), 1, b5. cbn [ws roots].
  split; [ apply b4_history | ]. split; [ | split; [ | split ] ].
  - eapply reach_kid; [ apply wreach_root; left; reflexivity | apply b4_kid ].
  - vm_compute; discriminate.
  - unfold b5, col. assert (N : gc (gc_kind false b4) [0] b4 <> None) by some_gc.
    destruct (gc (gc_kind false b4) [0] b4); [ auto | congruence ].
  - unfold live. intros N; apply N. vm_compute; reflexivity.
Qed.

Lemma b5_history : history true (World b5 [0]).
Proof. unfold b5. apply hist_col; [ apply b4_history | some_gc ]. Qed.

Lemma b5_reach : wreach (World b5 [0]) 1.
Proof. eapply reach_kid; [ apply wreach_root; left; reflexivity | vm_compute; auto ]. Qed.

Lemma replace_aborts : exists w, history true w /\ gc Major (roots w) (ws w) = None.
Proof.
  exists (World b5 [0]). split; [ apply b5_history | ].
  cbn [ws roots]. assert (E : match gc Major [0] b5 with Some _ => true | None => false end = false) by (vm_compute; reflexivity).
  destruct (gc Major [0] b5); [ discriminate | auto ].
Qed.

Lemma replace_hands_out : exists w, history true w /\
  wreach w (fst (alloc (ws w) (newborn true []))).
Proof.
  exists (World b5 [0]). split; [ apply b5_history | ]. cbn [ws].
  assert (E : fst (alloc b5 (newborn true [])) = 1) by (vm_compute; reflexivity). rewrite E. apply b5_reach.
Qed.

(** ** GC.stat *)

Definition lost : world := World (ws (fill (Z.to_nat 4033))) [].

Lemma lost_history : history false lost.
Proof.
  unfold lost. eapply hist_step; [ apply (fill_history (Z.to_nat 4033)) | ].
  apply step_roots. intros x [].
Qed.

Definition lost_stat : bool :=
  match gc Major [] (ws (fill (Z.to_nat 4033))) with
  | Some s' => (tot_alloc s' =? 4033) && (tot_freed s' =? 1) && (live_count s' =? 0)
  | None => false
  end.

Lemma lost_stat_true : lost_stat = true.
Proof. vm_compute; reflexivity. Qed.

Lemma stat_refuted : exists w s', history false w /\ gc Major (roots w) (ws w) = Some s' /\
  tot_alloc s' = 4033 /\ tot_freed s' = 1 /\ live_count s' = 0.
Proof.
  pose proof lost_history as H. pose proof lost_stat_true as L. unfold lost_stat in L; unfold lost in H.
  revert H L. generalize (ws (fill (Z.to_nat 4033))). intros s H L.
  destruct (gc Major [] s) as [s'|] eqn:E; [ | discriminate ].
  apply andb_true_iff in L as (L & L3). apply andb_true_iff in L as (L1 & L2).
  apply Z.eqb_eq in L1, L2, L3. exists (World s []), s'; auto.
Qed.

Lemma alloc_counts : forall w, history false w -> forall o,
  tot_alloc (snd (alloc (ws w) o)) = tot_alloc (ws w) + 1 /\ tot_freed (snd (alloc (ws w) o)) = tot_freed (ws w).
Proof.
  intros w _ o. unfold alloc. destruct (free (ws w)); auto. destruct (used (ws w) =? DATA_LEN); auto.
  destruct (fpages (ws w)); auto.
Qed.

Lemma old_count_exact : forall w, history false w ->
  old_count (ws w) = Z.of_nat (length (filter (oldb (ws w)) (cells (ws w)))).
Proof. intros w H. apply (wf_ocnt _ _ (history_WF _ H)). Qed.
