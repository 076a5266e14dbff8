(** Proofs for C10-C11: the Hash object refines its specification. *)
From Coq Require Import ZArith List Bool Arith NArith Lia Permutation.
From Verif Require Import MapSpec MapModel MapProofs HashSpec HashModel.
Import ListNotations.

Local Arguments Nat.ltb : simpl never.
Local Arguments Nat.leb : simpl never.
Section H.
Context {K V D : Type}.
Variables (packed : K -> bool) (eql same : K -> K -> bool) (hv hi : K -> Z).
Hypothesis eql_refl : forall x, eql x x = true.
Hypothesis eql_sym : forall x y, eql x y = eql y x.
Hypothesis eql_trans : forall x y z, eql x y = true -> eql y z = true -> eql x z = true.
Hypothesis same_refl : forall x, same x x = true.
Hypothesis same_sym : forall x y, same x y = same y x.
Hypothesis same_trans : forall x y z, same x y = true -> same y z = true -> same x z = true.
Hypothesis same_eql : forall x y, same x y = true -> eql x y = true.
Hypothesis packed_eql : forall x y, packed x = true -> eql x y = same x y.
Hypothesis packed_same : forall x y, packed x = true -> same x y = true -> packed y = true.
Hypothesis hv_eql : forall x y, eql x y = true -> hv x = hv y.
Hypothesis hi_same : forall x y, same x y = true -> hi x = hi y.
Variable vis : Z -> Z -> bool.
Hypothesis vis_refl : forall h, vis h h = true.
Variable ins : list (Z * nat) -> Z * nat -> list (Z * nat).
Hypothesis ins_perm : forall l x, Permutation (ins l x) (x :: l).
Variable grow : nat -> nat.
Hypothesis grow_ge : forall n, n <= grow n.
Variable nilv : V.

Notation meq := (mode eql same).
Notation keq := (keq eql same).
Notation kh := (kh hv hi).
Notation isdead := (@isdead K).
Notation INV id := (Inv (keq id) (kh id) isdead).
Notation hobj := (hobj K V D).
Notation hmap := (core (option K) V).
Notation bucket := (bucket (option K) V).

Lemma meq_refl id x : meq id x x = true. Proof. destruct id; cbn; auto. Qed.
Lemma meq_sym id x y : meq id x y = meq id y x. Proof. destruct id; cbn; auto. Qed.
Lemma meq_trans id x y z : meq id x y = true -> meq id y z = true -> meq id x z = true.
Proof. destruct id; cbn; eauto. Qed.

Lemma keq_live id x y : keq id x y = true -> isdead x = false /\ isdead y = false.
Proof. unfold HashModel.keq, eqo. destruct x, y; cbn; try discriminate; auto. Qed.
Lemma keq_sym id x y : keq id x y = keq id y x.
Proof. unfold HashModel.keq, eqo. destruct x, y; auto. apply meq_sym. Qed.
Lemma keq_trans id x y z : keq id x y = true -> keq id y z = true -> keq id x z = true.
Proof. unfold HashModel.keq, eqo. destruct x, y, z; try discriminate; auto. apply meq_trans. Qed.
Lemma keq_hash id x y : keq id x y = true -> kh id x = kh id y.
Proof. unfold HashModel.keq, HashModel.kh, eqo, ho. destruct x, y; try discriminate. destruct id; cbn; auto. Qed.

Definition so (p : K * V) : option K * V := (Some (fst p), snd p).

Lemma lives_so l : lives (map so l) = l.
Proof. unfold lives. induction l as [|[a b] l IH]; cbn in *; congruence. Qed.
Lemma absl_lives (es : list bucket) : absl isdead es = map so (lives (map kv es)).
Proof.
  induction es as [|[h k v] es IH]; [reflexivity|]. rewrite absl_cons. cbn. rewrite IH.
  destruct k; reflexivity.
Qed.
Lemma absl_inj (es : list bucket) l : absl isdead es = map so l -> lives (map kv es) = l.
Proof. intro E. rewrite absl_lives in E. apply (f_equal (@lives K V)) in E. now rewrite !lives_so in E. Qed.

Lemma s_get_so id k (l : list (K * V)) : s_get (keq id) (Some k) (map so l) = option_map so (s_get (meq id) k l).
Proof.
  unfold s_get. induction l as [|[a b] l IH]; [reflexivity|]. cbn. destruct (meq id k a); auto.
Qed.
Lemma s_put_so id k v (l : list (K * V)) : s_put (keq id) (Some k) v (map so l) = map so (s_put (meq id) k v l).
Proof.
  induction l as [|[a b] l IH]; [reflexivity|]. cbn. destruct (meq id k a); cbn; [reflexivity|]. now rewrite IH.
Qed.
Lemma s_delete_so id k (l : list (K * V)) : s_delete (keq id) (Some k) (map so l) = map so (s_delete (meq id) k l).
Proof.
  unfold s_delete. induction l as [|[a b] l IH]; [reflexivity|]. cbn. destruct (meq id k a); cbn; [exact IH|]. apply f_equal. exact IH.
Qed.

(** *** Live keys by position *)
Definition rk (L : list (option K)) : list K := flat_map (fun o => match o with Some k => [k] | None => [] end) L.
Lemma rk_app a b : rk (a ++ b) = rk a ++ rk b. Proof. apply flat_map_app. Qed.
Lemma rk_lives r : rk (map fst r) = map fst (lives r : list (K * V)).
Proof. induction r as [|[[k|] v] r IH]; cbn; auto. apply f_equal. exact IH. Qed.
Lemma rk_some l : rk (map (@Some K) l) = l.
Proof. induction l; cbn; auto. apply f_equal. assumption. Qed.

Notation dis id := (ForallOrdPairs (fun a b => meq id a b = false)).

Lemma fop_app {A} (R : A -> A -> Prop) a b : ForallOrdPairs R (a ++ b) <->
  ForallOrdPairs R a /\ ForallOrdPairs R b /\ (forall x y, In x a -> In y b -> R x y).
Proof.
  induction a as [|x a IH]; cbn.
  - split; [intro h; repeat split; auto; [constructor|intros ? ? []]|tauto].
  - split.
    + inversion 1; subst. apply IH in H3 as (h1 & h2 & h3). rewrite Forall_forall in H2.
      repeat split; auto.
      * constructor; auto. apply Forall_forall. intros y hy. apply H2, in_or_app; auto.
      * intros u v [->|hu] hv'; auto. apply H2, in_or_app; auto.
    + intros (h1 & h2 & h3). inversion h1; subst. constructor.
      * apply Forall_forall. intros y hy. apply in_app_or in hy as [hy|hy]; auto.
        rewrite Forall_forall in H1; auto.
      * apply IH. repeat split; auto.
Qed.
Lemma fop_imp {A} (R R' : A -> A -> Prop) l : (forall x y, R x y -> R' x y) -> ForallOrdPairs R l -> ForallOrdPairs R' l.
Proof. intros h. induction 1; constructor; auto. eapply Forall_impl; [|eassumption]. auto. Qed.

Lemma filter_id {A} (p : A -> bool) l : (forall x, In x l -> p x = true) -> filter p l = l.
Proof.
  induction l as [|x l IH]; cbn; intros h; [reflexivity|]. rewrite h by auto. f_equal. auto.
Qed.
Lemma in_rk_skipn j L x : In x (rk (skipn j L)) -> In x (rk L).
Proof. intro h. rewrite <- (firstn_skipn j L), rk_app. apply in_or_app; auto. Qed.

(** Tombstoning position [i], seen from any cursor. *)
Lemma rk_tomb id k k0 A B j : dis id (rk (A ++ Some k0 :: B)) -> meq id k k0 = true ->
  rk (skipn j (A ++ None :: B)) = forget eql same id k (rk (skipn j (A ++ Some k0 :: B))).
Proof.
  intros d e. rewrite rk_app in d. cbn in d. apply fop_app in d as (_ & d2 & d3).
  inversion d2 as [|? ? d4 _]; subst. rewrite Forall_forall in d4.
  assert (hA : forall x, In x (rk A) -> meq id k x = false).
  { intros x hx. destruct (meq id k x) eqn:E; auto.
    rewrite <- (d3 x k0 hx (or_introl eq_refl)). symmetry. apply meq_trans with k; auto. rewrite meq_sym; auto. }
  assert (hB : forall x, In x (rk B) -> meq id k x = false).
  { intros x hx. destruct (meq id k x) eqn:E; auto.
    rewrite <- (d4 x hx). symmetry. apply meq_trans with k; auto. rewrite meq_sym; auto. }
  unfold forget. destruct (le_lt_dec j (length A)).
  - rewrite !skipn_app. replace (j - length A) with 0 by lia. rewrite !skipn_O, !rk_app, filter_app. cbn.
    rewrite e. cbn. f_equal; symmetry; apply filter_id; intros x hx.
    + rewrite hA; auto. eapply in_rk_skipn; eauto.
    + rewrite hB; auto.
  - rewrite !skipn_app, !(skipn_all2 A) by lia. destruct (j - length A) as [|n] eqn:E; [lia|]. cbn.
    symmetry; apply filter_id. intros x hx. rewrite hB; auto. eapply in_rk_skipn; eauto.
Qed.

Lemma rk_absent id k L j : (forall x, In x (rk L) -> meq id k x = false) ->
  forget eql same id k (rk (skipn j L)) = rk (skipn j L).
Proof. intro h. apply filter_id. intros x hx. rewrite h; auto. eapply in_rk_skipn; eauto. Qed.

(** *** Association-list facts *)
Lemma s_get_none id k (l : list (K * V)) : s_get (meq id) k l = None <-> (forall x, In x (map fst l) -> meq id k x = false).
Proof.
  unfold s_get. split.
  - intros h x hx. apply in_map_iff in hx as [[a b] [<- hx]]. exact (find_none _ _ h _ hx).
  - intro h. destruct (find _ l) as [[a b]|] eqn:E; auto. apply find_some in E as [E1 E2]. cbn in E2.
    rewrite h in E2; [discriminate|]. apply in_map_iff. exists (a, b); auto.
Qed.
Lemma s_put_absent id k v (l : list (K * V)) : s_get (meq id) k l = None -> s_put (meq id) k v l = l ++ [(k, v)].
Proof.
  rewrite s_get_none. induction l as [|[a b] l IH]; cbn; intro h; [reflexivity|].
  rewrite h by auto. f_equal; auto.
Qed.
Lemma s_put_keys id k v (l : list (K * V)) : s_get (meq id) k l <> None -> map fst (s_put (meq id) k v l) = map fst l.
Proof.
  unfold s_get. induction l as [|[a b] l IH]; cbn; intro h; [congruence|].
  destruct (meq id k a); cbn; auto. f_equal; auto.
Qed.
Lemma s_delete_keys id k (l : list (K * V)) : map fst (s_delete (meq id) k l) = forget eql same id k (map fst l).
Proof. unfold s_delete, forget. induction l as [|[a b] l IH]; cbn; auto. destruct (meq id k a); cbn; congruence. Qed.
Lemma fop_filter {A} (R : A -> A -> Prop) p l : ForallOrdPairs R l -> ForallOrdPairs R (filter p l).
Proof.
  induction 1; cbn; [constructor|]. destruct (p a); auto. constructor; auto.
  apply Forall_forall. intros x hx. apply filter_In in hx as [hx _]. rewrite Forall_forall in H; auto.
Qed.
Lemma put_dis id k v (l : list (K * V)) : dis id (map fst l) -> dis id (map fst (s_put (meq id) k v l)).
Proof.
  intro d. destruct (s_get (meq id) k l) eqn:E.
  - rewrite s_put_keys by congruence; auto.
  - rewrite s_put_absent, map_app by auto. apply fop_app. repeat split; auto.
    + repeat constructor.
    + intros x y hx [<-|[]]. cbn. rewrite meq_sym. apply (proj1 (s_get_none id k l) E); auto.
Qed.
Lemma delete_dis id k (l : list (K * V)) : dis id (map fst l) -> dis id (map fst (s_delete (meq id) k l)).
Proof. intro d. rewrite s_delete_keys. unfold forget. apply fop_filter; auto. Qed.

(** *** Map operations on boxed content *)
Notation m_find := (m_find eql same hv hi vis).
Notation m_insert := (m_insert eql same hv hi vis ins grow).
Notation m_insert_all := (m_insert_all eql same hv hi vis ins grow).

Definition labs (m : hmap) : list (K * V) := lives (map kv (ents m)).
Lemma absl_labs m : absl isdead (ents m) = map so (labs m). Proof. apply absl_lives. Qed.

Lemma m_find_ok id k (m : hmap) : INV id m ->
  m_find id k m = pos (keq id) (Some k) (ents m).
Proof.
  intro i. unfold HashModel.m_find.
  exact (get_index_of_ok vis vis_refl (keq id) (kh id) isdead (keq_live id) (keq_sym id) (keq_trans id) (keq_hash id) m (Some k) i).
Qed.
Lemma pos_get id k (m : hmap) :
  match pos (keq id) (Some k) (ents m) with Some i => option_map kv (nth_error (ents m) i) | None => None end
  = option_map so (s_get (meq id) k (labs m)).
Proof. rewrite (get_abs (keq id) isdead (keq_live id)), absl_labs. apply s_get_so. Qed.

Lemma m_insert_ok id k v (m : hmap) : INV id m ->
  exists m', m_insert id k v m = Some m' /\ INV id m' /\ labs m' = s_put (meq id) k v (labs m)
    /\ (s_get (meq id) k (labs m) <> None -> map bk (ents m') = map bk (ents m))
    /\ (s_get (meq id) k (labs m) = None -> map kv (ents m') = map kv (ents m) ++ [(Some k, v)]).
Proof.
  intro i. destruct (insert_full_ok vis vis_refl ins ins_perm grow grow_ge (keq id) (kh id) isdead
    (keq_live id) (keq_sym id) (keq_trans id) (keq_hash id) (Some k) v m i eq_refl) as (m' & e & i' & E).
  exists m'. unfold HashModel.m_insert. rewrite e. split; [reflexivity|]. split; [exact i'|]. split; [|split].
  - apply absl_inj. rewrite E. rewrite (put_abs (keq id) isdead (keq_live id) (kh id (Some k)) (Some k) v (ents m) eq_refl).
    rewrite absl_labs, s_put_so. reflexivity.
  - intro hne. pose proof (pos_get id k m) as pg. destruct (pos (keq id) (Some k) (ents m)) as [p|] eqn:P.
    + rewrite E. unfold set_val. destruct (nth_error (ents m) p) as [b|] eqn:N; [|reflexivity].
      rewrite (split_nth _ _ _ N) at 3. rewrite !map_app. reflexivity.
    + destruct (s_get (meq id) k (labs m)); [discriminate|congruence].
  - intro hn. pose proof (pos_get id k m) as pg. rewrite hn in pg. cbn in pg.
    destruct (pos (keq id) (Some k) (ents m)) as [p|] eqn:P.
    + apply pos_some in P as (b & N & _). rewrite N in pg. discriminate.
    + rewrite E, map_app. reflexivity.
Qed.

Lemma m_insert_all_ok id ps : forall (m : hmap), INV id m -> dis id (map fst (labs m ++ ps)) ->
  exists m', m_insert_all id ps m = Some m' /\ INV id m' /\ map kv (ents m') = map kv (ents m) ++ map so ps.
Proof.
  induction ps as [|[k v] ps IH]; intros m i d; cbn.
  - exists m. rewrite app_nil_r. auto.
  - destruct (m_insert_ok id k v m i) as (m1 & e & i1 & E & _ & E2). rewrite e.
    assert (hn : s_get (meq id) k (labs m) = None).
    { apply s_get_none. intros x hx. rewrite map_app in d. apply fop_app in d as (_ & _ & d).
      rewrite meq_sym. apply d; cbn; auto. }
    destruct (IH m1 i1) as (m' & e' & i' & E').
    + rewrite E, s_put_absent, <- app_assoc by auto. exact d.
    + exists m'. split; [exact e'|]. split; [exact i'|]. rewrite E', E2, <- app_assoc by auto. reflexivity.
Qed.
Lemma inv_new id : INV id (c_new : hmap).
Proof. pose proof (init_sim grow (keq id) (kh id) isdead (V:=V) 0) as [h _]. exact h. Qed.

Lemma m_tomb_ok id k (m : hmap) : INV id m -> dis id (map fst (labs m)) ->
  exists m', m_tomb eql same hv hi vis ins grow nilv id k m = Some (m', option_map snd (s_get (meq id) k (labs m)))
  /\ INV id m' /\ labs m' = s_delete (meq id) k (labs m)
  /\ (forall j, rk (skipn j (map bk (ents m'))) = forget eql same id k (rk (skipn j (map bk (ents m)))))
  /\ length (filter isdead (map bk (ents m'))) =
     (if s_get (meq id) k (labs m) then 1 else 0) + length (filter isdead (map bk (ents m))).
Proof.
  intros i d. destruct (tombstone_remove_ok vis vis_refl ins ins_perm grow grow_ge (keq id) (kh id) isdead
    (keq_live id) (keq_sym id) (keq_trans id) (keq_hash id) None nilv eq_refl (Some k) m i) as (m' & e & i' & E).
  exists m'. unfold m_tomb. rewrite e. cbn.
  pose proof (pos_get id k m) as pg.
  assert (dd : dis id (rk (map bk (ents m)))).
  { replace (map bk (ents m)) with (map fst (map (@kv (option K) V) (ents m))) by (rewrite map_map; reflexivity).
    rewrite rk_lives. exact d. }
  split; [|split; [exact i'|split; [|split]]].
  - f_equal. f_equal. destruct (pos (keq id) (Some k) (ents m)) as [p|].
    + destruct (nth_error (ents m) p) as [[]|]; destruct (s_get (meq id) k (labs m)) as [[]|]; cbn in *; unfold kv, so in *; cbn in *; congruence.
    + destruct (s_get (meq id) k (labs m)); cbn in *; congruence.
  - apply absl_inj. rewrite E. destruct i as (_ & _ & di & _).
    rewrite (tomb_abs (keq id) isdead (keq_live id) (keq_sym id) (keq_trans id) None nilv eq_refl (Some k) (ents m) di).
    rewrite absl_labs, s_delete_so. reflexivity.
  - intro j. destruct (pos (keq id) (Some k) (ents m)) as [p|] eqn:P.
    + apply pos_some in P as (b & N & hb). rewrite E. unfold set_kv. rewrite N.
      destruct b as [h [k0|] v0]; cbn in hb; [|discriminate].
      rewrite (split_nth _ _ _ N) in dd. rewrite map_app in dd. cbn in dd.
      rewrite (split_nth _ _ _ N) at 3. rewrite !map_app. cbn. apply rk_tomb; auto.
    + rewrite E. symmetry. apply rk_absent. intros x hx.
      destruct (s_get (meq id) k (labs m)) eqn:G; [discriminate|].
      apply (proj1 (s_get_none id k (labs m)) G).
      replace (map bk (ents m)) with (map fst (map (@kv (option K) V) (ents m))) in hx by (rewrite map_map; reflexivity).
      rewrite rk_lives in hx. exact hx.
  - rewrite E. destruct (pos (keq id) (Some k) (ents m)) as [p|] eqn:P.
    + apply pos_some in P as (b & N & hb). unfold set_kv. rewrite N in *.
      destruct b as [h [k0|] v0]; cbn in hb; [|discriminate].
      cbn in pg. destruct (s_get (meq id) k (labs m)); [|discriminate].
      rewrite (split_nth _ _ _ N) at 3.
      rewrite !map_app, !filter_app, !app_length. cbn. lia.
    + destruct (s_get (meq id) k (labs m)); [discriminate|]. reflexivity.
Qed.

Lemma dead_clean (es : list bucket) : length (filter isdead (map bk es)) = 0 -> clean isdead es.
Proof.
  unfold clean. induction es as [|[h [k|] v] es IH]; cbn; intro e; constructor; auto; discriminate.
Qed.
Lemma clean_dead (es : list bucket) : clean isdead es -> length (filter isdead (map bk es)) = 0.
Proof.
  induction 1 as [|[h [k|] v] es hb _ IH]; cbn in *; auto; discriminate.
Qed.
Lemma dead_len (es : list bucket) : length es = length (lives (map kv es)) + length (filter isdead (map bk es)).
Proof. unfold lives. induction es as [|[h [k|] v] es IH]; cbn in *; lia. Qed.

Ltac sp := repeat match goal with |- _ /\ _ => split end.
(** *** The relation *)
Definition tc (l : list bool) : nat := length (filter (fun b => b) l).
Local Arguments tc : simpl never.
Local Arguments lives : simpl never.
Definition b3 (l : list bool) : Prop := forall j x, j < 3 -> nth_error (rev l) j = Some x -> x = true.
Definition level (h : hobj) : N := match bd h with Inl _ => N.of_nat (f_iter (fl h)) | Box _ _ _ lev _ => lev end.
Definition shape (h : hobj) (s : hst K V D) : Prop :=
  match bd h with
  | Inl ps => length ps <= 3 /\ f_ident (fl h) = h_ident s /\ h_dflt s = None
      /\ (h_ident s = false -> Forall (fun p => packed (fst p) = true) ps) /\ f_iter (fl h) <= 3
  | Box id m d lev dead => id = h_ident s /\ fl h = F 0 false /\ d = h_dflt s
      /\ INV id m /\ dead = length (filter isdead (map bk (ents m)))
  end.
Definition cur (b : body K V D) (c : bool * nat) (ks : list K) : Prop :=
  rk (skipn (snd c) (map fst (raw b))) = ks.
Record R (ms : mstate K V D) (s : hst K V D) : Prop := {
  r_l : lives (raw (bd (fst ms))) = h_ents s;
  r_d : dis (h_ident s) (map fst (h_ents s));
  r_c : Forall2 (cur (bd (fst ms))) (snd ms) (h_iters s);
  r_b : b3 (map fst (snd ms));
  r_n : level (fst ms) = N.of_nat (tc (map fst (snd ms)));
  r_s : shape (fst ms) s }.

Lemma tc_len l : tc l <= length l.
Proof. unfold tc. induction l as [|[] l IH]; cbn; lia. Qed.
Lemma tc_app a b : tc (a ++ b) = tc a + tc b.
Proof. unfold tc. now rewrite filter_app, app_length. Qed.
Lemma b3_pos l : b3 l -> l <> [] -> 0 < tc l.
Proof.
  intros h n. destruct (exists_last n) as (l' & x & ->). rewrite tc_app.
  specialize (h 0 x). rewrite rev_app_distr in h. cbn in h. rewrite h; auto. unfold tc; cbn; lia.
Qed.
Lemma b3_all l : b3 l -> length l <= 3 -> Forall (fun b => b = true) l.
Proof.
  intros h hl. apply Forall_forall. intros x hx. apply In_nth_error in hx as [n hn].
  assert (n < length l) by (apply nth_error_Some; congruence).
  apply (h (length l - S n)); [lia|]. rewrite nth_error_rev_ by lia.
  replace (length l - S (length l - S n)) with n by lia. exact hn.
Qed.
Lemma all_b3 l : Forall (fun b => b = true) l -> b3 l.
Proof.
  intros h j x _ e. apply nth_error_In in e. rewrite <- in_rev in e. rewrite Forall_forall in h; auto.
Qed.

Lemma active_ok h cs s : R (h, cs) s -> iter_active h = match h_iters s with [] => false | _ => true end.
Proof.
  intros [_ _ c b n sh]. cbn in *. unfold iter_active, level in *.
  destruct (h_iters s); inversion c; subst.
  - change (tc (map fst [])) with 0 in n. destruct (bd h); cbn in *; [|subst; reflexivity]. destruct (f_iter (fl h)); [reflexivity|cbn in n; lia].
  - assert (0 < tc (map fst (x :: l1))) by (apply b3_pos; [exact b|discriminate]).
    destruct (bd h).
    + destruct (f_iter (fl h)); [cbn in *; lia|reflexivity].
    + apply N.ltb_lt. rewrite n. lia.
Qed.

(** Inline lookup. *)
Lemma id_pos_get k ps : match id_pos same k ps with Some i => nth_error ps i | None => None end = s_get same k (ps : list (K * V)).
Proof.
  unfold s_get. induction ps as [|[a b] ps IH]; [reflexivity|]. cbn. rewrite same_sym.
  destruct (same k a); [reflexivity|]. rewrite <- IH. destruct (id_pos same k ps); reflexivity.
Qed.
Lemma get_ext (e e' : K -> K -> bool) k (l : list (K * V)) : (forall p, In p l -> e k (fst p) = e' k (fst p)) ->
  s_get e k l = s_get e' k l.
Proof. unfold s_get. induction l as [|p l IH]; cbn; intro h; auto. rewrite h by auto. destruct (e' k (fst p)); auto. Qed.
Lemma inline_pos_get f k (ps : list (K * V)) : (f_ident f = false -> Forall (fun p => packed (fst p) = true) ps) ->
  match inline_pos packed same f k ps with Some i => nth_error ps i | None => None end = s_get (meq (f_ident f)) k ps.
Proof.
  intro hp. unfold inline_pos. destruct (f_ident f); cbn [negb andb mode].
  - apply id_pos_get.
  - specialize (hp eq_refl). rewrite Forall_forall in hp. destruct (packed k) eqn:P; cbn [negb andb].
    + rewrite id_pos_get. apply get_ext. intros p hi'. symmetry. apply packed_eql; auto.
    + symmetry. change (s_get (meq false) k ps = None). apply s_get_none. intros x hx. cbn.
      apply in_map_iff in hx as [p [<- hx]]. rewrite eql_sym. rewrite packed_eql by auto.
      destruct (same (fst p) k) eqn:S; auto. rewrite (packed_same (fst p) k) in P; auto.
Qed.
Lemma id_pos_lt k ps i : id_pos same k ps = Some i -> exists p, nth_error (ps : list (K * V)) i = Some p /\ same (fst p) k = true.
Proof.
  revert i. induction ps as [|[a b] ps IH]; cbn; intros i h; [discriminate|].
  destruct (same a k) eqn:E; [inversion h; subst; cbn; eauto|].
  destruct (id_pos same k ps) as [j|]; [|discriminate]. inversion h; subst. cbn. auto.
Qed.
Lemma inline_pos_lt f k (ps : list (K * V)) i : inline_pos packed same f k ps = Some i ->
  exists p, nth_error ps i = Some p /\ same (fst p) k = true.
Proof. unfold inline_pos. destruct (_ && _); [discriminate|]. apply id_pos_lt. Qed.

(** First-match update and removal on a pair list. *)
Lemma s_put_at id k v (ps : list (K * V)) i p : dis id (map fst ps) -> nth_error ps i = Some p -> meq id k (fst p) = true ->
  s_put (meq id) k v ps = firstn i ps ++ (fst p, v) :: skipn (S i) ps.
Proof.
  revert i. induction ps as [|[a b] ps IH]; intros i d n e; [destruct i; discriminate|].
  inversion d as [|? ? d1 d2]; subst. destruct i; cbn in *.
  - inversion n; subst. cbn in *. rewrite e. reflexivity.
  - assert (meq id k a = false).
    { destruct (meq id k a) eqn:E; auto. rewrite Forall_forall in d1. rewrite <- (d1 (fst p)).
      - symmetry. apply meq_trans with k; auto. now rewrite meq_sym.
      - apply in_map. eapply nth_error_In; eauto. }
    rewrite H. f_equal. apply IH; auto.
Qed.
Lemma s_delete_at id k (ps : list (K * V)) i p : dis id (map fst ps) -> nth_error ps i = Some p -> meq id k (fst p) = true ->
  s_delete (meq id) k ps = firstn i ps ++ skipn (S i) ps.
Proof.
  unfold s_delete. revert i. induction ps as [|[a b] ps IH]; intros i d n e; [destruct i; discriminate|].
  inversion d as [|? ? d1 d2]; subst. rewrite Forall_forall in d1. destruct i; cbn in *.
  - inversion n; subst. cbn in *. rewrite e. cbn. apply filter_id. intros x hx.
    destruct (meq id k (fst x)) eqn:E; auto. exfalso.
    assert (meq id a (fst x) = true) by (apply meq_trans with k; auto; now rewrite meq_sym).
    rewrite (d1 (fst x)) in H by (apply in_map; auto). discriminate.
  - assert (meq id k a = false).
    { destruct (meq id k a) eqn:E; auto. rewrite <- (d1 (fst p)).
      - symmetry. apply meq_trans with k; auto. now rewrite meq_sym.
      - apply in_map. eapply nth_error_In; eauto. }
    rewrite H. cbn. f_equal. apply IH; auto.
Qed.
Lemma s_delete_none id k (ps : list (K * V)) : s_get (meq id) k ps = None -> s_delete (meq id) k ps = ps.
Proof.
  rewrite s_get_none. intro h. apply filter_id. intros x hx. rewrite h; auto. apply in_map; auto.
Qed.

Lemma raw_inl (ps : list (K * V)) : raw (Inl ps : body K V D) = map so ps. Proof. reflexivity. Qed.
Lemma lives_inl (ps : list (K * V)) : lives (raw (Inl ps : body K V D)) = ps. Proof. apply lives_so. Qed.
Lemma lives_box id m d lev dead : lives (raw (Box id m d lev dead : body K V D)) = labs m. Proof. reflexivity. Qed.
Lemma keys_inl (ps : list (K * V)) : map fst (raw (Inl ps : body K V D)) = map Some (map fst ps).
Proof. cbn. rewrite !map_map. reflexivity. Qed.
Lemma keys_box id m d lev dead : map fst (raw (Box id m d lev dead : body K V D)) = map bk (ents m).
Proof. cbn. rewrite map_map. reflexivity. Qed.

(** The cursors only look at the keys by position. *)
Lemma cur_keys b b' cs its : map fst (raw b) = map fst (raw b') -> Forall2 (cur b) cs its -> Forall2 (cur b') cs its.
Proof. intros e h. induction h; constructor; auto. unfold cur in *. rewrite <- e. exact H. Qed.

(** [promote] keeps everything observable. *)
Lemma promote_ok h cs s ps : bd h = Inl ps -> R (h, cs) s ->
  exists m, promote (D:=D) eql same hv hi vis ins grow (f_ident (fl h)) ps (fl h)
    = Some (Ob (F 0 false) (Box (h_ident s) m None (level h) 0))
  /\ R (Ob (F 0 false) (Box (h_ident s) m None (level h) 0), cs) s.
Proof.
  intros hb [l d c b n sh]. cbn in *. unfold shape in sh. rewrite hb in *. destruct sh as (s1 & s2 & s3 & s4 & s5).
  rewrite lives_inl in l. unfold promote. rewrite s2.
  destruct (m_insert_all_ok (h_ident s) ps c_new (inv_new _)) as (m & e & i & E).
  { cbn. rewrite l. exact d. }
  rewrite e. exists m. cbn in E.
  assert (K1 : map fst (raw (Inl ps : body K V D)) = map fst (raw (Box (h_ident s) m None (level h) 0 : body K V D))).
  { cbn [raw]. rewrite E. reflexivity. }
  split; [unfold level; rewrite hb; reflexivity|]. constructor; cbn [fst snd fl bd]; auto.
  - cbn [raw]. rewrite E, <- l. apply lives_so.
  - eapply cur_keys; eauto.
  - unfold shape. cbn [bd fl]. sp; auto; try exact i. symmetry. apply clean_dead.
    apply Forall_forall. intros x hx. apply (in_map kv) in hx. rewrite E in hx.
    apply in_map_iff in hx as [p [hp _]]. destruct x; cbn in *. inversion hp; subst. reflexivity.
Qed.

Lemma boxed_ok h cs s : R (h, cs) s ->
  exists m d dead, boxed eql same hv hi vis ins grow h = Some (Ob (F 0 false) (Box (h_ident s) m d (level h) dead))
  /\ R (Ob (F 0 false) (Box (h_ident s) m d (level h) dead), cs) s.
Proof.
  intro r. unfold boxed. destruct (bd h) as [ps|id m d lev dead] eqn:hb.
  - destruct (promote_ok h cs s ps hb r) as (m & e & r'). eauto 10.
  - pose proof (r_s _ _ r) as sh. cbn in sh. unfold shape in sh. rewrite hb in sh. destruct sh as (-> & e & s3 & s4 & s5).
    exists m, d, dead. unfold level. rewrite hb.
    assert (hh : h = Ob (F 0 false) (Box (h_ident s) m d lev dead)) by (destruct h; cbn in *; congruence).
    rewrite <- hh. auto.
Qed.

(** Compaction outside iterations. *)
Lemma compact_if_dirty_ok h s : R (h, []) s ->
  exists h', compact_if_dirty ins grow h = Some h' /\ R (h', []) s
    /\ match bd h, bd h' with
       | Inl ps, b => h' = h
       | Box id m d lev dead, Box id' m' d' lev' dead' => id' = id /\ clean isdead (ents m') /\ dead' = 0 /\ lev' = lev
       | _, _ => False
       end.
Proof.
  intro r. unfold compact_if_dirty. destruct (bd h) as [ps|id m d lev dead] eqn:hb.
  - exists h. auto.
  - pose proof r as [l di c b n sh]. cbn in *. unfold shape in sh. rewrite hb in *. destruct sh as (-> & s2 & s3 & s4 & s5).
    destruct (dead =? 0) eqn:E0.
    + apply Nat.eqb_eq in E0. exists h. rewrite hb. sp; auto. apply dead_clean. congruence.
    + destruct (compact_ok ins ins_perm grow grow_ge (keq (h_ident s)) (kh (h_ident s)) isdead m s4) as (m' & e & i & E & cl).
      rewrite e. eexists. split; [reflexivity|]. split.
      * constructor; cbn [fst snd bd fl]; auto.
        -- rewrite <- l. cbn [raw]. rewrite E. clear. unfold lives. induction (ents m) as [|[h [k|] v] es IH]; cbn in *; congruence.
        -- inversion c; subst. constructor.
        -- unfold level in *. rewrite hb in n. exact n.
        -- unfold shape. cbn [bd fl]. sp; auto; try exact i. symmetry. now apply clean_dead.
      * cbn. auto.
Qed.

(** Look-ups. *)
Lemma get_ok h cs s k : R (h, cs) s ->
  h_get packed eql same hv hi vis k h = option_map snd (s_get (meq (h_ident s)) k (h_ents s))
  /\ contains_key packed eql same hv hi vis k h = match s_get (meq (h_ident s)) k (h_ents s) with Some _ => true | None => false end.
Proof.
  intros [l d c b n sh]. cbn in *. unfold h_get, contains_key, shape in *.
  destruct (bd h) as [ps|id m dd lev dead].
  - destruct sh as (s1 & s2 & s3 & s4 & s5). rewrite lives_inl in l. subst ps. rewrite <- s2 in s4.
    pose proof (inline_pos_get (fl h) k (h_ents s) s4) as E. rewrite s2 in E. rewrite <- E.
    destruct (inline_pos packed same (fl h) k (h_ents s)) as [i|] eqn:P; [|auto].
    apply inline_pos_lt in P as (p & P & _). rewrite P. auto.
  - destruct sh as (-> & s2 & s3 & s4 & s5). rewrite lives_box in l. rewrite m_find_ok by auto.
    pose proof (pos_get (h_ident s) k m) as pg. rewrite l in pg.
    destruct (pos (keq (h_ident s)) (Some k) (ents m)) as [i|] eqn:P.
    + apply pos_some in P as (x & P & _). rewrite P in *. cbn in *. destruct (s_get _ _ _); [|discriminate].
      cbn in *. inversion pg; subst. auto.
    + destruct (s_get _ _ _); [discriminate|auto].
Qed.

Lemma box_insert_ok f id m d lev dead cs s k v :
  R (Ob f (Box id m d lev dead), cs) s ->
  (h_iters s = [] -> dead = 0) ->
  (h_iters s <> [] -> s_get (meq id) k (h_ents s) <> None) ->
  exists h', box_insert eql same hv hi vis ins grow k v (Ob f (Box id m d lev dead)) = Some h'
    /\ R (h', cs) (HS (s_put (meq (h_ident s)) k v (h_ents s)) (h_ident s) (h_dflt s) (h_iters s)).
Proof.
  intros [l di c b n sh] h0 hp. cbn in *. unfold shape in sh. cbn in sh. destruct sh as (-> & s2 & s3 & s4 & s5).
  destruct (m_insert_ok (h_ident s) k v m s4) as (m' & e & i & E & E1 & E2). unfold box_insert. cbn. rewrite e.
  eexists. split; [reflexivity|]. match type of l with lives (map kv (ents ?x)) = _ => change (labs x = h_ents s) in l end. rewrite l in *.
  constructor; cbn [fst snd bd fl h_ents h_ident h_dflt h_iters]; auto.
  - apply put_dis. exact di.
  - destruct (h_iters s) as [|x its] eqn:I; [inversion c; constructor|].
    eapply cur_keys; [|exact c]. cbn. rewrite !map_map. symmetry. apply E1. apply hp. discriminate.
  - unfold shape. cbn. sp; auto; try exact i. rewrite s5.
    destruct (s_get (meq (h_ident s)) k (h_ents s)) eqn:G.
    + rewrite E1 by congruence. reflexivity.
    + rewrite <- !keys_box with (id := true) (d := @None D) (lev := 0%N) (dead := 0). cbn [raw]. rewrite E2 by auto.
      rewrite map_app, filter_app, app_length. cbn. lia.
Qed.

Definition raises (s : hst K V D) (k : K) : bool :=
  match h_iters s with [] => false | _ => match s_get (meq (h_ident s)) k (h_ents s) with Some _ => false | None => true end end.
Lemma insert_ok h cs s k v : R (h, cs) s ->
  exists h', insert packed eql same hv hi vis ins grow k v h =
     Some (h', raises s k)
  /\ R (h', cs) (if raises s k
                 then s else HS (s_put (meq (h_ident s)) k v (h_ents s)) (h_ident s) (h_dflt s) (h_iters s)).
Proof.
  intro r.
  assert (exists h1, (if iter_active h then Some h else compact_if_dirty ins grow h) = Some h1 /\ R (h1, cs) s
     /\ (h_iters s = [] -> match bd h1 with Box _ _ _ _ dead => dead = 0 | _ => True end)) as (h1 & e1 & r1 & z1).
  { pose proof (active_ok _ _ _ r) as a. destruct (h_iters s) eqn:I; rewrite a.
    - pose proof (r_c _ _ r) as c. cbn in c. rewrite I in c. inversion c; subst.
      destruct (compact_if_dirty_ok h s r) as (h' & e & r' & x). exists h'. sp; auto.
      intros _. destruct (bd h) eqn:B; [subst h'; rewrite B; constructor|].
      destruct (bd h'); [constructor|]. tauto.
    - exists h. sp; auto. discriminate. }
  unfold insert. rewrite e1. pose proof (active_ok _ _ _ r1) as a1. destruct (get_ok _ _ _ k r1) as [_ ck].
  rewrite a1, ck. clear h r e1 a1 ck.
  replace (match h_iters s with [] => false | _ => true end && negb _) with (raises s k).
  2:{ unfold raises. destruct (h_iters s); [reflexivity|]. destruct (s_get _ _ _); reflexivity. }
  destruct (raises s k) eqn:Ra; [eauto|].
  assert (hp : h_iters s <> [] -> s_get (meq (h_ident s)) k (h_ents s) <> None).
  { unfold raises in Ra. destruct (h_iters s); [congruence|]. destruct (s_get _ _ _); congruence. }
  clear Ra. unfold insert_body. destruct (bd h1) as [ps|id m d lev dead] eqn:B.
  - pose proof r1 as [l di c b n sh]. cbn in *. unfold shape in sh. rewrite B in *. destruct sh as (s1 & s2 & s3 & s4 & s5).
    rewrite lives_inl in l. subst ps. assert (s4' := s4). rewrite <- s2 in s4'.
    pose proof (inline_pos_get (fl h1) k (h_ents s) s4') as G. rewrite s2 in G.
    destruct (inline_pos packed same (fl h1) k (h_ents s)) as [i|] eqn:P.
    + apply inline_pos_lt in P as (p & P & hs). rewrite P in G. eexists. split; [reflexivity|].
      assert (hm : meq (h_ident s) k (fst p) = true).
      { destruct (h_ident s); cbn; [now rewrite same_sym|]. apply same_eql. now rewrite same_sym. }
      rewrite (s_put_at _ k v _ i p di P hm). unfold set_nth. rewrite P.
      assert (Kk : map fst (firstn i (h_ents s) ++ (fst p, v) :: skipn (S i) (h_ents s)) = map fst (h_ents s)).
      { rewrite (split_nth _ _ _ P) at 3. rewrite !map_app. reflexivity. }
      constructor; cbn [fst snd bd fl h_ents h_ident h_dflt h_iters]; auto.
      * apply lives_inl.
      * rewrite Kk. exact di.
      * eapply cur_keys; [|exact c]. rewrite !keys_inl, Kk. reflexivity.
      * unfold level in *. rewrite B in n. exact n.
      * unfold shape. cbn [bd fl h_ents h_ident h_dflt h_iters]. sp; auto.
        -- rewrite <- (map_length fst), Kk, map_length. exact s1.
        -- intro z. specialize (s4 z). rewrite Forall_forall in *. intros q hq. apply (in_map fst) in hq.
           rewrite Kk in hq. apply in_map_iff in hq as [q' [<- hq]]. auto.
    + assert (G' : s_get (meq (h_ident s)) k (h_ents s) = None) by auto.
      assert (I : h_iters s = []) by (destruct (h_iters s); auto; exfalso; apply hp; [discriminate|auto]).
      destruct ((f_ident (fl h1) || packed k) && (length (h_ents s) <? INLINE_CAP)) eqn:Q.
      * apply andb_true_iff in Q as [Q1 Q2]. apply Nat.ltb_lt in Q2. eexists. split; [reflexivity|].
        rewrite s_put_absent by auto.
        constructor; cbn [fst snd bd fl h_ents h_ident h_dflt h_iters]; auto.
        -- apply lives_inl.
        -- rewrite <- (s_put_absent (h_ident s)) by auto. apply put_dis. exact di.
        -- rewrite I in *. inversion c. constructor.
        -- unfold level in *. rewrite B in n. exact n.
        -- unfold shape. cbn [bd fl h_ents h_ident h_dflt h_iters]. sp; auto.
           ++ rewrite app_length. cbn. unfold INLINE_CAP in Q2. lia.
           ++ intro z. apply Forall_app. split; auto. constructor; auto. cbn. rewrite s2, z in Q1. exact Q1.
      * destruct (promote_ok h1 cs s (h_ents s) B r1) as (m & e & r2). rewrite e.
        destruct (box_insert_ok _ _ _ _ _ _ _ _ k v r2) as (h' & e' & r').
        -- auto.
        -- intro z. congruence.
        -- rewrite e'. cbn. eauto.
  - assert (hh : h1 = Ob (fl h1) (Box id m d lev dead)) by (destruct h1; cbn in *; congruence).
    pose proof (r_s _ _ r1) as sh. cbn in sh. unfold shape in sh. rewrite B in sh. destruct sh as (id_ & _).
    rewrite hh in r1. destruct (box_insert_ok _ _ _ _ _ _ _ _ k v r1 z1) as (h' & e' & r').
    + rewrite id_. exact hp.
    + rewrite hh, e'. cbn. eauto.
Qed.

(** Deletion. *)
Lemma forget_cur id k (b b' : body K V D) cs its :
  (forall j, rk (skipn j (map fst (raw b'))) = forget eql same id k (rk (skipn j (map fst (raw b))))) ->
  Forall2 (cur b) cs its -> Forall2 (cur b') cs (map (forget eql same id k) its).
Proof. intros e h. induction h; cbn; constructor; auto. unfold cur in *. rewrite e, H. reflexivity. Qed.

Lemma remove_ok h cs s k : R (h, cs) s ->
  exists h', remove packed eql same hv hi vis ins grow nilv k h =
     Some (h', option_map snd (s_get (meq (h_ident s)) k (h_ents s)))
  /\ R (h', cs) (HS (s_delete (meq (h_ident s)) k (h_ents s)) (h_ident s) (h_dflt s) (map (forget eql same (h_ident s) k) (h_iters s))).
Proof.
  intro r. unfold remove. rewrite (active_ok _ _ _ r). destruct (h_iters s) as [|x its] eqn:I.
  - pose proof (r_c _ _ r) as c0. cbn in c0. rewrite I in c0. inversion c0; subst cs.
    destruct (bd h) as [ps|id m d lev dead] eqn:B.
    + pose proof r as [l di c b n sh]. cbn in *. unfold shape in sh. rewrite B in *. destruct sh as (s1 & s2 & s3 & s4 & s5).
      rewrite lives_inl in l. subst ps. assert (s4' := s4). rewrite <- s2 in s4'.
      pose proof (inline_pos_get (fl h) k (h_ents s) s4') as G. rewrite s2 in G.
      destruct (inline_pos packed same (fl h) k (h_ents s)) as [i|] eqn:P.
      * apply inline_pos_lt in P as (p & P & hs). rewrite P in *.
        assert (hm : meq (h_ident s) k (fst p) = true).
        { destruct (h_ident s); cbn; [now rewrite same_sym|]. apply same_eql. now rewrite same_sym. }
        eexists. rewrite <- G. split; [reflexivity|].
        constructor; cbn [fst snd bd fl h_ents h_ident h_dflt h_iters]; auto.
        -- rewrite lives_inl. symmetry. apply s_delete_at with p; auto.
        -- apply delete_dis; auto.
        -- unfold level in *. rewrite B in n. exact n.
        -- unfold shape. cbn [bd fl h_ents h_ident h_dflt h_iters]. unfold inline_remove_at.
           assert (i < length (h_ents s)) by (apply nth_error_Some; congruence).
           sp; auto.
           ++ rewrite app_length, firstn_length, skipn_length. lia.
           ++ intro z. specialize (s4 z). apply Forall_app. split; [apply Forall_firstn_|apply Forall_skipn_]; auto.
      * rewrite <- G. eexists. split; [reflexivity|]. rewrite s_delete_none by auto.
        destruct s; cbn in *. subst. exact r.
    + destruct (compact_if_dirty_ok h s r) as (h' & e & r' & x). rewrite e. rewrite B in x.
      destruct h' as [f [|id' m' d' lev' dead']]; cbn in x; [tauto|]. destruct x as (-> & cl & -> & ->).
      pose proof r' as [l di c b n sh]. cbn in *. unfold shape in sh. cbn in sh. destruct sh as (-> & s2 & s3 & s4 & s5).
      match type of l with lives (map kv (ents ?x)) = _ => change (labs x = h_ents s) in l end.
      destruct (shift_remove_full_ok vis vis_refl (keq (h_ident s)) (kh (h_ident s)) isdead (keq_live _) (keq_sym _) (keq_trans _) (keq_hash _) (Some k) m' s4 cl)
        as (m2 & e2 & i2 & E2).
      unfold m_remove. rewrite e2. cbn. pose proof (pos_get (h_ident s) k m') as pg. rewrite l in pg.
      eexists. split.
      * f_equal. f_equal. destruct (pos (keq (h_ident s)) (Some k) (ents m')) as [p|].
        -- destruct (nth_error (ents m') p) as [[]|]; destruct (s_get _ _ _) as [[]|]; cbn in *; unfold kv, so in *; cbn in *; congruence.
        -- destruct (s_get _ _ _); cbn in *; congruence.
      * constructor; cbn [fst snd bd fl h_ents h_ident h_dflt h_iters]; auto.
        -- rewrite lives_box. apply absl_inj. rewrite E2. destruct s4 as (_ & _ & dst & _).
           rewrite (delete_abs (keq (h_ident s)) isdead (keq_live _) (keq_sym _) (keq_trans _) (Some k) (ents m') dst).
           rewrite absl_labs, l, s_delete_so. reflexivity.
        -- apply delete_dis; auto.
        -- unfold shape. cbn. sp; auto; try exact i2. symmetry. apply clean_dead. rewrite E2.
           destruct (pos _ _ _); auto. apply sub_remove. exact cl.
  - destruct (boxed_ok h cs s r) as (m & d & dead & e & r'). rewrite e. clear r e. generalize dependent (level h). intros lev r'. clear h.
    pose proof r' as [l di c b n sh]. cbn in *. unfold shape in sh. cbn in sh. destruct sh as (_ & s2 & s3 & s4 & s5).
    match type of l with lives (map kv (ents ?x)) = _ => change (labs x = h_ents s) in l end. rewrite <- l in di.
    destruct (m_tomb_ok (h_ident s) k m s4 di) as (m' & e & i & E1 & E2 & E3). rewrite e, l. rewrite l in *.
    destruct (s_get (meq (h_ident s)) k (h_ents s)) as [p|] eqn:G; cbn.
    + eexists. split; [reflexivity|]. constructor; cbn [fst snd bd fl h_ents h_ident h_dflt h_iters]; auto.
      * apply delete_dis; auto.
      * rewrite I in c. change (forget eql same (h_ident s) k x :: map (forget eql same (h_ident s) k) its) with (map (forget eql same (h_ident s) k) (x :: its)).
        eapply forget_cur; [|exact c]. intro j. rewrite !keys_box. apply E2.
      * unfold shape. cbn. sp; auto; try exact i. rewrite E3, s5. reflexivity.
    + eexists. split; [reflexivity|]. constructor; cbn [fst snd bd fl h_ents h_ident h_dflt h_iters]; auto.
      * apply delete_dis; auto.
      * rewrite I in c. change (forget eql same (h_ident s) k x :: map (forget eql same (h_ident s) k) its) with (map (forget eql same (h_ident s) k) (x :: its)).
        eapply forget_cur; [|exact c]. intro j. rewrite !keys_box. apply E2.
      * unfold shape. cbn. sp; auto; try exact i. rewrite E3, s5. reflexivity.
Qed.

Lemma dis_weaken (l : list K) : dis false l -> dis true l.
Proof.
  apply fop_imp. intros x y e. cbn in *. destruct (same x y) eqn:E; auto. rewrite (same_eql _ _ E) in e. discriminate.
Qed.

Ltac rfin := match goal with
  | |- Forall2 _ [] [] => constructor
  | |- ForallOrdPairs _ (map fst []) => constructor
  | |- b3 _ => first [assumption | intros ? ? _ q; apply nth_error_In in q; destruct q]
  | |- shape _ _ => unfold shape; cbn [bd fl h_ents h_ident h_dflt h_iters f_iter f_ident]; sp; auto;
      try (cbn; lia); try discriminate; try (intro; discriminate); try (intros _; constructor)
  | |- _ => auto end.
(** Clear. *)
Lemma clear_ok' h s : R (h, []) s -> h_iters s = [] ->
  exists h', h_clear h = (h', false) /\ R (h', []) (HS [] (h_ident s) (h_dflt s) []).
Proof.
  intros r I. pose proof (active_ok _ _ _ r) as a. rewrite I in a. unfold h_clear. rewrite a.
  pose proof r as [l di c b n sh]. cbn in *. unfold shape, level in *.
  destruct (bd h) as [ps|id m d lev dead] eqn:B.
  - destruct sh as (s1 & s2 & s3 & s4 & s5). eexists. split; [reflexivity|].
    constructor; cbn [fst snd bd fl h_ents h_ident h_dflt h_iters]; rfin.
  - destruct sh as (-> & s2 & s3 & s4 & s5). destruct d as [d|].
    + eexists. split; [reflexivity|].
      constructor; cbn [fst snd bd fl h_ents h_ident h_dflt h_iters]; rfin.
      apply MapProofs.clear_ok.
    + eexists. split; [reflexivity|]. rewrite s2. cbn [f_iter f_ident].
      constructor; cbn [fst snd bd fl h_ents h_ident h_dflt h_iters]; rfin.
      destruct (h_ident s); reflexivity.
Qed.

Lemma by_identity_ok h s : R (h, []) s -> h_iters s = [] ->
  exists h', by_identity eql same hv hi vis ins grow h = Some (h', false) /\ R (h', []) (HS (h_ents s) true (h_dflt s) []).
Proof.
  intros r I. pose proof (active_ok _ _ _ r) as a. rewrite I in a. unfold by_identity. rewrite a. clear a.
  destruct (compact_if_dirty_ok h s r) as (h1 & e & r1 & x). rewrite e.
  assert (dd : dis true (map fst (h_ents s))).
  { pose proof (r_d _ _ r). destruct (h_ident s); auto. now apply dis_weaken. }
  destruct h1 as [f [ps|id m d lev dead]]; pose proof r1 as [l di c b n sh]; cbn in *; unfold shape, level in *; cbn in *.
  - destruct sh as (s1 & s2 & s3 & s4 & s5). eexists. split; [reflexivity|].
    constructor; cbn [fst snd bd fl h_ents h_ident h_dflt h_iters]; rfin.
  - destruct sh as (-> & s2 & s3 & s4 & s5).
    assert (cl : clean isdead (ents m) /\ dead = 0).
    { destruct (bd h) as [|? ? ? ? ?] eqn:B; [|tauto]. subst h. discriminate. }
    destruct cl as [cl ->].
    destruct (h_ident s) eqn:Id.
    + eexists. split; [reflexivity|].
      constructor; cbn [fst snd bd fl h_ents h_ident h_dflt h_iters]; rfin.
    + match type of l with lives (map kv (ents ?x)) = _ => change (labs x = h_ents s) in l end.
      destruct (m_insert_all_ok true (labs m) c_new (inv_new _)) as (m' & e' & i' & E').
      { cbn. rewrite l. exact dd. }
      change (lives (map kv (ents m))) with (labs m). rewrite e'. eexists. split; [reflexivity|]. cbn in E'.
      constructor; cbn [fst snd bd fl h_ents h_ident h_dflt h_iters]; rfin.
      * cbn. rewrite E'. rewrite <- l. apply lives_so.
      * symmetry. apply clean_dead.
        apply Forall_forall. intros y hy. apply (in_map kv) in hy. rewrite E' in hy.
        apply in_map_iff in hy as [p [hp _]]. destruct y; cbn in *. inversion hp; subst. reflexivity.
Qed.

Lemma set_default_ok h cs s d : R (h, cs) s ->
  exists h', set_default eql same hv hi vis ins grow d h = Some h' /\ R (h', cs) (HS (h_ents s) (h_ident s) d (h_iters s)).
Proof.
  intro r. unfold set_default. destruct d as [d|].
  - destruct (boxed_ok h cs s r) as (m & d0 & dead & e & r'). rewrite e. eexists. split; [reflexivity|].
    destruct r' as [l di c b n sh]. cbn in *. unfold shape in sh. cbn in sh. destruct sh as (s1 & s2 & s3 & s4 & s5).
    constructor; cbn [fst snd bd fl h_ents h_ident h_dflt h_iters]; auto.
    unfold shape. cbn. sp; auto.
  - eexists. split; [reflexivity|]. destruct r as [l di c b n sh]. cbn in *. unfold shape, level in *.
    destruct (bd h) as [ps|id m d lev dead] eqn:B.
    + destruct sh as (s1 & s2 & s3 & s4 & s5).
      constructor; cbn [fst snd bd fl h_ents h_ident h_dflt h_iters]; unfold level, shape; rewrite ?B; auto.
    + destruct sh as (s1 & s2 & s3 & s4 & s5).
      constructor; cbn [fst snd bd fl h_ents h_ident h_dflt h_iters]; auto.
      unfold shape; cbn. sp; auto.
Qed.

Lemma dup_ok h cs s : R (h, cs) s ->
  exists h', h_dup ins grow h = Some h' /\ R (h', []) (HS (h_ents s) (h_ident s) (h_dflt s) []).
Proof.
  intros [l di c b n sh]. cbn in *. unfold shape, h_dup in *. destruct (bd h) as [ps|id m d lev dead] eqn:B.
  - destruct sh as (s1 & s2 & s3 & s4 & s5). eexists. split; [reflexivity|].
    constructor; cbn [fst snd bd fl h_ents h_ident h_dflt h_iters]; rfin.
  - destruct sh as (-> & s2 & s3 & s4 & s5). rewrite s2. cbn [f_ident]. destruct (dead =? 0) eqn:E0.
    + apply Nat.eqb_eq in E0. eexists. split; [reflexivity|].
      constructor; cbn [fst snd bd fl h_ents h_ident h_dflt h_iters]; rfin.
    + destruct (compact_ok ins ins_perm grow grow_ge (keq (h_ident s)) (kh (h_ident s)) isdead m s4) as (m' & e & i & E & cl).
      rewrite e. eexists. split; [reflexivity|].
      constructor; cbn [fst snd bd fl h_ents h_ident h_dflt h_iters]; rfin.
      * rewrite <- l. cbn [raw]. rewrite E. clear. unfold lives. induction (ents m) as [|[h [k|] v] es IH]; cbn in *; congruence.
      * symmetry. now apply clean_dead.
Qed.

(** Size. *)
Lemma len_ok h cs s : R (h, cs) s -> h_len h = length (h_ents s).
Proof.
  intros [l di c b n sh]. cbn in *. rewrite <- l. unfold shape, h_len in *. destruct (bd h) as [ps|id m d lev dead].
  - now rewrite lives_inl.
  - destruct sh as (_ & _ & _ & _ & ->). cbn [raw]. pose proof (dead_len (ents m)). lia.
Qed.

(** The first live entry. *)
Lemma lives_app a b : lives (a ++ b) = lives a ++ (lives b : list (K * V)).
Proof. apply flat_map_app. Qed.
Lemma first_live_ok (r : list (option K * V)) :
  match first_live r with
  | Some i => exists k v, nth_error r i = Some (Some k, v) /\ lives (firstn i r) = []
                /\ lives r = (k, v) :: lives (skipn (S i) r)
  | None => lives r = []
  end.
Proof.
  unfold lives. induction r as [|[[k|] v] r IH]; cbn.
  - reflexivity.
  - exists k, v. auto.
  - destruct (first_live r) as [i|]; cbn; auto.
Qed.

Lemma shift_ok h cs s : R (h, cs) s ->
  exists h', h_shift eql same hv hi vis ins grow nilv h = Some (h', hd_error (h_ents s))
   /\ R (h', cs) (match h_ents s with
                  | [] => s
                  | p :: l' => HS l' (h_ident s) (h_dflt s) (map (forget eql same (h_ident s) (fst p)) (h_iters s))
                  end).
Proof.
  intro r. unfold h_shift. rewrite (len_ok _ _ _ r). destruct (h_ents s) as [|p l'] eqn:E.
  { cbn. exists h. auto. }
  cbn [length Nat.eqb hd_error]. rewrite (active_ok _ _ _ r). destruct (h_iters s) as [|x its] eqn:I.
  - pose proof (r_c _ _ r) as c0. cbn in c0. rewrite I in c0. inversion c0; subst cs. clear c0. cbn [map].
    destruct (bd h) as [ps|id m d lev dead] eqn:B.
    + pose proof r as [l di c b n sh]. cbn in *. unfold shape, level in *. rewrite B in *.
      destruct sh as (s1 & s2 & s3 & s4 & s5). rewrite lives_inl in l. rewrite E in *. subst ps.
      eexists. split; [reflexivity|]. cbn [map] in di. inversion di; subst.
      constructor; cbn [fst snd bd fl h_ents h_ident h_dflt h_iters]; rfin.
      * apply lives_inl.
      * cbn in *. lia.
      * intro z. specialize (s4 z). inversion s4; auto.
    + destruct (compact_if_dirty_ok h s r) as (h' & e & r' & x). rewrite e. rewrite B in x.
      destruct h' as [f [|id' m' d' lev' dead']]; cbn in x; [tauto|]. destruct x as (-> & cl & -> & ->).
      pose proof r' as [l di c b n sh]. cbn in *. unfold shape in sh. cbn in sh. destruct sh as (-> & s2 & s3 & s4 & s5).
      destruct (shift_remove_index_ok vis vis_refl (keq (h_ident s)) (kh (h_ident s)) isdead 0 m' s4 cl) as (m2 & e2 & i2 & E2).
      rewrite e2. rewrite E in *. destruct (ents m') as [|[hh [k|] v] es] eqn:EM.
      * discriminate.
      * cbn in l. change (lives ((Some k, v) :: map kv es)) with ((k, v) :: lives (map kv es)) in l. inversion l; subst p l'.
        cbn. eexists. split; [reflexivity|]. cbn in E2. inversion cl; subst. cbn in di. inversion di; subst.
        constructor; cbn [fst snd bd fl h_ents h_ident h_dflt h_iters]; rfin.
        all: try (symmetry; apply clean_dead; rewrite E2; assumption).
      * inversion cl. discriminate.
  - destruct (boxed_ok h cs s r) as (m & d & dead & e & r'). rewrite e. clear r e. generalize dependent (level h). intros lev r'. clear h.
    pose proof r' as [l di c b n sh]. cbn in *. unfold shape in sh. cbn in sh. destruct sh as (_ & s2 & s3 & s4 & s5).
    pose proof (first_live_ok (map kv (ents m))) as F. destruct (first_live (map kv (ents m))) as [i|].
    2:{ rewrite F, E in l. discriminate. }
    destruct F as (k & v & N & F1 & F2). rewrite F2, E in l. inversion l; subst p l'. cbn [fst snd] in *.
    rewrite nth_error_map in N. destruct (nth_error (ents m) i) as [bb|] eqn:NB; [|discriminate].
    destruct bb as [hh k0 v0]. cbn in N. inversion N; subst k0 v0.
    destruct (tombstone_index_ok vis vis_refl ins ins_perm grow grow_ge (keq (h_ident s)) (kh (h_ident s)) isdead
      (keq_live _) (keq_sym _) (None : option K) nilv eq_refl i m _ s4 NB eq_refl) as (m' & e & i' & E').
    rewrite e. cbn [kv bk bv]. eexists. split; [reflexivity|].
    unfold set_kv in E'. rewrite NB in E'. cbn in E'.
    assert (SP := split_nth _ _ _ NB).
    assert (Km : rk (map bk (ents m)) = map fst (h_ents s)).
    { transitivity (map fst (lives (map kv (ents m)))); [rewrite <- rk_lives, map_map; reflexivity|]. rewrite F2, E. reflexivity. }
    constructor; cbn [fst snd bd fl h_ents h_ident h_dflt h_iters]; rfin.
    + cbn [raw]. rewrite E', map_app, lives_app. cbn [map]. rewrite firstn_map in F1. rewrite F1. destruct (ents m); cbn; [reflexivity|]. rewrite skipn_map. reflexivity.
    + rewrite E in di. cbn in di. inversion di; auto.
    + rewrite I in c. change (forget eql same (h_ident s) k x :: map (forget eql same (h_ident s) k) its) with (map (forget eql same (h_ident s) k) (x :: its)).
      eapply forget_cur; [|exact c]. intro j. rewrite !keys_box.
      change (match ents m with [] => [] | _ :: l => skipn i l end) with (skipn (S i) (ents m)) in E'.
      rewrite E'. rewrite SP at 3. rewrite !map_app. cbn [map bk]. apply rk_tomb.
      * rewrite <- Km, SP, map_app in di. cbn in di. exact di.
      * apply meq_refl.
    + rewrite E', s5. change (match ents m with [] => [] | _ :: l => skipn i l end) with (skipn (S i) (ents m)).
      rewrite SP at 1. rewrite !map_app, !filter_app, !app_length. cbn [map filter isdead HashModel.isdead bk length]. lia.
Qed.

(** Iterations. *)
Lemma F2_length {A B} (P : A -> B -> Prop) l l' : Forall2 P l l' -> length l = length l'.
Proof. induction 1; cbn; congruence. Qed.
Lemma F2_nth {A B} (P : A -> B -> Prop) l l' i : Forall2 P l l' ->
  match nth_error l i, nth_error l' i with Some a, Some b => P a b | None, None => True | _, _ => False end.
Proof. intro h. revert i. induction h; destruct i; cbn; auto. apply IHh. Qed.
Lemma F2_replace {A B} (P : A -> B -> Prop) l l' i a b : Forall2 P l l' -> P a b -> Forall2 P (replace_at i a l) (replace_at i b l').
Proof. intro h. revert i. induction h; destruct i; cbn; intros; constructor; auto. Qed.
Lemma F2_remove {A B} (P : A -> B -> Prop) l l' i : Forall2 P l l' -> Forall2 P (remove_at i l) (remove_at i l').
Proof. intro h. revert i. induction h; destruct i; cbn; intros; auto. Qed.
Lemma map_replace {A B} (f : A -> B) l i a b : nth_error l i = Some b -> f a = f b -> map f (replace_at i a l) = map f l.
Proof. revert i. induction l; destruct i; cbn; intros; try congruence. f_equal. auto. Qed.
Lemma map_remove {A B} (f : A -> B) l i : map f (remove_at i l) = remove_at i (map f l).
Proof. revert i. induction l; destruct i; cbn; intros; try congruence. Qed.
Lemma s_get_in id k v (l : list (K * V)) : dis id (map fst l) -> In (k, v) l -> s_get (meq id) k l = Some (k, v).
Proof.
  unfold s_get. induction l as [|[a b] l IH]; cbn; [intros _ []|]. intros d [e|h].
  - inversion e; subst. now rewrite meq_refl.
  - inversion d as [|? ? d1 d2]; subst. rewrite Forall_forall in d1.
    rewrite meq_sym, d1; auto. apply in_map_iff. exists (k, v); auto.
Qed.

Lemma skipn_skipn_ {A} a b (l : list A) : skipn a (skipn b l) = skipn (b + a) l.
Proof. revert l. induction b; destruct l; cbn; auto. apply skipn_nil. Qed.
Lemma walk_ok (r : list (option K * V)) p ks : rk (skipn p (map fst r)) = ks ->
  match ks with
  | [] => snd (walk p r) = None
  | k :: _ => exists v, snd (walk p r) = Some (k, v) /\ In (k, v) (lives r)
  end /\ rk (skipn (fst (walk p r)) (map fst r)) = tl ks.
Proof.
  intro e. unfold walk. pose proof (first_live_ok (skipn p r)) as F.
  rewrite skipn_map, rk_lives in e. destruct (first_live (skipn p r)) as [j|].
  - destruct F as (k & v & N & F1 & F2). rewrite F2 in e. cbn in e. subst ks. cbn [fst snd tl].
    rewrite nth_error_skipn_ in N. rewrite N. split.
    + exists v. split; [reflexivity|]. rewrite <- (firstn_skipn p r), lives_app, F2. apply in_or_app. cbn. auto.
    + rewrite skipn_map, rk_lives. f_equal. f_equal. change (skipn (S (p + j)) r = skipn (S j) (skipn p r)). rewrite skipn_skipn_. f_equal. lia.
  - rewrite F in e. cbn in e. subst ks. cbn [fst snd tl]. split; [reflexivity|].
    rewrite skipn_all2; [reflexivity|]. rewrite map_length. lia.
Qed.

Lemma next_ok h cs s i : R (h, cs) s -> i < length (h_iters s) ->
  exists cs' x, hstep packed eql same hv hi vis ins grow nilv (Next i) (h, cs) = Some ((h, cs'), x)
   /\ snd (hspec eql same (Next i) s) = x /\ R (h, cs') (fst (hspec eql same (Next i) s)).
Proof.
  intros r hl. pose proof r as [l di c b n sh]. cbn in *.
  pose proof (F2_nth _ _ _ i c) as hc. destruct (nth_error cs i) as [[real p]|] eqn:N.
  2:{ destruct (nth_error (h_iters s) i) eqn:N'; [tauto|]. apply nth_error_None in N'. lia. }
  destruct (nth_error (h_iters s) i) as [ks|] eqn:N'; [|tauto]. unfold cur in hc. cbn [snd] in hc.
  pose proof (walk_ok (raw (bd h)) p ks hc) as [w1 w2]. destruct (walk p (raw (bd h))) as [p' x]. cbn [fst snd] in *.
  eexists _, _. split; [reflexivity|]. destruct s as [es id df its]. cbn [h_ents h_ident h_dflt h_iters] in *. cbn [hspec]. rewrite N'.
  destruct ks as [|k ks].
  - subst x. cbn [fst snd]. split; [reflexivity|]. constructor; cbn [fst snd h_ents h_ident h_dflt h_iters]; auto.
    + replace its with (replace_at i [] its). { apply F2_replace; auto. }
      clear -N'. revert i N'. induction its; destruct i; cbn; intros; try congruence. f_equal; auto.
    + rewrite (map_replace fst cs i _ (real, p)); auto.
    + rewrite (map_replace fst cs i _ (real, p)); auto.
  - destruct w1 as (v & -> & hin). cbn [fst snd tl]. rewrite l in hin. split.
    + f_equal. apply s_get_in; auto.
    + constructor; cbn [fst snd h_ents h_ident h_dflt h_iters]; auto.
      * apply F2_replace; auto.
      * rewrite (map_replace fst cs i _ (real, p)); auto.
      * rewrite (map_replace fst cs i _ (real, p)); auto.
Qed.

Lemma b3_cons x l : (length l < 3 -> x = true) -> b3 l -> b3 (x :: l).
Proof.
  intros h b j y hj e. cbn in e. destruct (lt_dec j (length l)).
  - rewrite nth_error_app1 in e by (rewrite rev_length; lia). eapply b; eauto.
  - rewrite nth_error_app2 in e by (rewrite rev_length; lia). rewrite rev_length in e.
    destruct (j - length l) eqn:Q; [|destruct n0; discriminate]. inversion e; subst. apply h. lia.
Qed.
Lemma b3_tl x l : b3 (x :: l) -> b3 l.
Proof.
  intros b j y hj e. apply (b j y hj). cbn. rewrite nth_error_app1; auto.
  apply nth_error_Some. congruence.
Qed.

Lemma tc_cons x l : tc (x :: l) = (if x then 1 else 0) + tc l.
Proof. unfold tc. destruct x; reflexivity. Qed.

Lemma begin_ok h cs s : R (h, cs) s -> (N.of_nat (length (h_iters s)) < 4294967295)%N ->
  let (h', real) := iter_incr h in
  R (h', (real, 0) :: cs) (HS (h_ents s) (h_ident s) (h_dflt s) (map fst (h_ents s) :: h_iters s)).
Proof.
  intros [l di c b n sh] hl. cbn in *. unfold iter_incr, shape, level in *.
  assert (LL : length cs = length (h_iters s)) by (eapply F2_length; eauto).
  assert (TL := tc_len (map fst cs)). rewrite map_length in TL.
  assert (KK : rk (map fst (raw (bd h))) = map fst (h_ents s)) by (rewrite rk_lives, l; reflexivity).
  destruct (bd h) as [ps|id m d lev dead] eqn:B.
  - destruct sh as (s1 & s2 & s3 & s4 & s5). destruct (f_iter (fl h) <? ITER_MAX) eqn:Q.
    + apply Nat.ltb_lt in Q. unfold ITER_MAX in Q.
      constructor; cbn [fst snd bd fl h_ents h_ident h_dflt h_iters map]; auto.
      * apply b3_cons; auto.
      * rewrite tc_cons. unfold level. cbn [bd fl f_iter]. lia.
      * unfold shape. cbn [bd fl f_iter f_ident h_ents h_ident h_dflt h_iters]. sp; auto.
    + apply Nat.ltb_ge in Q. unfold ITER_MAX in Q.
      constructor; cbn [fst snd bd fl h_ents h_ident h_dflt h_iters map]; rewrite ?B; auto.
      * apply b3_cons; auto. rewrite map_length. lia.
      * rewrite tc_cons. unfold level. rewrite B. lia.
      * unfold shape. cbn [bd fl f_iter f_ident h_ents h_ident h_dflt h_iters]. rewrite B. sp; auto.
  - destruct sh as (s1 & s2 & s3 & s4 & s5).
    constructor; cbn [fst snd bd fl h_ents h_ident h_dflt h_iters map]; auto.
    + apply b3_cons; auto.
    + rewrite tc_cons. unfold level. cbn [bd fl f_iter]. unfold U32. rewrite N.mod_small; lia.
    + unfold shape. cbn [bd fl f_iter f_ident h_ents h_ident h_dflt h_iters]. sp; auto.
Qed.

Lemma tc_remove l i x : nth_error l i = Some x -> tc l = (if x then 1 else 0) + tc (remove_at i l).
Proof.
  revert i. induction l as [|y l IH]; destruct i; cbn [nth_error remove_at]; intro e; try discriminate.
  - inversion e; subst. apply tc_cons.
  - rewrite !tc_cons. rewrite (IH i e). lia.
Qed.
Lemma b3_remove l i : b3 l -> i = 0 \/ length l <= 3 -> b3 (remove_at i l).
Proof.
  intros b [->|hl].
  - destruct l; cbn; auto. eapply b3_tl; eauto.
  - apply all_b3. pose proof (b3_all _ b hl) as a. clear -a. revert i. induction a; destruct i; cbn; auto.
Qed.

Lemma end_ok h cs s i : R (h, cs) s -> i < length (h_iters s) -> i = 0 \/ length (h_iters s) <= 3 ->
  exists real p, nth_error cs i = Some (real, p) /\
  R (iter_decr real h, remove_at i cs) (HS (h_ents s) (h_ident s) (h_dflt s) (remove_at i (h_iters s))).
Proof.
  intros [l di c b n sh] hl ho. cbn in *.
  assert (LL : length cs = length (h_iters s)) by (eapply F2_length; eauto).
  destruct (nth_error cs i) as [[real p]|] eqn:N; [|apply nth_error_None in N; lia].
  exists real, p. split; [reflexivity|].
  assert (N1 : nth_error (map fst cs) i = Some real) by (rewrite nth_error_map, N; reflexivity).
  assert (T := tc_remove _ _ _ N1). assert (C' := F2_remove _ _ _ i c).
  assert (B' : b3 (map fst (remove_at i cs))).
  { rewrite map_remove. apply b3_remove; auto. rewrite map_length. lia. }
  unfold iter_decr. destruct real; cbn [negb] in *.
  - unfold shape, level in *. destruct (bd h) as [ps|id m d lev dead] eqn:B.
    + destruct sh as (s1 & s2 & s3 & s4 & s5). destruct (f_iter (fl h)) as [|k] eqn:Q; [lia|].
      constructor; cbn [fst snd bd fl h_ents h_ident h_dflt h_iters map]; auto.
      * unfold level. cbn [bd fl f_iter]. rewrite map_remove. lia.
      * unfold shape. cbn [bd fl f_iter f_ident h_ents h_ident h_dflt h_iters]. sp; auto. lia.
    + destruct sh as (s1 & s2 & s3 & s4 & s5). destruct (N.eqb_spec lev 0); [lia|].
      constructor; cbn [fst snd bd fl h_ents h_ident h_dflt h_iters map]; auto.
      * unfold level. cbn [bd fl f_iter]. rewrite map_remove. lia.
      * unfold shape. cbn [bd fl f_iter f_ident h_ents h_ident h_dflt h_iters]. sp; auto.
  - constructor; cbn [fst snd bd fl h_ents h_ident h_dflt h_iters map]; auto.
    rewrite n, map_remove, T. reflexivity.
Qed.

(** Hash#replace outside iterations. *)
Lemma R_init : R (h_new, []) empty_hash.
Proof.
  constructor; cbn [fst snd bd fl h_ents h_ident h_dflt h_iters map h_new empty_hash]; rfin. { constructor. } cbn. sp; auto.
Qed.
Lemma insert_all_ok ps : forall h s, R (h, []) s -> h_iters s = [] ->
  exists h', insert_all packed eql same hv hi vis ins grow ps h = Some h'
  /\ R (h', []) (HS (fold_left (fun acc p => s_put (meq (h_ident s)) (fst p) (snd p) acc) ps (h_ents s)) (h_ident s) (h_dflt s) []).
Proof.
  induction ps as [|[k v] ps IH]; intros h s r I; cbn.
  - exists h. split; auto. destruct s; cbn in *; subst. exact r.
  - destruct (insert_ok h [] s k v r) as (h1 & e & r1). unfold raises in *. rewrite I in *. rewrite e.
    destruct (IH h1 _ r1 eq_refl) as (h2 & e2 & r2). exists h2. split; auto.
Qed.
Lemma build_ok ps id : exists h', build packed eql same hv hi vis ins grow ps id = Some h'
  /\ R (h', []) (HS (fold_left (fun acc p => s_put (meq id) (fst p) (snd p) acc) ps []) id None []).
Proof.
  unfold build. destruct id.
  - destruct (by_identity_ok h_new _ R_init eq_refl) as (h1 & e & r). rewrite e.
    destruct (insert_all_ok ps h1 _ r eq_refl) as (h2 & e2 & r2). eauto.
  - destruct (insert_all_ok ps h_new _ R_init eq_refl) as (h2 & e2 & r2). eauto.
Qed.
Lemma R_nil_iter h s : R (h, []) s -> f_iter (fl h) = 0.
Proof.
  intros [l di c b n sh]. cbn in *. unfold level, shape in *. change (tc []) with 0 in n. destruct (bd h); [lia|].
  destruct sh as (_ & -> & _). reflexivity.
Qed.

(** One step, any operation. *)
Theorem hstep_ok o h cs s : R (h, cs) s -> covered o s ->
  exists ms, hstep packed eql same hv hi vis ins grow nilv o (h, cs) = Some (ms, snd (hspec eql same o s))
   /\ R ms (fst (hspec eql same o s)).
Proof.
  intros r cv.
  destruct s as [es id df its] eqn:S0.
  assert (S : s = HS es id df its) by auto. clear S0.
  destruct o; cbn [hstep hspec covered] in *.
  all: try (pose proof (active_ok _ _ _ r) as act; cbn [h_iters] in act).
  - destruct (get_ok _ _ _ k r) as [g _]. rewrite g. eauto.
  - destruct (get_ok _ _ _ k r) as [_ g]. rewrite g. eauto.
  - destruct (insert_ok h cs _ k v r) as (h' & e & r'). rewrite e. unfold raises in *. cbn in *.
    destruct its; cbn in *; [eauto|]. unfold s_get in *. destruct (find _ es); cbn in *; eauto.
  - destruct (remove_ok h cs _ k r) as (h' & e & r'). rewrite e. cbn. eauto.
  - destruct (shift_ok h cs _ r) as (h' & e & r'). rewrite e. cbn in *. destruct es; cbn; eauto.
  - destruct its.
    + pose proof (r_c _ _ r) as c. cbn in c. inversion c; subst.
      destruct (clear_ok' h _ r eq_refl) as (h' & e & r'). rewrite e. cbn. eauto.
    + unfold h_clear. rewrite act. cbn. eauto.
  - destruct its.
    + pose proof (r_c _ _ r) as c. cbn in c. inversion c; subst.
      destruct (by_identity_ok h _ r eq_refl) as (h' & e & r'). rewrite e. cbn. eauto.
    + unfold by_identity. rewrite act. cbn. eauto.
  - destruct (set_default_ok h cs _ d r) as (h' & e & r'). rewrite e. cbn. eauto.
  - eexists. split; [|exact r]. f_equal. f_equal. cbn. f_equal. pose proof (r_s _ _ r) as sh. cbn in sh.
    unfold shape, get_default in *. destruct (bd h); cbn in sh.
    + destruct sh as (_ & _ & -> & _). reflexivity.
    + destruct sh as (_ & _ & -> & _). reflexivity.
  - eexists. split; [|exact r]. f_equal. f_equal. cbn. f_equal. pose proof (r_s _ _ r) as sh. cbn in sh.
    unfold shape, is_ident in *. destruct (bd h); cbn in sh.
    + tauto.
    + tauto.
  - rewrite (len_ok _ _ _ r). eauto.
  - pose proof (r_l _ _ r) as l. cbn in l. rewrite l. eauto.
  - pose proof (begin_ok _ _ _ r cv) as g. destruct (iter_incr h). eauto.
  - destruct (next_ok h cs _ i r cv) as (cs' & x & e & e2 & r'). cbn in e. rewrite e, <- e2. eauto.
  - destruct (end_ok h cs _ i r (proj1 cv) (proj2 cv)) as (real & p & e & r'). rewrite e. eauto.
  - destruct (dup_ok h cs _ r) as (h' & e & r'). rewrite e. cbn. eauto.
  - cbn [h_iters] in cv. subst its. pose proof (r_c _ _ r) as c. cbn in c. inversion c; subst cs.
    destruct (build_ok l ident) as (h1 & e1 & r1). rewrite e1.
    destruct (dup_ok h1 [] _ r1) as (h2 & e2 & r2). rewrite e2. cbn in *.
    eexists. split; [reflexivity|]. unfold replace_inner. rewrite (R_nil_iter _ _ r).
    rewrite <- (R_nil_iter _ _ r2). destruct h2 as [[] ?]. cbn. exact r2.
Qed.

Theorem hrun_ok os : forall ms s, R ms s -> all_covered eql same os s ->
  exists ms', hrun packed eql same hv hi vis ins grow nilv os ms = Some (ms', snd (hspec_run eql same os s))
   /\ R ms' (fst (hspec_run eql same os s)).
Proof.
  induction os as [|o os IH]; intros [h cs] s r cv; cbn [hrun hspec_run all_covered] in *.
  - eauto.
  - destruct cv as [cv1 cv2]. destruct (hstep_ok o h cs s r cv1) as (ms & e & r').
    rewrite e. destruct (hspec eql same o s) as [s1 x]. cbn [fst snd] in *.
    destruct (IH ms s1 r' cv2) as (ms' & e' & r''). rewrite e'. destruct (hspec_run eql same os s1). cbn in *. eauto.
Qed.
End H.

(** The structured flags follow the byte arithmetic: checked on all 256 bytes. *)
Definition flags_eqb (a b : flags) : bool := (f_iter a =? f_iter b) && Bool.eqb (f_ident a) (f_ident b).
Lemma flags_eqb_ok a b : flags_eqb a b = true -> a = b.
Proof.
  unfold flags_eqb. rewrite andb_true_iff, Nat.eqb_eq, eqb_true_iff. destruct a, b; cbn. intros [-> ->]. reflexivity.
Qed.
Definition byte_check (n : nat) : bool :=
  let b := Z.of_nat n in
  let h := Ob (K:=nat) (V:=nat) (D:=nat) (flags_of b) (Inl []) in
  flags_eqb (flags_of (fst (byte_incr b))) (fl (fst (iter_incr h)))
  && Bool.eqb (snd (byte_incr b)) (snd (iter_incr h))
  && flags_eqb (flags_of (byte_decr b)) (fl (iter_decr true h)).
Lemma byte_all : forallb byte_check (seq 0 256) = true.
Proof. vm_compute. reflexivity. Qed.
Lemma byte_flags {K V D} (b : Z) (ps : list (K * V)) : (0 <= b < 256)%Z ->
  let h := Ob (D:=D) (flags_of b) (Inl ps) in
  iter_incr h = (Ob (flags_of (fst (byte_incr b))) (Inl ps), snd (byte_incr b))
  /\ iter_decr true h = Ob (flags_of (byte_decr b)) (Inl ps).
Proof.
  intro hb. pose proof byte_all as a. rewrite forallb_forall in a. specialize (a (Z.to_nat b)).
  rewrite in_seq in a. specialize (a ltac:(lia)). unfold byte_check in a. rewrite Z2Nat.id in a by lia.
  rewrite !andb_true_iff in a. destruct a as [[a1 a2] a3]. apply flags_eqb_ok in a1, a3. apply eqb_prop in a2.
  unfold iter_incr, iter_decr in *. cbn [bd fl negb] in *. rewrite a1, a2, a3.
  destruct (flags_of b) as [i d]. cbn [f_iter f_ident fl fst snd] in *. split.
  - destruct (i <? ITER_MAX); reflexivity.
  - destruct i; reflexivity.
Qed.

Lemma good_nat : good_keys s_packed s_eql s_same (fun _ => 0%Z) (fun _ => 0%Z).
Proof.
  constructor; intros; repeat match goal with x : skey |- _ => destruct x end; cbn in *; try discriminate; auto;
    rewrite ?andb_true_iff, ?Nat.eqb_eq in *; try tauto; try congruence; auto using Nat.eqb_sym;
    try (rewrite (Nat.eqb_sym id), (Nat.eqb_sym content); reflexivity);
    try (split; apply Nat.eqb_refl); try apply Nat.eqb_refl; try intuition congruence.
Qed.

Lemma hash_refines : forall (K V D : Type) (packed : K -> bool) (eql same : K -> K -> bool)
    (hv hi : K -> Z) (vis : Z -> Z -> bool) (ins : list (Z * nat) -> Z * nat -> list (Z * nat))
    (grow : nat -> nat) (nilv : V),
  good_keys packed eql same hv hi ->
  (forall h, vis h h = true) -> (forall l x, Permutation (ins l x) (x :: l)) -> (forall n, n <= grow n) ->
  forall os : list (hop K V D), all_covered eql same os empty_hash ->
  exists ms, hrun packed eql same hv hi vis ins grow nilv os (h_new, [])
               = Some (ms, snd (hspec_run eql same os empty_hash))
    /\ lives (raw (bd (fst ms))) = h_ents (fst (hspec_run eql same os empty_hash)).
Proof.
  intros K V D packed eql same hv hi vis ins grow nilv [] h1 h2 h3 os cv.
  destruct (hrun_ok packed eql same hv hi ltac:(eassumption) ltac:(eassumption) ltac:(eassumption) ltac:(eassumption)
    ltac:(eassumption) ltac:(eassumption) ltac:(eassumption) ltac:(eassumption) ltac:(eassumption) ltac:(eassumption)
    ltac:(eassumption) vis h1 ins h2 grow h3 nilv os (h_new, []) empty_hash) as (ms & e & r); auto.
  { apply R_init; auto. }
  exists ms. split; auto. apply (r_l _ _ _ _ _ _ _ r).
Qed.

Lemma running_iters {K V D} (eql same : K -> K -> bool) (os : list (hop K V D)) : forall s, all_covered eql same os s ->
  length (h_iters (fst (hspec_run eql same os s)))
  = fold_left (fun n o => match o with Begin => S n | End _ => n - 1 | Dup => 0 | _ => n end) os (length (h_iters s)).
Proof.
  induction os as [|o os IH]; intros s cv; cbn [hspec_run all_covered fold_left] in *; [reflexivity|].
  destruct cv as [c1 c2]. specialize (IH _ c2).
  assert (E : length (h_iters (fst (hspec eql same o s))) = match o with Begin => S (length (h_iters s)) | End _ => length (h_iters s) - 1 | Dup => 0 | _ => length (h_iters s) end).
  { destruct s as [l id d its]. destruct o; cbn [hspec h_iters fst covered] in *; auto; try destruct its; cbn; auto;
      try (destruct (negb _); reflexivity).
    - rewrite !map_length; reflexivity.
    - destruct l; reflexivity.
    - destruct l; cbn; rewrite ?map_length; reflexivity.
    - destruct i; reflexivity.
    - destruct i; cbn; [destruct l0; reflexivity|]. destruct (nth_error its i) as [[]|]; cbn; auto. f_equal.
      clear. revert i. induction its; destruct i; cbn; auto.
    - destruct i; reflexivity.
    - destruct i; cbn; [lia|]. destruct c1 as [c1 _]. cbn in c1. assert (i < length its) by lia. clear -H. revert i H.
      induction its; destruct i; cbn; intros; try lia. rewrite IHits; lia. }
  rewrite <- E. destruct (hspec eql same o s) as [s1 x]. cbn [fst] in *.
  destruct (hspec_run eql same os s1). exact IH.
Qed.

Lemma store_while_iterating : forall (K V D : Type) (packed : K -> bool) (eql same : K -> K -> bool)
    (hv hi : K -> Z) (vis : Z -> Z -> bool) (ins : list (Z * nat) -> Z * nat -> list (Z * nat))
    (grow : nat -> nat) (nilv : V),
  good_keys packed eql same hv hi ->
  (forall h, vis h h = true) -> (forall l x, Permutation (ins l x) (x :: l)) -> (forall n, n <= grow n) ->
  forall (os : list (hop K V D)) (k : K) (v : V), all_covered eql same os empty_hash ->
  exists ms ms' r, hrun packed eql same hv hi vis ins grow nilv os (h_new, [])
               = Some (ms, snd (hspec_run eql same os empty_hash))
    /\ hstep packed eql same hv hi vis ins grow nilv (Store k v) ms = Some (ms', r)
    /\ let was := lives (raw (bd (fst ms))) in
       let fresh := s_get (mode eql same (h_ident (fst (hspec_run eql same os empty_hash)))) k was = None in
       let now := lives (raw (bd (fst ms'))) in
       (0 < running os -> fresh -> r = RRaise /\ now = was) /\
       (running os = 0 \/ ~ fresh ->
          r = RUnit /\ now = s_put (mode eql same (h_ident (fst (hspec_run eql same os empty_hash)))) k v was).
Proof.
  intros K V D packed eql same hv hi vis ins grow nilv [] h1 h2 h3 os k v cv.
  destruct (hrun_ok packed eql same hv hi ltac:(eassumption) ltac:(eassumption) ltac:(eassumption) ltac:(eassumption)
    ltac:(eassumption) ltac:(eassumption) ltac:(eassumption) ltac:(eassumption) ltac:(eassumption) ltac:(eassumption)
    ltac:(eassumption) vis h1 ins h2 grow h3 nilv os (h_new, []) empty_hash) as ([h cs] & e & r); auto.
  { apply R_init; auto. }
  destruct (hstep_ok packed eql same hv hi ltac:(eassumption) ltac:(eassumption) ltac:(eassumption) ltac:(eassumption)
    ltac:(eassumption) ltac:(eassumption) ltac:(eassumption) ltac:(eassumption) ltac:(eassumption) ltac:(eassumption)
    ltac:(eassumption) vis h1 ins h2 grow h3 nilv (Store k v) h cs _ r I) as (ms' & e' & r').
  pose proof (running_iters eql same os empty_hash cv) as ri. cbn [length h_iters empty_hash] in ri. fold (running os) in ri.
  pose proof (r_l _ _ _ _ _ _ _ r) as l. pose proof (r_l _ _ _ _ _ _ _ r') as l'.
  eexists _, ms', _. split; [exact e|]. split; [exact e'|]. cbn zeta.
  rewrite l, l'. clear e e' r r' l l'. cbn [fst]. destruct (fst (hspec_run eql same os empty_hash)) as [es id df its].
  cbn [h_ents h_ident h_iters h_dflt hspec fst snd] in *. split.
  - intros hr hf. destruct its; cbn in ri; [lia|]. rewrite hf. cbn. auto.
  - intros [hr|hf].
    + destruct its; cbn in ri; [cbn; auto|lia].
    + destruct (s_get (mode eql same id) k es); [|congruence]. cbn. rewrite andb_false_r. cbn. auto.
Qed.

Lemma stuck : ~ (forall (os : list (hop skey nat nat)) (k : skey) (v : nat) rs, running os = 0 ->
     option_map snd (hrun s_packed s_eql s_same (fun _ => 0%Z) (fun _ => 0%Z) (fun _ _ => true) (fun l x => x :: l) (fun n => 2 * n) 0
       (os ++ [Store k v]) (h_new, [])) = Some (rs ++ [RRaise]) -> False).
Proof.
  intro h. refine (h [Store (Imm 1) 1; Begin; Next 0;
    ReplaceWith [(Imm 1, 1); (Imm 2, 2); (Imm 3, 3); (Imm 4, 4)] false; End 0] (Imm 5) 5 _ eq_refl _).
  vm_compute. instantiate (1 := [_; _; _; _; _]). reflexivity.
Qed.
Lemma unprotected : ~ (forall (os : list (hop skey nat nat)) (k : skey) (v : nat) rs, 0 < running os ->
     option_map snd (hrun s_packed s_eql s_same (fun _ => 0%Z) (fun _ => 0%Z) (fun _ _ => true) (fun l x => x :: l) (fun n => 2 * n) 0
       (os ++ [HasKey k; Store k v; Next 0; Next 0]) (h_new, []))
       = Some (rs ++ [RBool false; RUnit; RPair (Some (Imm 1, 1)); RPair (Some (k, v))]) -> False).
Proof.
  intro h. refine (h [Store (Imm 1) 1; Begin; Begin; Begin; Begin; End 3; End 2; End 1] (Imm 2) 2
    [RUnit; RUnit; RUnit; RUnit; RUnit; RUnit; RUnit; RUnit] _ _).
  - vm_compute. auto.
  - vm_compute. reflexivity.
Qed.
