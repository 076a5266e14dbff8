(** Include when the new modules come first: the exact ancestors, and who is not
    affected. *)
From Coq Require Import ZArith List Bool Lia Arith.
From Verif Require Import ClassModel ClassSpec ClassProofs ClassLoopProofs ClassWeaveProofs ClassStepProofs ClassIncludeProofs.
Import ListNotations.
Open Scope Z_scope.

Lemma last_snoc_nat (l : list nat) x d : List.last (l ++ [x]) d = x.
Proof. apply last_last. Qed.

Lemma loop_front k self : forall g p base t m r a b g', hinv g -> (self < length g)%nat -> (m < length g)%nat ->
  self :: above g self = p ++ base :: t -> region g m r -> ids g r = a ++ b ->
  (forall x, In x r -> ~ In x (self :: above g self)) ->
  (forall i, In i a -> ~ In i (lineage g self)) -> NoDup a -> incl b (a ++ lineage g self) ->
  loop k false g self base m = Done g' ->
  exists n, self :: above g' self = p ++ base :: n ++ t /\ ids g' n = a /\ Forall (fun x => nic (at_ g' x) = true) n /\
    extends g g' /\ hinv g' /\ (forall x, (x < length g)%nat -> x <> base -> sup g' x = sup g x).
Proof.
  induction k as [|k IH]; intros g p base t m r a b g' I ls lm ch rg er dj fa nd ib e; [discriminate|].
  destruct (chain_of g I self ls) as (c & rc).
  assert (hb : In base (self :: above g self)) by (rewrite ch; apply in_or_app; right; now left).
  assert (lb : (base < length g)%nat) by (rewrite Forall_forall in rc; auto).
  destruct a as [|i a].
  - cbn [app] in er, ib. assert (g' = g) as ->.
    { destruct (loop_pres (fun x => x = g) false self b) with (k := S k) (h := g) (base := base) (m := m) (r := r) (h' := g') as (q & _); auto.
      - intros h0 base0 i0 _ _ -> _ hi ab. exfalso. unfold is_ancestor_of in ab. rewrite existsb_ids in ab. apply has_out in ab. apply ab. apply ib. auto.
      - rewrite er. apply incl_refl. }
    exists []. split; auto. split; auto. split; auto. split; [apply ext_refl|auto].
  - destruct (region_head _ _ _ rg) as (rt & ->). cbn [ids map app] in er. injection er as ei er. change (map (idof g) rt) with (ids g rt) in er.
    cbn [loop] in e. cbv zeta in e. assert (AB : is_ancestor_of g (idof g m) self = false).
    { unfold is_ancestor_of. rewrite existsb_ids. apply has_out. apply fa. left. auto. }
    rewrite AB in e. set (g1 := insert g base (idof g m)) in *. assert (I1 : hinv g1) by (now apply ins_hinv).
    pose proof (ins_extends g base (idof g m) I lb) as X. fold g1 in X. assert (L1 : length g1 = S (length g)) by apply ins_length.
    rewrite (ins_sup g base (idof g m) lb base : sup g1 base = _), Nat.eqb_refl in e.
    assert (nr : ~ In base (m :: rt)) by (intros hx; apply (dj base hx hb)).
    pose proof (region_insert g base (idof g m) m _ I lb lm rg nr) as rg1. fold g1 in rg1.
    pose proof (chain_nodup _ _ _ c) as NDc. rewrite ch in NDc. apply NoDup_remove_2 in NDc.
    assert (C1 : self :: above g1 self = (p ++ [base]) ++ length g :: t).
    { unfold g1. rewrite (ins_above g base (idof g m) self I lb ls), ch, spliced_app.
      - now rewrite <- app_assoc.
      - intros q. apply NDc. apply in_or_app. now left.
      - intros q. apply NDc. apply in_or_app. now right. }
    assert (RR : Forall (fun x => x < length g)%nat rt). { pose proof (region_range _ _ _ I lm rg) as R0. now inversion R0. }
    assert (SU : forall x, (x < length g)%nat -> x <> base -> sup g1 x = sup g x).
    { intros x lx nx. unfold g1. rewrite ins_sup by auto. destruct (Nat.eqb_spec x base); [congruence|]. destruct (Nat.eqb_spec x (length g)); [lia|auto]. }
    assert (LI : forall j, In j (lineage g1 self) <-> In j (lineage g self) \/ j = i).
    { assert (rc2 := rc). inversion rc2 as [|? ? _ rt0]; subst. intros j. clear - C1 ch rt0 lb. unfold lineage.
      destruct p as [|y p]; apply (f_equal (@List.tl nat)) in ch, C1; cbn [app List.tl] in ch, C1.
      - rewrite C1. rewrite ch in *. cbn [ids map In]. change (map (idof g1) t) with (ids g1 t).
        replace (ids g1 t) with (ids g t) by (symmetry; apply ids_ins; auto). unfold g1. rewrite ins_newid by auto. unfold ids. intuition congruence.
      - rewrite C1. rewrite ch in *. apply Forall_app in rt0 as [rp rb]. inversion rb; subst.
        unfold ids. rewrite !map_app. change (map (idof g1) (length g :: t)) with (idof g1 (length g) :: ids g1 t). cbn [map].
        change (map (idof g1) p) with (ids g1 p). unfold g1. rewrite !ids_ins, !ins_newid, !ins_id by auto. rewrite !in_app_iff. cbn [In]. unfold ids. intuition congruence. }
    destruct (sup g1 m) as [m1|] eqn:sm; [destruct (nic (at_ g1 m1)) eqn:nm|].
    + inversion rg1 as [? le|? b2 rt2 e2 n2 rg2]; subst; [rewrite (le _ sm) in nm; discriminate|]. assert (b2 = m1) by congruence. subst b2.
      inversion nd as [|? ? na nd']; subst.
      destruct (IH g1 (p ++ [base]) (length g) t m1 rt a b g') as (n & q1 & q2 & q3 & q4 & q5 & q6); auto; try lia.
      * eapply inv_range; eauto.
      * unfold g1. rewrite ids_ins; auto.
      * intros x hx q. rewrite C1, <- app_assoc in q. cbn [app] in q. apply in_app_or in q.
        assert (x <> length g) by (rewrite Forall_forall in RR; specialize (RR x hx); lia).
        apply (dj x (or_intror hx)). rewrite ch. apply in_or_app. cbn in q |- *. intuition congruence.
      * intros j hj q. apply LI in q as [q| ->]; [|tauto]. apply (fa j (or_intror hj) q).
      * intros j hj. apply ib in hj. rewrite in_app_iff in *. cbn in hj. rewrite LI. intuition congruence.
      * exists (length g :: n). rewrite <- app_assoc in q1. cbn [app] in q1. split; auto.
        assert (NL : (length g < length g1)%nat) by lia. destruct (ext_keep _ _ q4 _ NL) as (k1 & k2 & _).
        split; [cbn [ids map]; unfold idof at 1; rewrite k1; unfold g1; rewrite ins_new by auto; cbn [nid]; f_equal; exact q2|].
        split; [constructor; [rewrite k2; unfold g1; now rewrite ins_new|auto]|]. split; [eapply ext_trans; eauto|]. split; auto.
        intros x lx nx. rewrite q6 by lia. auto.
    + injection e as <-. inversion rg1 as [? le|? b2 rt2 e2 n2 rg2]; subst; [|congruence]. destruct a; [|discriminate]. exists [length g].
      split; [rewrite C1, <- app_assoc; reflexivity|]. cbn [ids map]. unfold g1 at 1. rewrite ins_newid by auto. split; auto.
      split; [constructor; auto; unfold g1; now rewrite ins_new|]. auto.
    + injection e as <-. inversion rg1 as [? le|? b2 rt2 e2 n2 rg2]; subst; [|congruence]. destruct a; [|discriminate]. exists [length g].
      split; [rewrite C1, <- app_assoc; reflexivity|]. cbn [ids map]. unfold g1 at 1. rewrite ins_newid by auto. split; auto.
      split; [constructor; auto; unfold g1; now rewrite ins_new|]. auto.
Qed.

Lemma rendered_keep h h' c l : (forall x, In x l -> nid (at_ h' x) = nid (at_ h x) /\ nic (at_ h' x) = nic (at_ h x) /\
    nmod (at_ h' x) = nmod (at_ h x) /\ norg (at_ h' x) = norg (at_ h x)) -> rendered h' c l = rendered h c l.
Proof.
  induction l as [|x t IH]; intros f; auto. cbn [rendered]. destruct (f x (or_introl eq_refl)) as (k1 & k2 & k3 & k4). unfold idof.
  rewrite k1, k2, k3, k4, IH; auto. intros y hy. apply f. now right.
Qed.
Lemma rendered_iclasses h c n t : Forall (fun x => nic (at_ h x) = true) n -> rendered h c (n ++ t) = ids h n ++ rendered h c t.
Proof. induction 1 as [|x n nx _ IH]; auto. cbn [app rendered]. rewrite nx, andb_false_r, IH. reflexivity. Qed.

Section Front.
Variables (s : state) (c m : Z) (s' : state) (a b : list Z).
Hypothesis (I : inv s) (e : step s (Include c m) = State s') (eab : ancestors s m = a ++ b) (nd : NoDup a)
  (fa : forall i, In i a -> ~ In i (lineage (hp s) (head s c))) (fb : incl b (lineage (hp s) (head s c))).
Lemma front_heap : exists n, above (hp s') (head s c) = n ++ above (hp s) (head s c) /\ ids (hp s') n = a /\
  Forall (fun x => nic (at_ (hp s') x) = true) n /\ extends (hp s) (hp s') /\ hinv (hp s') /\
  (forall x, (x < length (hp s))%nat -> x <> head s c -> sup (hp s') x = sup (hp s) x).
Proof.
  destruct (include_inv _ _ _ _ e) as (dc & dm & pm & et & ei). destruct (defined_head s c I dc) as (c1 & c2 & c3).
  destruct (defined_head s m I dm) as (m1 & m2 & m3). pose proof (inv_heap s I) as H. rewrite module_ancestors in eab by auto.
  rewrite iop_eq in ei. destruct (check_cyclic _ _ _) eqn:cy; [discriminate|].
  pose proof (iop_start (hp s) (head s m) H m1) as S'. destruct (match norg _ with None => _ | Some _ => _ end) as [x|].
  - destruct S' as (r & rg & br & ir & lx). rewrite br in eab.
    destruct (loop_front (S (length (hp s))) (head s c) (hp s) [] (head s c) (above (hp s) (head s c)) x r a b (hp s') H c1 lx eq_refl rg eab) as (n & q1 & q2 & q3 & q4 & q5 & q6); auto.
    + exact (start_disjoint _ _ _ r H c1 m1 c3 pm cy ir).
    + intros i hi. apply in_or_app. right. now apply fb.
    + exists n. cbn [app] in q1. injection q1 as q1. repeat (split; [assumption|]). assumption.
  - injection ei as E. rewrite <- E. rewrite S' in eab. destruct a; [|discriminate]. exists []. split; auto. split; auto. split; auto. split; [apply ext_refl|auto].
Qed.
Lemma front_result : norg (at_ (hp s) (head s c)) = None -> exists t, ancestors s c = c :: t /\ ancestors s' c = c :: a ++ t.
Proof.
  intros no. destruct (include_inv _ _ _ _ e) as (dc & dm & pm & et & ei). destruct (defined_head s c I dc) as (c1 & c2 & c3).
  destruct front_heap as (n & q1 & q2 & q3 & X & _). destruct (ext_keep _ _ X _ c1) as (k1 & k2 & k3 & k4 & k5).
  unfold ancestors. cbv zeta. rewrite (head_tbl _ _ et), k5, no, k3. assert (c2' : idof (hp s') (head s c) = c) by (unfold idof; now rewrite k1). rewrite c2, c2'.
  rewrite q1, rendered_iclasses, q2 by auto. eexists. split; [reflexivity|]. cbn [app]. do 2 f_equal. apply rendered_keep.
  intros x hx. destruct (chain_of _ (inv_heap s I) _ c1) as (_ & rr). rewrite Forall_forall in rr.
  destruct (ext_keep _ _ X x (rr x (or_intror hx))) as (u1 & u2 & u3 & u4 & u5). auto.
Qed.
(** Nobody else is affected: not the superclass, no other class. *)
Lemma front_frame d : defined s d = true -> d <> c -> ~ In c (ancestors s d) -> ancestors s' d = ancestors s d.
Proof.
  intros dd ne nc. destruct (include_inv _ _ _ _ e) as (dc & dm & pm & et & ei). destruct (defined_head s c I dc) as (c1 & c2 & c3).
  destruct (defined_head s d I dd) as (d1 & d2 & d3). pose proof (inv_heap s I) as H.
  destruct front_heap as (n & q1 & q2 & q3 & X & H' & SU). destruct (ext_keep _ _ X _ d1) as (k1 & k2 & k3 & k4 & k5).
  assert (NH : head s d <> head s c) by congruence. pose proof (ext_length _ _ X) as LE. assert (d1' : (head s d < length (hp s'))%nat) by lia.
  destruct (is_class (hp s) (head s d)) eqn:kd.
  - assert (NI : ~ In (head s c) (head s d :: above (hp s) (head s d))).
    { intros [q|q]; [congruence|]. apply nc. apply lineage_shown; auto. rewrite <- c2. unfold lineage, ids. now apply in_map. }
    destruct (chain_of _ H _ d1) as (ch & rr).
    assert (AB : above (hp s') (head s d) = above (hp s) (head s d)).
    { assert (CH : chain (hp s') (head s d) (head s d :: above (hp s) (head s d))).
      { clear - ch rr SU NI. revert ch rr NI. generalize (head s d :: above (hp s) (head s d)). generalize (head s d). intros x l ch. induction ch as [x E|x y l E ch IH]; intros rr NI.
        - apply chain_end. rewrite SU; auto; [now inversion rr|]. intros ->. apply NI. now left.
        - inversion rr; subst. apply chain_next with y; [rewrite SU; auto; intros ->; apply NI; now left|]. apply IH; auto. intros q. apply NI. now right. }
      apply chain_above in CH; [congruence|]. eapply Forall_impl; [|exact rr]. cbn. lia. }
    unfold ancestors. cbv zeta. rewrite (head_tbl _ _ et), k5, k3, AB. unfold idof. rewrite k1. f_equal. apply rendered_keep.
    intros x hx. rewrite Forall_forall in rr. destruct (ext_keep _ _ X x (rr x (or_intror hx))) as (u1 & u2 & u3 & u4 & u5). auto.
  - unfold is_class in kd. apply negb_false_iff in kd. assert (pd : is_plain_module (hp s) (head s d) = true) by (unfold is_plain_module; now rewrite kd, d3).
    assert (pd' : is_plain_module (hp s') (head s d) = true) by (erewrite plain_stable; eauto).
    assert (I' : inv s') by (apply (step_inv s (Include c m)); auto).
    rewrite (module_ancestors s) by auto. rewrite (module_ancestors s'); [|auto|unfold defined in *; now rewrite et|now rewrite (head_tbl _ _ et)].
    rewrite (head_tbl _ _ et). pose proof (region_mixed _ _ H d1) as rg. pose proof (region_mixed _ _ H' d1') as rg'.
    set (r := head s d :: mixed (hp s) (above (hp s) (head s d))) in *.
    assert (NR : ~ In (head s c) r).
    { intros [q|q]; [congruence|]. assert (forall l, In (head s c) (mixed (hp s) l) -> nic (at_ (hp s) (head s c)) = true) as Q.
      { induction l as [|z l IH]; cbn; [tauto|]. destruct (nic (at_ (hp s) z)) eqn:nz; [|intros []]. intros [<-|]; auto. }
      apply Q in q. congruence. }
    assert (RG : region (hp s') (head s d) r).
    { clear - rg SU NR X H d1. revert d1 NR. induction rg as [x E|x y l E n rg IH]; intros lx NR.
      - constructor. intros z. rewrite SU; auto; [|intros ->; apply NR; now left]. intros ez. pose proof (inv_range _ H _ _ ez) as lz.
        destruct (ext_keep _ _ X z lz) as (_ & -> & _). auto.
      - pose proof (inv_range _ H _ _ E) as ly. apply reg_next with y.
        + rewrite SU; auto. intros ->. apply NR. now left.
        + now destruct (ext_keep _ _ X y ly) as (_ & -> & _).
        + apply IH; auto. intros q. apply NR. now right. }
    assert (DET : forall h x l1 l2, region h x l1 -> region h x l2 -> l1 = l2).
    { clear. intros h x l1 l2 rx. revert l2. induction rx as [x E|x y l E n rx IH]; intros l2 ry; inversion ry as [? E'|? y' l' E' n' ry']; subst; auto.
      - rewrite (E _ E') in n'. discriminate.
      - rewrite (E' _ E) in n. discriminate.
      - f_equal. apply IH. congruence. }
    pose proof (DET _ _ _ _ rg' RG) as Er. pose proof (region_range _ _ _ H d1 rg) as RR.
    assert (IDS : forall l, Forall (fun x => x < length (hp s))%nat l -> ids (hp s') l = ids (hp s) l).
    { intros l rl. apply map_ext_in. intros x hx. rewrite Forall_forall in rl. apply (ext_keep _ _ X x (rl x hx)). }
    unfold brings. unfold r in Er, RR. injection Er as Er. rewrite k5, Er. destruct (norg (at_ (hp s) (head s d))); apply IDS; auto. now inversion RR.
Qed.
End Front.
