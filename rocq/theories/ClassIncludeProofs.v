(** What include does to [ancestors]. *)
From Coq Require Import ZArith List Bool Lia Arith.
From Verif Require Import ClassModel ClassSpec ClassProofs ClassLoopProofs ClassWeaveProofs ClassStepProofs.
Import ListNotations.
Open Scope Z_scope.

(** * [ancestors] *)
Lemma rendered_module h l : (forall x, In x l -> is_plain_module h x = false) -> rendered h false l = ids h (mixed h l).
Proof.
  induction l as [|x t IH]; intros f; auto. cbn [rendered mixed]. pose proof (f x (or_introl eq_refl)) as fx. unfold is_plain_module in fx.
  destruct (nic (at_ h x)) eqn:n.
  - rewrite andb_false_r. cbn. f_equal. apply IH. intros y hy. apply f. now right.
  - rewrite andb_true_r in fx. rewrite fx. reflexivity.
Qed.
Lemma above_plain h a x : hinv h -> (a < length h)%nat -> In x (above h a) -> is_plain_module h x = false.
Proof. intros I la hx. destruct (above_in h I a x la hx) as (q & _ & _ & e). eapply inv_plain; eauto. Qed.
Lemma module_ancestors s m : inv s -> defined s m = true -> is_plain_module (hp s) (head s m) = true ->
  ancestors s m = brings (hp s) (head s m).
Proof.
  intros I d pm. destruct (defined_head s m I d) as (l & e & n). pose proof (inv_heap s I) as H. unfold ancestors, brings. cbv zeta.
  assert (nm : nmod (at_ (hp s) (head s m)) = true) by (unfold is_plain_module in pm; now apply andb_true_iff in pm as [-> _]).
  rewrite nm. cbn [negb]. rewrite rendered_module by (intros x hx; eapply above_plain; eauto). destruct (norg _); auto.
Qed.
Lemma rendered_ids h c l x : In x (rendered h c l) -> In x (ids h l).
Proof.
  induction l as [|y t IH]; cbn [rendered]; [tauto|]. destruct (_ && _); [intros []|]. intros q. apply in_app_or in q as [q|q]; [|right; auto].
  destruct (nic _); [destruct q as [<-|[]]; now left|]. destruct (norg _); [destruct q|]. destruct q as [<-|[]]; now left.
Qed.
Lemma rendered_iclass h l x : In x l -> nic (at_ h x) = true -> In (idof h x) (rendered h true l).
Proof.
  induction l as [|y t IH]; [intros []|]. intros [->|q] n; cbn [rendered negb andb]; apply in_or_app.
  - left. rewrite n. now left.
  - right. auto.
Qed.
Lemma rendered_shown h l x : In x l -> norg (at_ h x) = None -> In (idof h x) (rendered h true l).
Proof.
  induction l as [|y t IH]; [intros []|]. intros [->|q] n; cbn [rendered negb andb]; apply in_or_app.
  - left. rewrite n. destruct (nic _); now left.
  - right. auto.
Qed.
(** A class shows everything on its chain. *)
Lemma lineage_shown s c x : inv s -> defined s c = true -> is_class (hp s) (head s c) = true ->
  In x (lineage (hp s) (head s c)) -> In x (ancestors s c).
Proof.
  intros I d k hx. destruct (defined_head s c I d) as (l & e & n). pose proof (inv_heap s I) as H. unfold lineage, ids in hx.
  apply in_map_iff in hx as (y & <- & hy). unfold ancestors. cbv zeta. unfold is_class in k. rewrite k. apply in_or_app. right.
  destruct (norg (at_ (hp s) y)) as [o|] eqn:ny; [|now apply rendered_shown].
  destruct (inv_org _ H y o ny) as (_ & q2 & <- & q4). apply mixed_incl in q4. apply rendered_iclass; auto.
  destruct (chain_of _ H _ l) as (ch & r). destruct (chain_suffix _ _ _ y ch (or_intror hy)) as (p & q & E & cq).
  assert (ly : (y < length (hp s))%nat) by (rewrite Forall_forall in r; apply r; now right).
  destruct (chain_of _ H y ly) as (cy & _). pose proof (chain_det _ _ _ _ cq cy) as ->.
  assert (In o (head s c :: above (hp s) (head s c))) as [<-|]; auto; [|congruence]. rewrite E. apply in_or_app. right. now right.
Qed.
Lemma ext_ancestors h h' t d : extends h h' -> (nth (Z.to_nat d) t O < length h)%nat -> subseq (ancestors (mks h t) d) (ancestors (mks h' t) d).
Proof.
  intros X l. unfold ancestors, head. cbv zeta. cbn [hp tbl]. set (a := nth _ _ _) in *. destruct (ext_keep _ _ X a l) as (k1 & k2 & k3 & k4 & k5).
  unfold idof. rewrite k1, k3, k5. apply sub_app; [apply sub_refl|]. now apply (ext_rend _ _ X).
Qed.

(** * Include *)
Lemma include_inv s c m s' : step s (Include c m) = State s' -> defined s c = true /\ defined s m = true /\
  is_plain_module (hp s) (head s m) = true /\ tbl s' = tbl s /\ include_or_prepend false (hp s) (head s c) (head s m) = Done (hp s').
Proof.
  cbn [step]. destruct (defined s c); [|discriminate]. destruct (defined s m); [|discriminate]. destruct (is_plain_module _ _) eqn:pm; [|discriminate].
  cbn [andb]. unfold include_module. destruct (include_or_prepend _ _ _ _); try discriminate. intros e. injection e as <-. auto.
Qed.
Lemma head_tbl s s' : tbl s' = tbl s -> forall i, head s' i = head s i.
Proof. intros e i. unfold head. now rewrite e. Qed.

Lemma include_order s c m s' d : inv s -> step s (Include c m) = State s' -> defined s d = true -> subseq (ancestors s d) (ancestors s' d).
Proof.
  intros I e dd. destruct (include_inv _ _ _ _ e) as (dc & dm & pm & et & ei). destruct (defined_head s c I dc) as (c1 & c2 & c3).
  destruct (defined_head s m I dm) as (m1 & m2 & m3). destruct (defined_head s d I dd) as (d1 & _).
  destruct (iop_inv false s _ _ _ I c1 m1 c3 pm ei) as (_ & X). destruct s as [h t], s' as [h' t']. cbn [hp tbl] in *. subst t'. now apply ext_ancestors.
Qed.

Lemma region_chain h m r l : region h m r -> chain h m l -> exists q, l = r ++ q.
Proof.
  intros rg. revert l. induction rg as [m e|m b r e n rg IH]; intros l c.
  - destruct (chain_head _ _ _ c) as (t & ->). now exists t.
  - inversion c as [? e1|? b1 ? e1 c1]; subst; [congruence|]. assert (b1 = b) by congruence. subst b1. destruct (IH _ c1) as (q & ->). now exists q.
Qed.
Lemma region_length h m r : hinv h -> (m < length h)%nat -> region h m r -> (length r <= length h)%nat.
Proof.
  intros I l rg. destruct (chain_of h I m l) as (c & rr). destruct (region_chain _ _ _ _ rg c) as (q & e).
  pose proof (NoDup_range _ _ (chain_nodup _ _ _ c) rr) as L. rewrite e, app_length in L. lia.
Qed.
(** The chain of the receiver afterwards. *)
Lemma iop_weave h self m : hinv h -> (self < length h)%nat -> (m < length h)%nat -> nic (at_ h self) = false ->
  is_plain_module h m = true -> check_cyclic h self m = false ->
  match weave [] (lineage h self) (brings h m) with
  | Some l => exists h', include_or_prepend false h self m = Done h' /\ hinv h' /\ extends h h' /\ lineage h' self = l
  | None => include_or_prepend false h self m = Panic
  end.
Proof.
  intros H c1 m1 c3 pm cy. rewrite iop_eq, cy. pose proof (iop_start h m H m1) as S'. destruct (match norg _ with None => _ | Some _ => _ end) as [x|].
  - destruct S' as (r & rg & br & ir & lx). rewrite br. unfold lineage.
    pose proof (loop_weave (S (length h)) false h self [] self (above h self) [] x r H c1 lx) as W. rewrite app_nil_r in W.
    specialize (W eq_refl eq_refl rg (le_S _ _ (region_length _ _ _ H lx rg)) (start_disjoint h self m r H c1 m1 c3 pm cy ir)).
    cbn [List.tl app ids map] in W. change (map (idof h) (above h self)) with (ids h (above h self)) in W.
    change (map (idof h) r) with (ids h r) in W. destruct (weave _ _ _) as [l|]; [|now apply W].
    destruct W as (h' & q' & w1 & w2 & w3 & w4 & w5 & _). exists h'. split; auto. split; auto. split; auto. rewrite w4, app_nil_r. exact w5.
  - rewrite S'. cbn [weave app]. exists h. split; auto. split; auto. split; [apply ext_refl|reflexivity].
Qed.
Lemma include_all s c m s' x : inv s -> step s (Include c m) = State s' -> In x (ancestors s m) -> In x (lineage (hp s') (head s c)).
Proof.
  intros I e hx. destruct (include_inv _ _ _ _ e) as (dc & dm & pm & et & ei). destruct (defined_head s c I dc) as (c1 & c2 & c3).
  destruct (defined_head s m I dm) as (m1 & m2 & m3). rewrite module_ancestors in hx by auto.
  destruct (check_cyclic (hp s) (head s c) (head s m)) eqn:cy; [rewrite iop_eq, cy in ei; discriminate|].
  pose proof (iop_weave _ _ _ (inv_heap s I) c1 m1 c3 pm cy) as W. destruct (weave _ _ _) as [l|] eqn:w; [|congruence].
  destruct W as (h' & w1 & _ & _ & w4). rewrite w1 in ei. injection ei as <-. rewrite w4. eapply weave_all; eauto.
Qed.
Lemma include_class s c m s' : inv s -> step s (Include c m) = State s' -> is_class (hp s) (head s c) = true -> incl (ancestors s m) (ancestors s' c).
Proof.
  intros I e k x hx. pose proof (include_all s c m s' x I e hx) as q. destruct (include_inv _ _ _ _ e) as (dc & dm & pm & et & ei).
  destruct (defined_head s c I dc) as (c1 & c2 & c3). destruct (defined_head s m I dm) as (m1 & m2 & m3).
  destruct (iop_inv false s _ _ _ I c1 m1 c3 pm ei) as (I' & X). apply lineage_shown.
  - apply (step_inv s (Include c m)); auto.
  - unfold defined. now rewrite et.
  - rewrite (head_tbl _ _ et). unfold is_class in *. destruct (ext_keep _ _ X _ c1) as (_ & _ & -> & _). exact k.
  - now rewrite (head_tbl _ _ et).
Qed.

(** Nothing twice. *)
Lemma ins_newid h base i : (base < length h)%nat -> idof (insert h base i) (length h) = i.
Proof. intros hb. unfold idof. now rewrite ins_new. Qed.
Lemma rend_same h base i c l : (base < length h)%nat -> Forall (fun x => x < length h)%nat l -> ~ In base l ->
  rendered (insert h base i) c (spliced h base l) = rendered h c l.
Proof.
  intros hb. induction l as [|x t IH]; intros r n; auto. inversion r as [|? ? rx rt]; subst. cbn [spliced flat_map].
  destruct (Nat.eqb_spec x base) as [->|_]; [exfalso; apply n; now left|]. cbn [app rendered]. rewrite ins_nmod, ins_nic, ins_id, ins_norg by auto.
  fold (spliced h base t). rewrite IH by (auto; intros q; apply n; now right). reflexivity.
Qed.
Lemma rend_insert h base i c l : (base < length h)%nat -> Forall (fun x => x < length h)%nat l -> NoDup l ->
  exists a b, rendered h c l = a ++ b /\ (rendered (insert h base i) c (spliced h base l) = a ++ b \/
    rendered (insert h base i) c (spliced h base l) = a ++ i :: b).
Proof.
  intros hb. assert (SAME := fun l => rend_same h base i c l hb).
  induction l as [|x t IH]; intros r nd; [exists [], []; auto|]. inversion r as [|? ? rx rt]; subst. inversion nd as [|? ? nx nt]; subst.
  cbn [spliced flat_map]. fold (spliced h base t). destruct (Nat.eqb_spec x base) as [->|ne].
  - cbn [app rendered]. rewrite ins_nmod, ins_nic, ins_id, ins_norg, SAME by auto. rewrite ins_newid, ins_new by auto. cbn [nic nmod nid negb].
    rewrite andb_false_r. destruct (_ && _); [exists [], []; auto|]. eexists _, _. split; [reflexivity|]. right. reflexivity.
  - cbn [app rendered]. rewrite ins_nmod, ins_nic, ins_id, ins_norg by auto. destruct (_ && _); [exists [], []; auto|].
    destruct (IH rt nt) as (a & b & -> & E). eexists (_ ++ a), b. split; [now rewrite app_assoc|].
    destruct E as [-> | ->]; [left|right]; now rewrite app_assoc.
Qed.
Lemma NoDup_put {A} (i : A) a b : NoDup (a ++ b) -> ~ In i (a ++ b) -> NoDup (a ++ i :: b).
Proof.
  induction a as [|x a IH]; cbn; intros n h; [constructor; auto|]. inversion n; subst. constructor.
  - rewrite in_app_iff in *. cbn. intuition congruence.
  - apply IH; auto.
Qed.
Lemma ancestors_insert h t base i c : hinv h -> (base < length h)%nat -> (nth (Z.to_nat c) t O < length h)%nat ->
  exists a b, ancestors (mks h t) c = a ++ b /\ (ancestors (mks (insert h base i) t) c = a ++ b \/ ancestors (mks (insert h base i) t) c = a ++ i :: b).
Proof.
  intros I lb l. unfold ancestors, head. cbv zeta. cbn [hp tbl]. set (x := nth _ _ _) in *. rewrite ins_norg, ins_nmod, ins_id by auto.
  destruct (chain_of h I x l) as (ch & r). pose proof (chain_nodup _ _ _ ch) as nd. inversion nd as [|? ? nx nt]; subst. inversion r as [|? ? rx rt]; subst.
  pose proof (ins_above h base i x I lb l) as E. cbn [spliced flat_map] in E. fold (spliced h base (above h x)) in E.
  destruct (rend_insert h base i (negb (nmod (at_ h x))) (above h x) lb rt nt) as (a & b & e1 & e2).
  destruct (Nat.eqb_spec x base) as [e|n]; cbn [app] in E; injection E as ->.
  - assert (SAME : rendered (insert h base i) (negb (nmod (at_ h x))) (spliced h base (above h x)) = rendered h (negb (nmod (at_ h x))) (above h x)).
    { apply rend_same; auto. now subst base. }
    cbn [rendered]. rewrite SAME. rewrite ins_newid, ins_new by auto. cbn [nic nmod nid negb]. rewrite andb_false_r. cbn [app].
    eexists _, _. split; [reflexivity|]. right. reflexivity.
  - eexists (_ ++ a), b. rewrite e1. split; [now rewrite app_assoc|]. destruct e2 as [-> | ->]; [left|right]; now rewrite app_assoc.
Qed.
Lemma ancestors_ids s c x : In x (ancestors s c) -> x = idof (hp s) (head s c) \/ In x (lineage (hp s) (head s c)).
Proof.
  unfold ancestors. cbv zeta. intros q. apply in_app_or in q as [q|q].
  - destruct (norg _); [destruct q|]. destruct q as [<-|[]]. auto.
  - right. eapply rendered_ids; eauto.
Qed.
Lemma modules_mixed h l : hinv h -> (forall x, In x l -> is_plain_module h x = false) -> modules h l = mixed h l.
Proof.
  intros I. induction l as [|x t IH]; intros f; auto. cbn [modules mixed]. pose proof (f x (or_introl eq_refl)) as fx. unfold is_plain_module in fx.
  destruct (nic (at_ h x)) eqn:n.
  - rewrite (inv_icm h I x n). f_equal. apply IH. intros y hy. apply f. now right.
  - rewrite andb_true_r in fx. now rewrite fx.
Qed.
(** Cyclic: the receiver is among what the module brings. *)
Lemma cyclic_brings h self m : hinv h -> (m < length h)%nat -> check_cyclic h self m = true <-> In (idof h self) (brings h m).
Proof.
  intros I lm. unfold check_cyclic. rewrite modules_mixed by (auto; intros x hx; eapply above_plain; eauto).
  rewrite orb_true_iff, Z.eqb_eq, existsb_ids, has_in. unfold brings. destruct (norg (at_ h m)) as [o|] eqn:e.
  - split; [|tauto]. intros [q|q]; auto. destruct (inv_org h I m o e) as (nm & no & eo & io). rewrite <- q, <- eo.
    unfold ids. now apply in_map.
  - cbn. intuition congruence.
Qed.

Lemma include_nodup s c m s' : inv s -> step s (Include c m) = State s' -> NoDup (ancestors s c) -> NoDup (ancestors s' c).
Proof.
  intros I e nd. destruct (include_inv _ _ _ _ e) as (dc & dm & pm & et & ei). destruct (defined_head s c I dc) as (c1 & c2 & c3).
  destruct (defined_head s m I dm) as (m1 & m2 & m3). pose proof (inv_heap s I) as H.
  assert (cy : check_cyclic (hp s) (head s c) (head s m) = false).
  { destruct (check_cyclic _ _ _) eqn:cy; auto. rewrite iop_eq, cy in ei. discriminate. }
  assert (NB : ~ In c (brings (hp s) (head s m))).
  { rewrite <- c2 at 1. rewrite <- cyclic_brings by auto. congruence. }
  destruct (iop_pres (fun g => idof g (head s c) = c /\ NoDup (ancestors (mks g (tbl s)) c)) false (head s c) (head s m) (hp s) H c1 m1 c3 pm (hp s')) as ((_ & q) & _); auto.
  - intros g base i Ig lg (ic & p) hb hi ab. destruct (chain_of g Ig _ lg) as (_ & r). rewrite Forall_forall in r. pose proof (r _ hb) as lb.
    split; [now rewrite ins_id|]. destruct (ancestors_insert g (tbl s) base i c Ig lb lg) as (a & b & e1 & e2). rewrite e1 in p.
    destruct e2 as [-> | ->]; auto. apply NoDup_put; auto. rewrite <- e1. intros q. apply ancestors_ids in q as [q|q].
    + cbn [hp] in q. change (head (mks g (tbl s)) c) with (head s c) in q. congruence.
    + cbn [hp] in q. change (head (mks g (tbl s)) c) with (head s c) in q. unfold is_ancestor_of in ab. rewrite existsb_ids in ab.
      apply has_out in ab. auto.
  - destruct s' as [h' t']. cbn in et. now subst t'.
Qed.

(** The walk on the module's side is not touched. *)
Lemma iop_module prep h self m h' : hinv h -> (self < length h)%nat -> (m < length h)%nat -> nic (at_ h self) = false ->
  is_plain_module h m = true -> include_or_prepend prep h self m = Done h' ->
  brings h' m = brings h m /\ mixed h' (above h' m) = mixed h (above h m).
Proof.
  intros I ls lm ns pm e. assert (cy : check_cyclic h self m = false).
  { destruct (check_cyclic _ _ _) eqn:cy; auto. rewrite iop_eq, cy in e. discriminate. }
  set (r := m :: mixed h (above h m)). assert (rg : region h m r) by (now apply region_mixed).
  assert (RR : Forall (fun x => x < length h)%nat r) by (eapply region_range; eauto).
  destruct (iop_pres (fun g => extends h g /\ region g m r /\ (forall x, In x r -> ~ In x (self :: above g self))) prep self m h I ls lm ns pm h') as ((_ & q & _) & I' & X); auto.
  - intros g base i Ig lg (X & rgg & dj) hb _ _. destruct (chain_of g Ig _ lg) as (_ & rc). rewrite Forall_forall in rc. pose proof (rc _ hb) as lb.
    pose proof (ext_length _ _ X) as L. split; [eapply ext_trans; [eauto|now apply ins_extends]|]. split.
    + apply region_insert; auto; try lia. intros q. apply (dj base q hb).
    + intros x hx q. rewrite (ins_above g base i self Ig lb lg) in q. unfold spliced in q. apply in_flat_map in q as (y & hy & q).
      rewrite Forall_forall in RR. specialize (RR _ hx). destruct (Nat.eqb y base); cbn in q; destruct q as [q|q]; subst; try (apply (dj _ hx hy)); try tauto.
      destruct q as [q|[]]. lia.
  - split; [apply ext_refl|]. split; auto. exact (start_disjoint h self m r I ls lm ns pm cy (incl_refl _)).
  - pose proof (ext_length _ _ X) as L. assert (lm' : (m < length h')%nat) by lia.
    pose proof (region_mixed h' m I' lm') as q'. destruct (chain_of h' I' m lm') as (ch & _).
    assert (DET : forall a x y, region h' a x -> region h' a y -> x = y).
    { clear. intros a x y rx. revert y. induction rx as [a e|a b l e n rx IH]; intros y ry; inversion ry as [? e'|? b' l' e' n' ry']; subst; auto.
      - rewrite (e _ e') in n'. discriminate.
      - rewrite (e' _ e) in n. discriminate.
      - f_equal. apply IH. congruence. }
    pose proof (DET _ _ _ q' q) as E. unfold r in E. injection E as E. split; auto.
    assert (IDS : forall l, Forall (fun x => x < length h)%nat l -> ids h' l = ids h l).
    { intros l rl. apply map_ext_in. intros x hx. rewrite Forall_forall in rl. apply (ext_keep _ _ X x (rl x hx)). }
    unfold brings. destruct (ext_keep _ _ X m lm) as (_ & _ & _ & _ & ->). rewrite E. inversion RR as [|? ? _ rt]; subst. destruct (norg _); now apply IDS.
Qed.
Lemma include_again s c m s' : inv s -> step s (Include c m) = State s' -> step s' (Include c m) = State s'.
Proof.
  intros I e. destruct (include_inv _ _ _ _ e) as (dc & dm & pm & et & ei). destruct (defined_head s c I dc) as (c1 & c2 & c3).
  destruct (defined_head s m I dm) as (m1 & m2 & m3). pose proof (inv_heap s I) as H.
  assert (cy : check_cyclic (hp s) (head s c) (head s m) = false).
  { destruct (check_cyclic _ _ _) eqn:cy; auto. rewrite iop_eq, cy in ei. discriminate. }
  pose proof (iop_weave _ _ _ H c1 m1 c3 pm cy) as W. destruct (weave _ _ _) as [l|] eqn:w; [|congruence].
  destruct W as (h' & w1 & I' & X & w4). rewrite w1 in ei. injection ei as ->. destruct (iop_module _ _ _ _ _ H c1 m1 c3 pm w1) as (B & _).
  apply weave_again in w. pose proof (ext_length _ _ X) as L. destruct (ext_keep _ _ X _ c1) as (kc1 & kc2 & _). destruct (ext_keep _ _ X _ m1) as (_ & km2 & km3 & _).
  assert (c1' : (head s c < length (hp s'))%nat) by lia. assert (m1' : (head s m < length (hp s'))%nat) by lia.
  assert (pm' : is_plain_module (hp s') (head s m) = true) by (erewrite plain_stable; eauto).
  assert (cy' : check_cyclic (hp s') (head s c) (head s m) = false).
  { destruct (check_cyclic (hp s') _ _) eqn:q; auto. apply cyclic_brings in q; auto. rewrite B in q. unfold idof in q. rewrite kc1 in q.
    apply cyclic_brings in q; auto. congruence. }
  assert (c3' : nic (at_ (hp s') (head s c)) = false) by congruence.
  pose proof (iop_weave _ _ _ I' c1' m1' c3' pm' cy') as W2. rewrite B, w4, w in W2. destruct W2 as (h2 & v1 & v2 & v3 & v4).
  assert (E2 : h2 = hp s').
  { destruct (iop_pres (fun g => g = hp s') false (head s c) (head s m) (hp s') I' c1' m1' c3' pm' h2) as (q & _); auto.
    intros g base i _ _ -> _ hi ab. exfalso. unfold is_ancestor_of in ab. rewrite existsb_ids in ab. apply has_out in ab. apply ab.
    rewrite B in hi. fold (lineage (hp s') (head s c)). rewrite w4. eapply weave_all; eauto. }
  subst h2. cbn [step]. unfold defined in *. rewrite et, dc, dm, (head_tbl _ _ et m), (head_tbl _ _ et c), pm'. cbn [andb]. unfold include_module. rewrite v1.
  destruct s'; cbn in *. now subst.
Qed.

(** It raises exactly when the receiver is among the ancestors of the module. *)
Lemma include_raises s c m : inv s -> defined s c = true -> defined s m = true -> is_plain_module (hp s) (head s m) = true ->
  (exists s', step s (Include c m) = Raised s') <-> In c (ancestors s m).
Proof.
  intros I dc dm pm. destruct (defined_head s c I dc) as (c1 & c2 & c3). destruct (defined_head s m I dm) as (m1 & m2 & m3).
  rewrite module_ancestors by auto. pose proof (cyclic_brings (hp s) (head s c) (head s m) (inv_heap s I) m1) as CB. rewrite c2 in CB. rewrite <- CB.
  cbn [step]. rewrite dc, dm, pm. cbn [andb]. unfold include_module. split.
  - intros (s' & e). destruct (include_or_prepend _ _ _ _) as [h|h| |] eqn:ei; try discriminate. rewrite iop_eq in ei. destruct (check_cyclic _ _ _); auto.
    destruct (match norg _ with None => _ | Some _ => _ end) in ei; [|discriminate]. now apply loop_cyclic in ei.
  - intros cy. rewrite iop_eq, cy. eauto.
Qed.
Lemma include_total s c m : inv s -> defined s c = true -> defined s m = true -> is_plain_module (hp s) (head s m) = true ->
  NoDup (ancestors s m) -> (exists s', step s (Include c m) = State s') \/ step s (Include c m) = Raised s.
Proof.
  intros I dc dm pm nd. destruct (defined_head s c I dc) as (c1 & c2 & c3). destruct (defined_head s m I dm) as (m1 & m2 & m3).
  rewrite module_ancestors in nd by auto. cbn [step]. rewrite dc, dm, pm. cbn [andb]. unfold include_module.
  destruct (check_cyclic (hp s) (head s c) (head s m)) eqn:cy.
  - right. rewrite iop_eq, cy. now destruct s.
  - left. pose proof (iop_weave _ _ _ (inv_heap s I) c1 m1 c3 pm cy) as W. destruct (weave _ _ _) as [l|] eqn:w.
    + destruct W as (h' & -> & _). eauto.
    + exfalso. revert w. apply (weave_total _ []); auto. intros x [].
Qed.
(** It never crashes except by that [unwrap], and never runs forever. *)
Lemma include_no_fuel s c m : inv s -> step s (Include c m) <> NoFuel.
Proof.
  intros I. cbn [step]. destruct (defined s c) eqn:dc; [|discriminate]. destruct (defined s m) eqn:dm; [|discriminate].
  destruct (is_plain_module _ _) eqn:pm; [|discriminate]. cbn [andb]. unfold include_module.
  destruct (defined_head s c I dc) as (c1 & c2 & c3). destruct (defined_head s m I dm) as (m1 & m2 & m3).
  destruct (check_cyclic (hp s) (head s c) (head s m)) eqn:cy; [rewrite iop_eq, cy; discriminate|].
  pose proof (iop_weave _ _ _ (inv_heap s I) c1 m1 c3 pm cy) as W. destruct (weave _ _ _) as [l|] eqn:w.
  - destruct W as (h' & -> & _). discriminate.
  - rewrite W. discriminate.
Qed.
