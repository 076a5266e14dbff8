(** The invariant along any history of operations. *)
From Coq Require Import ZArith List Bool Lia Arith.
From Verif Require Import ClassModel ClassSpec ClassProofs ClassLoopProofs ClassWeaveProofs.
Import ListNotations.
Open Scope Z_scope.

(** * A loop that inserts *)
Section LoopInv.
Variable P : heap -> Prop.
Variables (prep : bool) (self : nat) (n : list Z).
Hypothesis step_ok : forall h base i, hinv h -> (self < length h)%nat -> P h -> In base (self :: above h self) -> In i n ->
  (if prep then is_ancestor_before h i self else is_ancestor_of h i self) = false -> P (insert h base i).
Lemma loop_pres k h base m r h' : hinv h -> (self < length h)%nat -> (m < length h)%nat -> region h m r -> incl (ids h r) n ->
  (forall x, In x r -> ~ In x (self :: above h self)) -> In base (self :: above h self) ->
  P h -> loop k prep h self base m = Done h' -> P h' /\ hinv h' /\ extends h h'.
Proof.
  revert h base m r. induction k as [|k IH]; intros h base m r I ls lm rg ir dj hb p e; [discriminate|].
  destruct (chain_of h I self ls) as (c & rc). assert (lb : (base < length h)%nat) by (rewrite Forall_forall in rc; auto).
  assert (NX : forall b, sup h base = Some b -> In b (self :: above h self)).
  { intros b q. destruct (chain_suffix _ _ _ _ c hb) as (p1 & p2 & e1 & c2). inversion c2; subst; [congruence|].
    rewrite e1. apply in_or_app. right. right. assert (b0 = b) by congruence. subst. destruct (chain_head _ _ _ H0) as (t & ->). now left. }
  cbn [loop] in e. cbv zeta in e. destruct (if prep then _ else _) eqn:pr.
  - destruct (sup h base) as [b1|] eqn:sb; [|discriminate]. destruct (sup h m) as [m1|] eqn:sm.
    + destruct (nic (at_ h m1)) eqn:nm; [|injection e as <-; split; [auto|split; [auto|apply ext_refl]]].
      inversion rg as [? le|? b2 rt e2 n2 rg2]; subst; [rewrite (le _ sm) in nm; discriminate|]. assert (b2 = m1) by congruence. subst b2.
      eapply IH; [exact I|exact ls|eapply inv_range; eauto|exact rg2| | |apply NX; auto|exact p|exact e].
      * intros x hx. apply ir. now right.
      * intros x hx. apply dj. now right.
    + injection e as <-. split; [auto|split; [auto|apply ext_refl]].
  - set (h1 := insert h base (idof h m)) in *. assert (I1 : hinv h1) by (now apply ins_hinv).
    assert (p1 : P h1). { apply step_ok; auto. apply ir. destruct (region_head _ _ _ rg) as (t & ->). now left. }
    pose proof (ins_extends h base (idof h m) I lb) as X. fold h1 in X.
    assert (L1 : length h1 = S (length h)) by apply ins_length.
    rewrite (ins_sup h base (idof h m) lb base : sup h1 base = _), Nat.eqb_refl in e.
    assert (nr : ~ In base r) by (intros hx; apply (dj base hx hb)).
    pose proof (region_insert h base (idof h m) m _ I lb lm rg nr) as rg1. fold h1 in rg1.
    destruct (sup h1 m) as [m1|] eqn:sm.
    + destruct (nic (at_ h1 m1)) eqn:nm; [|injection e as <-; auto].
      inversion rg1 as [? le|? b2 rt e2 n2 rg2]; subst; [rewrite (le _ sm) in nm; discriminate|]. assert (b2 = m1) by congruence. subst b2.
      assert (RR : Forall (fun x => x < length h)%nat rt). { pose proof (region_range _ _ _ I lm rg) as R0. now inversion R0. }
      assert (C1 : self :: above h1 self = spliced h base (self :: above h self)) by (apply ins_above; auto).
      assert (SP : forall x, In x (self :: above h1 self) <-> In x (self :: above h self) \/ x = length h).
      { intros x. rewrite C1. unfold spliced. rewrite in_flat_map. split.
        - intros (y & hy & q). destruct (Nat.eqb y base); cbn in q; intuition (subst; auto).
        - intros [q| ->].
          + exists x. split; auto. destruct (Nat.eqb x base); now left.
          + exists base. split; auto. rewrite Nat.eqb_refl. right. now left. }
      destruct (IH h1 (length h) m1 rt) as (w1 & w2 & w3); auto; try lia.
      * eapply inv_range; eauto.
      * unfold h1. rewrite ids_ins by auto. intros x hx. apply ir. now right.
      * intros x hx q. apply SP in q as [q| ->]; [apply (dj x (or_intror hx) q)|]. rewrite Forall_forall in RR. specialize (RR _ hx). lia.
      * apply SP. now right.
      * split; auto. split; auto. eapply ext_trans; eauto.
    + injection e as <-. auto.
Qed.
End LoopInv.

(** * Heaps that differ in origins only *)
Record same_sup (h h' : heap) : Prop := {
  ss_length : length h' = length h;
  ss_keep : forall a, nid (at_ h' a) = nid (at_ h a) /\ nsup (at_ h' a) = nsup (at_ h a) /\ nic (at_ h' a) = nic (at_ h a) /\
    nmod (at_ h' a) = nmod (at_ h a) /\ nsing (at_ h' a) = nsing (at_ h a)
}.
Lemma ss_above h h' a : same_sup h h' -> above h' a = above h a.
Proof.
  intros s. unfold above. rewrite (ss_length _ _ s). generalize (length h) as k. intros k. revert a. induction k as [|k IH]; intros a; cbn [supers]; auto.
  unfold sup. destruct (ss_keep _ _ s a) as (_ & -> & _). destruct (nsup (at_ h a)); auto. now rewrite IH.
Qed.
Lemma ss_chain h h' a l : same_sup h h' -> chain h a l -> chain h' a l.
Proof.
  intros s c. induction c as [a e|a b l e c IH]; [apply chain_end|apply chain_next with b; auto];
    unfold sup in *; destruct (ss_keep _ _ s a) as (_ & -> & _); auto.
Qed.
Lemma set_org_same h a o : (a < length h)%nat -> same_sup h (set_at h a (set_org (at_ h a) o)).
Proof.
  intros l. split; [apply set_at_length|]. intros b. destruct (Nat.eq_dec b a) as [->|n].
  - rewrite set_at_same by auto. cbn. auto.
  - rewrite set_at_other by auto. auto.
Qed.
Lemma set_org_hinv h a o : hinv h -> (a < length h)%nat -> nic (at_ h a) = false -> nic (at_ h o) = true -> idof h o = idof h a -> In o (mixed h (above h a)) ->
  hinv (set_at h a (set_org (at_ h a) (Some o))).
Proof.
  intros I la na no ei io. pose proof (set_org_same h a (Some o) la) as S'. set (h' := set_at _ _ _) in *.
  assert (SU : forall x, sup h' x = sup h x) by (intros x; unfold sup; now destruct (ss_keep _ _ S' x) as (_ & -> & _)).
  assert (NI : forall x, nic (at_ h' x) = nic (at_ h x)) by (intros x; now destruct (ss_keep _ _ S' x) as (_ & _ & -> & _)).
  assert (NM : forall x, nmod (at_ h' x) = nmod (at_ h x)) by (intros x; now destruct (ss_keep _ _ S' x) as (_ & _ & _ & -> & _)).
  assert (ID : forall x, idof h' x = idof h x) by (intros x; unfold idof; now destruct (ss_keep _ _ S' x) as (-> & _)).
  split.
  - intros x lx. rewrite (ss_length _ _ S') in lx. destruct (inv_chain h I x lx) as (l & c). exists l. eapply ss_chain; eauto.
  - intros x y e. rewrite SU in e. rewrite (ss_length _ _ S'). eapply inv_range; eauto.
  - intros x y e. rewrite SU in e. unfold is_plain_module. rewrite NI, NM. apply (inv_plain h I _ _ e).
  - intros x y z. rewrite !SU, NI. apply (inv_one h I).
  - intros x y e. assert (MX : forall l, mixed h' l = mixed h l) by (induction l as [|z l IH]; cbn; auto; rewrite NI, IH; auto).
    rewrite !NI, !ID, (ss_above _ _ _ S'), MX. destruct (Nat.eq_dec x a) as [->|n].
    + unfold h' in e. rewrite set_at_same in e by auto. cbn in e. injection e as <-. auto.
    + unfold h' in e. rewrite set_at_other in e by auto. apply (inv_org h I _ _ e).
  - intros x. rewrite NI, NM. apply (inv_icm h I).
Qed.

(** [make_origin]. *)
Section Origin.
Variables (h : heap) (a : nat).
Hypothesis (I : hinv h) (la : (a < length h)%nat) (na : nic (at_ h a) = false).
Lemma mo_above x : (x < length h)%nat -> norg (at_ h a) = None -> x :: above (make_origin h a) x = spliced h a (x :: above h x).
Proof.
  intros lx e. unfold make_origin. rewrite e. cbv zeta. rewrite (ss_above (insert h a (idof h a))).
  - now apply ins_above.
  - apply set_org_same. rewrite ins_length. lia.
Qed.
Lemma mo_hinv : hinv (make_origin h a).
Proof.
  unfold make_origin. destruct (norg (at_ h a)) eqn:e; auto. cbv zeta. apply set_org_hinv.
  - now apply ins_hinv.
  - rewrite ins_length. lia.
  - now rewrite ins_nic.
  - now rewrite ins_new.
  - unfold idof at 1. rewrite ins_new by auto. cbn. now rewrite ins_id.
  - pose proof (ins_above h a (idof h a) a I la la) as E. cbn [spliced flat_map] in E. rewrite Nat.eqb_refl in E. cbn [app] in E.
    injection E as ->. cbn [mixed]. rewrite ins_new by auto. now left.
Qed.
Lemma mo_keep x : (x < length h)%nat -> nid (at_ (make_origin h a) x) = nid (at_ h x) /\ nic (at_ (make_origin h a) x) = nic (at_ h x) /\
    nmod (at_ (make_origin h a) x) = nmod (at_ h x) /\ nsing (at_ (make_origin h a) x) = nsing (at_ h x) /\
    (x <> a -> norg (at_ (make_origin h a) x) = norg (at_ h x)).
Proof.
  intros lx. unfold make_origin. destruct (norg (at_ h a)) eqn:e; auto. cbv zeta.
  assert (L' : (a < length (insert h a (idof h a)))%nat) by (rewrite ins_length; lia).
  destruct (ss_keep _ _ (set_org_same (insert h a (idof h a)) a (Some (length h)) L') x) as (q1 & _ & q2 & q3 & q4).
  rewrite q1, q2, q3, q4, ins_nic, ins_nmod, ins_nsing by auto. repeat split; auto.
  - apply (ins_id h a (idof h a) la x lx).
  - intros n. rewrite set_at_other by auto. now rewrite ins_norg.
Qed.
Lemma mo_length : length (make_origin h a) = if norg (at_ h a) then length h else S (length h).
Proof. unfold make_origin. destruct (norg (at_ h a)); auto. cbv zeta. now rewrite set_at_length, ins_length. Qed.
Lemma mo_new : norg (at_ h a) = None ->
  nid (at_ (make_origin h a) (length h)) = nid (at_ h a) /\ nic (at_ (make_origin h a) (length h)) = true /\
  norg (at_ (make_origin h a) (length h)) = None /\ norg (at_ (make_origin h a) a) = Some (length h).
Proof.
  intros e. unfold make_origin. rewrite e. cbv zeta. rewrite set_at_other by lia. rewrite ins_new by auto.
  rewrite set_at_same by (rewrite ins_length; lia). auto.
Qed.
(** Making room for prepended modules shows nowhere. *)
Lemma mo_rendered c l : norg (at_ h a) = None -> Forall (fun x => x < length h)%nat l ->
  rendered (make_origin h a) c (spliced h a l) = rendered h c l.
Proof.
  intros e. destruct (mo_new e) as (n1 & n2 & n3 & n4). induction l as [|x t IH]; intros r; auto. inversion r as [|? ? rx rt]; subst.
  specialize (IH rt). cbn [spliced flat_map]. destruct (mo_keep x rx) as (k1 & k2 & k3 & k4 & k5).
  destruct (Nat.eqb_spec x a) as [->|n]; cbn [app rendered]; unfold idof; rewrite k1, k2, k3; fold (spliced h a t); rewrite ?IH.
  - destruct (_ && _); auto. rewrite n1, n2, n4, e, na. rewrite andb_false_r. reflexivity.
  - now rewrite (k5 n).
Qed.
End Origin.
Lemma mo_ancestors s a d : hinv (hp s) -> (a < length (hp s))%nat -> nic (at_ (hp s) a) = false -> (head s d < length (hp s))%nat ->
  ancestors (mks (make_origin (hp s) a) (tbl s)) d = ancestors s d.
Proof.
  intros I la na ld. destruct s as [h t]. cbn [hp] in *. unfold ancestors, head in *. cbn [hp tbl] in *. set (x := nth (Z.to_nat d) t O) in *.
  destruct (norg (at_ h a)) eqn:e; [unfold make_origin; now rewrite e|].
  destruct (mo_keep h a la x ld) as (k1 & k2 & k3 & k4 & k5). destruct (chain_of h I x ld) as (_ & r). inversion r as [|? ? _ rt]; subst.
  pose proof (mo_above h a I la x ld e) as A. cbn [spliced flat_map] in A. fold (spliced h a (above h x)) in A. rewrite k3. unfold idof. rewrite k1.
  pose proof (mo_rendered h a la na (negb (nmod (at_ h x))) _ e rt) as R.
  destruct (mo_new h a la e) as (n1 & n2 & n3 & n4).
  destruct (Nat.eqb_spec x a) as [->|n]; cbn [app] in A; injection A as ->.
  - rewrite n4, e. cbn [app rendered]. rewrite n2. unfold idof. rewrite n1. rewrite andb_false_r. cbn [app]. now rewrite R.
  - now rewrite (k5 n), R.
Qed.

(** * The table *)
Lemma defd i n : 0 <= i < n -> (0 <=? i) && (i <? n) = true.
Proof. intros [a b]. apply Z.leb_le in a. apply Z.ltb_lt in b. now rewrite a, b. Qed.
Lemma plain_stable h h' a : nmod (at_ h' a) = nmod (at_ h a) -> nic (at_ h' a) = nic (at_ h a) -> is_plain_module h' a = is_plain_module h a.
Proof. unfold is_plain_module. now intros -> ->. Qed.
Lemma defined_head s i : inv s -> defined s i = true -> (head s i < length (hp s))%nat /\ idof (hp s) (head s i) = i /\ nic (at_ (hp s) (head s i)) = false.
Proof.
  intros I d. unfold defined in d. apply andb_true_iff in d as [d1 d2]. apply Z.leb_le in d1. apply Z.ltb_lt in d2.
  assert (L : (Z.to_nat i < length (tbl s))%nat) by lia. pose proof (nth_error_nth' _ O L) as e.
  destruct (inv_tbl s I _ _ e) as (q1 & q2 & q3). unfold head. rewrite q2, Z2Nat.id by lia. auto.
Qed.
Lemma inv_ins s base i : inv s -> (base < length (hp s))%nat -> defined s i = true -> is_plain_module (hp s) (head s i) = true ->
  inv (mks (insert (hp s) base i) (tbl s)).
Proof.
  intros I lb di pi. pose proof (inv_heap s I) as H. destruct s as [h t]. cbn [hp tbl] in *. split; cbn [hp tbl].
  - now apply ins_hinv.
  - intros j a e. destruct (inv_tbl _ I j a e) as (q1 & q2 & q3). cbn in q1, q2, q3. rewrite ins_length, ins_id, ins_nic by auto. auto.
  - intros a l n. rewrite ins_length in l. destruct (Nat.eq_dec a (length h)) as [->|ne].
    + rewrite ins_new in n by auto. discriminate.
    + rewrite ins_nic in n by lia. rewrite ins_id by lia. apply (inv_head _ I); auto. cbn. lia.
  - intros a l n. rewrite ins_length in l. destruct (defined_head _ _ I di) as (z1 & z2 & z3). cbn in z1, z2, z3.
    destruct (Nat.eq_dec a (length h)) as [->|ne].
    + unfold idof. rewrite ins_new by auto. cbn [nid]. split; [exact di|left].
      change (head (mks (insert h base i) t) i) with (head (mks h t) i). erewrite plain_stable; [exact pi| |].
      * now apply ins_nmod.
      * now apply ins_nic.
    + rewrite ins_nic in n by lia. rewrite ins_id by lia. destruct (inv_icl _ I a ltac:(cbn; lia) n) as (q1 & q2).
      destruct (defined_head _ _ I q1) as (w1 & w2 & w3). cbn in w1, w2, w3. split; [exact q1|].
      change (head (mks (insert h base i) t) (idof h a)) with (head (mks h t) (idof h a)). rewrite ins_norg by auto.
      erewrite plain_stable; [exact q2|now apply ins_nmod|now apply ins_nic].
  - destruct (inv_object _ I) as (o1 & o2). cbn in o1, o2. split; auto. unfold is_class in *.
    assert (D1 : defined (mks h t) OBJECT = true) by (unfold defined, OBJECT; apply defd; cbn [tbl]; lia).
    destruct (defined_head _ _ I D1) as (w1 & w2 & w3). cbn in w1. change (head (mks (insert h base i) t) OBJECT) with (head (mks h t) OBJECT).
    now rewrite ins_nmod.
Qed.
Lemma inv_mo s a : inv s -> (a < length (hp s))%nat -> nic (at_ (hp s) a) = false -> inv (mks (make_origin (hp s) a) (tbl s)).
Proof.
  intros I la na. pose proof (inv_heap s I) as H. destruct s as [h t]. cbn [hp tbl] in *.
  destruct (norg (at_ h a)) eqn:e; [unfold make_origin; now rewrite e|].
  destruct (mo_new h a la e) as (n1 & n2 & n3 & n4). pose proof (mo_keep h a la) as K. pose proof (mo_length h a) as L. rewrite e in L.
  set (h' := make_origin h a) in *.
  assert (HD : forall i, head (mks h' t) i = head (mks h t) i) by reflexivity.
  split; cbn [hp tbl].
  - now apply mo_hinv.
  - intros j b q. destruct (inv_tbl _ I j b q) as (q1 & q2 & q3). cbn in q1, q2, q3. destruct (K b q1) as (k1 & k2 & _).
    rewrite L, k2. unfold idof. rewrite k1. auto.
  - intros b l n. rewrite L in l. destruct (Nat.eq_dec b (length h)) as [->|ne]; [congruence|]. assert (lb : (b < length h)%nat) by lia.
    destruct (K b lb) as (k1 & k2 & _). rewrite k2 in n. unfold idof. rewrite k1. apply (inv_head _ I); auto.
  - intros b l n. rewrite L in l. unfold idof. destruct (Nat.eq_dec b (length h)) as [->|ne].
    + rewrite n1. destruct (inv_head _ I a la na) as (q1 & q2). cbn [hp] in q1, q2. split; [exact q1|right]. rewrite HD.
      unfold idof in q2. now rewrite q2.
    + assert (lb : (b < length h)%nat) by lia. destruct (K b lb) as (k1 & k2 & _). rewrite k1. rewrite k2 in n.
      destruct (inv_icl _ I b lb n) as (q1 & q2). cbn [hp] in q1, q2. split; [exact q1|]. unfold idof in q1, q2. rewrite HD.
      destruct (defined_head _ _ I q1) as (w1 & w2 & w3). cbn [hp] in w1. destruct (K _ w1) as (u1 & u2 & u3 & u4 & u5).
      destruct q2 as [q2|q2]; [left; erewrite plain_stable; eauto|]. right.
      rewrite u5; auto. intros E. rewrite E in q2. congruence.
  - destruct (inv_object _ I) as (o1 & o2). cbn in o1, o2. split; auto. unfold is_class in *.
    assert (D1 : defined (mks h t) OBJECT = true) by (unfold defined, OBJECT; apply defd; cbn [tbl]; lia).
    destruct (defined_head _ _ I D1) as (w1 & w2 & w3). cbn [hp] in w1. rewrite HD. destruct (K _ w1) as (u1 & u2 & u3 & u4 & u5). now rewrite u3.
Qed.

(** ** A new class or module *)
Section New.
Variables (h : heap) (n : node).
Hypothesis (I : hinv h) (n1 : nic n = false) (n2 : norg n = None)
  (n3 : forall b, nsup n = Some b -> (b < length h)%nat /\ nic (at_ h b) = false /\ nmod (at_ h b) = false).
Lemma app_at x : at_ (h ++ [n]) x = if Nat.eqb x (length h) then n else at_ h x.
Proof.
  destruct (Nat.eqb_spec x (length h)) as [->|ne]; [apply at_app2|]. destruct (Nat.lt_ge_cases x (length h)); [now apply at_app1|].
  rewrite !at_out; auto. rewrite app_length. cbn. lia.
Qed.
Lemma app_chain x l : (x < length h)%nat -> chain h x l -> chain (h ++ [n]) x l.
Proof.
  intros lx c. induction c as [x e|x b l e c IH]; [apply chain_end|apply chain_next with b]; unfold sup in *; try rewrite at_app1 by auto; auto.
  apply IH. eapply inv_range; eauto.
Qed.
Lemma app_above x : (x < length h)%nat -> above (h ++ [n]) x = above h x.
Proof.
  intros lx. destruct (chain_of h I x lx) as (c & r). pose proof (app_chain _ _ lx c) as c'.
  apply chain_above in c'; [congruence|]. eapply Forall_impl; [|exact r]. intros y. rewrite app_length. cbn. lia.
Qed.
Lemma app_hinv : hinv (h ++ [n]).
Proof.
  assert (SU : forall x, sup (h ++ [n]) x = if Nat.eqb x (length h) then nsup n else sup h x).
  { intros x. unfold sup. rewrite app_at. destruct (Nat.eqb x (length h)); auto. }
  split.
  - intros a la. rewrite app_length in la. cbn in la. destruct (Nat.eq_dec a (length h)) as [->|ne].
    + destruct (nsup n) as [b|] eqn:e.
      * destruct (n3 b eq_refl) as (lb & _). destruct (chain_of h I b lb) as (c & _). eexists. apply chain_next with b; [|apply app_chain; eauto].
        rewrite SU, Nat.eqb_refl. auto.
      * exists [length h]. apply chain_end. rewrite SU, Nat.eqb_refl. auto.
    + destruct (inv_chain h I a ltac:(lia)) as (l & c). exists l. apply app_chain; auto. lia.
  - intros a b e. rewrite app_length. cbn. rewrite SU in e. destruct (Nat.eqb a (length h)); [destruct (n3 b e); lia|].
    pose proof (inv_range h I _ _ e). lia.
  - intros a b e. rewrite SU in e. unfold is_plain_module. destruct (Nat.eqb a (length h)).
    + destruct (n3 b e) as (lb & q1 & q2). rewrite at_app1 by auto. now rewrite q2.
    + pose proof (inv_range h I _ _ e). rewrite at_app1 by auto. apply (inv_plain h I _ _ e).
  - intros a b x e1 e2 nx. rewrite SU in e1, e2.
    assert (NO : nsup n = Some x -> False). { intros e. destruct (n3 x e) as (lx & q1 & q2). rewrite at_app1 in nx by auto. congruence. }
    destruct (Nat.eqb a (length h)); [tauto|]. destruct (Nat.eqb b (length h)); [tauto|].
    eapply (inv_one h I); eauto. pose proof (inv_range h I _ _ e1). now rewrite at_app1 in nx.
  - intros a o e. destruct (Nat.lt_ge_cases a (length h)) as [la|ga].
    + rewrite at_app1 in e by auto. destruct (inv_org h I a o e) as (q1 & q2 & q3 & q4). destruct (chain_of h I a la) as (_ & r).
      inversion r as [|? ? _ rt]; subst.
      assert (lo : (o < length h)%nat) by (rewrite Forall_forall in rt; apply rt; eapply mixed_incl; eauto).
      assert (MX : forall l, Forall (fun x => x < length h)%nat l -> mixed (h ++ [n]) l = mixed h l).
      { induction l as [|z l IH]; intros rl; cbn [mixed]; auto. inversion rl; subst. rewrite at_app1, IH by auto. auto. }
      unfold idof in *. rewrite app_above, !at_app1, MX by auto. auto.
    + rewrite app_at in e. destruct (Nat.eqb a (length h)); [congruence|]. rewrite at_out in e by lia. discriminate.
  - intros a. rewrite app_at. destruct (Nat.eqb a (length h)); [congruence|apply (inv_icm h I)].
Qed.
End New.
Lemma inv_new s n : inv s -> nic n = false -> norg n = None -> nid n = Z.of_nat (length (tbl s)) ->
  (forall b, nsup n = Some b -> (b < length (hp s))%nat /\ nic (at_ (hp s) b) = false /\ nmod (at_ (hp s) b) = false) -> inv (new_node s n).
Proof.
  intros I n1 n2 n4 n3. pose proof (inv_heap s I) as H. destruct s as [h t]. unfold new_node. cbn [hp tbl] in *.
  assert (DF : forall i, defined (mks h t) i = true -> defined (mks (h ++ [n]) (t ++ [length h])) i = true /\
    head (mks (h ++ [n]) (t ++ [length h])) i = head (mks h t) i).
  { intros i d. unfold defined, head in *. cbn [tbl] in *. rewrite app_length. cbn [length]. apply andb_true_iff in d as [d1 d2].
    apply Z.leb_le in d1. apply Z.ltb_lt in d2. split; [apply defd; lia|]. apply app_nth1. lia. }
  split; cbn [hp tbl].
  - now apply app_hinv.
  - intros j a e. rewrite app_length. cbn [length]. unfold idof. destruct (Nat.lt_ge_cases j (length t)) as [lj|gj].
    + rewrite nth_error_app1 in e by auto. destruct (inv_tbl _ I j a e) as (q1 & q2 & q3). cbn [hp] in *. rewrite at_app1 by auto. split; [lia|auto].
    + rewrite nth_error_app2 in e by auto. destruct (j - length t)%nat as [|k] eqn:ej; cbn in e; [|destruct k; discriminate].
      injection e as <-. rewrite at_app2. rewrite n4. split; [lia|]. split; auto. f_equal. lia.
  - intros a la na. rewrite app_length in la. cbn in la. unfold idof. destruct (Nat.eq_dec a (length h)) as [->|ne].
    + rewrite at_app2, n4. unfold defined, head. cbn [tbl]. rewrite app_length. cbn [length]. split; [apply defd; lia|]. rewrite Nat2Z.id, app_nth2, Nat.sub_diag by lia. reflexivity.
    + assert (la' : (a < length h)%nat) by lia. rewrite at_app1 in * by auto. destruct (inv_head _ I a la' na) as (q1 & q2). cbn [hp] in q1, q2.
      destruct (DF _ q1) as (w1 & w2). unfold idof in w1, w2, q2. rewrite w2. auto.
  - intros a la na. rewrite app_length in la. cbn in la. unfold idof. destruct (Nat.eq_dec a (length h)) as [->|ne]; [rewrite at_app2 in na; congruence|].
    assert (la' : (a < length h)%nat) by lia. rewrite at_app1 in * by auto. destruct (inv_icl _ I a la' na) as (q1 & q2). cbn [hp] in q1, q2.
    destruct (DF _ q1) as (w1 & w2). unfold idof in w1, w2, q2. rewrite w2. destruct (defined_head _ _ I q1) as (z1 & _). cbn [hp] in z1. unfold idof in z1.
    split; auto. unfold is_plain_module in *. now rewrite !at_app1 by auto.
  - destruct (inv_object _ I) as (o1 & o2). cbn in o1, o2. rewrite app_length. split; [cbn; lia|]. unfold is_class in *.
    assert (D1 : defined (mks h t) OBJECT = true) by (unfold defined, OBJECT; apply defd; cbn [tbl]; lia).
    destruct (DF _ D1) as (_ & ->). destruct (defined_head _ _ I D1) as (w1 & _). cbn [hp] in w1. now rewrite at_app1.
Qed.

(** ** Including and prepending *)
Lemma region_plain s m r : inv s -> (m < length (hp s))%nat -> is_plain_module (hp s) m = true -> region (hp s) m r ->
  forall x, In x r -> defined s (idof (hp s) x) = true /\ is_plain_module (hp s) (head s (idof (hp s) x)) = true.
Proof.
  intros I lm pm rg x hx. pose proof (inv_heap s I) as H. pose proof (region_range _ _ _ H lm rg) as RR.
  assert (lx : (x < length (hp s))%nat) by (rewrite Forall_forall in RR; auto).
  assert (nm : nic (at_ (hp s) m) = false). { unfold is_plain_module in pm. destruct (nic _); auto. rewrite andb_false_r in pm. discriminate. }
  destruct (nic (at_ (hp s) x)) eqn:nx.
  - destruct (inv_icl s I x lx nx) as (q1 & q2). split; auto. destruct q2 as [q2|q2]; auto.
    destruct (is_plain_module (hp s) (head s (idof (hp s) x))) eqn:np; auto. exfalso.
    destruct (defined_head s _ I q1) as (w1 & w2 & w3). set (y := head s _) in *. destruct (inv_org _ H _ _ q2) as (_ & _ & _ & z).
    apply mixed_incl in z. apply (region_disjoint (hp s) y m r H w1 w3 rg) with x; auto; [|now right].
    intros [->|q]; [congruence|]. eapply plain_not_above; eauto.
  - assert (x = m).
    { clear - rg hx nx. induction rg as [m e|m b l e n rg IH]; destruct hx as [<-|hx]; auto; [destruct hx|].
      assert (Z : x = b) by auto. congruence. }
    subst x. destruct (inv_head s I m lm nx) as (q1 & q2). rewrite q2. auto.
Qed.

(** What the walk starts with. *)
Lemma iop_start h m : hinv h -> (m < length h)%nat ->
  match (match norg (at_ h m) with
         | Some _ => match sup h m with Some m1 => if nic (at_ h m1) then Some m1 else None | None => None end
         | None => Some m end) with
  | Some m1 => exists r, region h m1 r /\ brings h m = ids h r /\ incl r (m :: mixed h (above h m)) /\ (m1 < length h)%nat
  | None => brings h m = []
  end.
Proof.
  intros I lm. pose proof (region_mixed h m I lm) as rg. unfold brings. destruct (norg (at_ h m)) as [o|] eqn:e.
  - destruct (sup h m) as [m1|] eqn:sm; [|now rewrite (above_none h _ sm)]. rewrite (above_next h I m m1 lm sm). cbn [mixed].
    destruct (nic (at_ h m1)) eqn:n; auto. pose proof (inv_range h I _ _ sm) as l1. exists (m1 :: mixed h (above h m1)).
    split; [now apply region_mixed|]. split; auto. split; auto. intros x hx. now right.
  - exists (m :: mixed h (above h m)). split; auto. split; auto. split; auto. apply incl_refl.
Qed.
Lemma iop_eq prep h self m : include_or_prepend prep h self m =
  if check_cyclic h self m then Cyclic h
  else match (match norg (at_ h m) with
         | Some _ => match sup h m with Some m1 => if nic (at_ h m1) then Some m1 else None | None => None end
         | None => Some m end) with
       | Some m1 => loop (S (length h)) prep h self self m1
       | None => Done h
       end.
Proof.
  unfold include_or_prepend. destruct (check_cyclic h self m); auto. destruct (norg (at_ h m)); auto. destruct (sup h m); auto. now destruct (nic _).
Qed.
Lemma start_disjoint h self m r : hinv h -> (self < length h)%nat -> (m < length h)%nat -> nic (at_ h self) = false ->
  is_plain_module h m = true -> check_cyclic h self m = false -> incl r (m :: mixed h (above h m)) ->
  forall x, In x r -> ~ In x (self :: above h self).
Proof.
  intros I ls lm ns pm cy ir x hx. apply (region_disjoint h self m (m :: mixed h (above h m)) I ls ns (region_mixed h m I lm)).
  - intros [q|q]; [subst; unfold check_cyclic in cy; now rewrite Z.eqb_refl in cy|]. exact (plain_not_above h self m I ls pm q).
  - auto.
Qed.

Section Iop.
Variables (P : heap -> Prop) (prep : bool) (self m : nat) (h : heap).
Hypothesis (I : hinv h) (ls : (self < length h)%nat) (lm : (m < length h)%nat) (ns : nic (at_ h self) = false) (pm : is_plain_module h m = true).
Lemma iop_pres h' : (forall g base i, hinv g -> (self < length g)%nat -> P g -> In base (self :: above g self) -> In i (brings h m) ->
  (if prep then is_ancestor_before g i self else is_ancestor_of g i self) = false -> P (insert g base i)) ->
  P h -> include_or_prepend prep h self m = Done h' -> P h' /\ hinv h' /\ extends h h'.
Proof.
  intros st p e. rewrite iop_eq in e. destruct (check_cyclic h self m) eqn:cy; [discriminate|].
  pose proof (iop_start h m I lm) as S'. destruct (match norg _ with None => _ | Some _ => _ end) as [m1|].
  - destruct S' as (r & rg & br & ir & l1).
    eapply (loop_pres P prep self (brings h m) st _ h self m1 r); eauto.
    + rewrite br. apply incl_refl.
    + exact (start_disjoint h self m r I ls lm ns pm cy ir).
    + now left.
  - injection e as <-. split; auto. split; auto. apply ext_refl.
Qed.
End Iop.

Lemma brings_plain s m : inv s -> (m < length (hp s))%nat -> is_plain_module (hp s) m = true ->
  forall i, In i (brings (hp s) m) -> defined s i = true /\ is_plain_module (hp s) (head s i) = true.
Proof.
  intros I lm pm i hi. pose proof (inv_heap s I) as H. assert (In i (ids (hp s) (m :: mixed (hp s) (above (hp s) m)))) as hi'.
  { unfold brings in hi. destruct (norg _); auto. now right. }
  unfold ids in hi'. apply in_map_iff in hi' as (x & <- & hx). eapply region_plain; eauto. now apply region_mixed.
Qed.
Definition sane (s : state) (n : list Z) : Prop :=
  inv s /\ forall i, In i n -> defined s i = true /\ is_plain_module (hp s) (head s i) = true.
Lemma sane_ins s n base i : sane s n -> (base < length (hp s))%nat -> In i n -> sane (mks (insert (hp s) base i) (tbl s)) n.
Proof.
  intros (I & p) lb hi. destruct (p i hi) as (d & q). split; [now apply inv_ins|]. intros j hj. destruct (p j hj) as (d' & q').
  split; [exact d'|]. destruct (defined_head s j I d') as (w1 & _). cbn [hp].
  change (head (mks (insert (hp s) base i) (tbl s)) j) with (head s j). erewrite plain_stable; [exact q'|now apply ins_nmod|now apply ins_nic].
Qed.
Lemma iop_inv prep s self m h' : inv s -> (self < length (hp s))%nat -> (m < length (hp s))%nat -> nic (at_ (hp s) self) = false ->
  is_plain_module (hp s) m = true -> include_or_prepend prep (hp s) self m = Done h' ->
  inv (mks h' (tbl s)) /\ extends (hp s) h'.
Proof.
  intros I ls lm ns pm e.
  destruct (iop_pres (fun g => sane (mks g (tbl s)) (brings (hp s) m)) prep self m (hp s) (inv_heap s I) ls lm ns pm h') as ((q & _) & _ & X); auto.
  - intros g base i Ig lg p hb hi _. apply (sane_ins (mks g (tbl s)) _ base i p); auto. cbn [hp].
    destruct (chain_of g Ig self lg) as (_ & r). rewrite Forall_forall in r. auto.
  - destruct s as [h t]. split; [exact I|]. intros i hi. eapply brings_plain; eauto.
Qed.

(** ** Propagation *)
Lemma find_base_in h o pid bid seen prev l p : find_base h o pid bid seen prev l = Some p -> In p (prev :: l).
Proof.
  revert seen prev. induction l as [|x t IH]; intros seen prev e; cbn in e; [discriminate|]. destruct (_ && _) in e.
  - destruct (_ || _) in e; [discriminate|]. injection e as <-. now left.
  - destruct (match o with Some _ => _ | None => _ end) in e; [discriminate|]. apply IH in e. now right.
Qed.
Lemma propagate1_inv s n pid bid c : sane s n -> In pid n -> (c < length (hp s))%nat ->
  sane (mks (propagate1 pid bid (hp s) c) (tbl s)) n /\ extends (hp s) (propagate1 pid bid (hp s) c).
Proof.
  intros S' hp' lc. unfold propagate1. destruct (find_base _ _ _ _ _ _ _) as [p|] eqn:e.
  - apply find_base_in in e. pose proof (inv_heap s (proj1 S')) as H. destruct (chain_of _ H c lc) as (_ & r). rewrite Forall_forall in r.
    split; [apply sane_ins; auto|apply ins_extends; auto].
  - split; [now destruct s|apply ext_refl].
Qed.
Lemma propagate_fold s n pid bid l : sane s n -> In pid n -> Forall (fun c => c < length (hp s))%nat l ->
  sane (mks (fold_left (propagate1 pid bid) l (hp s)) (tbl s)) n /\ extends (hp s) (fold_left (propagate1 pid bid) l (hp s)).
Proof.
  revert s. induction l as [|c l IH]; intros s S' hi r; cbn [fold_left].
  - split; [now destruct s|apply ext_refl].
  - inversion r as [|? ? rc rl]; subst. destruct (propagate1_inv s n pid bid c S' hi rc) as (S1 & X1).
    destruct (IH (mks (propagate1 pid bid (hp s) c) (tbl s)) S1 hi) as (S2 & X2).
    + cbn [hp]. eapply Forall_impl; [|exact rl]. intros y hy. cbn in hy. pose proof (ext_length _ _ X1). lia.
    + cbn [hp tbl] in S2, X2. split; auto. eapply ext_trans; eauto.
Qed.
Lemma propagate_inv s bid pid : inv s -> defined s pid = true -> is_plain_module (hp s) (head s pid) = true ->
  inv (propagate s bid pid) /\ extends (hp s) (hp (propagate s bid pid)).
Proof.
  intros I d p. destruct (propagate_fold s [pid] pid bid (candidates s bid)) as ((q & _) & X).
  - split; auto. intros i [<-|[]]. auto.
  - now left.
  - apply Forall_forall. intros c hc. unfold candidates in hc. apply filter_In in hc as [hc _]. apply In_nth_error in hc as (j & e).
    apply (inv_tbl s I j c e).
  - split; auto.
Qed.

(** * Every reachable state *)
Lemma init_inv : inv init.
Proof.
  assert (R : forall a b, sup (hp init) a = Some b -> (a = 1 /\ b = 3 \/ a = 2 /\ b = 1 \/ a = 3 /\ b = 0)%nat).
  { intros a b. unfold sup, at_. do 4 (destruct a as [|a]; cbn; [intros e; try discriminate; injection e as <-; lia|]). destruct a; discriminate. }
  assert (C0 : chain (hp init) 0%nat [0%nat]) by (now apply chain_end).
  assert (C3 : chain (hp init) 3%nat [3; 0]%nat) by (now apply chain_next with 0%nat).
  assert (C1 : chain (hp init) 1%nat [1; 3; 0]%nat) by (now apply chain_next with 3%nat).
  assert (C2 : chain (hp init) 2%nat [2; 1; 3; 0]%nat) by (now apply chain_next with 1%nat).
  split; [split| | | |].
  - intros a l. cbn in l. do 4 (destruct a as [|a]; [eauto|]). lia.
  - intros a b e. apply R in e. cbn. lia.
  - intros a b e. apply R in e as [[-> ->]|[[-> ->]|[-> ->]]]; reflexivity.
  - intros a b x e1 e2 n. apply R in e1, e2. lia.
  - intros a o e. exfalso. revert e. unfold at_. do 4 (destruct a as [|a]; [discriminate|]). destruct a; discriminate.
  - intros a. unfold at_. do 4 (destruct a as [|a]; cbn; try congruence). destruct a; discriminate.
  - intros i a e. do 3 (destruct i as [|i]; [cbn in e; injection e as <-; cbn; repeat split; lia|]). destruct i; discriminate.
  - intros a l n. cbn in l. do 4 (destruct a as [|a]; [try discriminate n; auto|]). lia.
  - intros a l n. cbn in l. do 4 (destruct a as [|a]; [try discriminate n; auto|]). lia.
  - cbn. split; [lia|reflexivity].
Qed.
Lemma loop_cyclic k prep h self b m h' : loop k prep h self b m <> Cyclic h'.
Proof.
  revert h b m. induction k as [|k IH]; intros h b m; cbn [loop]; [discriminate|]. cbv zeta.
  destruct (sup _ b); [|discriminate]. destruct (sup _ m); [|discriminate]. destruct (nic _); [apply IH|discriminate].
Qed.
Lemma iop_cyclic prep h self m h' : include_or_prepend prep h self m = Cyclic h' -> h' = h.
Proof.
  rewrite iop_eq. destruct (check_cyclic _ _ _); [congruence|]. destruct (match norg _ with None => _ | Some _ => _ end); [|discriminate].
  intros e. now apply loop_cyclic in e.
Qed.
Lemma step_inv s o s' : inv s -> (step s o = State s' \/ step s o = Raised s') -> inv s'.
Proof.
  intros I e. destruct o as [p sg| |c m|c m]; cbn [step] in e.
  - destruct (defined s p) eqn:d; cbn [andb] in e; [|destruct e as [e|e]; [discriminate|injection e as <-; auto]].
    destruct (is_class (hp s) (head s p)) eqn:k; [|destruct e as [e|e]; [discriminate|injection e as <-; auto]].
    destruct e as [e|e]; [|discriminate]. injection e as <-. apply inv_new; auto. intros b q. cbn in q. injection q as <-.
    destruct (defined_head s p I d) as (w1 & w2 & w3). split; auto. split; auto. unfold is_class in k. now destruct (nmod _).
  - destruct e as [e|e]; [|discriminate]. injection e as <-. apply inv_new; auto. intros b q. cbn in q. injection q as <-.
    destruct (inv_object s I) as (o1 & o2). assert (D1 : defined s OBJECT = true) by (unfold defined, OBJECT; apply defd; lia).
    destruct (defined_head s _ I D1) as (w1 & w2 & w3). split; auto. split; auto. unfold is_class in o2. now destruct (nmod _).
  - destruct (defined s c) eqn:dc; cbn [andb] in e; [|destruct e as [e|e]; [discriminate|injection e as <-; auto]].
    destruct (defined s m) eqn:dm; cbn [andb] in e; [|destruct e as [e|e]; [discriminate|injection e as <-; auto]].
    destruct (is_plain_module (hp s) (head s m)) eqn:pm; [|destruct e as [e|e]; [discriminate|injection e as <-; auto]].
    destruct (defined_head s c I dc) as (c1 & c2 & c3). destruct (defined_head s m I dm) as (m1 & m2 & m3).
    destruct (include_module (hp s) (head s c) (head s m)) as [h|h| |] eqn:ei; destruct e as [e|e]; try discriminate; injection e as <-.
    + exact (proj1 (iop_inv false s _ _ _ I c1 m1 c3 pm ei)).
    + apply iop_cyclic in ei. subst h. now destruct s.
  - destruct (defined s c) eqn:dc; cbn [andb] in e; [|destruct e as [e|e]; [discriminate|injection e as <-; auto]].
    destruct (defined s m) eqn:dm; cbn [andb] in e; [|destruct e as [e|e]; [discriminate|injection e as <-; auto]].
    destruct (is_plain_module (hp s) (head s m)) eqn:pm; [|destruct e as [e|e]; [discriminate|injection e as <-; auto]].
    destruct (defined_head s c I dc) as (c1 & c2 & c3). destruct (defined_head s m I dm) as (m1 & m2 & m3).
    pose proof (inv_mo s (head s c) I c1 c3) as I1. pose proof (mo_keep (hp s) (head s c) c1) as K. pose proof (mo_length (hp s) (head s c)) as L.
    unfold prepend_module in e. set (h1 := make_origin (hp s) (head s c)) in *.
    assert (L1 : (length (hp s) <= length h1)%nat) by (rewrite L; destruct (norg _); lia).
    destruct (K _ c1) as (_ & k2 & _). destruct (K _ m1) as (_ & k3 & k4 & _).
    assert (pm1 : is_plain_module h1 (head s m) = true) by (erewrite plain_stable; eauto).
    destruct (include_or_prepend true h1 (head s c) (head s m)) as [h|h| |] eqn:ei; destruct e as [e|e]; try discriminate; injection e as <-.
    + destruct (iop_inv true (mks h1 (tbl s)) (head s c) (head s m) h I1) as (q & X); auto; try (cbn [hp]; lia); [cbn [hp]; congruence|].
      apply propagate_inv; auto. cbn [hp]. change (head (mks h (tbl s)) m) with (head s m). cbn [hp] in X.
      destruct (ext_keep _ _ X (head s m) ltac:(lia)) as (_ & x2 & x3 & _). erewrite plain_stable; eauto.
    + apply iop_cyclic in ei. subst h. auto.
Qed.
Lemma reach_inv s : reachable s -> inv s.
Proof. induction 1 as [|s o s' r IH e]; [apply init_inv|eapply step_inv; eauto]. Qed.
