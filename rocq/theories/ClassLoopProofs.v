(** The loop of include and prepend is [weave] on the ids of the chain. *)
From Coq Require Import ZArith List Bool Lia Arith.
From Verif Require Import ClassModel ClassSpec ClassProofs.
Import ListNotations.
Open Scope Z_scope.

(** * What is walked on the side of the module *)
Inductive region (h : heap) : nat -> list nat -> Prop :=
| reg_last m : (forall b, sup h m = Some b -> nic (at_ h b) = false) -> region h m [m]
| reg_next m b l : sup h m = Some b -> nic (at_ h b) = true -> region h b l -> region h m (m :: l).
Lemma region_head h m l : region h m l -> exists t, l = m :: t. Proof. destruct 1; eauto. Qed.
Lemma region_mixed h m : hinv h -> (m < length h)%nat -> region h m (m :: mixed h (above h m)).
Proof.
  intros I l. destruct (chain_of h I m l) as (c & _). revert c. generalize (above h m). intros t c.
  remember (m :: t) as z eqn:E. revert t E. induction c as [a e|a b z e c IH]; intros t E; injection E as <-.
  - constructor. intros b q. congruence.
  - destruct (chain_head _ _ _ c) as (t & ->). cbn [mixed]. destruct (nic (at_ h b)) eqn:n.
    + apply reg_next with b; auto. apply IH; auto. eapply inv_range; eauto.
    + constructor. intros x q. congruence.
Qed.
Lemma region_range h m l : hinv h -> (m < length h)%nat -> region h m l -> Forall (fun x => x < length h)%nat l.
Proof. intros I lm r. induction r; constructor; auto. apply IHr. eapply inv_range; eauto. Qed.
Lemma region_insert h base i m l : hinv h -> (base < length h)%nat -> (m < length h)%nat ->
  region h m l -> ~ In base l -> region (insert h base i) m l.
Proof.
  intros I hb lm r. induction r as [m e|m b l e n r IH]; intros ni.
  - assert (S' : sup (insert h base i) m = sup h m).
    { rewrite ins_sup by auto. destruct (Nat.eqb_spec m base) as [->|_]; [exfalso; apply ni; now left|]. destruct (Nat.eqb_spec m (length h)); [lia|auto]. }
    constructor. intros b. rewrite S'. intros q. pose proof (inv_range h I _ _ q). rewrite ins_nic by auto. auto.
  - assert (S' : sup (insert h base i) m = sup h m).
    { rewrite ins_sup by auto. destruct (Nat.eqb_spec m base) as [->|_]; [exfalso; apply ni; now left|]. destruct (Nat.eqb_spec m (length h)); [lia|auto]. }
    pose proof (inv_range h I _ _ e). apply reg_next with b; [congruence|rewrite ins_nic; auto|]. apply IH; auto. intros q. apply ni. now right.
Qed.
(** A module's region has nothing in common with the chain of another class. *)
Lemma region_disjoint h a m l : hinv h -> (a < length h)%nat -> nic (at_ h a) = false -> region h m l ->
  ~ In m (a :: above h a) -> forall x, In x l -> ~ In x (a :: above h a).
Proof.
  intros I la na r. induction r as [m e|m b l e n r IH]; intros nm x hx.
  - destruct hx as [<-|[]]. auto.
  - destruct hx as [<-|hx]; auto. apply IH; auto. intros [->|hb]; [congruence|].
    destruct (above_in h I a b la hb) as (q & q1 & q2 & q3). assert (q = m) by (eapply inv_one; eauto). congruence.
Qed.
Lemma plain_not_above h a m : hinv h -> (a < length h)%nat -> is_plain_module h m = true -> ~ In m (above h a).
Proof.
  intros I la pm hi. destruct (above_in h I a m la hi) as (q & _ & _ & e). pose proof (inv_plain h I _ _ e). congruence.
Qed.

(** * The steps *)
Lemma chain_split h a p x y q : chain h a (p ++ x :: y :: q) -> sup h x = Some y.
Proof.
  revert a. induction p as [|z p IH]; intros a c.
  - inversion c as [|? b ? e c1]; subst. destruct (chain_head _ _ _ c1) as (t & E). congruence.
  - inversion c as [? e E|? b ? e c1]; subst; [destruct p; discriminate|eauto].
Qed.
Lemma chain_tail h a p x : chain h a (p ++ [x]) -> sup h x = None.
Proof.
  revert a. induction p as [|z p IH]; intros a c.
  - inversion c as [? e E|? b ? e c1]; subst; auto. inversion c1.
  - inversion c as [? e E|? b ? e c1]; subst; [destruct p; discriminate|eauto].
Qed.
Lemma existsb_ids h l i : existsb (fun x => idof h x =? i) l = existsb (fun y => y =? i) (ids h l).
Proof. unfold ids. induction l; cbn; auto. now rewrite IHl. Qed.
Lemma until_split o p q : ~ In o p -> until (Some o) (p ++ o :: q) = p.
Proof.
  induction p as [|x p IH]; cbn; intros n; [now rewrite Nat.eqb_refl|].
  destruct (Nat.eqb_spec x o) as [->|_]; [exfalso; apply n; now left|]. f_equal. apply IH. tauto.
Qed.
Lemma spliced_app h base p q : ~ In base p -> ~ In base q -> spliced h base (p ++ base :: q) = p ++ base :: length h :: q.
Proof.
  intros np nq. assert (K : forall l, ~ In base l -> spliced h base l = l).
  { induction l as [|x l IH]; cbn; auto. intros n. destruct (Nat.eqb_spec x base) as [->|_]; [exfalso; apply n; now left|].
    cbn. f_equal. apply IH. tauto. }
  unfold spliced in *. rewrite flat_map_app. cbn [flat_map]. rewrite Nat.eqb_refl. now rewrite !K by auto.
Qed.
Lemma ids_ins h base i l : (base < length h)%nat -> Forall (fun x => x < length h)%nat l -> ids (insert h base i) l = ids h l.
Proof. intros hb r. unfold ids. apply map_ext_in. intros x hx. rewrite Forall_forall in r. apply ins_id; auto. Qed.

(** Where the modules are looked for: everywhere, or below the origin [o]. *)
Definition zone (h : heap) (prep : bool) (self : nat) (tail : list nat) : Prop :=
  if prep then exists o t, tail = o :: t /\ norg (at_ h self) = Some o else tail = [].
Lemma present_spec h prep self l tail i : hinv h -> (self < length h)%nat -> above h self = l ++ tail -> zone h prep self tail ->
  (if prep then is_ancestor_before h i self else is_ancestor_of h i self) = existsb (fun y => y =? i) (ids h l).
Proof.
  intros I ls e z. unfold is_ancestor_before, is_ancestor_of, before_origin. rewrite e. destruct prep.
  - destruct z as (o & t & -> & no). rewrite no, until_split; [apply existsb_ids|].
    destruct (chain_of h I self ls) as (c & _). apply chain_nodup in c. rewrite e in c. inversion c; subst.
    apply NoDup_remove_2 in H2. intros q. apply H2. apply in_or_app. now left.
  - rewrite z, app_nil_r. apply existsb_ids.
Qed.

Lemma loop_weave k prep h self p base q tail m r :
  hinv h -> (self < length h)%nat -> (m < length h)%nat ->
  self :: above h self = p ++ base :: q ++ tail -> zone h prep self tail ->
  region h m r -> (length r <= k)%nat -> (forall x, In x r -> ~ In x (self :: above h self)) ->
  match weave (ids h (List.tl (p ++ [base]))) (ids h q) (ids h r) with
  | Some l => exists h' q', loop k prep h self base m = Done h' /\ hinv h' /\ extends h h' /\
      above h' self = q' ++ tail /\ ids h' q' = l /\ zone h' prep self tail
  | None => prep = false -> loop k prep h self base m = Panic
  end.
Proof.
  revert h p base q m r. induction k as [|k IH]; intros h p base q m r I ls lm e z rg lr dj.
  { destruct (region_head _ _ _ rg) as (t & ->). cbn in lr. lia. }
  destruct (region_head _ _ _ rg) as (rt & ->). cbn [ids map weave]. change (map (idof h) rt) with (ids h rt).
  destruct (chain_of h I self ls) as (c & rc). pose proof (chain_nodup _ _ _ c) as nd. rewrite e in c, rc, nd.
  assert (lb : (base < length h)%nat). { rewrite Forall_forall in rc. apply rc. apply in_or_app. right. now left. }
  assert (AB : above h self = List.tl (p ++ [base]) ++ q ++ tail).
  { destruct p as [|x p]; cbn in e |- *; injection e as -> e; auto. rewrite e, <- app_assoc. reflexivity. }
  assert (PR : (if prep then is_ancestor_before h (idof h m) self else is_ancestor_of h (idof h m) self) =
    existsb (fun y => y =? idof h m) (ids h (List.tl (p ++ [base])) ++ ids h q)).
  { rewrite (present_spec h prep self (List.tl (p ++ [base]) ++ q) tail); auto; [|now rewrite <- app_assoc]. unfold ids. now rewrite map_app. }
  cbn [loop]. cbv zeta. rewrite PR. destruct (existsb _ _) eqn:ex.
  - (* already there *)
    destruct q as [|b q].
    + cbn [ids map]. intros ->. cbn in z. subst tail. cbn [app] in c. rewrite (chain_tail _ _ _ _ c). reflexivity.
    + cbn [ids map]. cbn [app] in c, e. rewrite (chain_split _ _ _ _ _ _ c).
      assert (E2 : self :: above h self = (p ++ [base]) ++ b :: q ++ tail) by (rewrite <- app_assoc; exact e).
      assert (T2 : ids h (List.tl (p ++ [base])) ++ [idof h b] = ids h (List.tl ((p ++ [base]) ++ [b]))).
      { destruct p; cbn; unfold ids; [reflexivity|]. rewrite !map_app. reflexivity. }
      change (map (idof h) q) with (ids h q). rewrite T2.
      inversion rg as [? le|? b1 ? e1 n1 rg1]; subst.
      * cbn [ids map weave]. destruct (sup h m) as [mb|] eqn:sm; [rewrite (le mb eq_refl)|];
          exists h, (List.tl ((p ++ [base]) ++ [b]) ++ q); (split; [reflexivity|]; split; [auto|]; split; [apply ext_refl|]; split;
          [rewrite AB; destruct p; cbn; rewrite <- ?app_assoc; reflexivity|split; [unfold ids; now rewrite map_app|auto]]).
      * rewrite e1, n1. apply (IH h (p ++ [base]) b q b1 rt); auto.
        -- eapply inv_range; eauto.
        -- cbn in lr. lia.
        -- intros x hx. apply dj. now right.
  - (* a new iclass *)
    set (h1 := insert h base (idof h m)). assert (I1 : hinv h1) by (now apply ins_hinv).
    assert (L1 : length h1 = S (length h)) by apply ins_length.
    assert (NB : ~ In base p /\ ~ In base (q ++ tail)).
    { apply NoDup_remove_2 in nd. split; intros hx; apply nd; apply in_or_app; auto. }
    assert (E2 : self :: above h1 self = (p ++ [base]) ++ length h :: q ++ tail).
    { unfold h1. rewrite ins_above, e by auto. rewrite spliced_app by tauto. now rewrite <- app_assoc. }
    assert (S1 : sup h1 base = Some (length h)) by (unfold h1; rewrite ins_sup by auto; now rewrite Nat.eqb_refl).
    rewrite S1. apply Forall_app in rc as [rp rq]. inversion rq as [|? ? _ rq']; subst. apply Forall_app in rq' as [rq' rtl].
    assert (RT : Forall (fun x => x < length h)%nat (List.tl (p ++ [base]))).
    { destruct p; cbn; [constructor|]. inversion rp; subst. apply Forall_app. split; auto. }
    assert (RR : Forall (fun x => x < length h)%nat rt).
    { pose proof (region_range _ _ _ I lm rg) as R0. now inversion R0. }
    assert (T2 : ids h (List.tl (p ++ [base])) ++ [idof h m] = ids h1 (List.tl ((p ++ [base]) ++ [length h]))).
    { transitivity (ids h1 (List.tl (p ++ [base])) ++ [idof h1 (length h)]).
      - unfold h1. rewrite ids_ins by auto. unfold idof at 2. now rewrite ins_new.
      - destruct p; cbn; unfold ids; [reflexivity|]. rewrite !map_app. reflexivity. }
    rewrite T2. replace (ids h q) with (ids h1 q) by (apply ids_ins; auto). replace (ids h rt) with (ids h1 rt) by (apply ids_ins; auto).
    assert (nm : ~ In base (m :: rt)).
    { intros hx. apply (dj base hx). rewrite e. apply in_or_app. right. now left. }
    assert (lm1 : (m < length h1)%nat) by lia. assert (ls1 : (self < length h1)%nat) by lia.
    pose proof (region_insert h base (idof h m) m _ I lb lm rg nm) as rg1. fold h1 in rg1.
    assert (Z1 : zone h1 prep self tail).
    { unfold zone in *. destruct prep; auto. destruct z as (o & t & z1 & z2). exists o, t. split; auto. unfold h1. now rewrite ins_norg. }
    pose proof (ins_extends h base (idof h m) I lb) as X. fold h1 in X.
    inversion rg1 as [? le|? b1 ? e1 n1 rg2]; subst.
    + cbn [ids map weave]. destruct (sup h1 m) as [mb|] eqn:sm; [rewrite (le mb eq_refl)|];
        exists h1, (List.tl ((p ++ [base]) ++ [length h]) ++ q); (split; [reflexivity|]; split; [auto|]; split; [auto|]; split;
        [destruct p; cbn in E2 |- *; injection E2 as -> ->; rewrite <- ?app_assoc; reflexivity|split; [unfold ids; now rewrite map_app|auto]]).
    + rewrite e1, n1.
      specialize (IH h1 (p ++ [base]) (length h) q b1 rt I1 ls1 (inv_range _ I1 _ _ e1) E2 Z1 rg2 ltac:(cbn in lr; lia)).
      assert (dj1 : forall x, In x rt -> ~ In x (self :: above h1 self)).
      { intros x hx hi. rewrite E2, <- app_assoc in hi. cbn [app] in hi. apply in_app_or in hi.
        assert (x <> length h) by (rewrite Forall_forall in RR; specialize (RR x hx); lia).
        apply (dj x (or_intror hx)). rewrite e. apply in_or_app. cbn in hi |- *. intuition congruence. }
      specialize (IH dj1). destruct (weave _ _ _) as [l|]; auto.
      destruct IH as (h' & q' & w1 & w2 & w3 & w4). exists h', q'. split; auto. split; auto. split; [eapply ext_trans; eauto|auto].
Qed.
