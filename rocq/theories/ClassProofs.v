(** The class heap: insertion, chains, and the loop of include. *)
From Coq Require Import ZArith List Bool Lia Arith.
From Verif Require Import ClassModel ClassSpec.
Import ListNotations.
Open Scope Z_scope.

(** * Nodes *)
Lemma set_at_length h a n : length (set_at h a n) = length h.
Proof. revert a. induction h as [|x t IH]; intros [|a]; cbn; auto. Qed.
Lemma set_at_same h a n : (a < length h)%nat -> at_ (set_at h a n) a = n.
Proof. revert a. unfold at_. induction h as [|x t IH]; intros [|a] l; cbn in *; try lia; auto. apply IH. lia. Qed.
Lemma set_at_other h a b n : a <> b -> at_ (set_at h a n) b = at_ h b.
Proof. revert a b. unfold at_. induction h as [|x t IH]; intros [|a] [|b] l; cbn in *; try congruence; auto. Qed.
Lemma at_app1 h n a : (a < length h)%nat -> at_ (h ++ [n]) a = at_ h a.
Proof. intros l. unfold at_. now rewrite app_nth1. Qed.
Lemma at_app2 h n : at_ (h ++ [n]) (length h) = n.
Proof. unfold at_. rewrite app_nth2, Nat.sub_diag by lia. reflexivity. Qed.
Lemma at_out h a : (length h <= a)%nat -> at_ h a = null.
Proof. intros l. unfold at_. now rewrite nth_overflow. Qed.

Lemma ins_length h base i : length (insert h base i) = S (length h).
Proof. unfold insert. rewrite app_length, set_at_length. cbn. lia. Qed.

Section Insert.
Variables (h : heap) (base : nat) (i : Z).
Hypothesis HB : (base < length h)%nat.
Lemma ins_new : at_ (insert h base i) (length h) = mkn i (sup h base) None true true false.
Proof. unfold insert. rewrite <- (set_at_length h base (set_sup (at_ h base) (Some (length h)))) at 2. apply at_app2. Qed.
Lemma ins_base : at_ (insert h base i) base = set_sup (at_ h base) (Some (length h)).
Proof. unfold insert. rewrite at_app1 by (rewrite set_at_length; lia). now apply set_at_same. Qed.
Lemma ins_other a : a <> base -> a <> length h -> at_ (insert h base i) a = at_ h a.
Proof.
  intros n1 n2. destruct (Nat.lt_ge_cases a (length h)).
  - unfold insert. rewrite at_app1 by (rewrite set_at_length; lia). apply set_at_other. congruence.
  - rewrite !at_out; auto. rewrite ins_length. lia.
Qed.
Lemma ins_sup a : sup (insert h base i) a =
  if Nat.eqb a base then Some (length h) else if Nat.eqb a (length h) then sup h base else sup h a.
Proof.
  unfold sup. destruct (Nat.eqb_spec a base) as [->|n1]; [now rewrite ins_base|].
  destruct (Nat.eqb_spec a (length h)) as [->|n2]; [now rewrite ins_new|]. now rewrite ins_other.
Qed.
(** Everything but the superclass stays. *)
Lemma ins_keep a : (a < length h)%nat -> at_ (insert h base i) a = set_sup (at_ h a) (sup (insert h base i) a).
Proof.
  intros l. unfold sup. destruct (Nat.eq_dec a base) as [->|n]; [now rewrite ins_base|].
  rewrite ins_other by lia. now destruct (at_ h a).
Qed.
Lemma ins_id a : (a < length h)%nat -> idof (insert h base i) a = idof h a.
Proof. intros l. unfold idof. now rewrite ins_keep. Qed.
Lemma ins_nic a : (a < length h)%nat -> nic (at_ (insert h base i) a) = nic (at_ h a).
Proof. intros l. now rewrite ins_keep. Qed.
Lemma ins_nmod a : (a < length h)%nat -> nmod (at_ (insert h base i) a) = nmod (at_ h a).
Proof. intros l. now rewrite ins_keep. Qed.
Lemma ins_norg a : (a < length h)%nat -> norg (at_ (insert h base i) a) = norg (at_ h a).
Proof. intros l. now rewrite ins_keep. Qed.
Lemma ins_nsing a : (a < length h)%nat -> nsing (at_ (insert h base i) a) = nsing (at_ h a).
Proof. intros l. now rewrite ins_keep. Qed.

(** The new node comes behind [base]. *)
Definition spliced (l : list nat) : list nat := flat_map (fun y => if Nat.eqb y base then [y; length h] else [y]) l.
Lemma ins_chain a l : chain h a l -> Forall (fun x => x < length h)%nat l -> chain (insert h base i) a (spliced l).
Proof.
  induction 1 as [a e|a b l e c IH]; intros r; inversion r as [|? ? ra rl]; subst; cbn [spliced flat_map].
  - destruct (Nat.eqb_spec a base) as [->|n].
    + cbn. apply chain_next with (length h); [rewrite ins_sup, Nat.eqb_refl; reflexivity|]. apply chain_end.
      rewrite ins_sup. destruct (Nat.eqb_spec (length h) base); [lia|]. now rewrite Nat.eqb_refl.
    + cbn. apply chain_end. rewrite ins_sup. destruct (Nat.eqb_spec a base); [congruence|]. destruct (Nat.eqb_spec a (length h)); [lia|]. exact e.
  - specialize (IH rl). destruct (Nat.eqb_spec a base) as [->|n].
    + cbn. apply chain_next with (length h); [rewrite ins_sup, Nat.eqb_refl; reflexivity|]. apply chain_next with b; [|exact IH].
      rewrite ins_sup. destruct (Nat.eqb_spec (length h) base); [lia|]. now rewrite Nat.eqb_refl.
    + cbn. apply chain_next with b; [|exact IH]. rewrite ins_sup. destruct (Nat.eqb_spec a base); [congruence|].
      destruct (Nat.eqb_spec a (length h)); [lia|]. exact e.
Qed.
End Insert.

(** * Chains *)
Lemma chain_head h a l : chain h a l -> exists t, l = a :: t. Proof. destruct 1; eauto. Qed.
Lemma chain_det h a l m : chain h a l -> chain h a m -> l = m.
Proof.
  intros c. revert m. induction c as [a e|a b l e c IH]; intros m d; inversion d; subst; try congruence.
  f_equal. apply IH. congruence.
Qed.
Lemma chain_suffix h a l b : chain h a l -> In b l -> exists p q, l = p ++ q /\ chain h b q.
Proof.
  induction 1 as [a e|a c l e ch IH]; intros hi.
  - destruct hi as [<-|[]]. exists [], [a]. split; [reflexivity|]. now constructor.
  - destruct hi as [<-|hi]; [exists [], (a :: l); split; [reflexivity|econstructor; eauto]|].
    destruct (IH hi) as (p & q & -> & d). now exists (a :: p), q.
Qed.
Lemma chain_nodup h a l : chain h a l -> NoDup l.
Proof.
  induction 1 as [a e|a b l e c IH]; [repeat constructor; auto|]. constructor; auto. intros hi.
  destruct (chain_suffix _ _ _ _ c hi) as (p & q & -> & d).
  assert (a :: p ++ q = q) by (apply (chain_det h a); auto; econstructor; eauto).
  apply (f_equal (@length _)) in H. cbn in H. rewrite app_length in H. lia.
Qed.
Lemma chain_range h a l : (forall x y, sup h x = Some y -> (y < length h)%nat) -> (a < length h)%nat ->
  chain h a l -> Forall (fun x => x < length h)%nat l.
Proof. intros r. intros ha c. induction c; constructor; auto. apply IHc. eauto. Qed.
Lemma chain_supers h a t k : chain h a (a :: t) -> (length t <= k)%nat -> supers k h a = t.
Proof.
  intros c. remember (a :: t) as l eqn:E. revert t E k. induction c as [a e|a b l e c IH]; intros t E k hk; injection E as <-.
  - destruct k; cbn; [reflexivity|]. now rewrite e.
  - destruct (chain_head _ _ _ c) as (t & ->). destruct k as [|k]; [cbn in hk; lia|]. cbn. rewrite e. f_equal. apply IH; auto. cbn in hk. lia.
Qed.
Lemma NoDup_range l n : NoDup l -> Forall (fun x => x < n)%nat l -> (length l <= n)%nat.
Proof.
  intros d r. rewrite <- (seq_length n O). apply NoDup_incl_length; auto. intros x hx.
  rewrite Forall_forall in r. apply in_seq. specialize (r x hx). lia.
Qed.
Lemma chain_above h a l : Forall (fun x => x < length h)%nat l -> chain h a l -> l = a :: above h a.
Proof.
  intros r c. destruct (chain_head _ _ _ c) as (t & ->). f_equal. symmetry. apply chain_supers; auto.
  apply chain_nodup in c. pose proof (NoDup_range _ _ c r). cbn in H. lia.
Qed.

(** * Sub-sequences *)
Lemma sub_refl {A} (l : list A) : subseq l l. Proof. induction l; constructor; auto. Qed.
Lemma sub_trans {A} (l m n : list A) : subseq l m -> subseq m n -> subseq l n.
Proof.
  intros p q. revert l p. induction q as [n|x m n q IH|x m n q IH]; intros l p.
  - inversion p; constructor.
  - inversion p; subst; constructor; auto.
  - constructor. auto.
Qed.
Lemma sub_app {A} (a b c d : list A) : subseq a b -> subseq c d -> subseq (a ++ c) (b ++ d).
Proof.
  intros p q. induction p as [l|x l m p IH|x l m p IH]; cbn; try (constructor; auto).
  induction l; cbn; auto. constructor. auto.
Qed.
Lemma sub_map {A B} (f : A -> B) l m : subseq l m -> subseq (map f l) (map f m).
Proof. induction 1; cbn; constructor; auto. Qed.
Lemma sub_in {A} (l m : list A) x : subseq l m -> In x l -> In x m.
Proof. induction 1; cbn; tauto. Qed.
Lemma sub_spliced h base l : subseq l (spliced h base l).
Proof. induction l as [|x t IH]; cbn; [constructor|]. destruct (Nat.eqb x base); cbn; constructor; auto. now constructor. Qed.

(** * The invariant of the heap *)
Section Inv.
Variable h : heap.
Hypothesis I : hinv h.
Lemma chain_of a : (a < length h)%nat -> chain h a (a :: above h a) /\ Forall (fun x => x < length h)%nat (a :: above h a).
Proof.
  intros l. destruct (inv_chain h I a l) as (c & hc). pose proof (chain_range h a c (inv_range h I) l hc) as r.
  rewrite <- (chain_above h a c r hc). auto.
Qed.
Lemma above_next a b : (a < length h)%nat -> sup h a = Some b -> above h a = b :: above h b.
Proof.
  intros l e. destruct (chain_of a l) as (c & _). pose proof (inv_range h I _ _ e) as lb. destruct (chain_of b lb) as (d & _).
  assert (chain h a (a :: b :: above h b)) by (econstructor; eauto). pose proof (chain_det _ _ _ _ c H). congruence.
Qed.
Lemma above_none a : sup h a = None -> above h a = [].
Proof. unfold above. intros e. destruct (length h); cbn; [reflexivity|]. now rewrite e. Qed.
Lemma above_in a x : (a < length h)%nat -> In x (above h a) -> exists q, (q < length h)%nat /\ In q (a :: above h a) /\ sup h q = Some x.
Proof.
  intros l hi. destruct (chain_of a l) as (c & r). revert hi r. generalize dependent (above h a). intros t c hi r.
  remember (a :: t) as z eqn:E. revert t E hi r. induction c as [a e|a b m e c IH]; intros t E hi r; injection E as <-.
  - destruct hi.
  - destruct (chain_head _ _ _ c) as (t' & ->). destruct hi as [<-|hi].
    + exists a. split; [auto|]. split; [now left|auto].
    + inversion r; subst. destruct (IH (inv_range h I _ _ e) t' eq_refl hi H2) as (q & q1 & q2 & q3). exists q. split; auto. split; [now right|auto].
Qed.
End Inv.

Lemma mixed_incl h l : incl (mixed h l) l.
Proof. induction l as [|x t IH]; cbn; [apply incl_refl|]. destruct (nic _); [|intros y []]. intros y [<-|q]; [now left|right; auto]. Qed.
Lemma mixed_spliced h base i l : (base < length h)%nat -> Forall (fun x => x < length h)%nat l -> incl (mixed h l) (mixed (insert h base i) (spliced h base l)).
Proof.
  intros hb. induction l as [|x t IH]; intros r; [intros y []|]. inversion r as [|? ? rx rt]; subst. specialize (IH rt).
  cbn [spliced flat_map mixed]. fold (spliced h base t). destruct (nic (at_ h x)) eqn:n; [|intros y []]. destruct (Nat.eqb x base); cbn [app mixed].
  - rewrite ins_nic, n, ins_new by auto. cbn [nic]. intros y [<-|q]; [now left|]. right. right. auto.
  - rewrite ins_nic, n by auto. intros y [<-|q]; [now left|]. right. auto.
Qed.
(** The chain in the new heap. *)
Lemma ins_hinv h base i : hinv h -> (base < length h)%nat -> hinv (insert h base i).
Proof.
  intros I hb. set (h' := insert h base i). assert (L : length h' = S (length h)) by apply ins_length.
  assert (S' : forall a, sup h' a = if Nat.eqb a base then Some (length h) else if Nat.eqb a (length h) then sup h base else sup h a)
    by (apply ins_sup; auto).
  assert (OUT : sup h (length h) = None) by (unfold sup; rewrite at_out by lia; reflexivity).
  assert (RG : forall a b, sup h' a = Some b -> (b < length h')%nat).
  { intros a b e. rewrite S' in e. rewrite L. destruct (Nat.eqb a base); [injection e as <-; lia|].
    destruct (Nat.eqb a (length h)); apply (inv_range h I) in e; lia. }
  assert (CH : forall a l, (a < length h)%nat -> chain h a l -> chain h' a (spliced h base l)).
  { intros a l ha c. apply ins_chain; auto. eapply chain_range; eauto. apply (inv_range h I). }
  split; auto.
  - intros a ha. destruct (Nat.eq_dec a (length h)) as [->|n].
    + destruct (sup h base) as [b|] eqn:e.
      * pose proof (inv_range h I _ _ e) as lb. destruct (inv_chain h I b lb) as (l & c). eexists. apply chain_next with b; [|eauto].
        rewrite S'. destruct (Nat.eqb_spec (length h) base); [lia|]. rewrite Nat.eqb_refl. auto.
      * exists [length h]. apply chain_end. rewrite S'. destruct (Nat.eqb_spec (length h) base); [lia|]. rewrite Nat.eqb_refl. auto.
    + destruct (inv_chain h I a ltac:(lia)) as (l & c). eexists. apply CH; eauto. lia.
  - intros a b e. rewrite S' in e. unfold is_plain_module.
    assert (OLD : forall x, sup h x = Some b -> nmod (at_ h' b) && negb (nic (at_ h' b)) = false).
    { intros x ex. pose proof (inv_range h I _ _ ex) as lb. unfold h'. rewrite ins_nmod, ins_nic by auto. apply (inv_plain h I _ _ ex). }
    destruct (Nat.eqb a base); [injection e as <-; unfold h'; rewrite ins_new; reflexivity|].
    destruct (Nat.eqb a (length h)); eauto.
  - intros a b x e1 e2 hx. pose proof (RG _ _ e1) as lx. rewrite L in lx. rewrite S' in e1, e2.
    assert (OLD : forall y z, sup h y = Some x -> sup h z = Some x -> y = z).
    { intros y z ey ez. apply (inv_one h I y z x); auto. pose proof (inv_range h I _ _ ey). unfold h' in hx. now rewrite ins_nic in hx. }
    assert (NEW : forall y, sup h y = Some x -> x <> length h). { intros y ey. pose proof (inv_range h I _ _ ey). lia. }
    destruct (Nat.eqb_spec a base) as [->|na]; destruct (Nat.eqb_spec b base) as [->|nb]; auto.
    + injection e1 as <-. exfalso. destruct (Nat.eqb b (length h)); eapply NEW; eauto.
    + injection e2 as <-. exfalso. destruct (Nat.eqb a (length h)); eapply NEW; eauto.
    + destruct (Nat.eqb_spec a (length h)) as [->|na']; destruct (Nat.eqb_spec b (length h)) as [->|nb']; auto.
      * exfalso. apply nb. eapply OLD; eauto.
      * exfalso. apply na. eapply OLD; eauto.
  - intros a o e. destruct (Nat.lt_ge_cases a (length h)) as [la|ga].
    + unfold h' in e. rewrite ins_norg in e by auto. destruct (inv_org h I a o e) as (q1 & q2 & q3 & q4).
      destruct (chain_of h I a la) as (c & r). assert (lo : (o < length h)%nat) by (rewrite Forall_forall in r; apply r; right; eapply mixed_incl; eauto).
      unfold h'. rewrite !ins_nic, !ins_id by auto. fold h'. repeat split; auto.
      pose proof (CH a _ la c) as c'. assert (r' : Forall (fun x => x < length h')%nat (spliced h base (a :: above h a))).
      { eapply chain_range; [exact RG| |exact c']. lia. }
      pose proof (chain_above _ _ _ r' c') as E. inversion r as [|? ? _ rt]; subst. pose proof (mixed_spliced h base i _ hb rt _ q4) as M.
      cbn [spliced flat_map] in E. destruct (Nat.eqb a base); cbn [app] in E; injection E as <-; auto.
      cbn [mixed]. unfold h'. rewrite ins_new by auto. cbn [nic]. right. exact M.
    + exfalso. destruct (Nat.eq_dec a (length h)) as [->|n].
      * unfold h' in e. rewrite ins_new in e by auto. discriminate.
      * rewrite at_out in e by lia. discriminate.
  - intros a n. destruct (Nat.lt_ge_cases a (length h)) as [la|ga].
    + unfold h' in n |- *. rewrite ins_nic in n by auto. rewrite ins_nmod by auto. now apply (inv_icm h I).
    + destruct (Nat.eq_dec a (length h)) as [->|ne]; [unfold h'; now rewrite ins_new|]. rewrite at_out in n by lia. discriminate.
Qed.
Lemma ins_above h base i a : hinv h -> (base < length h)%nat -> (a < length h)%nat ->
  a :: above (insert h base i) a = spliced h base (a :: above h a).
Proof.
  intros I hb ha. destruct (chain_of h I a ha) as (c & r). pose proof (ins_chain h base i hb a _ c r) as c'.
  symmetry. apply chain_above; auto. pose proof (ins_hinv h base i I hb) as I'.
  apply (chain_range _ _ _ (inv_range _ I')) in c'; auto. rewrite ins_length. lia.
Qed.

(** * Extension: nodes keep their contents, chains only grow by iclasses. *)
Record extends (h h' : heap) : Prop := {
  ext_length : (length h <= length h')%nat;
  ext_keep : forall a, (a < length h)%nat -> nid (at_ h' a) = nid (at_ h a) /\ nic (at_ h' a) = nic (at_ h a) /\
    nmod (at_ h' a) = nmod (at_ h a) /\ nsing (at_ h' a) = nsing (at_ h a) /\ norg (at_ h' a) = norg (at_ h a);
  ext_new : forall a, (length h <= a < length h')%nat -> nic (at_ h' a) = true /\ norg (at_ h' a) = None;
  ext_above : forall a, (a < length h)%nat -> subseq (above h a) (above h' a);
  ext_rend : forall a c, (a < length h)%nat -> subseq (rendered h c (above h a)) (rendered h' c (above h' a))
}.
Lemma ext_refl h : extends h h.
Proof. split; auto; intros; try lia; try apply sub_refl. Qed.
Lemma ext_trans h1 h2 h3 : extends h1 h2 -> extends h2 h3 -> extends h1 h3.
Proof.
  intros a b. pose proof (ext_length _ _ a) as la. pose proof (ext_length _ _ b) as lb. split; [lia| | | |].
  - intros x l. destruct (ext_keep _ _ a x l) as (p1 & p2 & p3 & p4 & p5). destruct (ext_keep _ _ b x ltac:(lia)) as (q1 & q2 & q3 & q4 & q5).
    rewrite q1, q2, q3, q4, q5. auto.
  - intros x l. destruct (Nat.lt_ge_cases x (length h2)); [|apply (ext_new _ _ b); lia].
    destruct (ext_keep _ _ b x ltac:(lia)) as (q1 & q2 & q3 & q4 & q5). rewrite q2, q5. apply (ext_new _ _ a). lia.
  - intros x l. eapply sub_trans; [apply (ext_above _ _ a); auto|apply (ext_above _ _ b); lia].
  - intros x c l. eapply sub_trans; [apply (ext_rend _ _ a); auto|apply (ext_rend _ _ b); lia].
Qed.
Lemma rend_spliced h base i c l : (base < length h)%nat -> Forall (fun x => x < length h)%nat l ->
  subseq (rendered h c l) (rendered (insert h base i) c (spliced h base l)).
Proof.
  intros hb. induction l as [|x t IH]; intros r; [constructor|]. inversion r as [|? ? rx rt]; subst. cbn [spliced flat_map].
  assert (X : forall y, subseq (rendered h c t) y -> subseq (rendered h c (x :: t))
    (if negb c && negb (nmod (at_ (insert h base i) x)) && negb (nic (at_ (insert h base i) x)) then []
     else (if nic (at_ (insert h base i) x) then [idof (insert h base i) x] else
             match norg (at_ (insert h base i) x) with None => [idof (insert h base i) x] | Some _ => [] end) ++ y)).
  { intros y q. cbn [rendered]. rewrite ins_nmod, ins_nic, ins_id, ins_norg by auto. destruct (_ && _); [constructor|].
    apply sub_app; [apply sub_refl|auto]. }
  destruct (Nat.eqb x base); cbn [app].
  - change (rendered (insert h base i) c (x :: length h :: ?z)) with
      (if negb c && negb (nmod (at_ (insert h base i) x)) && negb (nic (at_ (insert h base i) x)) then []
       else (if nic (at_ (insert h base i) x) then [idof (insert h base i) x] else
             match norg (at_ (insert h base i) x) with None => [idof (insert h base i) x] | Some _ => [] end) ++ rendered (insert h base i) c (length h :: z)).
    apply X. cbn [rendered]. unfold idof. rewrite ins_new by auto. cbn [nic nmod negb]. rewrite andb_false_r. constructor. auto.
  - apply X. auto.
Qed.
Lemma ins_extends h base i : hinv h -> (base < length h)%nat -> extends h (insert h base i).
Proof.
  intros I hb. split.
  - rewrite ins_length. lia.
  - intros a l. rewrite ins_keep by auto. destruct (at_ h a); cbn. auto.
  - intros a l. rewrite ins_length in l. replace a with (length h) by lia. rewrite ins_new by auto. auto.
  - intros a l. pose proof (ins_above h base i a I hb l) as e. pose proof (sub_spliced h base (a :: above h a)) as s. rewrite <- e in s.
    inversion s; subst; auto. exfalso. apply (sub_in _ _ a) in H1; [|now left].
    pose proof (ins_hinv h base i I hb) as I'. destruct (chain_of _ I' a ltac:(rewrite ins_length; lia)) as (c & _). apply chain_nodup in c. inversion c; subst. auto.
  - intros a c l. destruct (chain_of h I a l) as (_ & r). pose proof (ins_above h base i a I hb l) as e. inversion r as [|? ? ra rt]; subst.
    pose proof (rend_spliced h base i c (above h a) hb rt) as q. cbn [spliced flat_map] in e.
    destruct (Nat.eqb_spec a base) as [->|n]; cbn [app] in e; injection e as ->; [|exact q].
    cbn [rendered]. unfold idof at 2. rewrite ins_new by auto. cbn [nic nmod negb]. rewrite andb_false_r. constructor. exact q.
Qed.
