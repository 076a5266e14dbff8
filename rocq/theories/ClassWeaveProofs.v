(** Weaving lists. *)
From Coq Require Import ZArith List Bool Lia Arith.
From Verif Require Import ClassModel ClassSpec ClassProofs.
Import ListNotations.
Open Scope Z_scope.

Lemma has_in x l : existsb (fun y => y =? x) l = true <-> In x l.
Proof.
  rewrite existsb_exists. split; [intros (y & h & e); apply Z.eqb_eq in e; congruence|]. intros h. exists x. split; auto. apply Z.eqb_refl.
Qed.
Lemma has_out x l : existsb (fun y => y =? x) l = false <-> ~ In x l.
Proof. rewrite <- has_in. destruct (existsb _ _); intuition congruence. Qed.

Lemma weave_sub n : forall pre post l, weave pre post n = Some l -> subseq (pre ++ post) l.
Proof.
  induction n as [|x n IH]; intros pre post l e; cbn [weave] in e; [injection e as <-; apply sub_refl|].
  destruct (existsb _ _) eqn:p.
  - destruct post as [|b post]; [discriminate|]. apply IH in e. now rewrite <- app_assoc in e.
  - apply IH in e. rewrite <- app_assoc in e. eapply sub_trans; [|exact e]. apply sub_app; [apply sub_refl|]. cbn. constructor. apply sub_refl.
Qed.
Lemma weave_all n : forall pre post l, weave pre post n = Some l -> incl n l.
Proof.
  induction n as [|x n IH]; intros pre post l e y hy; [destruct hy|]. cbn [weave] in e. destruct (existsb _ _) eqn:p.
  - destruct post as [|b post]; [discriminate|]. destruct hy as [<-|hy]; [|eapply IH; eauto].
    apply has_in in p. apply weave_sub in e. rewrite <- app_assoc in e. eapply sub_in; eauto.
  - destruct hy as [<-|hy]; [|eapply IH; eauto]. apply weave_sub in e. eapply sub_in; [exact e|].
    apply in_or_app. left. apply in_or_app. right. now left.
Qed.
Lemma weave_from n : forall pre post l x, weave pre post n = Some l -> In x l -> In x (pre ++ post) \/ In x n.
Proof.
  induction n as [|y n IH]; intros pre post l x e h; cbn [weave] in e; [injection e as <-; auto|]. destruct (existsb _ _) eqn:p.
  - destruct post as [|b post]; [discriminate|]. destruct (IH _ _ _ x e h) as [q|q]; [|right; now right]. left. now rewrite <- app_assoc in q.
  - destruct (IH _ _ _ x e h) as [q|q]; [|right; now right]. rewrite <- app_assoc in q. apply in_app_or in q. cbn in q.
    rewrite in_app_iff. cbn. intuition congruence.
Qed.
Lemma weave_len n : forall pre post l, weave pre post n = Some l -> (length pre + length n <= length l)%nat.
Proof.
  induction n as [|x n IH]; intros pre post l e; cbn [weave] in e; [injection e as <-; rewrite app_length; cbn; lia|].
  destruct (if existsb _ _ then _ else _) as [|b post'] in e; [discriminate|]. apply IH in e. rewrite app_length in e. cbn in *. lia.
Qed.
(** Modules that are all there change nothing. *)
Lemma weave_present n : forall pre post, incl n (pre ++ post) -> (length n <= length post)%nat -> weave pre post n = Some (pre ++ post).
Proof.
  induction n as [|x n IH]; intros pre post i l; [reflexivity|]. cbn [weave].
  rewrite (proj2 (has_in x (pre ++ post))) by (apply i; now left). destruct post as [|b post]; cbn in l; [lia|].
  rewrite IH; [now rewrite <- app_assoc| |lia]. rewrite <- app_assoc. intros y hy. apply i. now right.
Qed.
Lemma weave_same n : forall pre post l, incl n (pre ++ post) -> weave pre post n = Some l -> l = pre ++ post.
Proof.
  induction n as [|x n IH]; intros pre post l i e; cbn [weave] in e; [congruence|].
  rewrite (proj2 (has_in x (pre ++ post))) in e by (apply i; now left). destruct post as [|b post]; [discriminate|].
  apply IH in e; [now rewrite <- app_assoc in e|]. rewrite <- app_assoc. intros y hy. apply i. now right.
Qed.
Lemma weave_again n post l : weave [] post n = Some l -> weave [] l n = Some l.
Proof.
  intros e. apply (weave_present n [] l); [eapply weave_all; eauto|]. apply weave_len in e. cbn in e. lia.
Qed.
(** New modules in front, then modules that are all there. *)
Lemma weave_front a : forall b pre post, (forall x, In x a -> ~ In x (pre ++ post)) -> NoDup a -> incl b (pre ++ a ++ post) ->
  weave pre post (a ++ b) = if (length b <=? length post)%nat then Some (pre ++ a ++ post) else None.
Proof.
  induction a as [|x a IH]; intros b pre post f nd ib; cbn [app].
  - cbn in ib. destruct (Nat.leb_spec (length b) (length post)) as [l|l]; [now apply weave_present|].
    destruct (weave pre post b) as [z|] eqn:e; auto. exfalso. pose proof (weave_same _ _ _ _ ib e) as ->.
    apply weave_len in e. rewrite app_length in e. lia.
  - cbn [weave]. rewrite (proj2 (has_out x (pre ++ post))) by (apply f; now left). inversion nd; subst.
    rewrite IH; auto.
    + rewrite <- app_assoc. reflexivity.
    + intros y hy. rewrite <- app_assoc. cbn. intros q. apply in_app_or in q as [q|[->|q]]; [|tauto|];
        apply (f y (or_intror hy)); apply in_or_app; auto.
    + rewrite <- app_assoc. exact ib.
Qed.
Lemma NoDup_front {A} (a b : list A) : NoDup (a ++ b) -> NoDup a.
Proof. induction a as [|x a IH]; intros n; [constructor|]. inversion n; subst. constructor; auto. intros h. apply H1. apply in_or_app. now left. Qed.
(** Distinct modules always find a place. *)
Lemma weave_total n : forall d pre post, NoDup (d ++ n) -> incl d (pre ++ post) -> length pre = length d -> weave pre post n <> None.
Proof.
  induction n as [|x n IH]; intros d pre post nd i l; [discriminate|]. cbn [weave].
  assert (ND : NoDup ((d ++ [x]) ++ n)) by (now rewrite <- app_assoc).
  destruct (existsb _ _) eqn:p.
  - apply has_in in p. destruct post as [|b post].
    + exfalso. rewrite app_nil_r in i, p. assert (N : NoDup (x :: d)).
      { apply NoDup_remove in nd as [n1 n2]. constructor; [intros q; apply n2; apply in_or_app; now left|]. now apply NoDup_front in n1. }
      assert (length (x :: d) <= length pre)%nat; [|cbn in *; lia]. apply NoDup_incl_length; auto. intros y [<-|hy]; auto.
    + apply (IH (d ++ [x])); auto; [|rewrite !app_length; cbn; lia]. rewrite <- app_assoc. intros y hy. apply in_app_or in hy as [hy|[<-|[]]]; auto.
  - apply (IH (d ++ [x])); auto; [|rewrite !app_length; cbn; lia]. rewrite <- app_assoc. cbn. intros y hy. apply in_app_or in hy as [hy|[<-|[]]].
    + apply i in hy. rewrite in_app_iff in *. cbn. tauto.
    + rewrite in_app_iff. cbn. tauto.
Qed.
