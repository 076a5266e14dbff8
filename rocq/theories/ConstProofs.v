From Coq Require Import List Bool Arith Lia.
From Verif Require Import ConstModel ConstSpec.
Import ListNotations.

(* ---- what a resolution depends on ---- *)
Definition agree (e1 e2 : env) (ns : list name) : Prop :=
  (forall c, chain e1 c = chain e2 c) /\ (forall c n, In n ns -> tbl e1 c n = tbl e2 c n).

Lemma agree_sub : forall e1 e2 a b, agree e1 e2 b -> incl a b -> agree e1 e2 a.
Proof. intros e1 e2 a b [H1 H2] Hi. split; [exact H1|]. intros c n Hn. apply H2, Hi, Hn. Qed.
Lemma agree_get1 : forall e1 e2 n c, agree e1 e2 [n] -> get1 e1 c n = get1 e2 c n.
Proof. intros e1 e2 n c [_ H]. unfold get1. rewrite (H c n (or_introl eq_refl)). reflexivity. Qed.
Lemma agree_first : forall e1 e2 n cs, agree e1 e2 [n] -> first_in e1 n cs = first_in e2 n cs.
Proof. intros e1 e2 n cs H. induction cs as [|c r IH]; [reflexivity|]. cbn. rewrite (agree_get1 e1 e2 n c H), IH. reflexivity. Qed.
Lemma agree_scopes : forall e1 e2 ns l k, agree e1 e2 ns -> scopes e1 l k = scopes e2 l k.
Proof. intros e1 e2 ns l k [H _]. unfold scopes. rewrite H. reflexivity. Qed.
Lemma agree_qscopes : forall e1 e2 ns c, agree e1 e2 ns -> qual_scopes e1 c = qual_scopes e2 c.
Proof. intros e1 e2 ns c [H _]. unfold qual_scopes. rewrite H. reflexivity. Qed.
Lemma agree_search : forall e1 e2 h l k n, agree e1 e2 [n] -> search e1 h l k n = search e2 h l k n.
Proof. intros e1 e2 h l k n H. unfold search. rewrite (agree_scopes e1 e2 [n] l k H), (agree_first e1 e2 n _ H). reflexivity. Qed.
Lemma agree_qual : forall e1 e2 h c n, agree e1 e2 [n] -> qual e1 h c n = qual e2 h c n.
Proof. intros e1 e2 h c n H. unfold qual. rewrite (agree_qscopes e1 e2 [n] c H), (agree_first e1 e2 n _ H). reflexivity. Qed.
Lemma agree_defining : forall e1 e2 c n, agree e1 e2 [n] -> defining e1 c n = defining e2 c n.
Proof.
  intros e1 e2 c n H. unfold defining. destruct H as [H1 H2]. rewrite H1.
  induction (chain e2 c) as [|d r IH]; [reflexivity|]. cbn. unfold probe_at at 1 3.
  rewrite (agree_get1 e1 e2 n d (conj H1 H2)), IH. reflexivity.
Qed.
Lemma agree_priv : forall e1 e2 c n, agree e1 e2 [n] -> is_priv e1 c n = is_priv e2 c n.
Proof. intros e1 e2 c n [_ H]. unfold is_priv. rewrite (H c n (or_introl eq_refl)). reflexivity. Qed.
Lemma incl_one : forall (n : name) ns, In n ns -> incl [n] ns.
Proof. intros n ns H x [<-|[]]. exact H. Qed.
Lemma agree_segments : forall e1 e2 h ns p, agree e1 e2 ns -> segments e1 h p ns = segments e2 h p ns.
Proof.
  intros e1 e2 h. induction ns as [|n r IH]; intros p H; destruct p as [c hk|x]; try reflexivity. cbn.
  assert (Hn : agree e1 e2 [n]) by (apply (agree_sub _ _ _ _ H); apply incl_one; left; reflexivity).
  assert (Hr : agree e1 e2 r) by (apply (agree_sub _ _ _ _ H); intros x Hx; right; exact Hx).
  rewrite (agree_defining e1 e2 c n Hn), (agree_qual e1 e2 h c n Hn), (IH _ Hr).
  destruct (defining e2 c n) as [d|]; [rewrite (agree_priv e1 e2 d n Hn)|]; reflexivity.
Qed.
Lemma agree_last : forall e1 e2 h ck p n, agree e1 e2 [n] -> last_name e1 h ck p n = last_name e2 h ck p n.
Proof.
  intros e1 e2 h ck p n H. destruct p as [c hk|x]; [|reflexivity]. cbn.
  rewrite (agree_qscopes e1 e2 [n] c H), (agree_first e1 e2 n _ H), (agree_defining e1 e2 c n H), (agree_qual e1 e2 h c n H).
  destruct ck; [reflexivity|]. destruct (defining e2 c n) as [d|]; [rewrite (agree_priv e1 e2 d n H)|]; reflexivity.
Qed.
Theorem agree_resolve : forall e1 e2 h l s b k, agree e1 e2 (names s) -> resolve e1 h l s b k = resolve e2 h l s b k.
Proof.
  intros e1 e2 h l s b k H. unfold names in H.
  assert (Hn : agree e1 e2 [s_name s]) by (apply (agree_sub _ _ _ _ H); apply incl_appr, incl_refl).
  assert (Hp : agree e1 e2 (s_prefix s)) by (apply (agree_sub _ _ _ _ H); apply incl_appl, incl_refl).
  unfold resolve. destruct b as [b|].
  - rewrite (agree_segments e1 e2 h _ _ Hp), (agree_last e1 e2 h _ _ _ Hn). reflexivity.
  - destruct (s_top s).
    + rewrite (agree_segments e1 e2 h _ _ Hp), (agree_last e1 e2 h _ _ _ Hn). reflexivity.
    + destruct (s_prefix s) as [|p r].
      * rewrite (agree_scopes e1 e2 [s_name s] l k Hn), (agree_first e1 e2 _ _ Hn), (agree_search e1 e2 h l k _ Hn). reflexivity.
      * assert (H1 : agree e1 e2 [p]) by (apply (agree_sub _ _ _ _ Hp); apply incl_one; left; reflexivity).
        assert (H2 : agree e1 e2 r) by (apply (agree_sub _ _ _ _ Hp); intros x Hx; right; exact Hx).
        rewrite (agree_search e1 e2 h l k p H1), (agree_segments e1 e2 h _ _ H2), (agree_last e1 e2 h _ _ _ Hn). reflexivity.
Qed.

(* ---- a value that no hook gave does not depend on the hooks ---- *)
Definition clean (p : pres) : Prop := match p with PStop (RVal _ _) => False | _ => True end.
Lemma as_mod_clean : forall r hk, clean (as_mod r hk).
Proof. intros r hk. destruct r as [v h|x|]; [destruct v| |]; exact I. Qed.
Lemma seg_clean : forall e h ns p, clean p -> clean (segments e h p ns).
Proof.
  intros e h. induction ns as [|n r IH]; intros p Hp; destruct p as [c hk|x]; try exact Hp. cbn.
  destruct (defining e c n) as [d|]; [destruct (is_priv e d n); [exact I|]|]; apply IH, as_mod_clean.
Qed.
Lemma seg_stop : forall e h ns r, segments e h (PStop r) ns = PStop r.
Proof. intros e h ns r. destruct ns; reflexivity. Qed.
Lemma seg_true : forall e h ns c d b, segments e h (PMod c true) ns = PMod d b -> b = true.
Proof.
  intros e h. induction ns as [|n r IH]; intros c d b H; cbn in H; [congruence|].
  assert (Q : segments e h (as_mod (qual e h c n) true) r = PMod d b).
  { destruct (defining e c n) as [d0|]; [destruct (is_priv e d0 n); [discriminate|]|]; exact H. }
  unfold as_mod in Q. destruct (qual e h c n) as [v h0|x|].
  - destruct v; try (rewrite seg_stop in Q; discriminate). cbn in Q. exact (IH _ _ _ Q).
  - rewrite seg_stop in Q. discriminate.
  - rewrite seg_stop in Q. discriminate.
Qed.
Lemma qual_free : forall e h h' c n v, qual e h c n = RVal v false -> qual e h' c n = RVal v false.
Proof. intros e h h' c n v. unfold qual, missing. destruct (first_in e n (qual_scopes e c)); [destruct (h c n); discriminate|intros H; exact H|discriminate]. Qed.
Lemma search_free : forall e h h' l k n v, search e h l k n = RVal v false -> search e h' l k n = RVal v false.
Proof. intros e h h' l k n v. unfold search, missing. destruct (first_in e n (scopes e l k)); [destruct (h _ n); discriminate|intros H; exact H|discriminate]. Qed.
Lemma seg_free : forall e h h' ns p p' d, (forall c, p = PMod c false -> p' = p) ->
  segments e h p ns = PMod d false -> segments e h' p' ns = PMod d false.
Proof.
  intros e h h'. induction ns as [|n r IH]; intros p p' d Hp H; destruct p as [c hk|x]; try (cbn in H; discriminate).
  - cbn in H. injection H as -> ->. rewrite (Hp d eq_refl). reflexivity.
  - destruct hk; [pose proof (seg_true e h (n :: r) c d false H); discriminate|].
    rewrite (Hp c eq_refl). cbn in H |- *.
    assert (Q : segments e h (as_mod (qual e h c n) false) r = PMod d false ->
                segments e h' (as_mod (qual e h' c n) false) r = PMod d false).
    { intros Q. apply (IH _ _ _) with (2 := Q). intros c' Hc'.
      unfold as_mod in Hc'. destruct (qual e h c n) as [v h0|x|] eqn:Eq; [|discriminate|discriminate].
      destruct v as [|c0|z]; try discriminate. injection Hc' as -> Hh. cbn in Hh. subst h0.
      rewrite (qual_free e h h' c n _ Eq). reflexivity. }
    destruct (defining e c n) as [d0|]; [destruct (is_priv e d0 n); [discriminate|]|]; exact (Q H).
Qed.
Lemma last_free : forall e h h' ck p p' n v, clean p -> (forall c, p = PMod c false -> p' = p) ->
  last_name e h ck p n = RVal v false -> last_name e h' ck p' n = RVal v false.
Proof.
  intros e h h' ck p p' n v Hc Hp H. destruct p as [c hk|r].
  - assert (hk = false).
    { cbn in H. destruct hk; [|reflexivity]. exfalso. destruct ck.
      - destruct (first_in e n (qual_scopes e c)); discriminate.
      - destruct (defining e c n) as [d|]; [destruct (is_priv e d n)|].
        + unfold missing in H. destruct (h c n); discriminate.
        + destruct (qual e h c n); discriminate.
        + destruct (qual e h c n); discriminate. }
    subst hk. rewrite (Hp c eq_refl). cbn in H |- *. destruct ck; [exact H|].
    assert (Q : mark false (qual e h c n) = RVal v false -> mark false (qual e h' c n) = RVal v false).
    { intros Q. destruct (qual e h c n) as [v0 h0|x|] eqn:Eq; try discriminate. cbn in Q. injection Q as -> ->.
      rewrite (qual_free e h h' c n v Eq). reflexivity. }
    destruct (defining e c n) as [d|]; [destruct (is_priv e d n)|]; try exact (Q H).
    unfold missing in H. destruct (h c n); discriminate.
  - cbn in H. subst r. destruct Hc.
Qed.
Theorem resolve_free : forall e h h' l s b k v, resolve e h l s b k = RVal v false -> resolve e h' l s b k = RVal v false.
Proof.
  intros e h h' l s b k v. unfold resolve. destruct b as [b|].
  - apply last_free; [apply seg_clean, as_mod_clean|]. intros c Hc.
    rewrite Hc. apply (seg_free e h h' _ _ _ c) with (2 := Hc). intros c0 H0. reflexivity.
  - destruct (s_top s).
    + apply last_free; [apply seg_clean; exact I|]. intros c Hc.
      rewrite Hc. apply (seg_free e h h' _ _ _ c) with (2 := Hc). intros c0 H0. reflexivity.
    + destruct (s_prefix s) as [|p r].
      * destruct (s_check s); [intros H; exact H | apply search_free].
      * apply last_free; [apply seg_clean, as_mod_clean|]. intros c Hc.
        rewrite Hc. apply (seg_free e h h' _ _ _ c) with (2 := Hc). intros c0 H0.
        unfold as_mod in H0 |- *. destruct (search e h l k p) as [v0 h0|x|] eqn:Eq; try discriminate.
        destruct v0 as [|c1|z]; try discriminate. cbn in H0. injection H0 as -> ->.
        rewrite (search_free e h h' l k p _ Eq). reflexivity.
Qed.
