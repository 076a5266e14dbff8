(** What prepend does to [ancestors]. *)
From Coq Require Import ZArith List Bool Lia Arith.
From Verif Require Import ClassModel ClassSpec ClassProofs ClassLoopProofs ClassWeaveProofs ClassStepProofs ClassIncludeProofs ClassFrontProofs.
Import ListNotations.
Open Scope Z_scope.

Lemma prepend_inv s c m s' : inv s -> step s (Prepend c m) = State s' -> defined s c = true /\ defined s m = true /\
  is_plain_module (hp s) (head s m) = true /\ exists h, include_or_prepend true (make_origin (hp s) (head s c)) (head s c) (head s m) = Done h /\
    s' = propagate (mks h (tbl s)) c m.
Proof.
  intros I. cbn [step]. destruct (defined s c); [|discriminate]. destruct (defined s m); [|discriminate]. destruct (is_plain_module _ _) eqn:pm; [|discriminate].
  cbn [andb]. unfold prepend_module. destruct (include_or_prepend _ _ _ _); try discriminate. intros e. injection e as <-. repeat (split; [reflexivity|]). eexists. split; reflexivity.
Qed.

(** Everything known about the two intermediate heaps. *)
Section Prepend.
Variables (s : state) (c m : Z).
Hypothesis (I : inv s) (dc : defined s c = true) (dm : defined s m = true) (pm : is_plain_module (hp s) (head s m) = true).
Let h1 := make_origin (hp s) (head s c).
Lemma pre_facts : inv (mks h1 (tbl s)) /\ (length (hp s) <= length h1)%nat /\ nic (at_ h1 (head s c)) = false /\ is_plain_module h1 (head s m) = true /\
  idof h1 (head s c) = c /\ (exists o, norg (at_ h1 (head s c)) = Some o) /\ (forall d, defined s d = true -> ancestors (mks h1 (tbl s)) d = ancestors s d) /\
  (head s c < length h1)%nat /\ (head s m < length h1)%nat /\ nmod (at_ h1 (head s c)) = nmod (at_ (hp s) (head s c)).
Proof.
  destruct (defined_head s c I dc) as (c1 & c2 & c3). destruct (defined_head s m I dm) as (m1 & m2 & m3).
  pose proof (inv_mo s (head s c) I c1 c3) as I1. pose proof (mo_keep (hp s) (head s c) c1) as K. pose proof (mo_length (hp s) (head s c)) as L.
  fold h1 in I1, K, L. assert (LE : (length (hp s) <= length h1)%nat) by (rewrite L; destruct (norg _); lia).
  destruct (K _ c1) as (k1 & k2 & k3 & _). destruct (K _ m1) as (_ & k4 & k5 & _).
  split; auto. split; auto. split; [congruence|]. split; [erewrite plain_stable; eauto|]. split; [unfold idof in *; congruence|]. split.
  { destruct (norg (at_ (hp s) (head s c))) as [o|] eqn:e; [exists o; unfold h1, make_origin; now rewrite e|].
    destruct (mo_new _ _ c1 e) as (_ & _ & _ & q). exists (length (hp s)). exact q. }
  split; [|repeat split; auto; lia]. intros d dd. destruct (defined_head s d I dd) as (d1 & _). apply mo_ancestors; auto. apply (inv_heap s I).
Qed.
Lemma prepend_order s' d : step s (Prepend c m) = State s' -> defined s d = true -> subseq (ancestors s d) (ancestors s' d).
Proof.
  intros e dd. destruct (prepend_inv s c m s' I e) as (_ & _ & _ & h & eh & ->). fold h1 in eh.
  destruct pre_facts as (I1 & LE & nc & pm1 & ic & _ & AN & c1 & m1 & _). destruct (iop_inv true (mks h1 (tbl s)) _ _ h I1 c1 m1 nc pm1 eh) as (I2 & X).
  cbn [hp tbl] in X. pose proof (ext_length _ _ X) as L2. destruct (ext_keep _ _ X _ m1) as (_ & k2 & k3 & _).
  assert (dm2 : defined (mks h (tbl s)) m = true) by exact dm.
  assert (pm2 : is_plain_module h (head s m) = true) by (erewrite plain_stable; eauto).
  destruct (propagate_inv (mks h (tbl s)) c m I2 dm2 pm2) as (_ & X2). cbn [hp] in X2.
  destruct (defined_head s d I dd) as (d1 & _). rewrite <- (AN d dd). eapply sub_trans; [apply (ext_ancestors h1 h (tbl s) d X); fold (head s d); lia|].
  apply (ext_ancestors h _ (tbl s) d X2). fold (head s d). lia.
Qed.

(** The chain of the receiver: [q] is what is prepended, [o] the origin. *)
Lemma zone_split h a o : hinv h -> (a < length h)%nat -> norg (at_ h a) = Some o ->
  exists q t, above h a = q ++ o :: t /\ Forall (fun x => nic (at_ h x) = true) (q ++ [o]).
Proof.
  intros H la no. destruct (inv_org h H a o no) as (_ & n2 & _ & i). revert i. generalize (above h a). induction l as [|x l IH]; cbn [mixed]; [intros []|].
  destruct (nic (at_ h x)) eqn:nx; [|intros []]. intros [->|i].
  - exists [], l. split; auto. repeat constructor; auto.
  - destruct (IH i) as (q & t & -> & f). exists (x :: q), t. split; auto. constructor; auto.
Qed.
Lemma zone_rendered h a o q t k : hinv h -> above h a = q ++ o :: t -> Forall (fun x => nic (at_ h x) = true) (q ++ [o]) -> norg (at_ h a) = Some o ->
  rendered h k (above h a) = ids h q ++ idof h a :: rendered h k t.
Proof.
  intros H e f no. destruct (inv_org h H a o no) as (_ & n2 & n3 & _). rewrite e. apply Forall_app in f as [f _]. rewrite rendered_iclasses by auto.
  f_equal. cbn [rendered]. rewrite n2, andb_false_r, n3. reflexivity.
Qed.
Lemma loop_news h h' a q q' tail o : hinv h -> hinv h' -> extends h h' -> (a < length h)%nat -> above h a = q ++ tail -> above h' a = q' ++ tail ->
  tail = o :: List.tl tail -> norg (at_ h a) = Some o -> Forall (fun x => nic (at_ h' x) = true) (q' ++ [o]).
Proof.
  intros H H' X la e e' et no. assert (no' : norg (at_ h' a) = Some o) by (now destruct (ext_keep _ _ X a la) as (_ & _ & _ & _ & ->)).
  pose proof (ext_length _ _ X). destruct (zone_split h' a o H' ltac:(lia) no') as (q2 & t2 & e2 & f2).
  assert (q2 = q') as ->; auto. destruct (chain_of h' H' a ltac:(lia)) as (ch & _). apply chain_nodup in ch. inversion ch as [|? ? _ nd]; subst.
  rewrite e' in e2. rewrite e', et in nd. rewrite et in e2. clear - e2 nd. revert q' e2 nd. induction q2 as [|x q2 IH]; intros [|y q'] e nd; cbn in *; auto.
  - injection e as -> e. inversion nd; subst. exfalso. apply H1. apply in_or_app. right. now left.
  - injection e as -> e. inversion nd; subst. exfalso. apply H1. rewrite e. apply in_or_app. right. now left.
  - injection e as -> e. inversion nd; subst. f_equal. auto.
Qed.
Lemma iop_prepend h a o : hinv h -> (a < length h)%nat -> (head s m < length h)%nat -> nic (at_ h a) = false -> is_plain_module h (head s m) = true ->
  check_cyclic h a (head s m) = false -> norg (at_ h a) = Some o -> forall q t, above h a = q ++ o :: t ->
  match weave [] (ids h q) (brings h (head s m)) with
  | Some l => exists h' q', include_or_prepend true h a (head s m) = Done h' /\ hinv h' /\ extends h h' /\ above h' a = q' ++ o :: t /\ ids h' q' = l /\
      Forall (fun x => nic (at_ h' x) = true) (q' ++ [o])
  | None => True
  end.
Proof.
  intros H la lm na pm1 cy no q t e. rewrite iop_eq, cy. pose proof (iop_start h (head s m) H lm) as S'. destruct (match norg _ with None => _ | Some _ => _ end) as [x|].
  - destruct S' as (r & rg & br & ir & lx). rewrite br.
    assert (ZN : zone h true a (o :: t)) by (exists o, t; auto).
    pose proof (loop_weave (S (length h)) true h a [] a q (o :: t) x r H la lx ltac:(cbn; now rewrite e) ZN rg (le_S _ _ (region_length _ _ _ H lx rg))
      (start_disjoint h a (head s m) r H la lm na pm1 cy ir)) as W. cbn [List.tl app] in W. change (ids h []) with (@nil Z) in W.
    destruct (weave _ _ _) as [l|]; auto. destruct W as (h' & q' & w1 & w2 & w3 & w4 & w5 & w6). exists h', q'. repeat (split; [assumption|]).
    eapply (loop_news h h' a q q' (o :: t)); eauto.
  - rewrite S'. cbn [weave app]. destruct (zone_split h a o H la no) as (q2 & t2 & e2 & f2).
    exists h, q. split; auto. split; auto. split; [apply ext_refl|]. split; auto. split; auto. apply (loop_news h h a q q (o :: t)); auto. apply ext_refl.
Qed.
End Prepend.

(** * Propagation *)
Lemma last_next (l : list nat) x d : List.last (x :: l) d = List.last l x.
Proof. revert x d. induction l as [|y l IH]; intros x d; auto. rewrite (IH y x). change (List.last (x :: y :: l) d) with (List.last (y :: l) d). apply IH. Qed.
Lemma find_base_some h o pid bid : forall l seen prev p, find_base h o pid bid seen prev l = Some p -> exists l1 cur l2, l = l1 ++ cur :: l2 /\
  nic (at_ h cur) = true /\ idof h cur = bid /\ p = List.last l1 prev /\ (forall x, In x l1 -> nic (at_ h x) = true -> idof h x <> pid) /\ seen = false /\
  (forall x, In x l1 -> o <> Some x).
Proof.
  induction l as [|x t IH]; intros seen prev p e; cbn [find_base] in e; [discriminate|].
  destruct (nic (at_ h x) && (idof h x =? bid)) eqn:q.
  - apply andb_true_iff in q as [q1 q2]. apply Z.eqb_eq in q2. destruct seen; cbn [orb] in e; [discriminate|].
    destruct (nic (at_ h x) && (idof h x =? pid)); [discriminate|]. injection e as <-. exists [], x, t. repeat split; auto; intros y [].
  - destruct (match o with Some _ => _ | None => _ end) eqn:ow; [discriminate|]. apply IH in e as (l1 & cur & l2 & -> & n & i & -> & f & sn & fo).
    apply orb_false_iff in sn as [-> sn]. exists (x :: l1), cur, l2. split; auto. split; auto. split; auto. split; [now rewrite last_next|]. split.
    + intros y [<-|hy] ny; auto. intros z. rewrite ny in sn. apply Z.eqb_neq in sn. auto.
    + split; auto. intros y [<-|hy]; auto. intros ->. now rewrite Nat.eqb_refl in ow.
Qed.
(** Two chains that meet in an iclass meet before. *)
Lemma chain_back h : hinv h -> forall q o d l1 t1 c t2, chain h d (d :: l1 ++ o :: t1) -> chain h c (c :: q ++ o :: t2) -> nic (at_ h o) = true ->
  Forall (fun x => nic (at_ h x) = true) q -> nic (at_ h d) = false -> exists z, d :: l1 = z ++ c :: q.
Proof.
  intros I q. induction q as [|y q IH] using rev_ind; intros o d l1 t1 c t2 c1 c2 no nq nd.
  - cbn [app] in c2. assert (sup h c = Some o) by (apply (chain_split h c [] c o t2 c2)).
    destruct (exists_last (l := d :: l1) ltac:(discriminate)) as (z & y & E). assert (sup h y = Some o).
    { apply (chain_split h d z y o t1). rewrite (app_comm_cons l1), E, <- app_assoc in c1. exact c1. }
    exists z. rewrite E. f_equal. f_equal. eapply inv_one; eauto.
  - apply Forall_app in nq as [nq ny]. inversion ny as [|? ? ny' _]; subst. rewrite <- app_assoc in c2. cbn [app] in c2.
    assert (sy : sup h y = Some o) by (apply (chain_split h c (c :: q) y o t2 c2)).
    destruct (exists_last (l := d :: l1) ltac:(discriminate)) as (z & y' & E). assert (sy' : sup h y' = Some o).
    { apply (chain_split h d z y' o t1). rewrite (app_comm_cons l1), E, <- app_assoc in c1. exact c1. }
    assert (y' = y) by (eapply inv_one; eauto). subst y'. destruct z as [|d' z]; cbn in E; injection E as <- E; [congruence|]. subst l1.
    rewrite <- app_assoc in c1. cbn [app] in c1. destruct (IH y d z (o :: t1) c (o :: t2) c1 c2 ny' nq nd) as (z' & E'). exists z'.
    change (d :: z ++ [y]) with ((d :: z) ++ [y]). rewrite E', <- app_assoc. reflexivity.
Qed.
(** Prepending to a class needs no propagation. *)
Lemma propagate_class s c m q o t : inv s -> defined s c = true -> is_class (hp s) (head s c) = true -> norg (at_ (hp s) (head s c)) = Some o ->
  above (hp s) (head s c) = q ++ o :: t -> Forall (fun x => nic (at_ (hp s) x) = true) (q ++ [o]) -> In m (ids (hp s) q) -> propagate s c m = s.
Proof.
  intros I dc kc no e f hm. pose proof (inv_heap s I) as H. destruct (defined_head s c I dc) as (c1 & c2 & c3).
  assert (ONE : forall d, In d (tbl s) -> propagate1 m c (hp s) d = hp s).
  { intros d hd. apply In_nth_error in hd as (j & ej). destruct (inv_tbl s I j d ej) as (d1 & d2 & d3). unfold propagate1.
    destruct (find_base _ _ _ _ _ _ _) as [p|] eqn:fb; auto. exfalso.
    apply find_base_some in fb as (l1 & cur & l2 & el & nc & ic & _ & seen & _). destruct (chain_of _ H d d1) as (ch & rr).
    assert (lc : (cur < length (hp s))%nat). { rewrite Forall_forall in rr. apply rr. right. rewrite el. apply in_or_app. right. now left. }
    destruct (inv_icl s I cur lc nc) as (_ & [pl|og]).
    - rewrite ic in pl. unfold is_plain_module in pl. unfold is_class in kc. apply andb_true_iff in pl as [pl _]. rewrite pl in kc. discriminate.
    - rewrite ic in og. assert (cur = o) by congruence. subst cur. destruct (chain_of _ H _ c1) as (ch2 & _). rewrite e in ch2. rewrite el in ch.
      apply Forall_app in f as [fq fo]. apply Forall_inv in fo as fo'.
      destruct (chain_back _ H q o d l1 l2 (head s c) t ch ch2 fo' fq d3) as (z & E). unfold ids in hm. apply in_map_iff in hm as (x & ix & hx).
      assert (hx' : In x (d :: l1)) by (rewrite E; apply in_or_app; right; now right). rewrite Forall_forall in fq. pose proof (fq x hx) as nx.
      destruct hx' as [->|hx']; [congruence|]. apply (seen x hx' nx). exact ix. }
  destruct s as [h tb]. unfold propagate. cbn [hp tbl] in *. f_equal.
  assert (FOLD : forall l, incl l tb -> fold_left (propagate1 m c) l h = h).
  { induction l as [|d l IH]; intros il; auto. cbn [fold_left]. rewrite ONE by (apply il; now left). apply IH. intros y hy. apply il. now right. }
  apply FOLD. intros y hy. unfold candidates in hy. cbn [tbl] in hy. now apply filter_In in hy as [hy _].
Qed.
(** Propagation leaves the module itself alone. *)
Lemma propagate_module s c m : inv s -> defined s c = true -> defined s m = true -> is_plain_module (hp s) (head s m) = true ->
  is_plain_module (hp s) (head s c) = true -> ancestors (propagate s c m) c = ancestors s c.
Proof.
  intros I dc dm pm pc. destruct (defined_head s c I dc) as (c1 & c2 & c3). pose proof (inv_heap s I) as H.
  set (r := head s c :: mixed (hp s) (above (hp s) (head s c))). assert (rg : region (hp s) (head s c) r) by (now apply region_mixed).
  assert (FOLD : forall l g, hinv g -> extends (hp s) g -> region g (head s c) r -> Forall (fun d => (d < length g)%nat /\ nic (at_ g d) = false /\ d <> head s c) l ->
    hinv (fold_left (propagate1 m c) l g) /\ extends (hp s) (fold_left (propagate1 m c) l g) /\ region (fold_left (propagate1 m c) l g) (head s c) r).
  { induction l as [|d l IH]; intros g Hg X rgg fl; [auto|]. inversion fl as [|? ? (d1 & d2 & d3) fl']; subst. cbn [fold_left].
    pose proof (ext_length _ _ X) as LE. destruct (ext_keep _ _ X _ c1) as (_ & k2 & k3 & _).
    assert (pcg : is_plain_module g (head s c) = true) by (erewrite plain_stable; eauto).
    unfold propagate1 at 2 4 6. destruct (find_base _ _ _ _ _ _ _) as [p|] eqn:fb; [|apply IH; auto]. apply find_base_in in fb.
    destruct (chain_of _ Hg d d1) as (_ & rr). rewrite Forall_forall in rr. pose proof (rr _ fb) as lp.
    assert (dj : ~ In p r). { intros q. revert fb. apply (region_disjoint g d (head s c) r Hg d1 d2 rgg); auto.
      intros [E|E]; [congruence|]. exact (plain_not_above g d (head s c) Hg d1 pcg E). }
    apply IH.
    - now apply ins_hinv.
    - eapply ext_trans; [eauto|now apply ins_extends].
    - apply region_insert; auto. lia.
    - eapply Forall_impl; [|exact fl']. intros y (y1 & y2 & y3). rewrite ins_length, ins_nic by auto. repeat split; auto. }
  destruct (FOLD (candidates s c) (hp s) H (ext_refl _) rg) as (H' & X & rg').
  - apply Forall_forall. intros d hd. unfold candidates in hd. apply filter_In in hd as [hd q]. apply In_nth_error in hd as (j & ej).
    destruct (inv_tbl s I j d ej) as (d1 & d2 & d3). split; auto. split; auto. intros ->. apply andb_true_iff in q as [_ q]. rewrite c2, Z.eqb_refl in q. discriminate.
  - fold (propagate s c m) in *. change (fold_left (propagate1 m c) (candidates s c) (hp s)) with (hp (propagate s c m)) in *.
    assert (c1' : (head s c < length (hp (propagate s c m)))%nat) by (pose proof (ext_length _ _ X); lia).
    destruct (propagate_inv s c m I dm pm) as (I' & _). destruct (ext_keep _ _ X _ c1) as (k1 & k2 & k3 & k4 & k5).
    rewrite (module_ancestors (propagate s c m)); [|auto|exact dc|change (head (propagate s c m) c) with (head s c); erewrite plain_stable; eauto].
    rewrite module_ancestors by auto. change (head (propagate s c m) c) with (head s c).
    pose proof (region_mixed _ _ H' c1') as rg2.
    assert (DET : forall h x l1 l2, region h x l1 -> region h x l2 -> l1 = l2).
    { clear. intros h x l1 l2 rx. revert l2. induction rx as [x E|x y l E n rx IH]; intros l2 ry; inversion ry as [? E'|? y' l' E' n' ry']; subst; auto.
      - rewrite (E _ E') in n'. discriminate.
      - rewrite (E' _ E) in n. discriminate.
      - f_equal. apply IH. congruence. }
    pose proof (DET _ _ _ _ rg2 rg') as Er. pose proof (region_range _ _ _ H c1 rg) as RR.
    assert (IDS : forall l, Forall (fun x => x < length (hp s))%nat l -> ids (hp (propagate s c m)) l = ids (hp s) l).
    { intros l rl. apply map_ext_in. intros x hx. rewrite Forall_forall in rl. apply (ext_keep _ _ X x (rl x hx)). }
    unfold brings. unfold r in Er, RR. apply (f_equal (@List.tl nat)) in Er. cbn [List.tl] in Er. rewrite k5, Er. destruct (norg (at_ (hp s) (head s c))); apply IDS; auto. now inversion RR.
Qed.

(** * The result *)
Lemma weave_nodup n : forall pre post l, weave pre post n = Some l -> NoDup (pre ++ post) -> NoDup l.
Proof.
  induction n as [|x n IH]; intros pre post l e nd; cbn [weave] in e; [congruence|]. destruct (existsb _ _) eqn:p.
  - destruct post as [|b post]; [discriminate|]. apply IH in e; auto. now rewrite <- app_assoc.
  - apply IH in e; auto. rewrite <- app_assoc. cbn. apply NoDup_put; auto. now apply has_out.
Qed.
Section Result.
Variables (s : state) (c m : Z).
Hypothesis (I : inv s) (dc : defined s c = true) (dm : defined s m = true) (pm : is_plain_module (hp s) (head s m) = true)
  (nd : NoDup (ancestors s m)) (cy : ~ In c (ancestors s m)).
Lemma prepend_result : exists f r s', ancestors s c = f ++ c :: r /\ step s (Prepend c m) = State s' /\
  exists f', weave [] f (ancestors s m) = Some f' /\ ancestors s' c = f' ++ c :: r.
Proof.
  destruct (pre_facts s c m I dc dm pm) as (I1 & LE & nc & pm1 & ic & (o & no) & AN & c1 & m1 & k1). set (h1 := make_origin (hp s) (head s c)) in *.
  pose proof (inv_heap _ I1) as H1. cbn [hp] in H1. assert (dm1 : defined (mks h1 (tbl s)) m = true) by exact dm. assert (dc1 : defined (mks h1 (tbl s)) c = true) by exact dc.
  assert (BR : brings h1 (head s m) = ancestors s m) by (rewrite <- (AN m dm); symmetry; apply (module_ancestors (mks h1 (tbl s))); auto).
  assert (cy1 : check_cyclic h1 (head s c) (head s m) = false).
  { destruct (check_cyclic _ _ _) eqn:q; auto. apply cyclic_brings in q; auto. rewrite BR, ic in q. tauto. }
  destruct (zone_split h1 (head s c) o H1 c1 no) as (q & t & eq & fq).
  assert (AC : ancestors s c = ids h1 q ++ c :: rendered h1 (negb (nmod (at_ h1 (head s c)))) t).
  { rewrite <- (AN c dc). unfold ancestors. cbv zeta. cbn [hp]. change (head (mks h1 (tbl s)) c) with (head s c). rewrite no. cbn [app].
    rewrite (zone_rendered h1 (head s c) o q t _ H1 eq fq no), ic. reflexivity. }
  pose proof (iop_prepend s m h1 (head s c) o H1 c1 m1 nc pm1 cy1 no q t eq) as W. rewrite BR in W.
  destruct (weave [] (ids h1 q) (ancestors s m)) as [l|] eqn:w; [|exfalso; revert w; apply (weave_total _ []); auto; intros x []].
  destruct W as (h & q' & w1 & w2 & X & w4 & w5 & w6). pose proof (iop_inv true (mks h1 (tbl s)) _ _ h I1 c1 m1 nc pm1 w1) as (I2 & _). cbn [tbl] in I2.
  destruct (ext_keep _ _ X _ c1) as (k2 & k3 & k4 & k5 & k6). destruct (ext_keep _ _ X _ m1) as (_ & u2 & u3 & _).
  assert (AC2 : ancestors (mks h (tbl s)) c = l ++ c :: rendered h1 (negb (nmod (at_ h1 (head s c)))) t).
  { unfold ancestors. cbv zeta. cbn [hp]. change (head (mks h (tbl s)) c) with (head s c). rewrite k6, no, k4. cbn [app].
    assert (no' : norg (at_ h (head s c)) = Some o) by congruence. rewrite (zone_rendered h (head s c) o q' t _ w2 w4 w6 no'), w5.
    unfold idof. rewrite k2. fold (idof h1 (head s c)). rewrite ic. do 2 f_equal. apply rendered_keep. intros x hx.
    destruct (chain_of _ H1 _ c1) as (_ & rr). rewrite Forall_forall in rr. assert (lx : (x < length h1)%nat).
    { apply rr. right. rewrite eq. apply in_or_app. right. now right. }
    destruct (ext_keep _ _ X x lx) as (v1 & v2 & v3 & v4 & v5). auto. }
  exists (ids h1 q), (rendered h1 (negb (nmod (at_ h1 (head s c)))) t), (propagate (mks h (tbl s)) c m). split; [exact AC|]. split.
  { cbn [step]. rewrite dc, dm, pm. cbn [andb]. unfold prepend_module. fold h1. now rewrite w1. }
  exists l. split; auto. rewrite <- AC2. assert (pm2 : is_plain_module h (head s m) = true) by (erewrite plain_stable; eauto).
  destruct (nmod (at_ h (head s c))) eqn:nm.
  - apply propagate_module; auto. cbn [hp]. change (head (mks h (tbl s)) c) with (head s c). unfold is_plain_module. rewrite nm, k3, nc. reflexivity.
  - f_equal. apply (propagate_class (mks h (tbl s)) c m q' o t); auto.
    + unfold is_class. cbn [hp]. change (head (mks h (tbl s)) c) with (head s c). now rewrite nm.
    + cbn [hp]. change (head (mks h (tbl s)) c) with (head s c). congruence.
    + cbn [hp]. rewrite w5. apply (weave_all _ _ _ _ w). rewrite module_ancestors by auto. unfold brings. destruct (defined_head s m I dm) as (_ & m2 & _).
      destruct (norg (at_ (hp s) (head s m))) as [om|] eqn:nm2; [|left; exact m2].
      destruct (inv_org _ (inv_heap s I) _ _ nm2) as (_ & _ & io & mo). apply (in_map (idof (hp s))) in mo. rewrite io, m2 in mo. exact mo.
Qed.
End Result.

(** Later prepends reach the classes that have the module. *)
Lemma find_base_none h pid bid : forall l seen prev, find_base h None pid bid seen prev l = None -> 
  (exists x, In x l /\ nic (at_ h x) = true /\ idof h x = bid) -> pid <> bid ->
  seen = true \/ exists l1 l2 l3 x y, l = l1 ++ x :: l2 ++ y :: l3 /\ nic (at_ h x) = true /\ nic (at_ h y) = true /\ idof h x = pid /\ idof h y = bid.
Proof.
  induction l as [|z t IH]; intros seen prev e (x & hx & nx & ix) ne; [destruct hx|]. cbn [find_base] in e.
  destruct (nic (at_ h z) && (idof h z =? bid)) eqn:q.
  - destruct seen; auto. cbn [orb] in e. apply andb_true_iff in q as [q1 q2]. apply Z.eqb_eq in q2.
    destruct (nic (at_ h z) && (idof h z =? pid)) eqn:p; [|discriminate]. apply andb_true_iff in p as [_ p]. apply Z.eqb_eq in p. congruence.
  - destruct hx as [->|hx]; [rewrite nx, ix, Z.eqb_refl in q; discriminate|].
    assert (R : exists x, In x t /\ nic (at_ h x) = true /\ idof h x = bid) by eauto.
    destruct (IH _ _ e R ne) as [sn|(l1 & l2 & l3 & a & b & -> & w)].
    + apply orb_true_iff in sn as [sn|sn]; auto. right. apply andb_true_iff in sn as [s1 s2]. apply Z.eqb_eq in s2.
      destruct R as (y & hy & ny & iy). apply in_split in hy as (u & v & ->). exists [], u, v, z, y. auto.
    + right. exists (z :: l1), l2, l3, a, b. auto.
Qed.
Lemma sub_two {A} (x y : A) l1 l2 l3 : subseq [x; y] (l1 ++ x :: l2 ++ y :: l3).
Proof.
  induction l1 as [|z l1 IH]; cbn; [|now constructor]. constructor. induction l2 as [|z l2 IH]; cbn; constructor; auto. constructor.
Qed.
Lemma rendered_app_iclass h l1 x l2 : nic (at_ h x) = true -> rendered h true (l1 ++ x :: l2) = rendered h true l1 ++ idof h x :: rendered h true l2.
Proof. intros n. induction l1 as [|z l1 IH]; cbn [app rendered negb andb]; [now rewrite n|]. now rewrite IH, app_assoc. Qed.
Lemma propagate1_reaches h d c m : hinv h -> (d < length h)%nat -> norg (at_ h d) = None -> m <> c ->
  (exists x, In x (above h d) /\ nic (at_ h x) = true /\ idof h x = c) ->
  subseq [m; c] (rendered (propagate1 m c h d) true (above (propagate1 m c h d) d)).
Proof.
  intros H ld no ne hx. unfold propagate1. rewrite no. destruct (find_base _ _ _ _ _ _ _) as [p|] eqn:fb.
  - pose proof (find_base_in _ _ _ _ _ _ _ _ fb) as hp'. destruct (chain_of _ H d ld) as (ch & rr). pose proof rr as rr2. rewrite Forall_forall in rr2. pose proof (rr2 _ hp') as lp.
    apply find_base_some in fb as (l1 & cur & l2 & el & nc & ic & ep & _). pose proof (chain_nodup _ _ _ ch) as ND.
    pose proof (ins_above h p m d H lp ld) as E. rewrite el in E, ND.
    assert (LC : (cur < length h)%nat) by (apply rr2; right; rewrite el; apply in_or_app; right; now left).
    assert (AB : exists u, above (insert h p m) d = u ++ length h :: cur :: l2).
    { destruct (exists_last (l := d :: l1) ltac:(discriminate)) as (z & y & Ez).
      assert (p = y). { subst p. rewrite <- (last_next l1 d d), Ez. apply last_last. } subst y.
      change (d :: l1 ++ cur :: l2) with ((d :: l1) ++ cur :: l2) in E, ND. rewrite Ez, <- app_assoc in E, ND. cbn [app] in E, ND.
      apply NoDup_remove_2 in ND. rewrite spliced_app in E by (intros q; apply ND; apply in_or_app; auto). destruct z as [|d' z]; cbn [app] in E.
      - injection E as _ E. exists []. exact E.
      - injection E as _ E. exists (z ++ [p]). rewrite <- app_assoc. exact E. }
    destruct AB as (u & ->). rewrite rendered_app_iclass by (now rewrite ins_new). rewrite ins_newid by auto.
    cbn [rendered]. rewrite (ins_nic h p m lp cur LC), nc, andb_false_r, ins_id, ic by auto. apply (sub_two m c (rendered (insert h p m) true u) []).
  - destruct (find_base_none h m c _ _ _ fb hx ne) as [?|(l1 & l2 & l3 & x & y & -> & nx & ny & ix & iy)]; [discriminate|].
    rewrite rendered_app_iclass by auto. rewrite rendered_app_iclass by auto. rewrite ix, iy. apply sub_two.
Qed.
Lemma propagate_reaches s c m d : inv s -> defined s c = true -> defined s m = true -> is_plain_module (hp s) (head s m) = true ->
  m <> c -> d <> c -> defined s d = true -> is_class (hp s) (head s d) = true -> nsing (at_ (hp s) (head s d)) = false -> norg (at_ (hp s) (head s d)) = None ->
  (exists x, In x (above (hp s) (head s d)) /\ nic (at_ (hp s) x) = true /\ idof (hp s) x = c) ->
  subseq [m; c] (ancestors (propagate s c m) d).
Proof.
  intros I dc dm pm ne nd dd kd sd no hx. destruct (defined_head s d I dd) as (d1 & d2 & d3).
  assert (IC : In (head s d) (candidates s c)).
  { unfold candidates. apply filter_In. split; [|rewrite d3, sd, d2; cbn; now apply negb_true_iff, Z.eqb_neq].
    unfold head. apply nth_In. unfold defined in dd. apply andb_true_iff in dd as [a b]. apply Z.leb_le in a. apply Z.ltb_lt in b. lia. }
  assert (CL : Forall (fun a => (a < length (hp s))%nat) (candidates s c)).
  { apply Forall_forall. intros a ha. unfold candidates in ha. apply filter_In in ha as [ha _]. apply In_nth_error in ha as (j & e). apply (inv_tbl s I j a e). }
  apply in_split in IC as (l1 & l2 & E). rewrite E in CL. apply Forall_app in CL as [C1 C2]. inversion C2 as [|? ? _ C3]; subst.
  assert (SN : sane s [m]) by (split; auto; intros i [<-|[]]; auto).
  destruct (propagate_fold s [m] m c l1 SN ltac:(now left) C1) as (S1 & X1). set (g1 := fold_left (propagate1 m c) l1 (hp s)) in *.
  pose proof (ext_length _ _ X1) as L1. destruct (ext_keep _ _ X1 _ d1) as (u1 & u2 & u3 & u4 & u5).
  assert (d1' : (head s d < length g1)%nat) by lia. pose proof (inv_heap _ (proj1 S1)) as H1. cbn [hp] in H1.
  destruct (propagate1_inv (mks g1 (tbl s)) [m] m c (head s d) S1 ltac:(now left) d1') as (S2 & X2). cbn [hp tbl] in S2, X2.
  pose proof (propagate1_reaches g1 (head s d) c m H1 d1' ltac:(congruence) ne) as R.
  assert (hx1 : exists x, In x (above g1 (head s d)) /\ nic (at_ g1 x) = true /\ idof g1 x = c).
  { destruct hx as (x & hx & nx & ix). destruct (chain_of _ (inv_heap s I) _ d1) as (_ & rr). rewrite Forall_forall in rr. destruct (ext_keep _ _ X1 x (rr x (or_intror hx))) as (v1 & v2 & _).
    exists x. split; [eapply sub_in; [apply (ext_above _ _ X1); auto|auto]|]. unfold idof in *. split; congruence. }
  specialize (R hx1). set (g2 := propagate1 m c g1 (head s d)) in *. pose proof (ext_length _ _ X2) as L2.
  destruct (propagate_fold (mks g2 (tbl s)) [m] m c l2 S2 ltac:(now left)) as (S3 & X3).
  { cbn [hp]. eapply Forall_impl; [|exact C3]. cbn. lia. }
  cbn [hp tbl] in S3, X3. unfold propagate. rewrite E, fold_left_app. cbn [fold_left]. fold g1. fold g2.
  eapply sub_trans; [|apply (ext_ancestors g2 _ (tbl s) d X3); fold (head s d); lia]. unfold ancestors. cbv zeta. cbn [hp]. change (head (mks g2 (tbl s)) d) with (head s d).
  destruct (ext_keep _ _ X2 _ d1') as (w1 & w2 & w3 & w4 & w5). unfold is_class in kd. assert (nmod (at_ g2 (head s d)) = false) as ->.
  { rewrite w3, u3. now apply negb_true_iff in kd. }
  cbn [negb]. eapply sub_trans; [exact R|]. rewrite w5, u5, no. cbn. constructor. apply sub_refl.
Qed.
Lemma prepend_reaches s c m s' d : inv s -> step s (Prepend c m) = State s' -> is_plain_module (hp s) (head s c) = true ->
  defined s d = true -> is_class (hp s) (head s d) = true -> nsing (at_ (hp s) (head s d)) = false -> norg (at_ (hp s) (head s d)) = None ->
  In c (ancestors s d) -> subseq [m; c] (ancestors s' d).
Proof.
  intros I e pc dd kd sd no ia. destruct (prepend_inv s c m s' I e) as (dc & dm & pm & h & eh & ->).
  destruct (pre_facts s c m I dc dm pm) as (I1 & LE & nc & pm1 & ic & _ & AN & c1 & m1 & k1). set (h1 := make_origin (hp s) (head s c)) in *.
  destruct (iop_inv true (mks h1 (tbl s)) _ _ h I1 c1 m1 nc pm1 eh) as (I2 & X). cbn [hp tbl] in I2, X.
  destruct (defined_head s d I dd) as (d1 & d2 & d3). destruct (defined_head s c I dc) as (c1' & c2 & c3). destruct (defined_head s m I dm) as (m1' & m2 & m3).
  assert (kc : is_class (hp s) (head s c) = false). { unfold is_class. unfold is_plain_module in pc. apply andb_true_iff in pc as [-> _]. reflexivity. }
  assert (ne : d <> c) by (intros ->; congruence). assert (NH : head s d <> head s c) by congruence.
  assert (mc : m <> c). { intros ->. unfold include_or_prepend, check_cyclic in eh. rewrite Z.eqb_refl in eh. discriminate. }
  destruct (mo_keep (hp s) (head s c) c1' (head s d) d1) as (u1 & u2 & u3 & u4 & u5). fold h1 in u1, u2, u3, u4, u5. specialize (u5 NH).
  assert (d1' : (head s d < length h1)%nat) by lia. pose proof (ext_length _ _ X) as L2. destruct (ext_keep _ _ X _ d1') as (w1 & w2 & w3 & w4 & w5).
  destruct (ext_keep _ _ X _ m1) as (_ & v2 & v3 & _).
  apply propagate_reaches; auto.
  - erewrite plain_stable; [exact pm1| |]; auto.
  - unfold is_class in *. cbn [hp]. change (head (mks h (tbl s)) d) with (head s d). congruence.
  - cbn [hp]. change (head (mks h (tbl s)) d) with (head s d). congruence.
  - cbn [hp]. change (head (mks h (tbl s)) d) with (head s d). congruence.
  - cbn [hp]. change (head (mks h (tbl s)) d) with (head s d).
    assert (IL : In c (lineage h1 (head s d))).
    { rewrite <- (AN d dd) in ia. apply ancestors_ids in ia as [q|q]; auto. cbn [hp] in q. change (head (mks h1 (tbl s)) d) with (head s d) in q.
      exfalso. apply ne. rewrite q. unfold idof in *. congruence. }
    unfold lineage, ids in IL. apply in_map_iff in IL as (x & ix & hx). pose proof (inv_heap _ I1) as H1. cbn [hp] in H1.
    destruct (chain_of _ H1 _ d1') as (_ & rr). rewrite Forall_forall in rr. pose proof (rr x (or_intror hx)) as lx.
    destruct (ext_keep _ _ X x lx) as (y1 & y2 & _).
    exists x. split; [eapply sub_in; [apply (ext_above _ _ X); auto|auto]|]. split; [|unfold idof in *; congruence].
    rewrite y2. destruct (nic (at_ h1 x)) eqn:nx; auto. exfalso.
    destruct (inv_head _ I1 x lx nx) as (_ & hd). cbn [hp] in hd. rewrite ix in hd. change (head (mks h1 (tbl s)) c) with (head s c) in hd. subst x.
    apply (plain_not_above h1 (head s d) (head s c) H1 d1'); auto. destruct (mo_keep (hp s) (head s c) c1' (head s c) c1') as (z1 & z2 & z3 & _).
    fold h1 in z2, z3. erewrite plain_stable; eauto.
Qed.

Lemma prepend_keeps s c m s' d : inv s -> step s (Prepend c m) = State s' -> defined s d = true -> subseq (ancestors s d) (ancestors s' d).
Proof. intros I e dd. destruct (prepend_inv s c m s' I e) as (dc & dm & pm & _). exact (prepend_order s c m I dc dm pm s' d e dd). Qed.
