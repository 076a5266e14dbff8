(** Proofs about Pathname. *)
From Coq Require Import ZArith List Bool Lia.
From Verif Require Import PathnModel PathnSpec.
Import ListNotations.

Lemma walk_app : forall dir a b, walk dir (a ++ b) = walk (walk dir a) b.
Proof. intros dir a b; apply fold_left_app. Qed.

Lemma clean_step_ok : forall b ns dir, walk dir (clean_step b ns) = walk dir (b :: ns).
Proof. intros [| |z] ns dir; cbn; try reflexivity. destruct ns as [|[| |y] r]; reflexivity. Qed.

Lemma clean_fold_ok : forall ns dir, walk dir (fold_right clean_step [] ns) = walk dir ns.
Proof.
  intros ns; induction ns as [|n ns IH]; intros dir; cbn [fold_right]; [reflexivity|].
  rewrite clean_step_ok. cbn. apply IH.
Qed.

Lemma shift_dotdot : forall ns, walk [] (shift_while is_dotdot ns) = walk [] ns.
Proof. intros ns; induction ns as [|[| |z] r IH]; cbn; try reflexivity. exact IH. Qed.

Lemma shift_dot : forall ns dir, walk dir (shift_while is_dot ns) = walk dir ns.
Proof. intros ns dir; induction ns as [|[| |z] r IH]; cbn; try reflexivity. exact IH. Qed.

Lemma dot_leads : forall dir p, leads dir (dot_if_empty p) = leads dir p.
Proof. intros dir [[|] [|n ns]]; reflexivity. Qed.

(** cleanpath leads to where the path does. *)
Lemma cleanpath_leads : forall dir p, leads dir (cleanpath p) = leads dir p.
Proof.
  intros dir p; unfold cleanpath. rewrite dot_leads. unfold leads, clean_names; cbn [absolute names].
  destruct (absolute p); [rewrite shift_dotdot|]; apply clean_fold_ok.
Qed.

Lemma clean_shape : forall ns, exists k zs, fold_right clean_step [] ns = repeat DotDot k ++ map Nm zs.
Proof.
  intros ns; induction ns as [|n ns [k [zs E]]]; cbn; [exists 0, []; reflexivity|]. rewrite E.
  destruct n as [| |z]; cbn.
  - exists k, zs; reflexivity.
  - exists (S k), zs; reflexivity.
  - destruct k as [|k]; cbn.
    + exists 0, (z :: zs); cbn. destruct zs; reflexivity.
    + exists k, zs; reflexivity.
Qed.

Lemma shift_shape : forall k zs, shift_while is_dotdot (repeat DotDot k ++ map Nm zs) = map Nm zs.
Proof. intros k zs; induction k as [|k IH]; cbn; [destruct zs; reflexivity | exact IH]. Qed.

Lemma clean_names_shape : forall p, exists k zs, clean_names p = repeat DotDot k ++ map Nm zs /\ (absolute p = true -> k = 0).
Proof.
  intros p; unfold clean_names. destruct (clean_shape (names p)) as [k [zs E]]; rewrite E.
  destruct (absolute p).
  - exists 0, zs. rewrite shift_shape. split; reflexivity.
  - exists k, zs; split; [reflexivity | discriminate].
Qed.

(** cleanpath is clean. *)
Lemma cleanpath_clean : forall p, clean (cleanpath p).
Proof.
  intros p. destruct (clean_names_shape p) as [k [zs [E A]]]. unfold cleanpath, clean. rewrite E.
  destruct p as [[|] ns]; cbn [absolute] in *.
  - right; exists k, zs. cbn. repeat split; [exact A | discriminate].
  - destruct k as [|k], zs as [|z zs]; cbn.
    + left; split; reflexivity.
    + right; exists 0, (z :: zs); cbn. repeat split; try discriminate.
    + right; exists (S k), []; cbn. repeat split; try discriminate.
    + right; exists (S k), (z :: zs); cbn. repeat split; try discriminate.
Qed.

Lemma fold_names : forall zs, fold_right clean_step [] (map Nm zs) = map Nm zs.
Proof. intros zs; induction zs as [|z zs IH]; cbn; [reflexivity|]. rewrite IH. destruct zs; reflexivity. Qed.
Lemma fold_clean : forall k zs, fold_right clean_step [] (repeat DotDot k ++ map Nm zs) = repeat DotDot k ++ map Nm zs.
Proof. intros k zs; induction k as [|k IH]; cbn; [apply fold_names | rewrite IH; reflexivity]. Qed.

(** A clean path stays as it is. *)
Lemma clean_fixed : forall p, clean p -> cleanpath p = p.
Proof.
  intros [a ns] [[A N]|[k [zs [N [A B]]]]]; cbn in *; subst.
  - reflexivity.
  - unfold cleanpath, clean_names; cbn [absolute names]. rewrite fold_clean. destruct a.
    + rewrite (A eq_refl). rewrite (shift_shape 0 zs). reflexivity.
    + specialize (B eq_refl). destruct k as [|k], zs as [|z zs]; cbn in *; try reflexivity. congruence.
Qed.

Lemma cleanpath_idem : forall p, cleanpath (cleanpath p) = cleanpath p.
Proof. intros p; apply clean_fixed, cleanpath_clean. Qed.

Lemma walk_names : forall zs dir, walk dir (map Nm zs) = rev zs ++ dir.
Proof.
  intros zs; induction zs as [|z zs IH]; intros dir; cbn; [reflexivity|].
  unfold walk in IH. rewrite IH. rewrite <- app_assoc; reflexivity.
Qed.

Lemma cleanpath_abs : forall p, absolute p = true -> exists zs, cleanpath p = P true (map Nm zs).
Proof.
  intros p A. destruct (clean_names_shape p) as [k [zs [E K]]]. exists zs. unfold cleanpath. rewrite E, (K A), A. reflexivity.
Qed.

(** Absolute paths have the same clean path exactly if they lead to the same place. *)
Lemma cleanpath_unique : forall p q, absolute p = true -> absolute q = true ->
  (cleanpath p = cleanpath q <-> leads [] p = leads [] q).
Proof.
  intros p q A B; split; intros H.
  - rewrite <- (cleanpath_leads [] p), H. apply cleanpath_leads.
  - rewrite <- (cleanpath_leads [] p), <- (cleanpath_leads [] q) in H.
    destruct (cleanpath_abs p A) as [zs E], (cleanpath_abs q B) as [zs' E']. rewrite E, E' in *.
    unfold leads in H; cbn [absolute names] in H. rewrite !walk_names, !app_nil_r in H.
    apply (f_equal (@rev Z)) in H. rewrite !rev_involutive in H. rewrite H; reflexivity.
Qed.

Lemma plus_loop_ok : forall r1 l2 dir,
  walk dir (rev (fst (plus_loop r1 l2)) ++ snd (plus_loop r1 l2)) = walk dir (rev r1 ++ l2).
Proof.
  intros r1; induction r1 as [|b r IH]; intros l2 dir.
  - cbn. apply shift_dot.
  - assert (D : walk dir (rev (b :: r) ++ shift_while is_dot l2) = walk dir (rev (b :: r) ++ l2))
      by (rewrite !walk_app; apply shift_dot).
    rewrite <- D. cbn [plus_loop]. destruct (is_dot b) eqn:E.
    + destruct b; try discriminate. rewrite IH. cbn [rev]. rewrite !walk_app. reflexivity.
    + destruct b as [| |z]; [discriminate | reflexivity|].
      destruct (shift_while is_dot l2) as [|[| |y] t] eqn:S; try reflexivity.
      rewrite IH. cbn [rev]. rewrite !walk_app. reflexivity.
Qed.

(** p + q leads to where q leads from where p leads. *)
Lemma plus_ok : forall dir p q, leads dir (plus p q) = leads (leads dir p) q.
Proof.
  intros dir p q; unfold plus. destruct (absolute q) eqn:Q; [unfold leads; rewrite Q; reflexivity|].
  pose proof (fun d => plus_loop_ok (rev (names p)) (names q) d) as L.
  destruct (plus_loop (rev (names p)) (names q)) as [r1 l2]. cbn [fst snd] in L. rewrite rev_involutive in L.
  rewrite dot_leads. unfold leads; cbn [absolute names]. rewrite Q. rewrite <- walk_app, <- L.
  destruct r1 as [|b r]; [|reflexivity]. destruct (absolute p); [|reflexivity]. cbn. apply shift_dotdot.
Qed.

Lemma same_eq : forall a b, same a b = true -> a = b.
Proof. intros [| |x] [| |y] H; try discriminate; try reflexivity. apply Z.eqb_eq in H; subst; reflexivity. Qed.

Lemma strip_ok : forall d b dn bn, strip d b = (dn, bn) -> exists c, d = c ++ dn /\ b = c ++ bn.
Proof.
  intros d; induction d as [|x d IH]; intros b dn bn H; cbn in H.
  - injection H as <- <-; exists []; split; reflexivity.
  - destruct b as [|y b]; [injection H as <- <-; exists []; split; reflexivity|].
    destruct (same x y) eqn:S; [|injection H as <- <-; exists []; split; reflexivity].
    apply same_eq in S; subst. destruct (IH b dn bn H) as [c [-> ->]]. exists (y :: c); split; reflexivity.
Qed.

Lemma no_dots_walk : forall ns dir, walk dir (filter (fun n => negb (is_dot n)) ns) = walk dir ns.
Proof. intros ns; induction ns as [|[| |z] r IH]; intros dir; cbn; try apply IH; reflexivity. Qed.

Lemma back : forall bn dir, existsb is_dotdot bn = false -> existsb is_dot bn = false ->
  walk (walk dir bn) (map (fun _ => DotDot) bn) = dir.
Proof.
  intros bn; induction bn as [|x bn IH] using rev_ind; intros dir A B; [reflexivity|].
  rewrite existsb_app in A, B. apply orb_false_iff in A as [A A'], B as [B B'].
  cbn in A', B'. destruct x as [| |z]; try discriminate.
  rewrite walk_app, map_app. cbn [map].
  assert (C : forall (l : list name) d, walk d (map (fun _ => DotDot) l ++ [DotDot]) = walk (tl d) (map (fun _ => DotDot) l)).
  { clear. intros l; induction l as [|x l IH]; intros d; cbn; [reflexivity|]. apply (IH (tl d)). }
  rewrite C. cbn. apply IH; assumption.
Qed.

Lemma filter_dots : forall ns, existsb is_dot (filter (fun n => negb (is_dot n)) ns) = false.
Proof. intros ns; induction ns as [|[| |z] r IH]; cbn; try exact IH; reflexivity. Qed.

(** relative_path_from leads from the base to the destination. *)
Lemma relative_ok : forall dir dest base r, relative_path_from dest base = Some r ->
  absolute r = false /\ leads (leads dir base) r = leads dir dest.
Proof.
  intros dir dest base r H. unfold relative_path_from in H.
  destruct (Bool.eqb (absolute (cleanpath dest)) (absolute (cleanpath base))) eqn:E; [|discriminate].
  apply eqb_prop in E.
  destruct (strip _ _) as [dn bn] eqn:S in H. destruct (existsb is_dotdot bn) eqn:D; [discriminate|].
  injection H as <-. split; [destruct (map _ bn ++ dn); reflexivity|].
  rewrite dot_leads. rewrite <- (cleanpath_leads dir base), <- (cleanpath_leads dir dest).
  apply strip_ok in S as [c [X Y]]. unfold leads; cbn [absolute names]. rewrite E.
  set (st := if absolute (cleanpath base) then [] else dir).
  rewrite <- (no_dots_walk (names (cleanpath base))), <- (no_dots_walk (names (cleanpath dest))), X, Y.
  rewrite !walk_app, back; [reflexivity | exact D|].
  pose proof (filter_dots (names (cleanpath base))) as F. rewrite Y, existsb_app in F.
  apply orb_false_iff in F; apply F.
Qed.

Lemma dot_abs : forall p, absolute (dot_if_empty p) = absolute p.
Proof. intros [[|] [|n ns]]; reflexivity. Qed.

(** It is there for all absolute paths. *)
Lemma relative_abs : forall dest base, absolute dest = true -> absolute base = true ->
  exists r, relative_path_from dest base = Some r.
Proof.
  intros dest base A B. unfold relative_path_from. unfold cleanpath at 1 2. rewrite !dot_abs; cbn [absolute]. rewrite A, B. cbn [Bool.eqb].
  destruct (strip _ _) as [dn bn] eqn:S. apply strip_ok in S as [c [_ Y]].
  assert (F : existsb is_dotdot bn = false).
  { destruct (cleanpath_abs base B) as [zs E]. rewrite E in Y; cbn [names] in Y.
    assert (G : existsb is_dotdot (filter (fun n => negb (is_dot n)) (map Nm zs)) = false).
    { clear; induction zs as [|z zs IH]; cbn; [reflexivity | exact IH]. }
    rewrite Y, existsb_app in G. apply orb_false_iff in G; apply G. }
  rewrite F. eexists; reflexivity.
Qed.

Lemma plus_abs : forall p q, absolute p = true -> absolute (plus p q) = true.
Proof.
  intros p q A; unfold plus. destruct (absolute q) eqn:Q; [exact Q|].
  destruct (plus_loop _ _) as [r1 l2]. rewrite dot_abs. exact A.
Qed.

(** From an absolute base, the base and the relative path make the destination. *)
Lemma relative_round : forall dest base r, absolute dest = true -> absolute base = true ->
  relative_path_from dest base = Some r -> cleanpath (plus base r) = cleanpath dest.
Proof.
  intros dest base r A B H. apply cleanpath_unique; [apply plus_abs; exact B | exact A|].
  rewrite plus_ok. apply (relative_ok [] dest base r H).
Qed.

(** It is there too for a clean base without .., and never if one path is absolute and the other is not. *)
Lemma relative_some : forall dest base, absolute dest = absolute base -> ~ In DotDot (names (cleanpath base)) ->
  exists r, relative_path_from dest base = Some r.
Proof.
  intros dest base A B. unfold relative_path_from. unfold cleanpath at 1 2. rewrite !dot_abs; cbn [absolute]. rewrite A, eqb_reflx.
  destruct (strip _ _) as [dn bn] eqn:S. apply strip_ok in S as [c [_ Y]].
  destruct (existsb is_dotdot bn) eqn:F; [|eexists; reflexivity].
  exfalso; apply B. apply existsb_exists in F as [x [I X]]. destruct x; try discriminate.
  assert (J : In DotDot (c ++ bn)) by (apply in_or_app; right; exact I).
  rewrite <- Y in J. apply filter_In in J; apply J.
Qed.
Lemma relative_mixed : forall dest base, absolute dest <> absolute base -> relative_path_from dest base = None.
Proof.
  intros dest base A. unfold relative_path_from. unfold cleanpath at 1 2. rewrite !dot_abs; cbn [absolute].
  destruct (Bool.eqb (absolute dest) (absolute base)) eqn:E; [apply eqb_prop in E; contradiction | reflexivity].
Qed.

Lemma walk_back : forall k dir, walk dir (repeat DotDot k) = skipn k dir.
Proof.
  intros k; induction k as [|k IH]; intros dir; cbn; [reflexivity|].
  unfold walk in IH; rewrite IH. destruct dir; [destruct k; reflexivity | reflexivity].
Qed.

Lemma fresh : forall l : list Z, exists f, ~ In f l.
Proof.
  intros l. assert (H : forall x, In x l -> (x <= fold_right Z.max 0 l)%Z).
  { induction l as [|y l IH]; cbn; [contradiction|]. intros x [->|I]; [lia | specialize (IH x I); lia]. }
  exists (fold_right Z.max 0 l + 1)%Z. intros I; specialize (H _ I); lia.
Qed.

Lemma skip_repeat : forall (f : Z) k m, skipn k (repeat f (k + m)) = repeat f m.
Proof. intros f k m; induction k as [|k IH]; cbn; [reflexivity | exact IH]. Qed.
Lemma count_repeat : forall (f : Z) m, count_occ Z.eq_dec (repeat f m) f = m.
Proof. intros f m; induction m as [|m IH]; cbn; [reflexivity|]. destruct (Z.eq_dec f f); [rewrite IH; reflexivity | contradiction]. Qed.

(** Relative paths have the same clean path exactly if they lead to the same place from every directory. *)
Lemma cleanpath_unique_rel : forall p q, absolute p = false -> absolute q = false ->
  (cleanpath p = cleanpath q <-> forall dir, leads dir p = leads dir q).
Proof.
  intros p q A B; split; intros H.
  - intros dir. rewrite <- (cleanpath_leads dir p), H. apply cleanpath_leads.
  - destruct (clean_names_shape p) as [k [zs [E _]]], (clean_names_shape q) as [k' [zs' [E' _]]].
    assert (W : forall dir, rev zs ++ skipn k dir = rev zs' ++ skipn k' dir).
    { intros dir. specialize (H dir). rewrite <- (cleanpath_leads dir p), <- (cleanpath_leads dir q) in H.
      unfold cleanpath in H. rewrite !dot_leads in H. unfold leads in H; cbn [absolute names] in H.
      rewrite A, B, E, E', !walk_app, !walk_back, !walk_names in H. exact H. }
    unfold cleanpath. rewrite A, B, E, E'.
    destruct (fresh (rev zs ++ rev zs')) as [f F].
    pose proof (W (repeat f (k + k'))) as Q. apply (f_equal (fun l => count_occ Z.eq_dec l f)) in Q.
    rewrite !count_occ_app, skip_repeat, Nat.add_comm, (Nat.add_comm k k'), skip_repeat, !count_repeat in Q.
    assert (F1 : count_occ Z.eq_dec (rev zs) f = 0) by (apply count_occ_not_In; intros I; apply F, in_or_app; left; exact I).
    assert (F2 : count_occ Z.eq_dec (rev zs') f = 0) by (apply count_occ_not_In; intros I; apply F, in_or_app; right; exact I).
    rewrite F1, F2 in Q. assert (k = k') by lia. subst k'.
    specialize (W []). apply app_inv_tail in W. apply (f_equal (@rev Z)) in W. rewrite !rev_involutive in W.
    rewrite W; reflexivity.
Qed.

(** cleanpath(true) leads to where the path does, whatever the links are. *)
Lemma conservative_ok : forall enter dir p, leads_link enter dir (cleanpath_conservative p) = leads_link enter dir p.
Proof.
  intros enter dir p. set (w := fold_left (go_link enter)).
  assert (D : forall ns d, w (filter (fun n => negb (is_dot n)) ns) d = w ns d).
  { intros ns; induction ns as [|[| |z] r IH]; intros d; cbn; try apply IH; reflexivity. }
  assert (T : forall ns, w (shift_while is_dotdot ns) [] = w ns []).
  { intros ns; induction ns as [|[| |z] r IH]; cbn; try reflexivity. exact IH. }
  unfold leads_link, cleanpath_conservative. fold w.
  set (f := filter _ (names p)) in *.
  set (ns := if absolute p then shift_while is_dotdot f else f).
  assert (E : w ns (if absolute p then [] else dir) = w (names p) (if absolute p then [] else dir)).
  { unfold ns. destruct (absolute p); [rewrite T|]; apply D. }
  rewrite <- E. destruct ns as [|n r] eqn:N.
  - destruct (absolute p); reflexivity.
  - destruct (negb _ && _); cbn [absolute names]; [|reflexivity].
    unfold w. rewrite fold_left_app. reflexivity.
Qed.

(** It has no . but at the end or alone, and no .. in front if it is absolute. *)
Lemma conservative_dots : forall p a b, names (cleanpath_conservative p) = a ++ Dot :: b -> b = [].
Proof.
  intros p a b. unfold cleanpath_conservative.
  pose proof (filter_dots (names p)) as F. set (f := filter _ (names p)) in *.
  set (ns := if absolute p then shift_while is_dotdot f else f).
  assert (G : existsb is_dot ns = false).
  { unfold ns. destruct (absolute p); [|exact F]. clear ns. induction f as [|[| |z] r IH]; cbn in *; try assumption; try reflexivity.
    apply IH; exact F. }
  assert (Q : forall l x y, existsb is_dot l = false -> l = x ++ Dot :: y -> False).
  { intros l x y L ->. rewrite existsb_app in L. apply orb_false_iff in L as [_ L]. discriminate L. }
  destruct ns as [|n r] eqn:N.
  - destruct (absolute p); cbn; intros H; [destruct a; discriminate H|].
    destruct a as [|x a]; [injection H as <-; reflexivity | destruct a; discriminate H].
  - cbn [names]. destruct (negb _ && _); intros H; [|exfalso; exact (Q _ _ _ G H)].
    destruct b as [|y b] using rev_ind; [reflexivity|]. clear IHb.
    change (a ++ Dot :: b ++ [y]) with (a ++ (Dot :: b) ++ [y]) in H. rewrite app_assoc in H.
    apply app_inj_tail in H as [H _]. exfalso; exact (Q _ _ _ G H).
Qed.
Lemma conservative_front : forall p, absolute p = true -> hd Dot (names (cleanpath_conservative p)) <> DotDot.
Proof.
  intros p A. unfold cleanpath_conservative. rewrite A. set (f := filter _ (names p)).
  assert (T : forall f, hd Dot (shift_while is_dotdot f) <> DotDot).
  { intros g; induction g as [|[| |z] r IH]; cbn; try discriminate. exact IH. }
  specialize (T f). destruct (shift_while is_dotdot f) as [|n r]; [discriminate|].
  destruct (negb _ && _); exact T.
Qed.

Lemma parent_ok : forall dir p, leads dir (parent p) = tl (leads dir p).
Proof. intros dir p; unfold parent. rewrite plus_ok. reflexivity. Qed.

Lemma join_loop_ok : forall r dir self result,
  leads dir (join_loop self r result) = leads (fold_left leads (rev r) (leads dir self)) result.
Proof.
  intros r; induction r as [|a r IH]; intros dir self result; cbn [join_loop].
  - destruct (absolute result) eqn:E; [unfold leads; rewrite E; reflexivity | apply plus_ok].
  - destruct (absolute result) eqn:E; [unfold leads; rewrite E; reflexivity|].
    rewrite IH. cbn [rev]. rewrite fold_left_app. cbn. apply plus_ok.
Qed.

(** join leads along its arguments, one after the other. *)
Lemma join_ok : forall dir self args, leads dir (join self args) = fold_left leads args (leads dir self).
Proof.
  intros dir self args. unfold join. rewrite <- (rev_involutive args) at 2.
  destruct (rev args) as [|result r]; [reflexivity|].
  cbn [rev]. rewrite fold_left_app. cbn. apply join_loop_ok.
Qed.
