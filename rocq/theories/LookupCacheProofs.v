(** The global method cache never answers with anything but the current search. *)
From Coq Require Import ZArith List Bool Lia.
From Verif Require Import ClassModel ClassSpec ClassProofs ClassStepProofs LookupModel LookupSpec LookupWalkProofs.
Import ListNotations.
Open Scope Z_scope.

(** * What changes no lookup *)
Lemma find_positions w c n : find w c n = lwalk (wt w) n None None (positions (hp (ws w)) (head (ws w) c)).
Proof. apply search_positions. Qed.
Lemma mo_positions h a x : hinv h -> (a < length h)%nat -> nic (at_ h a) = false -> (x < length h)%nat ->
  positions (make_origin h a) x = positions h x.
Proof.
  intros I la na lx. destruct (norg (at_ h a)) eqn:e; [unfold make_origin; now rewrite e|].
  unfold positions. rewrite (mo_above h a I la x lx e). destruct (chain_of h I x lx) as (_ & r).
  pose proof (mo_hinv h a I la na) as I1. rewrite (places_rendered (make_origin h a)), (places_rendered h) by auto.
  now apply mo_rendered.
Qed.
Lemma new_positions h n x : hinv h -> nic n = false -> norg n = None ->
  (forall b, nsup n = Some b -> (b < length h)%nat /\ nic (at_ h b) = false /\ nmod (at_ h b) = false) ->
  (x < length h)%nat -> positions (h ++ [n]) x = positions h x.
Proof.
  intros I n1 n2 n3 lx. unfold positions. rewrite app_above by auto. destruct (chain_of h I x lx) as (_ & r).
  revert r. generalize (x :: above h x). intros l r. unfold places.
  induction r as [|y l ly r IH]; auto. cbn [filter]. rewrite at_app1 by auto. destruct (norg (at_ h y)); auto.
  cbn [map]. rewrite IH. unfold idof. now rewrite at_app1 by auto.
Qed.
Lemma new_defined s n c : defined s c = true -> defined (new_node s n) c = true /\ head (new_node s n) c = head s c.
Proof.
  intros d. unfold defined, head, new_node in *. cbn [tbl]. rewrite app_length. cbn [length]. apply andb_true_iff in d as [d1 d2].
  apply Z.leb_le in d1. apply Z.ltb_lt in d2. split; [apply defd; lia|]. apply app_nth1. lia.
Qed.
(** Class operations keep what is defined; those that do not move the version keep
    every search. *)
Lemma step_keeps s o s' : inv s -> (step s o = State s' \/ step s o = Raised s') ->
  (forall c, defined s c = true -> defined s' c = true) /\
  (match o with Include _ _ | Prepend _ _ => step s o = Raised s' | _ => True end ->
   forall c, defined s c = true -> positions (hp s') (head s' c) = positions (hp s) (head s c)).
Proof.
  intros I e. assert (D0 : forall t, t = tbl s -> forall h c, defined s c = true -> defined (mks h t) c = true) by (intros t -> h c d; exact d).
  destruct o as [p sg| |c m|c m]; cbn [step] in e |- *.
  - destruct (defined s p) eqn:d; cbn [andb] in e |- *; [|destruct e as [e|e]; [discriminate|injection e as <-; auto]].
    destruct (is_class (hp s) (head s p)) eqn:k; [|destruct e as [e|e]; [discriminate|injection e as <-; auto]].
    destruct e as [e|e]; [|discriminate]. injection e as <-. destruct (defined_head s p I d) as (w1 & w2 & w3). split.
    + intros c q. now apply new_defined.
    + intros _ c q. destruct (new_defined s (mkn (Z.of_nat (length (tbl s))) (Some (head s p)) None false false sg) c q) as (_ & ->).
      destruct (defined_head s c I q) as (z1 & _). apply new_positions; auto; [apply (inv_heap s I)|]. intros b q1. cbn in q1. injection q1 as <-.
      split; auto. split; auto. unfold is_class in k. now destruct (nmod _).
  - destruct e as [e|e]; [|discriminate]. injection e as <-. destruct (inv_object s I) as (o1 & o2).
    assert (D1 : defined s OBJECT = true) by (unfold defined, OBJECT; apply defd; lia).
    destruct (defined_head s _ I D1) as (w1 & w2 & w3). split.
    + intros c q. now apply new_defined.
    + intros _ c q. destruct (new_defined s (mkn (Z.of_nat (length (tbl s))) (Some (head s OBJECT)) None false true false) c q) as (_ & ->).
      destruct (defined_head s c I q) as (z1 & _). apply new_positions; auto; [apply (inv_heap s I)|]. intros b q1. cbn in q1. injection q1 as <-.
      split; auto. split; auto. unfold is_class in o2. now destruct (nmod _).
  - destruct (defined s c) eqn:dc; cbn [andb] in e |- *; [|destruct e as [e|e]; [discriminate|injection e as <-; auto]].
    destruct (defined s m) eqn:dm; cbn [andb] in e |- *; [|destruct e as [e|e]; [discriminate|injection e as <-; auto]].
    destruct (is_plain_module (hp s) (head s m)) eqn:pm; [|destruct e as [e|e]; [discriminate|injection e as <-; auto]].
    destruct (include_module (hp s) (head s c) (head s m)) as [h|h| |] eqn:ei; destruct e as [e|e]; try discriminate; injection e as <-.
    + split; [apply D0; auto|discriminate].
    + split; [apply D0; auto|]. intros _. apply iop_cyclic in ei. subst h. auto.
  - destruct (defined s c) eqn:dc; cbn [andb] in e |- *; [|destruct e as [e|e]; [discriminate|injection e as <-; auto]].
    destruct (defined s m) eqn:dm; cbn [andb] in e |- *; [|destruct e as [e|e]; [discriminate|injection e as <-; auto]].
    destruct (is_plain_module (hp s) (head s m)) eqn:pm; [|destruct e as [e|e]; [discriminate|injection e as <-; auto]].
    destruct (prepend_module (hp s) (head s c) (head s m)) as [h|h| |] eqn:ei; destruct e as [e|e]; try discriminate; injection e as <-.
    + split; [|discriminate]. intros d q. exact q.
    + split; [apply D0; auto|]. intros _ d q. unfold prepend_module in ei. apply iop_cyclic in ei. subst h.
      destruct (defined_head s c I dc) as (c1 & c2 & c3). destruct (defined_head s d I q) as (z1 & _).
      cbn [hp]. change (head (mks _ (tbl s)) d) with (head s d). apply mo_positions; auto. apply (inv_heap s I).
Qed.

(** * The invariant of a world *)
Record winv (w : world) : Prop := {
  w_inv : inv (ws w);
  w_bool : defined (ws w) TRUE = true /\ defined (ws w) FALSE = true;
  w_good : good_tables (wt w);
  w_ver : 0 <= wver w < TWO32
}.
Definition valid (w : world) : Prop := forall c n r, gmap (wc w) c n = Some r ->
  (c = BOOL /\ r = find_bool w n) \/ (defined (ws w) c = true /\ r = find w c n).
Definition age (k : Z) (w : world) : Prop :=
  (forall c n, gmap (wc w) c n = None) \/
  exists d, 0 <= d <= k /\ 0 <= gver (wc w) < TWO32 /\ wver w = (gver (wc w) + d) mod TWO32 /\ (d = 0 -> valid w).

Lemma bool_undefined s : defined s BOOL = false.
Proof. reflexivity. Qed.
Lemma age_more k k' w : k <= k' -> age k w -> age k' w.
Proof. intros l [e|(d & a & b & c & f)]; [now left|right; exists d; repeat split; auto; lia]. Qed.
Lemma moved v d : 0 <= v < TWO32 -> 0 <= d < TWO32 -> (v + d) mod TWO32 = v -> d = 0.
Proof.
  intros a b e. destruct (Z_lt_ge_dec (v + d) TWO32) as [l|l].
  - rewrite Z.mod_small in e by lia. lia.
  - rewrite <- (Z_mod_plus_full _ (-1)) in e. rewrite Z.mod_small in e by lia. lia.
Qed.
(** A lookup. *)
Lemma hit_valid k w c n r : winv w -> age k w -> k < TWO32 -> (gver (wc w) =? wver w) = true -> gmap (wc w) c n = Some r ->
  (c = BOOL /\ r = find_bool w n) \/ (defined (ws w) c = true /\ r = find w c n).
Proof.
  intros W A l q h. apply Z.eqb_eq in q. destruct A as [A|(d & a & b & e & f)]; [now rewrite A in h|].
  assert (d = 0) by (eapply moved; [exact b|lia|congruence]). subst d. now apply (f eq_refl).
Qed.
Lemma fill_valid w c n g e : (forall c' n' r, gmap g c' n' = Some r ->
    (c' = BOOL /\ r = find_bool w n') \/ (defined (ws w) c' = true /\ r = find w c' n')) ->
  (c = BOOL /\ e = find_bool w n) \/ (defined (ws w) c = true /\ e = find w c n) ->
  valid (mkw (ws w) (wt w) (wver w) (fill g c n (wver w) e)).
Proof.
  intros V N c' n' r h. cbn [wc fill gmap] in h. destruct ((c' =? c) && (n' =? n)) eqn:q.
  - apply andb_true_iff in q as [q1 q2]. apply Z.eqb_eq in q1, q2. subst c' n'. injection h as <-. exact N.
  - exact (V _ _ _ h).
Qed.
(** What [get] leaves is right for the current world. *)
Lemma get_right k w c n : winv w -> age k w -> k < TWO32 -> forall r g, get (wc w) c n (wver w) = (r, g) -> gver g = wver w /\
  (forall c' n' r', gmap g c' n' = Some r' -> (c' = BOOL /\ r' = find_bool w n') \/ (defined (ws w) c' = true /\ r' = find w c' n')) /\
  r = gmap g c n.
Proof.
  intros W A l r g e. unfold get in e. destruct (gver (wc w) =? wver w) eqn:q; injection e as <- <-.
  - split; [now apply Z.eqb_eq|]. split; auto. intros c' n' r' h. eapply hit_valid; eauto.
  - cbn. split; auto. split; [discriminate|auto].
Qed.
Lemma age0 w g : winv w -> gver g = wver w -> valid (mkw (ws w) (wt w) (wver w) g) -> age 0 (mkw (ws w) (wt w) (wver w) g).
Proof.
  intros W e V. right. exists 0. pose proof (w_ver w W) as vr. cbn [wc wver]. rewrite e, Z.add_0_r. split; [lia|]. split; auto. split; auto.
  symmetry. now apply Z.mod_small.
Qed.
Lemma winv_cache w g : winv w -> winv (mkw (ws w) (wt w) (wver w) g).
Proof. intros [a b c d]. now split. Qed.
Lemma look_right k w c n : winv w -> age k w -> k < TWO32 -> defined (ws w) c = true ->
  fst (look w c n) = find w c n /\ ws (snd (look w c n)) = ws w /\ wt (snd (look w c n)) = wt w /\ wver (snd (look w c n)) = wver w /\
  winv (snd (look w c n)) /\ age 0 (snd (look w c n)).
Proof.
  intros W A l d. unfold look. destruct (get (wc w) c n (wver w)) as [r g] eqn:e. destruct (get_right k w c n W A l r g e) as (v & V & h).
  destruct r as [r|]; cbn [fst snd ws wt wver].
  - destruct (V _ _ _ (eq_sym h)) as [(q & _)|(_ & q)]; [subst c; now rewrite bool_undefined in d|].
    split; auto. do 3 (split; auto). split; [now apply winv_cache|apply age0; auto].
  - split; auto. do 3 (split; auto). split; [now apply winv_cache|]. apply age0; auto. apply fill_valid; auto.
Qed.
Lemma look_bool_right k w n : winv w -> age k w -> k < TWO32 ->
  fst (look_bool w n) = find_bool w n /\ ws (snd (look_bool w n)) = ws w /\ wt (snd (look_bool w n)) = wt w /\ wver (snd (look_bool w n)) = wver w /\
  winv (snd (look_bool w n)) /\ age 0 (snd (look_bool w n)).
Proof.
  intros W A l. unfold look_bool. destruct (get (wc w) BOOL n (wver w)) as [r g] eqn:e. destruct (get_right k w BOOL n W A l r g e) as (v & V & h).
  destruct r as [r|]; cbn [fst snd ws wt wver].
  - destruct (V _ _ _ (eq_sym h)) as [(_ & q)|(q & _)]; [|now rewrite bool_undefined in q].
    split; auto. do 3 (split; auto). split; [now apply winv_cache|apply age0; auto].
  - split; auto. do 3 (split; auto). split; [now apply winv_cache|]. apply age0; auto. apply fill_valid; auto.
Qed.

(** * Every operation *)
Lemma bump_age k w w' : age k w -> wc w' = wc w -> wver w' = (wver w + 1) mod TWO32 -> age (k + 1) w'.
Proof.
  intros A e1 e2. destruct A as [A|(d & a & b & c & f)]; [left; now rewrite e1|]. right. exists (d + 1). rewrite e1. split; [lia|]. split; auto.
  split; [|lia]. rewrite e2, c. rewrite Zplus_mod_idemp_l. f_equal. lia.
Qed.
Lemma ver_range w : 0 <= (wver w + 1) mod TWO32 < TWO32.
Proof. apply Z.mod_pos_bound. reflexivity. Qed.
Lemma good_put T c n o : good_tables T -> (forall e, o = Some e -> good_entry c e) -> good_tables (put T c n o).
Proof.
  intros G H c' n' e. unfold put. destruct ((c' =? c) && (n' =? n)) eqn:q; [|apply G].
  apply andb_true_iff in q as [q _]. apply Z.eqb_eq in q. subst c'. apply H.
Qed.
(** Changing the tables and moving the version. *)
Lemma change_right k w w' : winv w -> age k w -> ws w' = ws w -> wc w' = wc w -> wver w' = (wver w + 1) mod TWO32 -> good_tables (wt w') ->
  winv w' /\ age (k + 1) w'.
Proof.
  intros [a b c d] A e1 e2 e3 g. split; [|eapply bump_age; eauto]. split; rewrite ?e1, ?e3; auto. apply ver_range.
Qed.
Lemma look_body_right k w c n r w1 : winv w -> age k w -> k < TWO32 -> defined (ws w) c = true -> look_body w c n = (r, w1) ->
  r = match find w c n with Some e => match efid e with Some f => Some (f, evis e) | None => None end | None => None end /\
  ws w1 = ws w /\ wt w1 = wt w /\ wver w1 = wver w /\ winv w1 /\ age 0 w1.
Proof.
  intros W A l d e. unfold look_body in e. destruct (look_right k w c n W A l d) as (q & q1 & q2 & q3 & q4 & q5).
  destruct (look w c n) as [r0 w0]. cbn [fst snd] in *. injection e as <- <-. rewrite q. repeat (split; [auto; fail|]). auto.
Qed.
Lemma find_same w w' c n : ws w' = ws w -> wt w' = wt w -> find w' c n = find w c n.
Proof. unfold find. now intros -> ->. Qed.
Lemma real_not v : real v = true -> v <> Undefined.
Proof. now destruct v. Qed.
Lemma same_vis_eq a b : same_vis a b = true <-> a = b.
Proof. destruct a, b; split; intros; try discriminate; auto. Qed.
Lemma good_def c f v : real v = true -> good_entry c (mke c (Some f) v false).
Proof. intros r. apply real_not in r. split; auto. cbn. split; intros; congruence. Qed.

Lemma found_real w c n e : winv w -> find w c n = Some e -> real (evis e) = true.
Proof.
  intros W E. rewrite find_positions in E. pose proof (w_good w W) as G.
  assert (X : forall l v sh e, (forall x, v = Some x -> real x = true) -> (forall s, sh = Some s -> real (evis s) = true) ->
    lwalk (wt w) n v sh l = Some e -> real (evis e) = true).
  { clear E e. induction l as [|a l IH]; intros v sh e V S E; cbn [lwalk] in E.
    - destruct sh as [s|]; [|discriminate]. injection E as <-. cbn. destruct v; cbn; auto.
    - destruct (wt w a n) as [e0|] eqn:d; [|eauto]. destruct (G _ _ _ d) as (_ & g & g2).
      assert (R : efid e0 <> None -> real (evis e0) = true) by (intros q; destruct (evis e0); auto; destruct q; auto).
      destruct (eshadow e0) eqn:s.
      + eapply IH; [| |exact E].
        * intros x q. injection q as <-. destruct v; cbn; auto.
        * intros x q. injection q as <-. destruct sh; cbn; auto.
      + destruct (efid e0) eqn:f.
        * assert (real (or_else v (evis e0)) = true) by (destruct v; cbn; auto; apply R; congruence).
          injection E as <-. destruct sh; cbn; auto.
        * destruct (evis e0) eqn:z; try discriminate; (eapply IH; [| |exact E]; auto); intros x q; injection q as <-; destruct v; cbn; auto. }
  eapply X; [| |exact E]; discriminate.
Qed.

Lemma mstep_right k w o w' : winv w -> age k w -> 0 <= k < TWO32 -> (mstep w o = Fine w' \/ mstep w o = Raise w') ->
  winv w' /\ age (k + 1) w' /\ (~ quiet o -> age 0 w').
Proof.
  intros W A l e. assert (SAME : winv w /\ age (k + 1) w) by (split; auto; eapply age_more; [|exact A]; lia).
  assert (BODY : forall c n r w1, defined (ws w) c = true -> look_body w c n = (r, w1) -> winv w1 /\ age (k + 1) w1).
  { intros c n r w1 d q. destruct (look_body_right k w c n r w1 W A ltac:(lia) d q) as (_ & _ & _ & _ & a & b). split; auto. eapply age_more; [|exact b]. lia. }
  destruct o as [o|c n f v|c n|c n|c n v|c new old|c n|n]; cbn [mstep] in e; cbn [quiet].
  - (* classes *)
    split; [|cut (age (k + 1) w'); [tauto|]].
    + destruct (step (ws w) o) as [s|s| |] eqn:q; destruct e as [e|e]; try discriminate; injection e as <-.
      * destruct (step_keeps _ _ _ (w_inv w W) (or_introl q)) as (K & _). destruct (w_bool w W).
        split; [apply (step_inv (ws w) o); auto; apply (w_inv w W)|cbn [with_state ws]; split; auto| |]; destruct o; cbn [with_state bump wt wver]; try apply ver_range; try apply (w_good w W); apply (w_ver w W).
      * destruct (step_keeps _ _ _ (w_inv w W) (or_intror q)) as (K & _). destruct (w_bool w W).
        split; [apply (step_inv (ws w) o); auto; apply (w_inv w W)|cbn [with_state ws]; split; auto| |]; cbn [with_state wt wver]; try apply (w_good w W); apply (w_ver w W).
    + assert (KEEP : forall s, (step (ws w) o = State s \/ step (ws w) o = Raised s) ->
        match o with Include _ _ | Prepend _ _ => step (ws w) o = Raised s | _ => True end -> age (k + 1) (with_state w s)).
      { intros s q m. destruct (step_keeps _ _ _ (w_inv w W) q) as (K & P). specialize (P m).
        assert (F : forall c n, defined (ws w) c = true -> find (with_state w s) c n = find w c n).
        { intros c n d. rewrite !find_positions. cbn [with_state ws wt]. now rewrite (P c d). }
        destruct (w_bool w W) as (b1 & b2).
        destruct A as [A|(d & a & b & z & V)]; [now left|]. right. exists d. split; [lia|]. split; auto. split; auto.
        intros d0 c n r h. destruct (V d0 c n r h) as [(-> & ->)|(dc & ->)].
        - left. split; auto. unfold find_bool. now rewrite !F.
        - right. cbn [with_state ws]. split; auto. symmetry. now apply F. }
      destruct (step (ws w) o) as [s|s| |] eqn:q; destruct e as [e|e]; try discriminate; injection e as <-.
      * destruct o; try (apply KEEP; auto; fail); (eapply bump_age; [exact A| |]; reflexivity).
      * apply KEEP; auto. destruct o; auto.
  - split; [|cut (age (k + 1) w'); [tauto|]].
    all: destruct (defined (ws w) c && real v) eqn:q; destruct e as [e|e]; try discriminate; injection e as <-; try tauto;
      apply andb_true_iff in q as [q1 q2]; eapply change_right; eauto; cbn; apply good_put; [apply (w_good w W)|intros e1 h; injection h as <-; now apply good_def].
  - cut (winv w' /\ age (k + 1) w'); [tauto|]. destruct (defined (ws w) c) eqn:q; [|destruct e as [e|e]; [discriminate|injection e as <-; tauto]].
    destruct (look_body w c n) as [r w1] eqn:b. pose proof (BODY _ _ _ _ q b) as B.
    destruct r as [r|]; destruct e as [e|e]; try discriminate; injection e as <-; auto.
    destruct (look_body_right k w c n _ w1 W A ltac:(lia) q b) as (_ & b1 & b2 & b3 & b4 & b5).
    destruct (change_right 0 w1 (insert_method w1 c n (mke c None Undefined false)) b4 b5) as (x & y); auto.
    { cbn. apply good_put; [apply (w_good w1 b4)|intros e1 h; injection h as <-]. split; auto. cbn. split; [tauto|discriminate]. }
    split; auto. eapply age_more; [|exact y]. lia.
  - cut (winv w' /\ age (k + 1) w'); [tauto|]. destruct (defined (ws w) c) eqn:q; [|destruct e as [e|e]; [discriminate|injection e as <-; tauto]].
    cbn [bump wt] in e. destruct (wt w c n) as [e0|]; destruct e as [e|e]; try discriminate; injection e as <-.
    + apply (change_right k w); auto. cbn. apply good_put; [apply (w_good w W)|discriminate].
    + apply (change_right k w); auto. cbn. apply (w_good w W).
  - cut (winv w' /\ age (k + 1) w'); [tauto|]. destruct (defined (ws w) c && real v) eqn:q; [|destruct e as [e|e]; [discriminate|injection e as <-; tauto]].
    apply andb_true_iff in q as [q rv]. apply real_not in rv. unfold set_vis in e. destruct (look_body w c n) as [r w1] eqn:b. pose proof (BODY _ _ _ _ q b) as B.
    destruct (look_body_right k w c n _ w1 W A ltac:(lia) q b) as (RR & b1 & b2 & b3 & b4 & b5).
    destruct r as [[f old]|]; [|destruct e as [e|e]; try discriminate; injection e as <-; auto].
    destruct (wt w1 c n) as [e0|] eqn:d.
    + destruct e as [e|e]; [|discriminate]. injection e as <-. pose proof (w_good w1 b4 _ _ _ d) as (g1 & g2 & g3).
      match goal with |- winv ?x /\ _ => destruct (change_right 0 w1 x b4 b5) as (y1 & y2); auto end; [|split; auto; eapply age_more; [|exact y2]; lia].
      cbn. apply good_put; [apply (w_good w1 b4)|]. intros e1 h. injection h as <-.
      destruct (eshadow e0) eqn:s; [destruct (inherited w1 c n)|]; (split; [|split]); cbn; auto; try tauto; try (split; intros; congruence); try congruence.
    + destruct (same_vis old v); destruct e as [e|e]; try discriminate; injection e as <-; auto.
      destruct (change_right 0 w1 (insert_method w1 c n (mke c (Some f) v true)) b4 b5) as (x & y); auto.
      { cbn. apply good_put; [apply (w_good w1 b4)|intros e1 h; injection h as <-]. split; auto. cbn. split; congruence. }
      split; auto. eapply age_more; [|exact y]. lia.
  - cut (winv w' /\ age (k + 1) w'); [tauto|]. destruct (defined (ws w) c) eqn:q; [|destruct e as [e|e]; [discriminate|injection e as <-; tauto]].
    destruct (look_body w c old) as [r w1] eqn:b. pose proof (BODY _ _ _ _ q b) as B.
    destruct (look_body_right k w c old _ w1 W A ltac:(lia) q b) as (RR & b1 & b2 & b3 & b4 & b5).
    destruct r as [[f v]|]; destruct e as [e|e]; try discriminate; injection e as <-; auto.
    destruct (change_right 0 w1 (insert_method w1 c new (mke c (Some f) v false)) b4 b5) as (x & y); auto.
    { cbn. apply good_put; [apply (w_good w1 b4)|intros e1 h; injection h as <-]. apply good_def.
      destruct (find w c old) as [e0|] eqn:E; [|discriminate]. pose proof (found_real w c old e0 W E). destruct (efid e0); [|discriminate]. congruence. }
    split; auto. eapply age_more; [|exact y]. lia.
  - destruct (defined (ws w) c) eqn:q; destruct e as [e|e]; try discriminate; injection e as <-.
    destruct (look_right k w c n W A ltac:(lia) q) as (_ & _ & _ & _ & a & b). split; auto. split; auto. eapply age_more; [|exact b]. lia.
  - destruct e as [e|e]; try discriminate; injection e as <-.
    destruct (look_bool_right k w n W A ltac:(lia)) as (_ & _ & _ & _ & a & b). split; auto. split; auto. eapply age_more; [|exact b]. lia.
Qed.
