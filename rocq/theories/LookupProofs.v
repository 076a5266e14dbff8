(** Histories, call sites, super. *)
From Coq Require Import ZArith List Bool Lia.
From Verif Require Import ClassModel ClassSpec ClassProofs ClassStepProofs LookupModel LookupSpec LookupWalkProofs LookupCacheProofs.
Import ListNotations.
Open Scope Z_scope.

Lemma start_winv : winv start.
Proof.
  split; [|split; reflexivity|intros c n e; discriminate|split; [discriminate|reflexivity]].
  assert (R : inv start_state); [|exact R]. apply reach_inv.
  destruct (step init (NewClass OBJECT false)) as [s1|s1| |] eqn:e1; try (vm_compute in e1; discriminate).
  destruct (step s1 (NewClass OBJECT false)) as [s2|s2| |] eqn:e2;
    [|vm_compute in e1; injection e1 as <-; vm_compute in e2; discriminate..].
  replace start_state with s2; [|unfold start_state; now rewrite e1, e2].
  apply (reach_step s1 (NewClass OBJECT false)); auto. apply (reach_step init (NewClass OBJECT false)); auto. apply reach_init.
Qed.
Lemma start_age : age 0 start.
Proof. left. reflexivity. Qed.

Lemma mrun_snoc l : forall w o w', mrun w (l ++ [o]) = Some w' ->
  exists w1, mrun w l = Some w1 /\ (mstep w1 o = Fine w' \/ mstep w1 o = Raise w').
Proof.
  induction l as [|x l IH]; intros w o w' e; cbn [app mrun] in *.
  - exists w. split; auto. destruct (mstep w o); try discriminate; injection e as <-; auto.
  - destruct (mstep w x); try discriminate; apply IH; auto.
Qed.
Lemma mrun_app l1 : forall w l2, mrun w (l1 ++ l2) = match mrun w l1 with Some w1 => mrun w1 l2 | None => None end.
Proof. induction l1 as [|x l IH]; intros w l2; cbn [app mrun]; auto. destruct (mstep w x); auto. Qed.
Lemma history_right : forall l w, after_history l w -> sparse l ->
  winv w /\ exists a b, l = a ++ b /\ Forall quiet b /\ age (Z.of_nat (length b)) w.
Proof.
  intros l. induction l as [|o l IH] using rev_ind; intros w h s.
  - unfold after_history in h. cbn in h. injection h as <-. split; [apply start_winv|]. exists [], []. split; auto. split; auto. apply start_age.
  - apply mrun_snoc in h as (w1 & h & e).
    assert (s1 : sparse l) by (intros a b c E q; apply (s a b (c ++ [o])); auto; rewrite E, <- !app_assoc; auto).
    destruct (IH w1 h s1) as (W & a & b & E & q & A).
    assert (L : Z.of_nat (length b) < TWO32) by (apply (s a b [o]); auto; now rewrite E, <- app_assoc).
    destruct (mstep_right _ w1 o w W A ltac:(lia) e) as (W' & A' & A0). split; auto.
    assert (D : quiet o \/ ~ quiet o) by (destruct o; cbn; auto).
    destruct D as [D|D].
    + exists a, (b ++ [o]). split; [now rewrite E, app_assoc|]. split; [apply Forall_app; auto|]. rewrite app_length. cbn [length].
      eapply age_more; [|exact A']. lia.
    + exists (l ++ [o]), []. split; [now rewrite app_nil_r|]. split; auto.
Qed.
Lemma history_look l w c n : after_history l w -> sparse l -> defined (ws w) c = true -> fst (look w c n) = find w c n.
Proof.
  intros h s d. destruct (history_right l w h s) as (W & a & b & E & q & A).
  assert (L : Z.of_nat (length b) < TWO32) by (apply (s a b []); auto; now rewrite app_nil_r).
  apply (look_right _ w c n W A L d).
Qed.
Lemma history_bool l w n : after_history l w -> sparse l -> fst (look_bool w n) = find_bool w n.
Proof.
  intros h s. destruct (history_right l w h s) as (W & a & b & E & q & A).
  assert (L : Z.of_nat (length b) < TWO32) by (apply (s a b []); auto; now rewrite app_nil_r).
  apply (look_bool_right _ w n W A L).
Qed.
Lemma history_winv l w : after_history l w -> sparse l -> winv w.
Proof. intros h s. now destruct (history_right l w h s). Qed.
Lemma history_answer l w c n r : after_history l w -> sparse l -> defined (ws w) c = true ->
  resolves (wt w) n (positions (hp (ws w)) (head (ws w) c)) r -> answer (fst (look w c n)) = r.
Proof.
  intros h s d R. rewrite (history_look l w c n h s d), find_positions. apply lwalk_resolves; auto. apply (w_good w). eapply history_winv; eauto.
Qed.
Lemma history_answer_class l w c n r : after_history l w -> sparse l -> defined (ws w) c = true -> is_class (hp (ws w)) (head (ws w) c) = true ->
  resolves (wt w) n (ancestors (ws w) c) r -> answer (fst (look w c n)) = r.
Proof.
  intros h s d k R. rewrite <- class_positions in R; auto; [eapply history_answer; eauto|]. apply (w_inv w). eapply history_winv; eauto.
Qed.
Lemma history_total l w c n : after_history l w -> sparse l ->
  (exists r, resolves (wt w) n (positions (hp (ws w)) (head (ws w) c)) r) \/ orphan (wt w) n (positions (hp (ws w)) (head (ws w) c)).
Proof. intros h s. apply resolves_total. Qed.

(** * What an operation does to the next call *)
Lemma history_snoc l w o w' : after_history l w -> (mstep w o = Fine w' \/ mstep w o = Raise w') -> after_history (l ++ [o]) w'.
Proof. unfold after_history. intros h e. rewrite mrun_app, h. cbn [mrun]. now destruct e as [-> | ->]. Qed.
Lemma sparse_snoc l o : sparse (l ++ [o]) -> sparse l.
Proof. intros s a b c e. apply (s a b (c ++ [o])). now rewrite e, <- !app_assoc. Qed.
Lemma silent_put T n c e a : silent T n a -> a <> c -> silent (put T c n e) n a.
Proof. intros s q. unfold silent, put in *. destruct (Z.eqb_spec a c); [easy|auto]. Qed.
Lemma silent_chain T n c l1 f v : Forall (silent T n) l1 -> defines T n c f v -> nearest T n c l1 v /\ lister T n c l1 c.
Proof.
  intros S D. induction S as [|a l q S IH]; [split; [eapply near_here; eauto|constructor]|]. destruct IH as (x & y). split; [now apply near_silent|apply list_next; auto].
Qed.
Lemma silent_passes T n l : Forall (silent T n) l -> Forall (passes T n) l.
Proof. intros S. eapply Forall_impl; [|exact S]. intros a q. now left. Qed.
Lemma def_seen l w c n f v w' d l1 l2 : after_history l w -> mstep w (Def c n f v) = Fine w' -> sparse (l ++ [Def c n f v]) ->
  defined (ws w) d = true -> positions (hp (ws w)) (head (ws w) d) = l1 ++ c :: l2 -> ~ In c l1 -> Forall (silent (wt w) n) l1 ->
  answer (fst (look w' d n)) = Some (f, v, c).
Proof.
  intros h e s dd P NI S. pose proof (history_snoc l w _ w' h (or_introl e)) as h'. cbn [mstep] in e.
  destruct (defined (ws w) c && real v); [|discriminate]. injection e as <-. eapply history_answer; eauto. cbn [insert_method with_tables bump ws wt].
  rewrite P. set (T := put (wt w) c n (Some (mke c (Some f) v false))).
  assert (D : defines T n c f v) by (exists (mke c (Some f) v false); unfold T, put; rewrite !Z.eqb_refl; auto).
  assert (S' : Forall (silent T n) l1).
  { rewrite Forall_forall in *. intros a i. apply silent_put; auto. intros ->. easy. }
  destruct (silent_chain T n c l1 f v S' D). eapply res_found; eauto. now apply silent_passes.
Qed.
Lemma undef_seen l w c n w' d l1 l2 : after_history l w -> mstep w (Undef c n) = Fine w' -> sparse (l ++ [Undef c n]) ->
  defined (ws w) d = true -> positions (hp (ws w)) (head (ws w) d) = l1 ++ c :: l2 -> ~ In c l1 -> Forall (passes (wt w) n) l1 ->
  answer (fst (look w' d n)) = None.
Proof.
  intros h e s dd P NI S. pose proof (history_snoc l w _ w' h (or_introl e)) as h'. destruct (history_right l w h (sparse_snoc _ _ s)) as (W & a & b & E & q & A).
  assert (L : Z.of_nat (length b) < TWO32) by (apply (sparse_snoc _ _ s a b []); auto; now rewrite app_nil_r).
  cbn [mstep] in e. destruct (defined (ws w) c) eqn:dc; [|discriminate]. destruct (look_body w c n) as [r w1] eqn:lb.
  destruct (look_body_right _ w c n r w1 W A L dc lb) as (_ & b1 & b2 & _). destruct r; [|discriminate]. injection e as <-.
  eapply history_answer; eauto; cbn [insert_method with_tables bump ws wt]; rewrite b1; auto. rewrite P, b2.
  apply res_undefined.
  - rewrite Forall_forall in *. intros x i. assert (x <> c) by (intros ->; easy). unfold passes, silent, declares, put in *. destruct (Z.eqb_spec x c); [easy|]. cbn [andb]. now apply S.
  - exists (mke c None Undefined false). unfold put. rewrite !Z.eqb_refl. auto.
Qed.
Lemma remove_seen l w c n w' : after_history l w -> mstep w (Remove c n) = Fine w' ->
  silent (wt w') n c /\ (forall a m, (a, m) <> (c, n) -> wt w' a m = wt w a m) /\ ws w' = ws w /\ exists e, wt w c n = Some e.
Proof.
  intros h e. cbn [mstep] in e. destruct (defined (ws w) c) eqn:d; [|discriminate]. cbn [bump wt] in e. destruct (wt w c n) eqn:t; [|discriminate]. injection e as <-.
  cbn [with_tables wt ws bump]. unfold silent, put. rewrite !Z.eqb_refl. split; auto. split; [|eauto]. intros a m q. destruct (Z.eqb_spec a c), (Z.eqb_spec m n); cbn; auto. subst. easy.
Qed.
Lemma remove_raises l w c n w' : after_history l w -> defined (ws w) c = true -> silent (wt w) n c -> mstep w (Remove c n) = w' -> exists w1, w' = Raise w1 /\ wt w1 = wt w /\ ws w1 = ws w.
Proof. intros h d s e. cbn [mstep] in e. rewrite d in e. cbn [bump wt] in e. unfold silent in s. rewrite s in e. subst w'. eauto. Qed.

(** [lwalk] only reads the entries along its list. *)
Lemma lwalk_ext T T' n l : (forall c, In c l -> T' c n = T c n) -> forall v sh, lwalk T' n v sh l = lwalk T n v sh l.
Proof.
  induction l as [|c l IH]; intros H v sh; auto. cbn [lwalk]. rewrite (H c (or_introl eq_refl)).
  assert (H' := fun x i => H x (or_intror i)). destruct (T c n) as [e|]; auto. destruct (eshadow e); auto. destruct (efid e); auto. destruct (evis e); auto.
Qed.
(** The two variables of the walk do not influence the body, if a class settles it. *)
Lemma lwalk_vars T n l1 c l2 v sh v' sh' : good_tables T -> Forall (passes T n) l1 -> ((exists f x, defines T n c f x) \/ undefines T n c) ->
  forall e, lwalk T n v sh (l1 ++ c :: l2) = Some e -> exists e', lwalk T n v' sh' (l1 ++ c :: l2) = Some e' /\ efid e' = efid e.
Proof.
  intros G P [(f & x & D)|U] e E; [|now rewrite (walk_undefined T n G) in E by auto].
  destruct (near_exists T n l1 c f x P D) as (y & N). destruct (list_exists T n l1 c P) as (o & L).
  pose proof (walk_found T n G l1 c f x y o v sh l2 P D N L) as E1. pose proof (walk_found T n G l1 c f x y o v' sh' l2 P D N L) as E2.
  rewrite E in E1. unfold answer in E1, E2. destruct (lwalk T n v' sh' _) as [e2|]; [|discriminate]. exists e2. split; auto.
  destruct (efid e), (efid e2); try discriminate. congruence.
Qed.
Lemma lwalk_vis T n l1 c l2 v sh e x : good_tables T -> Forall (passes T n) l1 -> ((exists f x, defines T n c f x) \/ undefines T n c) ->
  lwalk T n (Some v) sh (l1 ++ c :: l2) = Some e -> answer (Some e) = Some x -> snd (fst x) = v.
Proof.
  intros G P [(f & y & D)|U] E A; [|now rewrite (walk_undefined T n G) in E by auto].
  destruct (near_exists T n l1 c f y P D) as (z & N). destruct (list_exists T n l1 c P) as (o & L).
  pose proof (walk_found T n G l1 c f y z o (Some v) sh l2 P D N L) as E1. rewrite E, A in E1. injection E1 as ->. reflexivity.
Qed.

Lemma vis_effect k w c n v w' f u o t : winv w -> age k w -> k < TWO32 -> mstep w (SetVis c n v) = Fine w' ->
  positions (hp (ws w)) (head (ws w) c) = c :: t -> ~ In c t -> ~ orphan (wt w) n (c :: t) -> answer (find w c n) = Some (f, u, o) ->
  exists o', answer (find w' c n) = Some (f, v, o').
Proof.
  intros W A l e P NI NO F. cbn [mstep] in e. destruct (defined (ws w) c) eqn:d; [|discriminate]. destruct (real v) eqn:RV0; [|discriminate]. cbn [andb] in e.
  unfold set_vis in e. destruct (look_body w c n) as [r w1] eqn:b.
  destruct (look_body_right k w c n r w1 W A l d b) as (B & b1 & b2 & b3 & b4 & b5). pose proof (w_good w W) as G.
  assert (FU : r = Some (f, u)).
  { unfold answer in F. destruct (find w c n) as [e1|]; [|discriminate]. destruct (efid e1); [|discriminate]. congruence. }
  rewrite FU in e. rewrite b2 in e.
  assert (SET : exists l1 a l2, c :: t = l1 ++ a :: l2 /\ Forall (passes (wt w) n) l1 /\ exists x, defines (wt w) n a f x).
  { rewrite find_positions, P in F. destruct (resolves_total (wt w) n (c :: t)) as [(r0 & R)|R]; [|easy].
    pose proof (lwalk_resolves _ n G _ _ R) as E. rewrite F in E. subst r0. inversion R as [l1 a l2 f0 w0 v0 o0 p1 p2 p3 p4 E1 E2| |]. subst. eauto 10. }
  destruct SET as (l1 & a & l2 & E & p1 & x & D).
  (* after the operation *)
  assert (AFTER : forall e1 T1, (forall z, T1 z n = put (wt w) c n (Some e1) z n) -> evis e1 = v ->
     (wt w c n = None \/ eshadow e1 = match wt w c n with Some e0 => eshadow e0 | None => true end) ->
     (forall e0, wt w c n = Some e0 -> eshadow e0 = false -> efid e1 = efid e0) ->
     eshadow e1 = true \/ wt w c n <> None ->
     exists o', answer (lwalk T1 n None None (c :: t)) = Some (f, v, o')).
  { intros e1 T1 HT Hv Hs Hf Hn. cbn [lwalk]. rewrite HT. unfold put. rewrite !Z.eqb_refl. cbn [andb].
    assert (TX : forall z, In z t -> T1 z n = wt w z n).
    { intros z i. rewrite HT. unfold put. destruct (Z.eqb_spec z c) as [->|]; [easy|]. reflexivity. }
    destruct l1 as [|c1 l1]; cbn [app] in E; injection E as E0 E1.
    - (* the class's own definition *)
      subst a. destruct D as (e0 & d1 & d2 & d3 & d4). destruct Hs as [Hs|Hs]; [congruence|]. rewrite d1, d2 in Hs. rewrite Hs.
      rewrite (Hf e0 d1 d2), d3. exists (eowner e1). cbn. now rewrite Hv, (Hf e0 d1 d2), d3.
    - subst c1. pose proof (Forall_inv p1) as q1. pose proof (Forall_inv_tail p1) as q2. rewrite find_positions, P in F. rewrite E1, Hv in *.
      assert (W1 : forall vv sh, exists o', answer (lwalk T1 n (Some vv) sh (l1 ++ a :: l2)) = Some (f, vv, o')).
      { intros vv sh. rewrite (lwalk_ext _ _ _ _ TX). destruct (near_exists (wt w) n l1 a f x q2 D) as (y & N). destruct (list_exists (wt w) n l1 a q2) as (z & L).
        rewrite (walk_found (wt w) n G l1 a f x y z (Some vv) sh l2 q2 D N L). cbn. eauto. }
      destruct (eshadow e1) eqn:S1; [apply W1|]. destruct Hs as [Hs|Hs]; [destruct Hn; congruence|].
      destruct (wt w c n) as [e0|] eqn:T0; [|discriminate]. symmetry in Hs. rewrite (Hf e0 eq_refl Hs).
      destruct q1 as [q1|(y & bb & e2 & y1 & y2 & y3 & y4)]; [unfold silent in q1; congruence|]. assert (e2 = e0) by congruence. subst e2.
      destruct bb; [congruence|]. destruct (y4 eq_refl) as (y5 & y6). rewrite y5. destruct v; try discriminate; apply W1. }
  destruct (wt w c n) as [e0|] eqn:T0.
  - injection e as <-. rewrite find_positions. cbn [bump with_tables ws wt]. rewrite b1, P.
    eapply AFTER; [intros z; reflexivity| | | |]; auto.
    + destruct (eshadow e0); [destruct (inherited w1 c n)|]; reflexivity.
    + right. destruct (eshadow e0) eqn:q; [destruct (inherited w1 c n)|]; cbn; auto.
    + intros e2 h q. injection h as <-. rewrite q. reflexivity.
    + right. discriminate.
  - destruct (same_vis u v) eqn:SV.
    + injection e as <-. apply same_vis_eq in SV. subst u. exists o. now rewrite (find_same w w1).
    + injection e as <-. rewrite find_positions. cbn [insert_method bump with_tables ws wt]. rewrite b1, b2, P.
      eapply AFTER; [intros z; reflexivity| | | |]; auto. intros e2 h. discriminate.
Qed.

Lemma vis_seen l w c n v w' f u o t : after_history l w -> mstep w (SetVis c n v) = Fine w' -> sparse (l ++ [SetVis c n v]) ->
  positions (hp (ws w)) (head (ws w) c) = c :: t -> ~ In c t -> ~ orphan (wt w) n (c :: t) -> answer (fst (look w c n)) = Some (f, u, o) ->
  exists o', answer (fst (look w' c n)) = Some (f, v, o').
Proof.
  intros h e s P NI NO F. pose proof (history_snoc l w _ w' h (or_introl e)) as h'. destruct (history_right l w h (sparse_snoc _ _ s)) as (W & a & b & E & q & A).
  assert (L : Z.of_nat (length b) < TWO32) by (apply (sparse_snoc _ _ s a b []); auto; now rewrite app_nil_r).
  assert (D : defined (ws w) c = true) by (cbn [mstep] in e; destruct (defined (ws w) c); [auto|discriminate]).
  rewrite (history_look l w c n h (sparse_snoc _ _ s) D) in F.
  destruct (vis_effect _ w c n v w' f u o t W A L e P NI NO F) as (o' & R). exists o'. rewrite (history_look (l ++ [SetVis c n v]) w' c n h' s); auto.
  assert (K : ws w' = ws w); [|now rewrite K]. cbn [mstep] in e. rewrite D in e. destruct (real v); [|discriminate]. cbn [andb] in e.
  unfold set_vis in e. destruct (look_body w c n) as [r w1] eqn:lb. destruct (look_body_right _ w c n r w1 W A L D lb) as (_ & b1 & _).
  destruct r as [[ff old]|]; [|discriminate]. destruct (wt w1 c n); [|destruct (same_vis old v)]; injection e as <-; cbn; auto.
Qed.
(** The entries for other names are never touched by these. *)
Lemma alias_seen l w c new old w' : after_history l w -> sparse l -> mstep w (Alias c new old) = Fine w' ->
  exists f v o, answer (fst (look w c old)) = Some (f, v, o) /\ defines (wt w') new c f v /\ (forall a m, (a, m) <> (c, new) -> wt w' a m = wt w a m) /\ ws w' = ws w.
Proof.
  intros h s e. destruct (history_right l w h s) as (W & a & b & E & q & A).
  assert (L : Z.of_nat (length b) < TWO32) by (apply (s a b []); auto; now rewrite app_nil_r).
  cbn [mstep] in e. destruct (defined (ws w) c) eqn:d; [|discriminate]. destruct (look_body w c old) as [r w1] eqn:lb.
  destruct (look_body_right _ w c old r w1 W A L d lb) as (B & b1 & b2 & _). rewrite (history_look l w c old h s d).
  destruct r as [[f v]|]; [|discriminate]. injection e as <-. destruct (find w c old) as [e0|] eqn:F; [|discriminate]. destruct (efid e0) as [g|] eqn:G; [|discriminate].
  injection B as -> ->. exists g, (evis e0), (eowner e0). cbn [answer]. rewrite G. split; auto. cbn [insert_method with_tables bump ws wt]. rewrite b2. split; [|split].
  - exists (mke c (Some g) (evis e0) false). unfold put. rewrite !Z.eqb_refl. auto.
  - intros x m ne. unfold put. destruct (Z.eqb_spec x c), (Z.eqb_spec m new); cbn; auto. subst. easy.
  - auto.
Qed.
(** Booleans. *)
Lemma bool_sound l w n e : after_history l w -> sparse l -> fst (look_bool w n) = Some e ->
  exists t f, find w TRUE n = Some t /\ find w FALSE n = Some f /\ efid e = efid t /\ efid e = efid f.
Proof.
  intros h s E. rewrite (history_bool l w n h s) in E. unfold find_bool in E. destruct (find w TRUE n) as [t|]; [|discriminate]. destruct (find w FALSE n) as [f|]; [|discriminate].
  destruct (same_fid (efid t) (efid f)) eqn:q; [|discriminate]. injection E as <-. exists t, f. repeat split; auto.
  unfold same_fid in q. destruct (efid t), (efid f); try discriminate; auto. apply Z.eqb_eq in q. congruence.
Qed.
Lemma class_method_defined l w c n : after_history l w -> sparse l -> defined (ws w) c = true -> is_class (hp (ws w)) (head (ws w) c) = true ->
  method_defined w c n = match find w c n with Some e => Some (evis e) | None => None end.
Proof. intros h s d k. unfold method_defined. now rewrite k, (history_look l w c n h s d). Qed.
