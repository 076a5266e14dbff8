(** Inline caches, compiled sites, super. *)
From Coq Require Import ZArith List Bool Lia.
From Verif Require Import ClassModel ClassSpec ClassProofs ClassStepProofs LookupModel LookupSpec LookupWalkProofs LookupCacheProofs LookupProofs.
Import ListNotations.
Open Scope Z_scope.

(** The version moves, or nothing that can be looked up has changed. *)
Lemma mstep_version k w o w' : winv w -> age k w -> k < TWO32 -> (mstep w o = Fine w' \/ mstep w o = Raise w') ->
  (forall c, defined (ws w) c = true -> defined (ws w') c = true) /\
  (wver w' = (wver w + 1) mod TWO32 \/ (wver w' = wver w /\ forall c n, defined (ws w) c = true -> find w' c n = find w c n)).
Proof.
  intros W A l e.
  assert (BODY : forall c n r w1, defined (ws w) c = true -> look_body w c n = (r, w1) -> ws w1 = ws w /\ wt w1 = wt w /\ wver w1 = wver w).
  { intros c n r w1 d q. destruct (look_body_right k w c n r w1 W A l d q) as (_ & a & b & z & _). auto. }
  assert (SAME : forall w1, ws w1 = ws w /\ wt w1 = wt w /\ wver w1 = wver w ->
    (forall c, defined (ws w) c = true -> defined (ws w1) c = true) /\
    (wver w1 = (wver w + 1) mod TWO32 \/ (wver w1 = wver w /\ forall c n, defined (ws w) c = true -> find w1 c n = find w c n))).
  { intros w1 (a & b & z). rewrite a. split; auto. right. split; auto. intros c n _. now apply find_same. }
  assert (MOVED : forall w1, ws w1 = ws w -> wver w1 = (wver w + 1) mod TWO32 ->
    (forall c, defined (ws w) c = true -> defined (ws w1) c = true) /\
    (wver w1 = (wver w + 1) mod TWO32 \/ (wver w1 = wver w /\ forall c n, defined (ws w) c = true -> find w1 c n = find w c n))).
  { intros w1 a b. rewrite a. auto. }
  destruct o as [o|c n f v|c n|c n|c n v|c new old|c n|n]; cbn [mstep] in e.
  - assert (KEEP : forall s, (step (ws w) o = State s \/ step (ws w) o = Raised s) ->
      match o with Include _ _ | Prepend _ _ => step (ws w) o = Raised s | _ => True end ->
      forall c n, defined (ws w) c = true -> find (with_state w s) c n = find w c n).
    { intros s q m c n d. destruct (step_keeps _ _ _ (w_inv w W) q) as (K & P). rewrite !find_positions. cbn [with_state ws wt]. now rewrite (P m c d). }
    destruct (step (ws w) o) as [s|s| |] eqn:q; destruct e as [e|e]; try discriminate; injection e as <-.
    + destruct (step_keeps _ _ _ (w_inv w W) (or_introl q)) as (K & _). cbn [with_state ws]. split; auto.
      destruct o; try (right; split; [reflexivity|]; apply KEEP; auto; fail); left; reflexivity.
    + destruct (step_keeps _ _ _ (w_inv w W) (or_intror q)) as (K & _). cbn [with_state ws]. split; auto.
      right. split; [reflexivity|]. apply KEEP; auto. destruct o; auto.
  - destruct (defined (ws w) c && real v); destruct e as [e|e]; try discriminate; injection e as <-; auto.
  - destruct (defined (ws w) c) eqn:d; [|destruct e as [e|e]; [discriminate|injection e as <-; auto]].
    destruct (look_body w c n) as [r w1] eqn:b. pose proof (BODY _ _ _ _ d b) as B. destruct B as (b1 & b2 & b3).
    destruct r; destruct e as [e|e]; try discriminate; injection e as <-; auto. apply MOVED; cbn; congruence.
  - destruct (defined (ws w) c) eqn:d; [|destruct e as [e|e]; [discriminate|injection e as <-; auto]].
    destruct (wt (bump w) c n); destruct e as [e|e]; try discriminate; injection e as <-; apply MOVED; reflexivity.
  - destruct (defined (ws w) c && real v) eqn:q; [|destruct e as [e|e]; [discriminate|injection e as <-; auto]]. apply andb_true_iff in q as [d _].
    unfold set_vis in e. destruct (look_body w c n) as [r w1] eqn:b. pose proof (BODY _ _ _ _ d b) as B. destruct B as (b1 & b2 & b3).
    destruct r as [[f old]|]; [|destruct e as [e|e]; try discriminate; injection e as <-; auto].
    destruct (wt w1 c n); [|destruct (same_vis old v)]; destruct e as [e|e]; try discriminate; injection e as <-; auto; apply MOVED; cbn; congruence.
  - destruct (defined (ws w) c) eqn:d; [|destruct e as [e|e]; [discriminate|injection e as <-; auto]].
    destruct (look_body w c old) as [r w1] eqn:b. pose proof (BODY _ _ _ _ d b) as B. destruct B as (b1 & b2 & b3).
    destruct r as [[f v]|]; destruct e as [e|e]; try discriminate; injection e as <-; auto. apply MOVED; cbn; congruence.
  - destruct (defined (ws w) c) eqn:d; destruct e as [e|e]; try discriminate; injection e as <-.
    destruct (look_right k w c n W A l d) as (_ & a & b & z & _). auto.
  - destruct e as [e|e]; try discriminate; injection e as <-. destruct (look_bool_right k w n W A l) as (_ & a & b & z & _). auto.
Qed.

(** * A stamp: what was true of the world at version [v], which is [d] moves ago *)
Definition stamp (N v : Z) (w : world) (P : Prop) : Prop :=
  exists d, 0 <= d <= N /\ 0 <= v < TWO32 /\ wver w = (v + d) mod TWO32 /\ (d = 0 -> P).
Lemma stamp_now N w (P : Prop) : 0 <= N -> winv w -> P -> stamp N (wver w) w P.
Proof. intros n W p. exists 0. pose proof (w_ver w W). rewrite Z.add_0_r, Z.mod_small by auto. repeat split; auto; lia. Qed.
Lemma stamp_true N v w (P : Prop) : N < TWO32 -> stamp N v w P -> v = wver w -> P.
Proof. intros l (d & a & b & c & f) e. apply f. eapply moved; [exact b|lia|congruence]. Qed.
Lemma stamp_step N v w w' (P P' : Prop) : stamp N v w P -> (wver w' = (wver w + 1) mod TWO32 \/ (wver w' = wver w /\ (P -> P'))) -> stamp (N + 1) v w' P'.
Proof.
  intros (d & a & b & c & f) [e|(e & q)].
  - exists (d + 1). split; [lia|]. split; auto. split; [|lia]. rewrite e, c, Zplus_mod_idemp_l. f_equal. lia.
  - exists d. split; [lia|]. split; auto. split; [congruence|auto].
Qed.
Lemma stamp_more N N' v w (P : Prop) : N <= N' -> stamp N v w P -> stamp N' v w P.
Proof. intros l (d & a & b & c & f). exists d. split; [lia|auto]. Qed.

Definition fid_of (a : reached) : option Z := match a with Body f => Some f | Missing => None end.
Definition of_fid (o : option Z) : reached := match o with Some f => Body f | None => Missing end.
Lemma of_fid_of a : of_fid (fid_of a) = a.
Proof. now destruct a. Qed.
(** The owner of a protected method matters to some calls only. *)
Definition settled_vis (fc : bool) (r : option entry) : Prop := fc = true \/ forall e, r = Some e -> evis e <> Protected.
Lemma admit_same fc k1 k2 r : settled_vis fc r -> admit_call fc k1 r = admit_call fc k2 r.
Proof.
  intros S. unfold admit_call. destruct r as [e|]; auto. destruct (efid e); auto. destruct (evis e) eqn:v; auto.
  destruct S as [->|S]; auto. now destruct (S e eq_refl).
Qed.

(** * Interpreted sites *)
Section Site.
Variables (n : Z) (fc : bool).
Definition icp (w : world) (i : icache) : Prop :=
  defined (ws w) (iclass i) = true /\ exists caller, ifid i = fid_of (admit_call fc caller (find w (iclass i) n)).
Definition sinv (N : Z) (w : world) (k : option icache) : Prop :=
  winv w /\ age N w /\ forall i, k = Some i -> stamp N (iver i) w (icp w i).
Lemma call_miss N w caller c : 0 <= N < TWO32 -> winv w -> age N w -> defined (ws w) c = true ->
  let '(r, w1) := look w c n in r = find w c n /\
    sinv N w1 (Some (mki c (wver w1) (fid_of (admit_call fc caller r)))).
Proof.
  intros l W A d. destruct (look_right N w c n W A ltac:(lia) d) as (q & q1 & q2 & q3 & q4 & q5). destruct (look w c n) as [r w1]. cbn [fst snd] in *.
  split; auto. split; auto. split; [eapply age_more; [|exact q5]; lia|]. intros i e. injection e as <-. cbn [iver]. apply stamp_now; auto; [lia|].
  split; cbn [iclass ifid]; [now rewrite q1|]. exists caller. now rewrite q, (find_same w w1).
Qed.
Lemma vm_call_right N w k caller c a k1 w1 : 0 <= N < TWO32 -> sinv N w k -> defined (ws w) c = true -> vm_call w k n fc caller c = (a, k1, w1) ->
  sinv N w1 k1 /\ (settled_vis fc (find w c n) -> a = dispatch w n fc caller c).
Proof.
  intros l (W & A & I) d e. unfold vm_call in e. destruct (match k with Some i => (iclass i =? c) && (iver i =? wver w) | None => false end) eqn:h.
  - destruct k as [i|]; [|discriminate]. apply andb_true_iff in h as [h1 h2]. apply Z.eqb_eq in h1, h2. injection e as <- <- <-.
    split; [split; auto|]. intros S. destruct (stamp_true N _ w _ ltac:(lia) (I i eq_refl) h2) as (dd & k0 & q). change (of_fid (ifid i) = dispatch w n fc caller c).
    rewrite q, of_fid_of, h1. unfold dispatch. now apply admit_same.
  - pose proof (call_miss N w caller c l W A d) as M. destruct (look w c n) as [r w2]. destruct M as (-> & M). injection e as <- <- <-. split; auto.
Qed.
Lemma site_right w k l w2 k2 : site n fc w k l w2 k2 -> forall N, 0 <= N -> N + Z.of_nat (length l) < TWO32 -> sinv N w k ->
  sinv (N + Z.of_nat (length l)) w2 k2.
Proof.
  intros S. induction S as [w k|w k o w1 l w2 k2 e S IH|w k c caller a k1 w1 l w2 k2 d e S IH]; intros N p b I; cbn [length] in *; rewrite ?Nat2Z.inj_succ in *.
  - now rewrite Z.add_0_r.
  - replace (N + Z.succ (Z.of_nat (length l))) with (N + 1 + Z.of_nat (length l)) by lia. apply IH; [lia|lia|].
    destruct I as (W & A & I). destruct (mstep_right N w o w1 W A ltac:(lia) e) as (W1 & A1 & _).
    destruct (mstep_version N w o w1 W A ltac:(lia) e) as (K & V). split; auto. split; auto. intros i q.
    eapply stamp_step; [apply (I i q)|]. destruct V as [V|(V & F)]; [now left|right]. split; auto. intros (z1 & caller & z2).
    split; auto. exists caller. now rewrite F.
  - replace (N + Z.succ (Z.of_nat (length l))) with (N + 1 + Z.of_nat (length l)) by lia. apply IH; [lia|lia|].
    destruct (vm_call_right N w k caller c a k1 w1 ltac:(lia) I d e) as ((W & A & I1) & _). split; auto. split; [eapply age_more; [|exact A]; lia|].
    intros i q. eapply stamp_more; [|apply (I1 i q)]. lia.
Qed.
Lemma site_call_right l w k caller c a k1 w1 : site n fc start None l w k -> Z.of_nat (length l) < TWO32 -> defined (ws w) c = true ->
  vm_call w k n fc caller c = (a, k1, w1) -> settled_vis fc (find w c n) -> a = dispatch w n fc caller c.
Proof.
  intros S b d e. eapply (vm_call_right (Z.of_nat (length l))); eauto; [lia|]. change (Z.of_nat (length l)) with (0 + Z.of_nat (length l)).
  eapply site_right; eauto; [lia|]. split; [apply start_winv|]. split; [apply start_age|discriminate].
Qed.
(** Whatever the visibility, what runs is the body that is found. *)
Lemma site_call_body l w k caller c f k1 w1 : site n fc start None l w k -> Z.of_nat (length l) < TWO32 -> defined (ws w) c = true ->
  vm_call w k n fc caller c = (Body f, k1, w1) -> exists e, find w c n = Some e /\ efid e = Some f.
Proof.
  intros S b d e. assert (I : sinv (Z.of_nat (length l)) w k).
  { change (Z.of_nat (length l)) with (0 + Z.of_nat (length l)). eapply site_right; eauto; [lia|]. split; [apply start_winv|]. split; [apply start_age|discriminate]. }
  assert (AD : forall k r, admit_call fc k r = Body f -> exists e, r = Some e /\ efid e = Some f).
  { intros k0 r q. unfold admit_call in q. destruct r as [e0|]; [|discriminate]. exists e0. split; auto. destruct (efid e0); [|discriminate].
    destruct (evis e0); try congruence; [destruct (fc || k0 z)|destruct fc]; congruence. }
  destruct I as (W & A & I). unfold vm_call in e. destruct (match k with Some i => (iclass i =? c) && (iver i =? wver w) | None => false end) eqn:h.
  - destruct k as [i|]; [|discriminate]. apply andb_true_iff in h as [h1 h2]. apply Z.eqb_eq in h1, h2.
    destruct (stamp_true _ _ w _ b (I i eq_refl) h2) as (dd & k0 & q). rewrite h1 in q. apply (AD k0). destruct (admit_call fc k0 (find w c n)); cbn in q; rewrite q in e; [congruence|discriminate].
  - pose proof (call_miss _ w caller c (conj (Zle_0_nat _) b) W A d) as M. destruct (look w c n) as [r w2]. destruct M as (-> & M). apply (AD caller). congruence.
Qed.

(** * Compiled sites *)
Definition up (w : world) (u : unit_) : Prop :=
  defined (ws w) (uclass u) = true /\ exists e, find w (uclass u) n = Some e /\ efid e = Some (ufid u).
Definition cinv (N : Z) (w : world) (u : option unit_) : Prop :=
  winv w /\ age N w /\ forall i, u = Some i -> stamp N (uver i) w (up w i).
Lemma compile_right N w c u w1 : 0 <= N < TWO32 -> winv w -> age N w -> defined (ws w) c = true -> compile w n fc c = (u, w1) ->
  cinv N w1 u /\ ws w1 = ws w /\ wt w1 = wt w.
Proof.
  intros l W A d e. unfold compile in e. destruct (look_right N w c n W A ltac:(lia) d) as (q & q1 & q2 & q3 & q4 & q5). destruct (look w c n) as [r w2]. cbn [fst snd] in *.
  injection e as <- <-. split; [|auto]. split; auto. split; [eapply age_more; [|exact q5]; lia|]. intros i e. destruct r as [r|]; [|discriminate].
  destruct (efid r) eqn:f; [|discriminate]. destruct (same_vis (evis r) Private && negb fc); [discriminate|]. injection e as <-. cbn [uver].
  apply stamp_now; auto; [lia|]. split; cbn [uclass ufid]; [now rewrite q1|]. exists r. now rewrite (find_same w w2).
Qed.
Lemma deopt_right N w caller c : 0 <= N < TWO32 -> winv w -> age N w -> defined (ws w) c = true ->
  fst (look w c n) = find w c n /\ winv (snd (look w c n)) /\ age N (snd (look w c n)) /\ ws (snd (look w c n)) = ws w /\ wt (snd (look w c n)) = wt w /\ wver (snd (look w c n)) = wver w
  /\ admit_call fc caller (fst (look w c n)) = dispatch w n fc caller c.
Proof.
  intros l W A d. destruct (look_right N w c n W A ltac:(lia) d) as (q & q1 & q2 & q3 & q4 & q5). repeat (split; [auto; fail|]).
  split; [eapply age_more; [|exact q5]; lia|]. repeat (split; [auto; fail|]). now rewrite q.
Qed.
Lemma stamp_same N v w w' (P P' : Prop) : stamp N v w P -> wver w' = wver w -> (P -> P') -> stamp N v w' P'.
Proof. intros (d & a & b & c & f) e q. exists d. rewrite e. repeat split; auto; lia. Qed.
Lemma up_same w w' u : ws w' = ws w -> wt w' = wt w -> up w u -> up w' u.
Proof. intros a b (d & e & f). split; [now rewrite a|]. rewrite (find_same w w') by auto. eauto. Qed.
Lemma enter_right N w u caller c a u1 w1 : 0 <= N < TWO32 -> cinv N w u -> defined (ws w) c = true -> enter w u n fc caller c = (a, u1, w1) ->
  cinv N w1 u1 /\ (a = dispatch w n fc caller c \/ exists f e, a = Body f /\ find w c n = Some e /\ efid e = Some f).
Proof.
  intros l (W & A & I) d e. unfold enter in e. destruct (deopt_right N w caller c l W A d) as (d1 & d2 & d3 & d4 & d5 & d6 & d7).
  assert (DE : forall u1 w1 a, (let '(r, w1) := look w c n in (admit_call fc caller r, w1)) = (a, w1) -> (forall i, u1 = Some i -> stamp N (uver i) w (up w i)) ->
    cinv N w1 u1 /\ a = dispatch w n fc caller c).
  { intros u2 w2 a2 q S. destruct (look w c n) as [r w3]. cbn [fst snd] in *. injection q as <- <-. split; auto. split; auto. split; auto. intros i q.
    eapply stamp_same; [apply (S i q)|auto|]. now apply up_same. }
  destruct u as [u|].
  - destruct (negb (uclass u =? c)) eqn:h.
    + destruct (let '(r, w1) := look w c n in (admit_call fc caller r, w1)) as [a2 w2] eqn:q. injection e as <- <- <-. destruct (DE (Some u) _ _ eq_refl) as (x & y); auto.
    + apply negb_false_iff, Z.eqb_eq in h. destruct (uver u =? wver w) eqn:v.
      * apply Z.eqb_eq in v. injection e as <- <- <-. split; [split; auto|]. right. destruct (stamp_true N _ w _ ltac:(lia) (I u eq_refl) v) as (_ & e0 & q1 & q2).
        exists (ufid u), e0. rewrite h in q1. auto.
      * destruct (look_body w c n) as [r w2] eqn:b. destruct (look_body_right N w c n r w2 W A ltac:(lia) d b) as (B & b1 & b2 & b3 & b4 & b5).
        assert (A2 : age N w2) by (eapply age_more; [|exact b5]; lia). assert (D2 : defined (ws w2) c = true) by now rewrite b1.
        assert (RE : (let '(u1, w3) := compile w2 n fc c in let '(a, w4) := let '(r, w4) := look w3 c n in (admit_call fc caller r, w4) in (a, u1, w4)) = (a, u1, w1) ->
          cinv N w1 u1 /\ a = dispatch w n fc caller c).
        { intros q. destruct (compile w2 n fc c) as [u3 w3] eqn:cc. destruct (compile_right N w2 c u3 w3 l b4 A2 D2 cc) as ((c1 & c2 & c3) & c4 & c5).
          assert (D3 : defined (ws w3) c = true) by now rewrite c4. destruct (deopt_right N w3 caller c l c1 c2 D3) as (g1 & g2 & g3 & g4 & g5 & g6 & g7).
          destruct (look w3 c n) as [r4 w4]. cbn [fst snd] in *. injection q as <- <- <-. split.
          - split; auto. split; auto. intros i q. eapply stamp_same; [apply (c3 i q)|auto|]. now apply up_same.
          - rewrite g7. unfold dispatch. f_equal. rewrite (find_same w2 w3), (find_same w w2) by auto. reflexivity. }
        destruct r as [[f vv]|].
        -- destruct (f =? ufid u) eqn:ff; [|destruct (RE e); auto]. apply Z.eqb_eq in ff. injection e as <- <- <-.
           destruct (find w c n) as [e0|] eqn:F; [|discriminate]. destruct (efid e0) as [g|] eqn:G; [|discriminate]. injection B as B1 B2. subst g.
           split; [|right; exists (ufid u), e0; rewrite <- ff; auto]. split; auto. split; auto. intros i q. injection q as <-. cbn [uver].
           apply stamp_now; auto; [lia|]. split; auto. exists e0. cbn [uclass ufid]. rewrite (find_same w w2) by auto. split; congruence.
        -- destruct (RE e); auto.
  - destruct (let '(r, w1) := look w c n in (admit_call fc caller r, w1)) as [a2 w2] eqn:q. injection e as <- <- <-. destruct (DE None _ _ eq_refl) as (x & y); auto.
Qed.
Lemma csite_right w k l w2 k2 : csite n fc w k l w2 k2 -> forall N, 0 <= N -> N + Z.of_nat (length l) < TWO32 -> cinv N w k ->
  cinv (N + Z.of_nat (length l)) w2 k2.
Proof.
  intros S. induction S as [w k|w k o w1 l w2 k2 e S IH|w k c u1 w1 l w2 k2 d e S IH|w k c caller a k1 w1 l w2 k2 d e S IH]; intros N p b I; cbn [length] in *; rewrite ?Nat2Z.inj_succ in *.
  - now rewrite Z.add_0_r.
  - replace (N + Z.succ (Z.of_nat (length l))) with (N + 1 + Z.of_nat (length l)) by lia. apply IH; [lia|lia|].
    destruct I as (W & A & I). destruct (mstep_right N w o w1 W A ltac:(lia) e) as (W1 & A1 & _).
    destruct (mstep_version N w o w1 W A ltac:(lia) e) as (K & V). split; auto. split; auto. intros i q.
    eapply stamp_step; [apply (I i q)|]. destruct V as [V|(V & F)]; [now left|right]. split; auto. intros (z1 & e0 & z2 & z3).
    split; auto. exists e0. now rewrite F.
  - replace (N + Z.succ (Z.of_nat (length l))) with (N + 1 + Z.of_nat (length l)) by lia. apply IH; [lia|lia|].
    destruct I as (W0 & A0 & _). destruct (compile_right N w c u1 w1 ltac:(lia) W0 A0 d e) as ((W & A & I1) & _). split; auto. split; [eapply age_more; [|exact A]; lia|].
    intros i q. eapply stamp_more; [|apply (I1 i q)]. lia.
  - replace (N + Z.succ (Z.of_nat (length l))) with (N + 1 + Z.of_nat (length l)) by lia. apply IH; [lia|lia|].
    destruct (enter_right N w k caller c a k1 w1 ltac:(lia) I d e) as ((W & A & I1) & _). split; auto. split; [eapply age_more; [|exact A]; lia|].
    intros i q. eapply stamp_more; [|apply (I1 i q)]. lia.
Qed.
Lemma csite_enter_right l w k caller c a k1 w1 : csite n fc start None l w k -> Z.of_nat (length l) < TWO32 -> defined (ws w) c = true ->
  enter w k n fc caller c = (a, k1, w1) -> a = dispatch w n fc caller c \/ exists f e, a = Body f /\ find w c n = Some e /\ efid e = Some f.
Proof.
  intros S b d e. eapply (enter_right (Z.of_nat (length l))); eauto; [lia|]. change (Z.of_nat (length l)) with (0 + Z.of_nat (length l)).
  eapply csite_right; eauto; [lia|]. split; [apply start_winv|]. split; [apply start_age|discriminate].
Qed.
Lemma csite_enter_same l w k caller c a k1 w1 : csite n fc start None l w k -> Z.of_nat (length l) < TWO32 -> defined (ws w) c = true ->
  enter w k n fc caller c = (a, k1, w1) -> fc = true \/ (forall e, find w c n = Some e -> evis e = Public) -> a = dispatch w n fc caller c.
Proof.
  intros S b d e V. destruct (csite_enter_right l w k caller c a k1 w1 S b d e) as [q|(f & e0 & -> & F & E)]; auto.
  unfold dispatch, admit_call. rewrite F, E. destruct V as [->|V]; [now destruct (evis e0)|]. now rewrite (V e0 F).
Qed.
End Site.
