(** The compiled send. *)
From Coq Require Import ZArith List Bool Lia.
From Verif Require Import ClassModel ClassSpec ClassProofs ClassStepProofs LookupModel LookupSpec LookupWalkProofs
  LookupCacheProofs LookupProofs LookupSiteProofs
  SendModel SendSpec.
Import ListNotations.
Open Scope Z_scope.

Definition same_world (w w1 : world) : Prop := ws w1 = ws w /\ wt w1 = wt w /\ wver w1 = wver w.
Lemma same_dispatch w w1 n c : same_world w w1 -> dispatch w1 n true anyone c = dispatch w n true anyone c.
Proof. intros (a & b & _). unfold dispatch. now rewrite (find_same w w1). Qed.

Lemma admit_fid a b : efid a = efid b -> admit_call true anyone (Some a) = admit_call true anyone (Some b).
Proof. intros e. unfold admit_call. rewrite e. destruct (efid b); auto. destruct (evis a), (evis b); reflexivity. Qed.
Lemma same_fid_eq a b : same_fid a b = true -> a = b.
Proof. destruct a, b; cbn; intros e; try discriminate; auto. apply Z.eqb_eq in e. congruence. Qed.
Lemma find_method_right N w c n : 0 <= N < TWO32 -> winv w -> age N w -> defined (ws w) c = true ->
  fst (find_method w c n) = dispatch w n true anyone c /\ same_world w (snd (find_method w c n)) /\
  winv (snd (find_method w c n)) /\ age N (snd (find_method w c n)).
Proof.
  intros l W A d. unfold find_method.
  assert (PLAIN : forall w0, same_world w w0 -> winv w0 -> age N w0 -> let r := (let '(r, w1) := look w0 c n in (admit_call true (fun _ : Z => true) r, w1)) in
    fst r = dispatch w n true anyone c /\ same_world w (snd r) /\ winv (snd r) /\ age N (snd r)).
  { intros w0 (s1 & s2 & s3) W0 A0. destruct (look_right N w0 c n W0 A0 ltac:(lia)) as (q & q1 & q2 & q3 & q4 & q5); [now rewrite s1|].
    destruct (look w0 c n) as [r w1]. cbn [fst snd] in *. split; [unfold dispatch; rewrite q; now rewrite (find_same w w0)|].
    split; [repeat split; congruence|]. split; auto. eapply age_more; [|exact q5]. lia. }
  destruct (ic_class c =? BOOL) eqn:ib; [|apply PLAIN; auto; repeat split].
  destruct (look_bool_right N w n W A ltac:(lia)) as (q & q1 & q2 & q3 & q4 & q5).
  destruct (look_bool w n) as [r w1]. cbn [fst snd] in *. apply (age_more 0 N) in q5; [|lia].
  assert (S : same_world w w1) by (repeat split; auto).
  destruct r as [e|]; [|apply PLAIN; auto]. cbn [fst snd]. split; [|auto].
  unfold find_bool in q. destruct (find w TRUE n) as [t|] eqn:ft; [|discriminate]. destruct (find w FALSE n) as [f|] eqn:ff; [|discriminate].
  destruct (same_fid (efid t) (efid f)) eqn:sf; [|discriminate]. injection q as ->. apply same_fid_eq in sf.
  unfold ic_class in ib. destruct (c =? TRUE) eqn:c1; [|destruct (c =? FALSE) eqn:c2]; cbn [orb] in ib.
  - apply Z.eqb_eq in c1. subst c. unfold dispatch. now rewrite ft.
  - apply Z.eqb_eq in c2. subst c. unfold dispatch. rewrite ff. now apply admit_fid.
  - apply Z.eqb_eq in ib. subst c. discriminate d.
Qed.
Lemma interpreted_right N mm w c n : 0 <= N < TWO32 -> winv w -> age N w -> defined (ws w) c = true ->
  fst (interpreted mm w c n) = says mm w c n /\ same_world w (snd (interpreted mm w c n)) /\
  winv (snd (interpreted mm w c n)) /\ age N (snd (interpreted mm w c n)).
Proof.
  intros l W A d. unfold interpreted, says. destruct (find_method_right N w c n l W A d) as (a1 & a2 & a3 & a4).
  destruct (find_method w c n) as [r w1]. cbn [fst snd] in *. rewrite <- a1. destruct r as [f|]; cbn [fst snd]; auto.
  destruct (find_method_right N w1 c mm l a3 a4) as (b1 & b2 & b3 & b4); [destruct a2 as (e & _); now rewrite e|].
  destruct (find_method w1 c mm) as [r w2]. cbn [fst snd] in *. rewrite b1, (same_dispatch w w1) by auto.
  split; auto. split; auto. destruct a2 as (x & y & z), b2 as (x' & y' & z'). repeat split; congruence.
Qed.

(** * The cache *)
Lemma set_slot_at s : forall k i j, slot_at (set_slot k i s) j = s \/ slot_at (set_slot k i s) j = slot_at k j.
Proof.
  unfold slot_at. induction k as [|x k IH]; intros i j; cbn [set_slot]; [auto|]. destruct i, j; cbn [nth]; auto.
Qed.
Lemma scan_hit k n : forall l i m i' m', scan k n l i m = Hit i' m' -> sname (slot_at k i') = n.
Proof.
  induction l as [|l IH]; intros i m i' m' e; cbn [scan] in e; [discriminate|].
  destruct (sname (slot_at k (S i)) =? 0); [discriminate|]. destruct (sname (slot_at k (S i)) =? n) eqn:q.
  - injection e as <- <-. now apply Z.eqb_eq.
  - destruct l; [discriminate|]. eapply IH, e.
Qed.
Lemma probe_hit k n i m : probe k n = Hit i m -> sname (slot_at k i) = n.
Proof.
  unfold probe. destruct (sname (slot_at k 0) =? 0); [discriminate|]. destruct (sname (slot_at k 0) =? n) eqn:q; [|apply scan_hit].
  intros e. injection e as <- <-. now apply Z.eqb_eq.
Qed.
(** Every entry of [k'] that names something is one of [k]. *)
Definition within (k' k : cache) : Prop :=
  forall i, exists j, sname (slot_at k' i) = sname (slot_at k j) /\ sfid (slot_at k' i) = sfid (slot_at k j).
Lemma within_set k k' i s : within k' k -> (exists j, sname s = sname (slot_at k j) /\ sfid s = sfid (slot_at k j)) -> within (set_slot k' i s) k.
Proof. intros a b j. destruct (set_slot_at s k' i j) as [->| ->]; auto. Qed.
Lemma within_hit k i m f k' : hit k i m = (f, k') -> f = sfid (slot_at k i) /\ within k' k.
Proof.
  intros e. unfold hit in e. set (k1 := set_slot k i _) in e.
  assert (W : within k1 k) by (apply within_set; [intros j; exists j; auto|exists i; auto]).
  destruct (_ <=? _); injection e as <- <-; split; auto.
  apply within_set; [apply within_set; auto|]; apply W.
Qed.
Definition right_entries (w : world) (g : list Z) (k : cache) : Prop :=
  forall i c, sname (slot_at k i) <> 0 -> admitted g c -> dispatch w (sname (slot_at k i)) true anyone c = Body (sfid (slot_at k i)).
Lemma right_within w g k k' : within k' k -> right_entries w g k -> right_entries w g k'.
Proof. intros W R i c a b. destruct (W i) as (j & e1 & e2). rewrite e1, e2. apply R; auto. now rewrite <- e1. Qed.
Definition blank_names (k : cache) : Prop := forall i, sname (slot_at k i) = 0.
Lemma blank_right w g k : blank_names k -> right_entries w g k.
Proof. intros B i c a. now rewrite B in a. Qed.
Lemma blank_clear k : blank_names (map (fun e => mkslot 0 0 (scount e)) k).
Proof.
  intros i. unfold slot_at. destruct (nth_in_or_default i (map (fun e => mkslot 0 0 (scount e)) k) blank) as [H|H]; [|now rewrite H].
  apply in_map_iff in H as (e & <- & _). reflexivity.
Qed.
Lemma blank_fresh : blank_names empty_cache.
Proof. intros i. unfold slot_at, empty_cache. destruct (nth_in_or_default i (repeat blank 4) blank) as [H|H]; [|now rewrite H]. apply repeat_spec in H. now rewrite H. Qed.

(** * A site *)
Definition ginv (N : Z) (w : world) (g : list Z) (s : sendsite) : Prop :=
  winv w /\ age N w /\ (forall c, admitted g c -> defined (ws w) c = true) /\
  (blank_names (scache s) \/ stamp N (sver s) w (right_entries w g (scache s))).

Lemma in_guard g c : existsb (Z.eqb (ic_class c)) g = true <-> In (ic_class c) g.
Proof.
  rewrite existsb_exists. split.
  - intros (x & a & b). apply Z.eqb_eq in b. now subst x.
  - intros a. exists (ic_class c). split; auto. apply Z.eqb_refl.
Qed.
Lemma right_same w w1 g k : same_world w w1 -> right_entries w g k -> right_entries w1 g k.
Proof. intros S R i c a b. rewrite (same_dispatch w w1) by auto. now apply R. Qed.

Lemma checked N w g s : 0 <= N < TWO32 -> ginv N w g s -> let s' := check_version w s in sver s' = wver w /\ right_entries w g (scache s') \/
  blank_names (scache s') /\ s' = s.
Proof.
  intros l (W & A & D & I). cbv zeta. unfold check_version. destruct (wver w =? sver s) eqn:v.
  - apply Z.eqb_eq in v. destruct I as [I|I]; [right; auto|left]. split; auto. eapply (stamp_true N); eauto. lia.
  - left. split; [reflexivity|]. apply blank_right, blank_clear.
Qed.

Lemma compiled_right N mm w g s c n r s1 w1 : 0 <= N < TWO32 -> ginv N w g s -> n <> 0 -> admitted g c -> agree_on w g n ->
  compiled w s c n = (r, s1, w1) -> ginv N w1 g s1 /\ same_world w w1 /\ but_missing r (says mm w c n).
Proof.
  intros l I nz ad ag e. pose proof I as (W & A & D & _).
  assert (C : right_entries w g (scache (check_version w s)) /\ sver (check_version w s) = wver w).
  { destruct (checked N w g s l I) as [(a & b)|(a & b)]; [auto|]. split; [now apply blank_right|].
    unfold check_version. destruct (wver w =? sver s) eqn:v; [|reflexivity]. apply Z.eqb_eq in v. auto. }
  destruct C as (R & V). unfold compiled in e. cbv zeta in e. destruct (probe (scache (check_version w s)) n) as [i m|i] eqn:p.
  - destruct (hit (scache (check_version w s)) i m) as [f k] eqn:h. injection e as <- <- <-. destruct (within_hit _ _ _ _ _ h) as (-> & wi).
    apply probe_hit in p. split; [|split; [repeat split|]].
    + split; auto. split; auto. split; auto. right. cbn [sver scache]. rewrite V. apply stamp_now; auto; [lia|]. eapply right_within; eauto.
    + left. unfold says. specialize (R i c). rewrite p in R. now rewrite R.
  - destruct (find_method_right N w c n l W A (D c ad)) as (a1 & a2 & a3 & a4). destruct (find_method w c n) as [q w2]. cbn [fst snd] in *.
    assert (DD : forall c0, admitted g c0 -> defined (ws w2) c0 = true) by (destruct a2 as (x & _); rewrite x; exact D).
    destruct q as [f|]; injection e as <- <- <-; (split; [|split; [exact a2|]]).
    + split; auto. split; auto. split; auto. right. cbn [sver scache]. rewrite V. destruct a2 as (x & y & z). rewrite <- z. apply stamp_now; auto; [lia|].
      intros j c0 b1 b2. destruct (set_slot_at (mkslot n f 1) (scache (check_version w s)) i j) as [q|q]; rewrite q in *; cbn [sname sfid] in *.
      * rewrite (same_dispatch w w2) by (repeat split; auto). rewrite a1. now apply ag.
      * rewrite (same_dispatch w w2) by (repeat split; auto). now apply R.
    + left. unfold says. now rewrite <- a1.
    + split; auto. split; auto. split; auto. right. rewrite V. pose proof a2 as (x & y & z). rewrite <- z. apply stamp_now; auto; [lia|]. eapply right_same; eauto.
    + unfold but_missing, says. rewrite <- a1. destruct (dispatch w mm true anyone c); [right|left]; eauto.
Qed.

Lemma send_at_right N mm w g s c n r s1 w1 : 0 <= N < TWO32 -> ginv N w g s -> n <> 0 -> defined (ws w) c = true -> agree_on w g n ->
  send_at mm g w s c n = (r, s1, w1) -> ginv N w1 g s1 /\ but_missing r (says mm w c n) /\ (~ In (ic_class c) g -> r = says mm w c n).
Proof.
  intros l I nz d ag e. unfold send_at in e. destruct (existsb (Z.eqb (ic_class c)) g) eqn:x.
  - apply in_guard in x. assert (ad : admitted g c) by (split; auto; intros ->; now rewrite bool_undefined in d).
    destruct (compiled_right N mm w g s c n r s1 w1 l I nz ad ag e) as (a & b & b'). split; auto. split; auto. intros []; auto.
  - destruct I as (W & A & D & I). destruct (interpreted_right N mm w c n l W A d) as (a1 & a2 & a3 & a4).
    destruct (interpreted mm w c n) as [q w2]. cbn [fst snd] in *. injection e as <- <- <-. split; [|split; [now left|auto]].
    split; auto. split; auto. split; [destruct a2 as (y & _); rewrite y; exact D|]. destruct I as [I|I]; [now left|right].
    eapply stamp_same; [exact I| |]; [now destruct a2 as (_ & _ & ->)|]. now apply right_same.
Qed.

Lemma sends_right mm (ok : world -> list Z -> Z -> Prop) : (forall w g n, ok w g n -> agree_on w g n) ->
  forall w g s l w2 g2 s2, sends mm ok w g s l w2 g2 s2 -> forall N, 0 <= N -> N + Z.of_nat (length l) < TWO32 -> ginv N w g s ->
  ginv (N + Z.of_nat (length l)) w2 g2 s2.
Proof.
  intros OK w g s l w2 g2 s2 S. induction S as [w g s|w g s o w1 l w2 g2 s2 e S IH|w g s g1 l w2 g2 s2 e S IH|w g s c n r s1 w1 l w2 g2 s2 nz d k e S IH];
    intros N p b I; cbn [length] in *; rewrite ?Nat2Z.inj_succ in *.
  - now rewrite Z.add_0_r.
  - replace (N + Z.succ (Z.of_nat (length l))) with (N + 1 + Z.of_nat (length l)) by lia. apply IH; [lia|lia|].
    destruct I as (W & A & D & I). destruct (mstep_right N w o w1 W A ltac:(lia) e) as (W1 & A1 & _).
    destruct (mstep_version N w o w1 W A ltac:(lia) e) as (K & V). split; auto. split; auto. split; [auto|].
    destruct I as [I|I]; [now left|right]. eapply stamp_step; [exact I|]. destruct V as [V|(V & F)]; [now left|right]. split; auto.
    intros R i c x y. unfold dispatch. rewrite F by auto. now apply R.
  - replace (N + Z.succ (Z.of_nat (length l))) with (N + 1 + Z.of_nat (length l)) by lia. apply IH; [lia|lia|].
    destruct I as (W & A & D & I). split; auto. split; [eapply age_more; [|exact A]; lia|]. split; [|left; apply blank_fresh].
    intros c (x & y). destruct (e _ y) as [z|z].
    + unfold ic_class in z. destruct (c =? TRUE) eqn:c1; [|destruct (c =? FALSE) eqn:c2]; cbn [orb] in z.
      * apply Z.eqb_eq in c1. subst c. apply (w_bool w W).
      * apply Z.eqb_eq in c2. subst c. apply (w_bool w W).
      * contradiction.
    + unfold ic_class in z. destruct (c =? TRUE) eqn:c1; [|destruct (c =? FALSE) eqn:c2]; cbn [orb] in z; auto.
      * apply Z.eqb_eq in c1. subst c. apply (w_bool w W).
      * apply Z.eqb_eq in c2. subst c. apply (w_bool w W).
  - replace (N + Z.succ (Z.of_nat (length l))) with (N + 1 + Z.of_nat (length l)) by lia. apply IH; [lia|lia|].
    destruct (send_at_right N mm w g s c n r s1 w1 ltac:(lia) I nz d (OK _ _ _ k) e) as ((W & A & D & I1) & _). split; auto. split; [eapply age_more; [|exact A]; lia|].
    split; auto. destruct I1 as [I1|I1]; [now left|right]. eapply stamp_more; [|exact I1]. lia.
Qed.

Lemma start_ginv : ginv 0 start [] fresh_site.
Proof. split; [apply start_winv|]. split; [apply start_age|]. split; [intros c (_ & [])|left; apply blank_fresh]. Qed.

Lemma send_right mm l w g s c n r s1 w1 : sends mm agree_on start [] fresh_site l w g s -> Z.of_nat (length l) < TWO32 ->
  n <> 0 -> defined (ws w) c = true -> agree_on w g n -> send_at mm g w s c n = (r, s1, w1) ->
  but_missing r (says mm w c n) /\ (~ In (ic_class c) g -> r = says mm w c n).
Proof.
  intros S b nz d ag e. pose proof (sends_right mm agree_on (fun _ _ _ h => h) _ _ _ _ _ _ _ S 0 ltac:(lia) b start_ginv) as I.
  apply (send_at_right (0 + Z.of_nat (length l)) mm w g s c n r s1 w1); auto. lia.
Qed.

(** One class. *)
Lemma one_agree w k n : k <> BOOL -> agree_on w [k] n.
Proof.
  intros kb c c' (a & b) (a' & b'). assert (X : forall c, c <> BOOL -> In (ic_class c) [k] -> c = k).
  { intros x y [z|[]]. unfold ic_class in z. destruct ((x =? TRUE) || (x =? FALSE)); congruence. }
  now rewrite (X c a b), (X c' a' b').
Qed.
Lemma one_sends mm l : Forall one_class l -> forall w g s w2 g2 s2, sends mm (fun _ _ _ => True) w g s l w2 g2 s2 ->
  (g = [] \/ exists k, g = [k] /\ k <> BOOL) -> sends mm agree_on w g s l w2 g2 s2 /\ (g2 = [] \/ exists k, g2 = [k] /\ k <> BOOL).
Proof.
  intros F w g s w2 g2 s2 S. induction S as [w g s|w g s o w1 l w2 g2 s2 e S IH|w g s g1 l w2 g2 s2 e S IH|w g s c n r s1 w1 l w2 g2 s2 nz d k e S IH]; intros G;
    try (inversion F; subst).
  - split; [constructor|auto].
  - destruct (IH ltac:(auto) G). split; auto. eapply sends_run; eauto.
  - destruct (IH ltac:(auto)) as (a & b); [right; assumption|]. split; auto. eapply sends_compile; eauto.
  - destruct (IH ltac:(auto) G). split; auto. eapply sends_send; eauto. destruct G as [->|(k0 & -> & kb)]; [intros x y (_ & [])|now apply one_agree].
Qed.
Lemma send_one mm l w g s c n r s1 w1 : sends mm (fun _ _ _ => True) start [] fresh_site l w g s -> Forall one_class l ->
  Z.of_nat (length l) < TWO32 -> n <> 0 -> defined (ws w) c = true -> send_at mm g w s c n = (r, s1, w1) ->
  but_missing r (says mm w c n).
Proof.
  intros S F b nz d e. destruct (one_sends mm l F _ _ _ _ _ _ S (or_introl eq_refl)) as (S' & G).
  eapply (send_right mm l w g s c n r s1 w1); eauto. destruct G as [->|(k0 & -> & kb)]; [intros x y (_ & [])|now apply one_agree].
Qed.
