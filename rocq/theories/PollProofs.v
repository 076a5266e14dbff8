(** * Proofs for C28 and C29 *)
From Coq Require Import ZArith Bool List Arith Lia.
From Verif Require Import PollModel PollSpec.
Import ListNotations.
Local Open Scope Z_scope.

(** ** The lanes *)
Lemma lane_false w m : lane_set w m = false <-> Z.land w m = 0.
Proof. unfold lane_set. destruct (Z.eqb_spec (Z.land w m) 0); split; intros; try easy. Qed.
Lemma lane_true w m : lane_set w m = true <-> Z.land w m <> 0.
Proof. unfold lane_set. destruct (Z.eqb_spec (Z.land w m) 0); split; intros; try easy. Qed.
Lemma set_same w l m : Z.land l m <> 0 -> lane_set (set_lane w l) m = true.
Proof.
  intros H. apply lane_true. unfold set_lane. rewrite Z.land_lor_distr_l. intros C.
  apply Z.lor_eq_0_iff in C. easy.
Qed.
Lemma set_other w l m : Z.land l m = 0 -> lane_set (set_lane w l) m = lane_set w m.
Proof. intros H. unfold lane_set, set_lane. rewrite Z.land_lor_distr_l, H, Z.lor_0_r. reflexivity. Qed.
Lemma clear_same w m : lane_set (clear_lane w m) m = false.
Proof.
  apply lane_false. unfold clear_lane. apply Z.bits_inj'. intros i Hi.
  rewrite Z.land_spec, Z.ldiff_spec, Z.bits_0 by lia.
  destruct (Z.testbit w i), (Z.testbit m i); reflexivity.
Qed.
Lemma clear_other w m m' : Z.land m m' = 0 -> lane_set (clear_lane w m) m' = lane_set w m'.
Proof.
  intros H. unfold lane_set, clear_lane. do 2 f_equal. apply Z.bits_inj'. intros i Hi.
  rewrite !Z.land_spec, Z.ldiff_spec by lia.
  assert (E : Z.testbit m i && Z.testbit m' i = false) by (rewrite <- Z.land_spec, H; apply Z.bits_0).
  destruct (Z.testbit w i), (Z.testbit m i), (Z.testbit m' i); try reflexivity; discriminate.
Qed.
Lemma lane_nonzero w m : lane_set w m = true -> w <> 0.
Proof. intros H ->. rewrite lane_true in H. now rewrite Z.land_0_l in H. Qed.

(** Each operation sets or clears its own lane and leaves the other two. *)
Lemma lanes_ok w :
  (lane_set (set_lane w GC_LANE) GC_MASK = true /\
   lane_set (set_lane w GC_LANE) PREEMPT_MASK = lane_set w PREEMPT_MASK /\
   lane_set (set_lane w GC_LANE) SIGNAL_MASK = lane_set w SIGNAL_MASK) /\
  (lane_set (set_lane w PREEMPT_LANE) PREEMPT_MASK = true /\
   lane_set (set_lane w PREEMPT_LANE) GC_MASK = lane_set w GC_MASK /\
   lane_set (set_lane w PREEMPT_LANE) SIGNAL_MASK = lane_set w SIGNAL_MASK) /\
  (lane_set (set_lane w SIGNAL_LANE) SIGNAL_MASK = true /\
   lane_set (set_lane w SIGNAL_LANE) GC_MASK = lane_set w GC_MASK /\
   lane_set (set_lane w SIGNAL_LANE) PREEMPT_MASK = lane_set w PREEMPT_MASK) /\
  (lane_set (clear_lane w GC_MASK) GC_MASK = false /\
   lane_set (clear_lane w GC_MASK) PREEMPT_MASK = lane_set w PREEMPT_MASK /\
   lane_set (clear_lane w GC_MASK) SIGNAL_MASK = lane_set w SIGNAL_MASK) /\
  (lane_set (clear_lane w PREEMPT_MASK) PREEMPT_MASK = false /\
   lane_set (clear_lane w PREEMPT_MASK) GC_MASK = lane_set w GC_MASK /\
   lane_set (clear_lane w PREEMPT_MASK) SIGNAL_MASK = lane_set w SIGNAL_MASK) /\
  (lane_set (clear_lane w SIGNAL_MASK) SIGNAL_MASK = false /\
   lane_set (clear_lane w SIGNAL_MASK) GC_MASK = lane_set w GC_MASK /\
   lane_set (clear_lane w SIGNAL_MASK) PREEMPT_MASK = lane_set w PREEMPT_MASK).
Proof.
  repeat split;
  first [ apply set_same; discriminate | apply set_other; reflexivity
        | apply clear_same | apply clear_other; reflexivity ].
Qed.
Ltac lanes w := pose proof (lanes_ok w) as ((?&?&?)&(?&?&?)&(?&?&?)&(?&?&?)&(?&?&?)&(?&?&?)).

(** ** Signal numbers *)
Lemma ctz_spec p : Z.testbit (Zpos p) (Z.of_nat (ctz p)) = true /\
  forall i, (i < ctz p)%nat -> Z.testbit (Zpos p) (Z.of_nat i) = false.
Proof.
  induction p as [p IH|p IH|]; cbn [ctz].
  - split; [reflexivity|lia].
  - destruct IH as [A B]. split.
    + rewrite Nat2Z.inj_succ. rewrite Pos2Z.inj_xO, Z.testbit_even_succ by lia. exact A.
    + intros [|i] Hi; [reflexivity|]. rewrite Nat2Z.inj_succ.
      rewrite Pos2Z.inj_xO, Z.testbit_even_succ by lia. apply B. lia.
  - split; [reflexivity|lia].
Qed.
Lemma lowest_bit p n : lowest p = Some n -> (1 <= n)%nat /\ Z.testbit p (Z.of_nat n - 1) = true /\
  forall m, (1 <= m < n)%nat -> Z.testbit p (Z.of_nat m - 1) = false.
Proof.
  destruct p as [|q|q]; cbn [lowest]; intros H; try discriminate.
  assert (n = S (ctz q)) as -> by congruence. clear H.
  destruct (ctz_spec q) as [A B]. split; [lia|]. split.
  - rewrite Nat2Z.inj_succ. replace (Z.succ _ - 1) with (Z.of_nat (ctz q)) by lia. exact A.
  - intros m Hm. replace (Z.of_nat m - 1) with (Z.of_nat (m - 1)) by lia. apply B. lia.
Qed.
Lemma lowest_none p : 0 <= p -> lowest p = None -> p = 0.
Proof. destruct p; cbn; intros; try easy; lia. Qed.
Lemma record_bit p n m : (1 <= n)%nat -> (1 <= m)%nat ->
  Z.testbit (record p n) (Z.of_nat m - 1) = Z.testbit p (Z.of_nat m - 1) || Nat.eqb m n.
Proof.
  intros Hn Hm. unfold record. rewrite Z.lor_spec. f_equal.
  rewrite Z.pow2_bits_eqb by lia.
  destruct (Nat.eqb_spec m n); destruct (Z.eqb_spec (Z.of_nat n - 1) (Z.of_nat m - 1)); try reflexivity; lia.
Qed.
Lemma record_nonneg p n : 0 <= p -> 0 <= record p n.
Proof. intros. unfold record. apply Z.lor_nonneg. split; [easy|]. apply Z.pow_nonneg. lia. Qed.

(** ** Invariants *)
Lemma upd_same {A} (g : nat -> A) k v : upd g k v k = v.
Proof. unfold upd. now rewrite Nat.eqb_refl. Qed.
Lemma upd_other {A} (g : nat -> A) k v j : j <> k -> upd g k v j = g j.
Proof. unfold upd. destruct (Nat.eqb_spec j k); easy. Qed.

Ltac inv_some E s' := match type of E with Some ?y = _ => assert (s' = y) as -> by congruence; clear E end.

(** A step, case by case. *)
Ltac cases E s' :=
  match type of E with step ?s ?l = _ =>
    destruct l as [ | |n| |n q|f|f c]; cbn [step] in E;
    [ inv_some E s' | inv_some E s' | inv_some E s'
    | destruct (arming s) as [|k] eqn:AR; [discriminate|]; inv_some E s' | inv_some E s'
    | destruct (frames s f) eqn:FR; try discriminate; destruct (Z.eqb_spec (word s) 0) as [W|W]; [discriminate|]; inv_some E s'
    | unfold poll_step in E; destruct (frames s f) as [ | | |b|b|b|b p|b p d0|b n d0|b d0|b|b|b] eqn:FR; [discriminate| | | | | | | | | | | | ];
      [ inv_some E s' | inv_some E s' | inv_some E s' | inv_some E s' | inv_some E s' | inv_some E s'
      | destruct (lowest p) as [n|] eqn:LO; [destruct (trap s n) eqn:TR|]; inv_some E s'
      | inv_some E s' | inv_some E s' | inv_some E s' | inv_some E s' | inv_some E s' ] ]
  end.

Lemma gc_kept ok s d : history ok s d -> gcreq d = true -> gc_lane s = true.
Proof.
  intros H. induction H as [|s d l s' H IH O E]; [easy|].
  unfold gc_lane in *. lanes (word s).
  cases E s'; cbn [account] in *; rewrite ?FR, ?LO, ?TR in *; cbn [gcreq word set_word set_frame] in *;
    try (destruct b); cbn [gcreq] in *; intros; try easy; try congruence; try (now rewrite ?H0 ; auto); auto;
    try (intuition congruence).
  all: destruct (stress c); cbn [gcreq word set_word set_frame] in *; intuition congruence.
Qed.

Lemma sig_kept ok s d : history ok s d -> pend s <> 0 ->
  signal_lane s = true \/ (0 < arming s)%nat \/ exists f b, frames s f = Drain b.
Proof.
  intros H. induction H as [|s d l s' H IH O E]; [easy|].
  unfold signal_lane in *. lanes (word s).
  cases E s'; cbn [word pend arming frames set_word set_frame] in *; intros P;
    try (right; left; lia); try (left; assumption);
    try (now left; intuition congruence);
    try (right; right; exists f, b; apply upd_same);
    try easy;
    try (destruct (stress c); cbn [word pend arming frames set_word set_frame] in *);
    (destruct (IH P) as [L|[L|(g & bb & L)]];
     [left; congruence | right; left; lia | right; right; exists g, bb; rewrite ?upd_other; auto; intros ->; congruence]).
Qed.

Lemma tick_kept s d : history no_raise s d -> tick d = true ->
  preempt_lane s = true \/ exists f, carries (frames s f) = true.
Proof.
  intros H. induction H as [|s d l s' H IH O E]; [easy|].
  unfold preempt_lane in *. lanes (word s).
  assert (K : forall f q, (carries (frames s f) = true -> carries q = true) -> (exists g, carries (frames s g) = true) ->
     exists g, carries (upd (frames s) f q g) = true).
  { intros f q A (g & B). destruct (Nat.eq_dec g f) as [->|N].
    - exists f. rewrite upd_same. auto.
    - exists g. now rewrite upd_other. }
  cases E s'; cbn [account no_raise] in *; rewrite ?FR, ?LO, ?TR in *; cbn [tick word frames set_word set_frame] in *; intros T.
  - now left.
  - destruct (IH T); [left; congruence|now right].
  - destruct (IH T); auto.
  - destruct (IH T); [left; congruence|now right].
  - destruct (IH T); auto.
  - destruct (IH T); auto. right. apply K; auto. rewrite FR. easy.
  - destruct (IH T) as [L|L].
    + left. exact L.
    + right. apply K; auto. now rewrite FR.
  - right. exists f. now rewrite upd_same.
  - destruct (IH T); auto. right. apply K; auto. rewrite FR. cbn. intros ->. now destruct (delivery c).
  - destruct (IH T); [left; congruence|]. right. apply K; auto. rewrite FR. now cbn.
  - destruct (IH T); auto. right. apply K; auto. rewrite FR. now cbn.
  - destruct (IH T); auto. right. apply K; auto. rewrite FR. now cbn.
  - destruct (IH T); auto. right. apply K; auto. rewrite FR. now cbn.
  - destruct (IH T); auto. right. apply K; auto. rewrite FR. cbn. intros ->. congruence.
  - destruct (IH T); auto. right. apply K; auto. rewrite FR. now cbn.
  - destruct (IH T); auto. right. apply K; auto. rewrite FR. now cbn.
  - destruct (IH T); auto. right. apply K; auto. rewrite FR. cbn. intros ->. now rewrite O.
  - destruct (IH T); auto. right. apply K; auto. rewrite FR. cbn. intros ->. now destruct (lane_set _ _ && _).
  - destruct (IH T); [left; congruence|]. right. apply K; auto. rewrite FR. now cbn.
  - destruct (stress c); cbn [tick word frames set_word set_frame] in *;
    (destruct (IH T); [left; congruence|]; right; apply K; auto; rewrite FR; now cbn).
  - destruct b; cbn [tick] in T; [discriminate|].
    destruct (IH T); auto. right. apply K; auto. rewrite FR. now cbn.
Qed.

Definition hand_ok (q : pc) : Prop := match q with Chk _ p | Disp _ p _ => 0 <= p | _ => True end.
Lemma nonneg ok s d : history ok s d -> 0 <= pend s /\ forall f, hand_ok (frames s f).
Proof.
  intros H. induction H as [|s d l s' H [IH1 IH2] O E]; [cbn; split; [lia|easy]|].
  assert (K : forall f q, hand_ok q -> forall g, hand_ok (upd (frames s) f q g)).
  { intros f q A g. destruct (Nat.eq_dec g f) as [->|N]; [now rewrite upd_same|rewrite upd_other; auto]. }
  cases E s'; cbn [word pend frames set_word set_frame] in *;
   (split; [try assumption; try lia | try exact IH2; try (apply K; cbn; try easy)]).
  - destruct (known n); auto using record_nonneg.
  - now destruct (lane_set _ _).
  - destruct (delivery c); cbn; lia.
  - specialize (IH2 f). now rewrite FR in IH2.
  - now destruct (raises c).
  - now destruct (lane_set _ _ && _).
  - now destruct (stress c).
  - destruct (stress c); cbn [frames set_word]; apply K; easy.
Qed.

(** Signals. *)
Lemma owed_kept sg s d : (1 <= sg <= 32)%nat -> history (trapped_alone sg) s d -> owed d sg = true ->
  trap s sg = TCall /\ (pending s sg = true \/ exists f, in_hand (frames s f) sg = true).
Proof.
  intros HN H. induction H as [|s d l s' H IH O E]; [easy|].
  unfold pending in *.
  assert (K : forall f q, (in_hand (frames s f) sg = true -> in_hand q sg = true) -> (exists g, in_hand (frames s g) sg = true) ->
     exists g, in_hand (upd (frames s) f q g) sg = true).
  { intros f q A (g & B). destruct (Nat.eq_dec g f) as [->|N].
    - exists f. rewrite upd_same. auto.
    - exists g. now rewrite upd_other. }
  destruct (nonneg _ _ _ H) as [NN NF].
  cases E s'; cbn [account trapped_alone] in *; rewrite ?FR, ?LO, ?TR in *; cbn [owed word pend trap frames set_word set_frame] in *; intros T;
    try (destruct (IH T) as (T1 & [T2|T2]); split; auto; fail);
    try (destruct (IH T) as (T1 & [T2|T2]); split; auto; right; apply K; auto; rewrite FR; cbn; easy).
  - destruct (Nat.eq_dec sg n) as [->|N].
    + split; [now apply O|]. left. unfold known. destruct (Nat.leb_spec 1 n), (Nat.leb_spec n 32); try lia. cbn.
      rewrite record_bit, Nat.eqb_refl, orb_true_r by lia. reflexivity.
    + rewrite upd_other in T by easy. destruct (IH T) as (T1 & T2). split; auto. destruct T2 as [T2|T2]; auto. left.
      destruct (known n) eqn:KN; [|easy]. unfold known in KN. apply andb_prop in KN as [K1 K2]. apply Nat.leb_le in K1, K2.
      rewrite record_bit, T2 by lia. reflexivity.
  - destruct (IH T) as (T1 & T2). split; auto. destruct (Nat.eq_dec sg n) as [->|N]; [rewrite upd_same; auto|].
    rewrite upd_other by easy. auto.
  - destruct (IH T) as (T1 & T2). split; auto. right. destruct T2 as [T2|(g & T2)].
    + exists f. rewrite upd_same. exact T2.
    + exists g. rewrite upd_other; [exact T2|]. intros ->. now rewrite FR in T2.
  - destruct (Nat.eq_dec sg n) as [->|N]; [now rewrite upd_same in T|]. rewrite upd_other in T by easy.
    destruct (IH T) as (T1 & [T2|T2]); split; auto. right. apply K; auto. rewrite FR. cbn. intros C.
    specialize (O C). congruence.
  - destruct (IH T) as (T1 & [T2|T2]); split; auto. right. apply K; auto. rewrite FR. cbn. intros C.
    specialize (O C). congruence.
  - destruct (IH T) as (T1 & [T2|T2]); split; auto. right. apply K; auto. rewrite FR. cbn. intros C.
    specialize (O C). congruence.
  - destruct (IH T) as (T1 & [T2|T2]); split; auto. right. apply K; auto. rewrite FR. cbn. intros C.
    specialize (O C). congruence.
  - destruct (stress c); cbn in *; destruct (IH T) as (T1 & [T2|T2]); split; auto; right; apply K; auto; rewrite FR; easy.
  - destruct b; cbn in *; destruct (IH T) as (T1 & [T2|T2]); split; auto; right; apply K; auto; rewrite FR; easy.
Qed.

(** ** A whole poll *)
Ltac one :=
  cbn [repeat steps step]; unfold poll_step; cbn [frames set_frame set_word word pend trap arming called];
  rewrite ?upd_same.
Lemma poll_signal s f c n : frames s f = Idle -> word s <> 0 -> delivery c = true ->
  lowest (pend s) = Some n -> trap s n = TCall ->
  exists k s', steps s (whole f c k) = Some s' /\ called s' = n :: called s /\ pend s' = 0.
Proof.
  intros F W D L T. unfold whole. 
  destruct (lane_set (word s) PREEMPT_MASK) eqn:P.
  - exists 7%nat. one. rewrite F. destruct (Z.eqb_spec (word s) 0); [easy|]. 
    do 8 (one; rewrite ?P, ?D, ?L, ?T). eexists. split; [reflexivity|]. now cbn.
  - exists 6%nat. one. rewrite F. destruct (Z.eqb_spec (word s) 0); [easy|].
    do 7 (one; rewrite ?P, ?D, ?L, ?T). eexists. split; [reflexivity|]. now cbn.
Qed.

(** The poll up to the collection: the local `preempt` and the lanes it leaves. *)
Lemma poll_to_gcq s f c : frames s f = Idle -> word s <> 0 -> 0 <= pend s -> fine s c ->
  exists k s', steps s (whole f c k) = Some s' /\
    frames s' f = GcQ (preempt_lane s) (negb (delivery c) && negb (Z.eqb (pend s) 0)) /\
    preempt_lane s' = false /\ gc_lane s' = gc_lane s.
Proof.
  intros F W N FI. unfold whole, preempt_lane, gc_lane, fine in *. pose proof (lanes_ok (word s)) as L0.
  pose proof (lanes_ok (clear_lane (word s) PREEMPT_MASK)) as L1.
  destruct (Z.eqb_spec (word s) 0) as [|_]; [easy|].
  assert (WZ : Z.eqb (word s) 0 = false) by now apply Z.eqb_neq.
  destruct (delivery c) eqn:D.
  - destruct FI as [FI|FI]; [discriminate|]. destruct (lowest (pend s)) as [n|] eqn:L.
    + destruct FI as [FI R]. destruct (trap s n) eqn:T; [|easy|].
      * destruct (lane_set (word s) PREEMPT_MASK) eqn:P; [exists 8%nat|exists 7%nat];
        (one; rewrite F, WZ; do 8 (one; rewrite ?P, ?D, ?L, ?T, ?R); eexists; split; [reflexivity|]; one;
         assert (Z.eqb (pend s) 0 = false) as -> by (apply Z.eqb_neq; intros Q; rewrite Q in L; discriminate);
         cbn; intuition congruence).
      * destruct (lane_set (word s) PREEMPT_MASK) eqn:P; [exists 7%nat|exists 6%nat];
        (one; rewrite F, WZ; do 8 (one; rewrite ?P, ?D, ?L, ?T, ?R); eexists; split; [reflexivity|]; one;
         assert (Z.eqb (pend s) 0 = false) as -> by (apply Z.eqb_neq; intros Q; rewrite Q in L; discriminate);
         cbn; intuition congruence).
    + pose proof (lowest_none _ N L) as PZ.
      destruct (lane_set (word s) PREEMPT_MASK) eqn:P; [exists 7%nat|exists 6%nat];
        (one; rewrite F, WZ; do 8 (one; rewrite ?P, ?D, ?L); eexists; split; [reflexivity|]; one;
         rewrite PZ; cbn; intuition congruence).
  - destruct (lane_set (word s) PREEMPT_MASK) eqn:P; [exists 5%nat|exists 4%nat];
      (one; rewrite F, WZ; do 6 (one; rewrite ?P, ?D; cbn [lowest]); eexists; split; [reflexivity|]; one;
       cbn; intuition congruence).
Qed.

Lemma repeat_snoc {A} (x : A) k : repeat x (S k) = repeat x k ++ [x].
Proof. induction k; [reflexivity|]. cbn [repeat] in *. now rewrite IHk at 1. Qed.
Lemma steps_app s a b : steps s (a ++ b) = match steps s a with Some s' => steps s' b | None => None end.
Proof. revert s. induction a as [|l a IH]; intros s; cbn; [reflexivity|]. destruct (step s l); auto. Qed.
Lemma whole_more s f c k s1 s2 : steps s (whole f c k) = Some s1 -> step s1 (Step f c) = Some s2 ->
  steps s (whole f c (S k)) = Some s2.
Proof.
  intros A B. unfold whole in *. rewrite repeat_snoc, app_comm_cons, steps_app, A. cbn [steps]. now rewrite B.
Qed.

Lemma poll_gc s f c : frames s f = Idle -> 0 <= pend s -> gc_lane s = true -> fine s c ->
  delivery c = true \/ pend s = 0 ->
  exists k s', steps s (whole f c k) = Some s' /\ frames s' f = Coll (preempt_lane s).
Proof.
  intros F N G FI D. destruct (poll_to_gcq s f c F (lane_nonzero _ _ G) N FI) as (k & s1 & A & B & _ & C).
  exists (S k). eexists. split.
  - eapply whole_more; [exact A|]. cbn [step]. unfold poll_step. rewrite B. reflexivity.
  - cbn [frames set_frame]. rewrite upd_same. unfold gc_lane in *. rewrite C, G.
    assert (negb (delivery c) && negb (pend s =? 0) = false) as ->.
    { destruct D as [->| ->]; [reflexivity|]. now rewrite andb_false_r. }
    reflexivity.
Qed.
Lemma poll_preempt s f c : frames s f = Idle -> 0 <= pend s -> preempt_lane s = true -> fine s c ->
  exists k s', steps s (whole f c k) = Some s' /\ frames s' f = End true.
Proof.
  intros F N P FI. destruct (poll_to_gcq s f c F (lane_nonzero _ _ P) N FI) as (k & s1 & A & B & _ & C).
  rewrite P in B. set (d := negb (delivery c) && negb (pend s =? 0)) in *. clearbody d.
  destruct (lane_set (word s1) GC_MASK && negb d) eqn:G.
  - exists (S (S (S k))). eexists. split.
    + eapply whole_more; [eapply whole_more; [eapply whole_more; [exact A|]|]|].
      * cbn [step]. unfold poll_step. rewrite B, G. reflexivity.
      * cbn [step]. unfold poll_step. cbn [frames set_frame]. rewrite upd_same. reflexivity.
      * cbn [step]. unfold poll_step. cbn [frames set_frame]. rewrite upd_same. reflexivity.
    + cbn [frames set_frame]. now rewrite upd_same.
  - exists (S k). eexists. split.
    + eapply whole_more; [exact A|]. cbn [step]. unfold poll_step. rewrite B, G. reflexivity.
    + cbn [frames set_frame]. now rewrite upd_same.
Qed.

(** ** Counterexamples *)
Fixpoint accounts (s : state) (d : debt) (ls : list label) : debt :=
  match ls with
  | [] => d
  | l :: ls => match step s l with Some s' => accounts s' (account s l d) ls | None => d end
  end.
Lemma history_steps (ok : state -> label -> Prop) ls : forall s d s', (forall s l, ok s l) -> history ok s d ->
  steps s ls = Some s' -> history ok s' (accounts s d ls).
Proof.
  induction ls as [|l ls IH]; intros s d s' O H E; cbn in *; [congruence|].
  destruct (step s l) eqn:Q; [|discriminate]. eapply IH; eauto. econstructor; eauto.
Qed.
Definition c0 : choice := Ch true false false.

(** SIGINT arrives before the tick is seen: the poll takes the tick and raises. *)
Definition lost_tick : list label := [Signal 2; Arm; Tick] ++ whole 0 c0 7.
Lemma lost_tick_bad : exists s d, history any_step s d /\ tick d = true /\ quiet s.
Proof.
  destruct (steps init lost_tick) as [s|] eqn:E; [|vm_compute in E; discriminate].
  exists s, (accounts init (D false false (fun _ => false)) lost_tick). split; [|split].
  - apply history_steps; [easy|constructor|exact E].
  - vm_compute. reflexivity.
  - unfold lost_tick in E. cbn -[Z.eqb lane_set clear_lane set_lane lowest record] in E.
    vm_compute in E. inversion E; subst s. repeat split. intros f. cbn.
    destruct f as [|f]; reflexivity.
Qed.

(** USR1 and USR2 arrive before the poll. *)
Definition lost_signal : list label :=
  [Trap 10 TCall; Trap 12 TCall; Signal 10; Arm; Signal 12; Arm] ++ whole 0 c0 9.
Lemma lost_signal_bad : exists s d, history any_step s d /\ owed d 12 = true /\ trap s 12 = TCall /\
  called s = [10%nat] /\ quiet s.
Proof.
  destruct (steps init lost_signal) as [s|] eqn:E; [|vm_compute in E; discriminate].
  exists s, (accounts init (D false false (fun _ => false)) lost_signal). split; [|split].
  - apply history_steps; [easy|constructor|exact E].
  - vm_compute. reflexivity.
  - vm_compute in E. inversion E; subst s. repeat split. intros f. cbn.
    destruct f as [|f]; reflexivity.
Qed.
