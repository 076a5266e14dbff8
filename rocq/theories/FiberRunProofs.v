(** Each operation, and whole histories. *)
From Coq Require Import List Bool Arith ZArith Lia.
From Verif Require Import FiberModel FiberSpec FiberProofs FiberStepProofs FiberSwitchProofs.
Import ListNotations.

(** Fields that links do not use. *)
Lemma same_ok : forall m s L o m' s', Inv m s L o ->
  count m' = count m -> cur m' = cur m -> scount s' = scount s -> scur s' = scur s -> transfers s' = transfers s -> inners s' = inners s ->
  (forall x, ret (fib m' x) = ret (fib m x)) ->
  (forall x, prev (sfib s' x) = prev (sfib s x) /\ waits (sfib s' x) = waits (sfib s x) /\ yielding (sfib s' x) = yielding (sfib s x) /\ call (sfib s' x) = call (sfib s x)
             /\ aimed (sfib s' x) = aimed (sfib s x) /\ inner (sfib s' x) = inner (sfib s x)) ->
  (forall x, sst (sfib s' x) = sst (sfib s x) \/ sst (sfib s x) = Created /\ sst (sfib s' x) = Done) ->
  (forall x, killed (sfib s' x) = true -> sst (sfib s' x) = Live -> x = scur s) ->
  (forall x, rel m' s' x) ->
  Inv m' s' L o.
Proof.
  intros m s L o m' s' H C1 C2 C3 C4 C5 C6 R E S K RL.
  assert (forall x, sst (sfib s' x) = Live -> sst (sfib s x) = Live) as SL. { intros x Q. destruct (S x) as [Z|[_ Z]]; congruence. }
  assert (forall l, linked m s l -> linked m' s' l) as LE.
  { intros l. apply linked_ext; intros x _; destruct (E x) as (E1 & E2 & E3 & E4 & E5 & E6); rewrite ?R, ?E1, ?E2, ?E4; split; reflexivity. }
  destruct H as [H1 H2 H3 H4 H5 H6 H7 H8 H9 H10 H11 H12 H13 H14 H15 H16 H17 H18 H19 H20].
  constructor; rewrite ?C1, ?C2, ?C3, ?C4, ?C5, ?C6; try assumption.
  - apply LE. exact H5.
  - rewrite (proj1 (proj2 (E _))). exact H6.
  - destruct o as [A|]; [|exact H7]. rewrite R, (proj1 (proj2 (E _))). destruct H7 as (a & b & c). split; [exact a|]. split; [apply LE; exact b|exact c].
  - rewrite (proj1 (E _)). exact H8.
  - rewrite (proj1 (E _)). exact H9.
  - intros x Hx. destruct (H11 x Hx) as (a & b & c). destruct (E x) as (E1 & E2 & E3 & E4 & E5 & E6). rewrite E3. split; [exact a|]. split; [|exact c].
    destruct (S x) as [Z|[Z _]]; congruence.
  - intros x Hx. destruct (E x) as (E1 & E2 & E3 & E4 & E5 & E6). rewrite E1, E2. exact (H12 x Hx).
  - intros T. destruct (H15 T) as [a b]. split; [exact a|]. intros x Q. destruct (E x) as (E1 & E2 & E3 & E4 & E5 & E6). rewrite E3. exact (b x (SL x Q)).
  - intros x. destruct (E x) as (E1 & E2 & E3 & E4 & E5 & E6). rewrite E6. exact (H17 x).
  - intros x Hx Q. destruct (E x) as (E1 & E2 & E3 & E4 & E5 & E6). rewrite E3, E5. exact (H18 x Hx (SL x Q)).
  - intros Q. destruct (E (last L 0)) as (E1 & E2 & E3 & E4 & E5 & E6). rewrite E5. exact (H19 Q).
  - destruct (E 0) as (E1 & E2 & E3 & E4 & E5 & E6). rewrite E6. exact H20.
Qed.
Lemma kill_self : forall m s L o, Inv m s L o -> Inv (on m (scur s) (set_kld true)) (son s (scur s) (s_killed true)) L o.
Proof.
  intros m s L o H. apply (same_ok m s); try reflexivity; [exact H| | | | |].
  - intros x. un. ev. destruct (Nat.eqb_spec x (scur s)) as [->|]; reflexivity.
  - intros x. un. ev. destruct (Nat.eqb_spec x (scur s)) as [->|]; repeat split; reflexivity.
  - intros x. left. un. ev. destruct (Nat.eqb_spec x (scur s)) as [->|]; reflexivity.
  - intros x. un. ev. destruct (Nat.eqb_spec x (scur s)) as [->|]; [reflexivity|]. exact (i_kill _ _ _ _ H x).
  - intros x. destruct (i_rel _ _ _ _ H x) as [R1 R2 R3 R4 R5 R6 R7 R8 R9 R10 R11 R12].
    destruct (cur_in _ _ _ _ H) as [Hc _]. pose proof (i_in _ _ _ _ H (scur s) (in_or_app _ _ _ (or_introl Hc))) as (IC1 & IC2 & IC3).
    un. constructor; ev; destruct (Nat.eqb_spec x (scur s)) as [->|]; ev; try assumption; try reflexivity. congruence.
Qed.
Lemma kill_created : forall m s L o f, Inv m s L o -> sst (sfib s f) = Created -> Inv (on m f (set_st Done)) (son s f (s_st Done)) L o.
Proof.
  intros m s L o f H C. apply (same_ok m s); try reflexivity; [exact H| | | | |].
  - intros x. un. ev. destruct (Nat.eqb_spec x f) as [->|]; reflexivity.
  - intros x. un. ev. destruct (Nat.eqb_spec x f) as [->|]; repeat split; reflexivity.
  - intros x. un. ev. destruct (Nat.eqb_spec x f) as [->|]; [right; split; [exact C|reflexivity]|left; reflexivity].
  - intros x. un. ev. destruct (Nat.eqb_spec x f) as [->|]; [discriminate|]. exact (i_kill _ _ _ _ H x).
  - intros x. destruct (i_rel _ _ _ _ H x) as [R1 R2 R3 R4 R5 R6 R7 R8 R9 R10 R11 R12].
    un. constructor; ev; destruct (Nat.eqb_spec x f) as [->|]; ev; try assumption; try reflexivity; try (intros; discriminate).
    + intros Q. contradiction Q. reflexivity.
    + intros _. apply R11. congruence.
Qed.
Lemma make_ok : forall m s L o i, Inv m s L o -> i && transfers s = false -> good (make m i) (sstep s (ONew i)).
Proof.
  intros m s L o i H Hi. destruct (cur_in _ _ _ _ H) as [Hc _]. pose proof (i_in _ _ _ _ H (scur s) (in_or_app _ _ _ (or_introl Hc))) as (IC1 & IC2 & IC3).
  unfold sstep. cbn [named]. assert (0 <? scount s = true) as -> by (apply Nat.ltb_lt; lia).
  unfold good, make. cbn [fst snd]. rewrite (i_cnt _ _ _ _ H), (i_cur _ _ _ _ H). split; [reflexivity|]. split; [discriminate|]. exists L, o.
  assert (forall x, In x (L ++ opt o) -> (x =? scount s) = false) as NX by (intros x Hx; apply Nat.eqb_neq; pose proof (proj1 (i_in _ _ _ _ H x Hx)); lia).
  assert (root_of m = 0 \/ inners s = true) as RO.
  { destruct (inners s) eqn:Q; [right; reflexivity|left]. unfold root_of. rewrite (i_cur _ _ _ _ H).
    rewrite (r_root _ _ _ (i_rel _ _ _ _ H (scur s)) Q IC1). destruct (Nat.eqb_spec (scur s) 0) as [E|E]; [exact E|reflexivity]. }
  match goal with |- Inv ?M ?S _ _ => set (m' := M); set (s' := S) end.
  assert (forall x, fib m' x = if x =? scount s then mkF Created None None None false false false None (if i then None else Some (root_of m)) i WNone else fib m x) as Hm by reflexivity.
  assert (forall x, sfib s' x = if x =? scount s then mkG Created None None false false (0, false) false i else sfib s x) as Hs by reflexivity.
  assert (forall l, (forall x, In x l -> In x (L ++ opt o)) -> linked m s l -> linked m' s' l) as LE.
  { intros l Q. apply linked_ext; intros x Hx.
    - rewrite Hm, Hs, (NX x (Q x Hx)). split; reflexivity.
    - assert (In x l) as Hl by (destruct l; [exact Hx|right; exact Hx]). rewrite Hs, (NX x (Q x Hl)). split; reflexivity. }
  assert (In (last L 0) L) as LaI. { destruct (@exists_last _ L (i_ne _ _ _ _ H)) as (l' & a & ->). rewrite last_last. apply in_or_app. right. left. reflexivity. }
  destruct (rstack_linked _ _ _ _ H) as (_ & _ & I0 & Inc & _). pose proof (Inc 0 I0) as I0'.
  assert (In (hd 0 L) L) as HhL by (pose proof (i_ne _ _ _ _ H) as Q; destruct L; [contradiction|left; reflexivity]).
  destruct H as [H1 H2 H3 H4 H5 H6 H7 H8 H9 H10 H11 H12 H13 H14 H15 H16 H17 H18 H19 H20].
  constructor; try assumption; try reflexivity.
  - apply LE; [intros x Hx; apply in_or_app; left; exact Hx|exact H5].
  - rewrite Hs, (NX _ (in_or_app _ _ _ (or_introl HhL))). exact H6.
  - destruct o as [A|]; [|exact H7]. destruct H7 as (a & b & c & d & e). cbn [opt] in *.
    assert (In (hd 0 A) A) as Hh by (destruct A; [contradiction|left; reflexivity]).
    split; [exact a|]. split; [apply LE; [intros x Hx; apply in_or_app; right; exact Hx|exact b]|].
    split; [rewrite Hs, (NX _ (in_or_app _ _ _ (or_intror Hh))); exact c|]. split; [exact d|]. rewrite Hm, (NX _ (in_or_app _ _ _ (or_introl LaI))). exact e.
  - rewrite Hs, (NX 0 I0'). exact H8.
  - rewrite Hs, (NX _ (in_or_app _ _ _ (or_introl LaI))). exact H9.
  - intros x Hx. rewrite Hs, (NX x Hx). destruct (H11 x Hx) as (a & b & c). split; [cbn; lia|split; assumption].
  - intros x Hx. rewrite Hs. destruct (x =? scount s); [split; reflexivity|exact (H12 x Hx)].
  - intros x. rewrite Hs. destruct (x =? scount s); [discriminate|exact (H13 x)].
  - intros x. destruct (H14 x) as [R1 R2 R3 R4 R5 R6 R7 R8 R9 R10 R11 R12]. destruct (Nat.eqb_spec x (scount s)) as [->|E].
    + constructor; rewrite ?Hm, ?Hs, ?Nat.eqb_refl; cbn; try reflexivity; try discriminate.
      intros Q _. apply orb_false_iff in Q. destruct Q as [-> Q]. destruct RO as [->|RO]; [|congruence].
      destruct (scount s =? 0) eqn:Z; [apply Nat.eqb_eq in Z; lia|reflexivity].
    + apply Nat.eqb_neq in E. constructor; rewrite ?Hm, ?Hs, ?E; try assumption.
      cbn [inners scount s']. intros Q W. apply orb_false_iff in Q. destruct Q as [_ Q]. apply (R10 Q). apply Nat.eqb_neq in E. lia.
  - cbn [transfers s']. intros T. destruct (H15 T) as [a b]. split; [exact a|]. intros x. rewrite Hs. destruct (x =? scount s); [discriminate|exact (b x)].
  - cbn [transfers inners s']. intros Q. destruct i; cbn in *; [exact Hi|exact (H16 Q)].
  - intros x Hx. rewrite Hs. destruct (x =? scount s) eqn:E; cbn [inner inners s'].
    + intros ->. reflexivity.
    + intros Q. rewrite (H17 x); [apply orb_true_r|apply Nat.eqb_neq in E; cbn in Hx; lia|exact Q].
  - intros x Hx. rewrite Hs. destruct (x =? scount s); [discriminate|exact (H18 x Hx)].
  - intros Q. rewrite Hs, (NX _ (in_or_app _ _ _ (or_introl LaI))). exact (H19 Q).
  - rewrite Hs, (NX 0 I0'). exact H20.
Qed.

(** The fibers above the running one are those it was resumed through. *)
Lemma above_waits : forall m s L o n c f, Inv m s L o -> sst (sfib s c) = Live -> above m n c f = true -> waits (sfib s f) <> None.
Proof.
  intros m s L o n. induction n as [|n IH]; intros c f H Lc A; [discriminate|]. cbn in A.
  rewrite (r_par _ _ _ (i_rel _ _ _ _ H c)) in A by congruence. destruct (prev (sfib s c)) as [p|] eqn:P; [|discriminate].
  pose proof (prev_waits _ _ _ _ _ _ H P) as W. apply orb_prop in A. destruct A as [A|A].
  - apply Nat.eqb_eq in A. subst p. rewrite W. discriminate.
  - apply (IH p f H); [|exact A]. destruct (in_dec Nat.eq_dec p (L ++ opt o)) as [I|I]; [exact (proj1 (proj2 (i_in _ _ _ _ H p I)))|].
    rewrite (proj1 (i_out _ _ _ _ H p I)) in W. discriminate.
Qed.
Lemma above_all : forall m s l n f, linked m s l -> (forall x, In x l -> par (fib m x) = prev (sfib s x)) -> In f (tl l) -> length l <= S n -> above m n (hd 0 l) f = true.
Proof.
  intros m s l. induction l as [|x [|y t] IH]; intros n f H P I Hn; [destruct I|destruct I|]. destruct H as (A & B & C & D & E).
  cbn [length] in Hn. destruct n as [|n]; [lia|]. cbn [hd above]. rewrite (P x (or_introl eq_refl)), B. destruct I as [->|I]; [rewrite Nat.eqb_refl; reflexivity|].
  apply orb_true_iff. right. apply (IH n f E (fun z Hz => P z (or_intror Hz)) I). cbn [length]. lia.
Qed.
Lemma outside : forall m s L o f, Inv m s L o -> yielding (sfib s f) = true \/ sst (sfib s f) <> Live -> ~ In f (L ++ opt o).
Proof. intros m s L o f H Q I. destruct (i_in _ _ _ _ H f I) as (_ & a & b). destruct Q as [Q|Q]; congruence. Qed.
Lemma good_same : forall m s L o r, Inv m s L o -> r <> Crash -> good (m, r) (s, r).
Proof. intros m s L o r H N. split; [reflexivity|]. split; [exact N|]. exists L, o. exact H. Qed.
Lemma resume_ok : forall m s L o f v, Inv m s L o -> f < scount s -> killed (sfib s (scur s)) = false ->
  fair s (OResume f v) = true -> good (resume m f v) (sstep s (OResume f v)).
Proof.
  intros m s L o f v H Hn Hk F. unfold fair in F. rewrite Hk in F. apply andb_prop in F. destruct F as [F1 F2]. apply negb_true_iff in F1, F2.
  unfold sstep. cbn [named]. rewrite (proj2 (Nat.ltb_lt _ _) Hn).
  destruct (i_rel _ _ _ _ H f) as [R1 R2 R3 R4 R5 R6 R7 R8 R9 R10 R11 R12].
  destruct (cur_in _ _ _ _ H) as [Hc [t Et]]. pose proof (i_in _ _ _ _ H (scur s) (in_or_app _ _ _ (or_introl Hc))) as (IC1 & IC2 & IC3).
  unfold resume. rewrite R6, R1. destruct (inner (sfib s f)) eqn:In1.
  - (* an enumerator's *)
    pose proof (i_tr _ _ _ _ H (i_inn _ _ _ _ H (i_int _ _ _ _ H f Hn In1))) as [Eo Q]. subst o.
    unfold resumable. rewrite In1. destruct (sst (sfib s f)) eqn:S.
    + assert (~ In f (L ++ opt None)) as Hf by (apply (outside m s L None f H); right; congruence). destruct (i_out _ _ _ _ H f Hf) as [O1 O2]. rewrite O1, O2.
      assert ((f =? scur s) = false) as -> by (apply Nat.eqb_neq; intros ->; congruence).
      apply (activate_resume m s L None f v H Hf Hn S Hk).
    + unfold check_across. rewrite (i_cur _ _ _ _ H). destruct (Nat.eqb_spec f (scur s)) as [E|E]; [apply (good_same m s L None _ H); discriminate|].
      destruct (Q f S) as [Y|I].
      * assert (~ In f (L ++ opt None)) as Hf by (apply (outside m s L None f H); left; exact Y). destruct (i_out _ _ _ _ H f Hf) as [O1 O2]. rewrite O1, O2, Y.
        destruct (above m (count m) (scur s) f) eqn:A; [contradiction (above_waits _ _ _ _ _ _ _ H IC2 A O1)|].
        apply (enter_val m s L None f v false H Hf Hn S Y Hk).
      * assert (In f t) as It by (rewrite Et in I; destruct I as [I|I]; [contradiction E; symmetry; exact I|exact I]).
        assert (above m (count m) (scur s) f = true) as ->.
        { rewrite (i_top _ _ _ _ H). apply (above_all m s L).
          - exact (i_lk _ _ _ _ H).
          - intros x Hx. apply (r_par _ _ _ (i_rel _ _ _ _ H x)). destruct (i_in _ _ _ _ H x (in_or_app _ _ _ (or_introl Hx))) as (_ & Z & _). congruence.
          - rewrite Et. exact It.
          - rewrite (i_cnt _ _ _ _ H). pose proof (nodup_bound L (scount s) (nodup_left _ _ (i_nd _ _ _ _ H)) (fun y Hy => proj1 (i_in _ _ _ _ H y (in_or_app _ _ _ (or_introl Hy))))). lia. }
        assert (prev (sfib s f) <> None) as P.
        { assert (f <> 0) as N0 by (intros ->; rewrite (i_zero _ _ _ _ H) in In1; discriminate).
          pose proof (i_base _ _ _ _ H) as B. pose proof (i_lk _ _ _ _ H) as Lk. clear - I N0 B Lk. induction L as [|x [|y u] IH]; [destruct I| |].
          - destruct I as [->|[]]. cbn in B. congruence.
          - destruct Lk as (_ & P & _ & _ & Lk). destruct I as [->|I]; [congruence|exact (IH I B Lk)]. }
        destruct (prev (sfib s f)) as [q|]; [|contradiction P; reflexivity]. apply (good_same m s L None _ H). discriminate.
    + apply (good_same m s L None _ H). discriminate.
  - unfold check_resumable. rewrite R1, (i_cur _ _ _ _ H). unfold resumable in *. rewrite In1 in *. destruct (sst (sfib s f)) eqn:S.
    + rewrite R5 by congruence. assert (~ In f (L ++ opt o)) as Hf by (apply (outside m s L o f H); right; congruence). destruct (i_out _ _ _ _ H f Hf) as [O1 O2]. rewrite R2, O1, O2 in *.
      assert ((f =? scur s) = false) as E by (apply Nat.eqb_neq; intros ->; congruence). rewrite E in *. rewrite R7.
      cbn [none] in F1. rewrite andb_true_r in F1. rewrite F1.
      rewrite <- (i_cur _ _ _ _ H). apply (activate_resume m s L o f v H Hf Hn S Hk).
    + rewrite R5, R2, R7 by congruence. destruct (Nat.eqb_spec f (scur s)) as [E|E]; [apply (good_same m s L o _ H); discriminate|].
      destruct (prev (sfib s f)) as [q|] eqn:P; [apply (good_same m s L o _ H); discriminate|].
      destruct (waits (sfib s f)) as [q|] eqn:W; [apply (good_same m s L o _ H); discriminate|].
      destruct (yielding (sfib s f)) eqn:Y.
      * cbn [none] in F1. rewrite andb_true_r in F1. rewrite F1.
        assert (~ In f (L ++ opt o)) as Hf by (apply (outside m s L o f H); left; exact Y).
        unfold check_across. rewrite (i_cur _ _ _ _ H), (proj2 (Nat.eqb_neq _ _) E).
        destruct (above m (count m) (scur s) f) eqn:A; [contradiction (above_waits _ _ _ _ _ _ _ H IC2 A W)|].
        apply (enter_val m s L o f v false H Hf Hn S Y Hk).
      * assert (aimed (sfib s f) = true) as ->.
        { destruct (where_idle _ _ _ _ f H E W) as [Hf|(A & Eo & Hf)]; [exact (i_aim _ _ _ _ H f Hf S Y)|].
          subst o. pose proof (i_base _ _ _ _ H) as (B1 & B2 & B3 & B4 & B5).
          assert (f = 0) as Ez. { destruct A as [|a [|b u]]; [contradiction|cbn in Hf, B4; congruence|]. destruct B2 as (_ & Z & _). cbn [hd] in Hf. subst a. congruence. }
          subst f. rewrite Ez in *. cbn [Nat.eqb andb] in F2. rewrite (proj2 (Nat.eqb_neq _ _) (not_eq_sym E)), W in F2. cbn [negb none andb] in F2. apply negb_false_iff in F2. exact F2. }
        apply (good_same m s L o _ H). discriminate.
    + apply (good_same m s L o _ H). discriminate.
Qed.

Lemma idle_not_killed : forall m s L o f, Inv m s L o -> f <> scur s -> sst (sfib s f) = Live -> killed (sfib s f) = false.
Proof. intros m s L o f H E S. destruct (killed (sfib s f)) eqn:K; [contradiction E; exact (i_kill _ _ _ _ H f K S)|reflexivity]. Qed.
Lemma was_moved : forall m s L o f, Inv m s L o -> f <> scur s -> sst (sfib s f) = Live -> yielding (sfib s f) = false -> waits (sfib s f) = None -> transfers s = true.
Proof.
  intros m s L o f H E S Y W. destruct (transfers s) eqn:T; [reflexivity|]. destruct (i_tr _ _ _ _ H T) as [-> Q]. destruct (Q f S) as [Z|I]; [congruence|].
  contradiction (linked_wait m s L f (i_lk _ _ _ _ H) I). rewrite <- (i_top _ _ _ _ H). exact E.
Qed.
Lemma direct_ext : forall s s1, scount s1 = scount s -> scur s1 = scur s -> inners s1 = inners s ->
  (forall x, waits (sfib s1 x) = waits (sfib s x) /\ prev (sfib s1 x) = prev (sfib s x)) -> direct s1 = direct s.
Proof. intros s s1 A B C D. unfold direct. rewrite (inmost_ext s s1 0 A (fun x => proj1 (D x))), B, C, (proj2 (D _)). reflexivity. Qed.
Lemma transfer_ok : forall m s L o f v, Inv m s L o -> f < scount s -> killed (sfib s (scur s)) = false -> direct s = true ->
  good (transfer m f v) (sstep s (OTransfer f v)).
Proof.
  intros m s L o f v H Hn Hk F. unfold sstep. cbn [named]. rewrite (proj2 (Nat.ltb_lt _ _) Hn).
  destruct (i_rel _ _ _ _ H f) as [R1 R2 R3 R4 R5 R6 R7 R8 R9 R10 R11 R12].
  unfold transfer. rewrite R2, R3, R1.
  destruct (waits (sfib s f)) as [q|] eqn:W; [apply (good_same m s L o _ H); discriminate|].
  destruct (yielding (sfib s f)) eqn:Y; [apply (good_same m s L o _ H); discriminate|].
  destruct (direct_ok _ _ _ _ H F) as [NI _].
  pose proof (aim_ok m s L o f H) as H1.
  set (m1 := on m f (set_trf true)) in *. set (s1 := son s f (s_aimed true)) in *.
  pose proof (moved_ok m1 s1 L o H1 NI) as H2.
  assert (forall x, sfib s1 x = if x =? f then s_aimed true (sfib s f) else sfib s x) as Ps.
  { intros x. unfold s1. ev. destruct (Nat.eqb_spec x f) as [->|]; reflexivity. }
  assert (direct (moved s1) = true) as D2.
  { rewrite <- F. apply direct_ext; try reflexivity. intros x. cbn [moved sfib]. rewrite Ps. destruct (Nat.eqb_spec x f) as [->|]; split; reflexivity. }
  assert (scur s1 = scur s) as Ec by reflexivity.
  assert (killed (sfib (moved s1) (scur (moved s1))) = false) as K2.
  { cbn [moved sfib scur]. rewrite Ps, Ec. destruct (Nat.eqb_spec (scur s) f) as [E|]; [rewrite <- E; exact Hk|exact Hk]. }
  assert (cur m1 = scur s1) as Em by (exact (i_cur _ _ _ _ H)).
  destruct (sst (sfib s f)) eqn:S; [| |apply (good_same m s L o _ H); discriminate]; rewrite Em, Ec.
  - assert (~ In f (L ++ opt o)) as Hf by (apply (outside m s L o f H); right; congruence).
    assert ((f =? scur s) = false) as -> by (apply Nat.eqb_neq; intros ->; destruct (cur_in _ _ _ _ H) as [Z _]; apply Hf; apply in_or_app; left; exact Z).
    apply (activate_transfer m1 (moved s1) L o f v H2 eq_refl D2 Hf Hn); [| |exact K2]; cbn [moved sfib]; rewrite Ps, Nat.eqb_refl; [exact S|reflexivity].
  - destruct (Nat.eqb_spec f (scur s)) as [E|E]; [apply (good_same m1 s1 L o _ H1); discriminate|].
    pose proof (idle_not_killed _ _ _ _ f H E S) as Kf.
    apply (cross_gen m1 (moved s1) L o f m1 (moved s1) false None (Some v) (RVal v) false true H2 D2 Hn); try reflexivity.
    + exact E.
    + cbn [moved sfib]. rewrite Ps, Nat.eqb_refl. exact S.
    + cbn [moved sfib]. rewrite Ps, Nat.eqb_refl. exact Y.
    + cbn [moved sfib]. rewrite Ps, Nat.eqb_refl. exact W.
    + exact K2.
    + intros x. destruct (Nat.eqb_spec x f) as [->|]; [|reflexivity]. unfold m1. un. ev. rewrite R4, Kf in *. rewrite R8. reflexivity.
    + intros x. cbn [moved sfib]. destruct (Nat.eqb_spec x f) as [->|]; [|reflexivity]. rewrite Ps, Nat.eqb_refl. un. ev. rewrite Kf. reflexivity.
    + split; [reflexivity|split; reflexivity].
Qed.
Lemma in_range : forall m s L o x, Inv m s L o -> In x (L ++ opt o) -> x < scount s.
Proof. intros m s L o x H I. exact (proj1 (i_in _ _ _ _ H x I)). Qed.
Lemma raise_ok : forall m s L o f e, Inv m s L o -> f < scount s -> killed (sfib s (scur s)) = false -> fair s (ORaise f e) = true ->
  good (raise m f e) (sstep s (ORaise f e)).
Proof.
  intros m s L o f e H Hn Hk F. unfold fair in F. rewrite Hk in F. apply andb_prop in F. destruct F as [F1 F2]. apply negb_true_iff in F1.
  unfold sstep. cbn [named]. rewrite (proj2 (Nat.ltb_lt _ _) Hn).
  destruct (i_rel _ _ _ _ H f) as [R1 R2 R3 R4 R5 R6 R7 R8 R9 R10 R11 R12].
  unfold raise. rewrite R1, R2, (i_cur _ _ _ _ H). destruct (waits (sfib s f)) as [q|] eqn:W; cbn [none] in F2.
  - rewrite F2. assert (sst (sfib s f) = Live) as S.
    { destruct (in_dec Nat.eq_dec f (L ++ opt o)) as [I|I]; [exact (proj1 (proj2 (i_in _ _ _ _ H f I)))|]. rewrite (proj1 (i_out _ _ _ _ H f I)) in W. discriminate. }
    rewrite S. destruct (f =? scur s); apply (good_same m s L o _ H); discriminate.
  - rewrite (inmost_idle s f W). destruct (Nat.eqb_spec f (scur s)) as [E|E]; [apply (good_same m s L o _ H); discriminate|].
    destruct (sst (sfib s f)) eqn:S; try (apply (good_same m s L o _ H); discriminate).
    unfold inject, sraise. rewrite R3. destruct (yielding (sfib s f)) eqn:Y.
    + apply (enter_raise m s L o f e false H); [apply (outside m s L o f H); left; exact Y|exact Hn|exact S|exact Y|exact Hk].
    + cbn [orb] in F2. pose proof (idle_not_killed _ _ _ _ f H E S) as Kf.
      apply (cross_gen m s L o f _ s false (Some e) None (RErr e) false false H F2 Hn E S Y W Hk); try reflexivity.
      * intros x. un. ev. destruct (Nat.eqb_spec x f) as [->|]; [|reflexivity]. rewrite R4, Kf. reflexivity.
      * exact (was_moved _ _ _ _ f H E S Y W).
      * intros x. destruct (Nat.eqb_spec x f) as [->|]; [|reflexivity]. un. rewrite <- Kf at 1. destruct (sfib s f). reflexivity.
      * exists e. split; [reflexivity|]. split; [reflexivity|]. split; [discriminate|]. intros ->. discriminate.
Qed.
Lemma kill_ok : forall m s L o f, Inv m s L o -> f < scount s -> killed (sfib s (scur s)) = false -> fair s (OKill f) = true ->
  good (kill m f) (sstep s (OKill f)).
Proof.
  intros m s L o f H Hn Hk F. unfold fair in F. rewrite Hk in F. apply andb_prop in F. destruct F as [F1 F2]. apply andb_prop in F1. destruct F1 as [F0 F1]. apply negb_true_iff in F0.
  assert (waits (sfib s f) = None) as W by (destruct (waits (sfib s f)); [discriminate|reflexivity]). clear F1.
  unfold sstep. cbn [named]. rewrite (proj2 (Nat.ltb_lt _ _) Hn).
  destruct (i_rel _ _ _ _ H f) as [R1 R2 R3 R4 R5 R6 R7 R8 R9 R10 R11 R12].
  destruct (cur_in _ _ _ _ H) as [Hc _]. pose proof (i_in _ _ _ _ H (scur s) (in_or_app _ _ _ (or_introl Hc))) as (IC1 & IC2 & IC3).
  unfold kill. rewrite F0, R1, R2, (i_cur _ _ _ _ H), W.
  destruct (sst (sfib s f)) eqn:S; [| |discriminate].
  - rewrite (R12 eq_refl). assert ((f =? scur s) = false) as -> by (apply Nat.eqb_neq; intros ->; congruence).
    split; [reflexivity|]. split; [discriminate|]. exists L, o. exact (kill_created m s L o f H S).
  - destruct (Nat.eqb_spec f (scur s)) as [E|E].
    + subst f. rewrite Hk. split; [reflexivity|]. split; [discriminate|]. exists L, o. exact (kill_self m s L o H).
    + pose proof (idle_not_killed _ _ _ _ f H E S) as Kf. rewrite Kf. cbn [orb] in F2.
      assert (inmost (son s f (s_killed true)) f = f) as ->.
      { apply inmost_idle. un. ev. exact W. }
      cbn [son scur]. rewrite (proj2 (Nat.eqb_neq _ _) E). unfold inject, sraise.
      assert (yld (fib (on m f (set_kld true)) f) = yielding (sfib s f)) as -> by (un; ev; exact R3).
      assert (yielding (sfib (son s f (s_killed true)) f) = yielding (sfib s f)) as -> by (un; ev; reflexivity).
      destruct (yielding (sfib s f)) eqn:Y.
      * apply (enter_kill m s L o f H); [apply (outside m s L o f H); left; exact Y|exact Hn|exact S|exact Y|exact Hk].
      * cbn [orb] in F2. apply andb_prop in F2. destruct F2 as [F2 F3]. apply negb_true_iff in F3.
        apply (cross_gen m s L o f _ _ true (Some EKill) None (RErr EKill) true false H F2 Hn E S Y W Hk); try reflexivity.
        -- intros x. un. ev. destruct (Nat.eqb_spec x f) as [->|]; reflexivity.
        -- exact (was_moved _ _ _ _ f H E S Y W).
        -- exists EKill. split; [reflexivity|]. split; [reflexivity|]. split; [reflexivity|]. intros _. exact F3.
Qed.
Lemma same_state : forall m, (forall x, fib m x = if x =? cur m then set_err (err (fib m (cur m))) (fib m x) else fib m x).
Proof. intros m x. destruct (Nat.eqb_spec x (cur m)) as [->|]; [|reflexivity]. destruct (fib m (cur m)). reflexivity. Qed.
Theorem step_ok : forall m s L o p, Inv m s L o -> fair s p = true -> good (step m p) (sstep s p).
Proof.
  intros m s L o p H F. destruct (named p <? scount s) eqn:N.
  2:{ unfold step, sstep. rewrite (i_cnt _ _ _ _ H), N. apply (good_same m s L o _ H). discriminate. }
  assert (forall q, p = q -> step m q = match q with
       | ONew i => make m i
       | OResume f v => resume m f v
       | OTransfer f v => transfer m f v
       | OYield v => yield m v
       | OReturn v => if cur m =? 0 then (m, RVal v) else terminate m (Some v)
       | ODie e => if cur m =? 0 then (m, RErr e) else terminate (on m (cur m) (set_err (Some e))) None
       | ORaise f e => raise m f e
       | OKill f => kill m f
       | OAlive f => (m, RVal (VBool ((f =? 0) || match st (fib m f) with Done => false | _ => true end)))
       end) as St. { intros q <-. unfold step. rewrite (i_cnt _ _ _ _ H), N. reflexivity. }
  rewrite (St p eq_refl). clear St. pose proof (proj1 (Nat.ltb_lt _ _) N) as Hn.
  destruct (cur_in _ _ _ _ H) as [Hc _]. pose proof (i_in _ _ _ _ H (scur s) (in_or_app _ _ _ (or_introl Hc))) as (IC1 & IC2 & IC3).
  destruct p as [i|f v|f v|v|v|e|f e|f|f]; cbn [named] in Hn.
  - apply (make_ok m s L o i H). unfold fair in F. destruct (killed (sfib s (scur s))); apply negb_true_iff in F; exact F.
  - destruct (killed (sfib s (scur s))) eqn:K; [unfold fair in F; rewrite K in F; discriminate|]. apply (resume_ok m s L o f v H Hn K F).
  - destruct (killed (sfib s (scur s))) eqn:K; unfold fair in F; rewrite K in F; [discriminate|]. apply (transfer_ok m s L o f v H Hn K F).
  - destruct (killed (sfib s (scur s))) eqn:K; [unfold fair in F; rewrite K in F; discriminate|]. apply (yield_ok m s L o v H K).
  - unfold sstep. rewrite N, (i_cur _ _ _ _ H). destruct (Nat.eqb_spec (scur s) 0) as [E|E]; [apply (good_same m s L o _ H); discriminate|].
    apply (term_ok m s L o m (Some v) (err (fib m (cur m))) (RVal v) H E eq_refl eq_refl (same_state m)).
    split; [rewrite (i_cur _ _ _ _ H); exact (r_err _ _ _ (i_rel _ _ _ _ H _))|reflexivity].
  - unfold sstep. rewrite N, (i_cur _ _ _ _ H). destruct (Nat.eqb_spec (scur s) 0) as [E|E]; [apply (good_same m s L o _ H); discriminate|].
    apply (term_ok m s L o (on m (scur s) (set_err (Some e))) None (Some e) _ H E); try reflexivity.
    + intros x. rewrite (i_cur _ _ _ _ H). un. ev. destruct (Nat.eqb_spec x (scur s)) as [->|]; reflexivity.
    + exists e. split; [reflexivity|]. destruct e; try reflexivity. split; [reflexivity|].
      unfold fair in F. destruct (killed (sfib s (scur s))); [|discriminate]. split; [reflexivity|].
      rewrite (proj2 (Nat.eqb_neq _ _) E) in F. cbn [orb] in F. apply orb_prop in F. destruct F as [F|F]; [left; destruct (prev (sfib s (scur s))); [discriminate|discriminate F]|right; apply Nat.eqb_eq; exact F].
  - destruct (killed (sfib s (scur s))) eqn:K; [unfold fair in F; rewrite K in F; discriminate|]. apply (raise_ok m s L o f e H Hn K F).
  - destruct (killed (sfib s (scur s))) eqn:K; [unfold fair in F; rewrite K in F; discriminate|]. apply (kill_ok m s L o f H Hn K F).
  - unfold sstep. rewrite N, (r_st _ _ _ (i_rel _ _ _ _ H f)). destruct (Nat.eqb_spec f 0) as [->|E]; [|apply (good_same m s L o _ H); discriminate].
    assert (sst (sfib s 0) = Live) as ->.
    { destruct (rstack_linked _ _ _ _ H) as (_ & _ & I0 & Inc & _). exact (proj1 (proj2 (i_in _ _ _ _ H 0 (Inc 0 I0)))). }
    apply (good_same m s L o _ H). discriminate.
Qed.
Lemma run_from : forall l m s L o, Inv m s L o -> fair_all s l = true -> run m l = srun s l.
Proof.
  intros l. induction l as [|p l IH]; intros m s L o H F; [reflexivity|]. cbn in F. apply andb_prop in F. destruct F as [F1 F2].
  destruct (step_ok m s L o p H F1) as (E & N & L' & o' & H'). cbn [run srun]. destruct (step m p) as [m' r], (sstep s p) as [s' r']. cbn [fst snd] in *. subst r'.
  rewrite (IH m' s' L' o' H' F2), (i_cur _ _ _ _ H'). destruct r; [reflexivity|reflexivity|contradiction N; reflexivity].
Qed.
Lemma start_inv : Inv start sstart [0] None.
Proof.
  constructor; try reflexivity; try discriminate.
  - cbn. constructor; [intros []|constructor].
  - cbn. intros x [<-|[]]. split; [lia|split; reflexivity].
  - cbn. intros x Hx. unfold upd. destruct (Nat.eqb_spec x 0) as [->|]; split; reflexivity.
  - cbn. intros x. unfold upd. destruct (Nat.eqb_spec x 0) as [->|]; discriminate.
  - intros x. constructor; cbn; unfold upd; destruct (Nat.eqb_spec x 0) as [->|]; cbn; try reflexivity; try discriminate; try congruence; try lia.
  - intros _. split; [reflexivity|]. cbn. intros x. unfold upd. destruct (Nat.eqb_spec x 0) as [->|]; [right; left; reflexivity|discriminate].
  - cbn. intros x. unfold upd. destruct (Nat.eqb_spec x 0) as [->|]; discriminate.
  - cbn. intros x Hx. unfold upd. destruct (Nat.eqb_spec x 0) as [->|]; [contradiction Hx; left; reflexivity|discriminate].
  - intros Q. contradiction Q. reflexivity.
Qed.
Theorem history : forall l, fair_all sstart l = true -> run start l = srun sstart l.
Proof. intros l F. exact (run_from l start sstart [0] None start_inv F). Qed.
Lemma no_crash_from : forall l m s L o, Inv m s L o -> fair_all s l = true -> forall p, In p (run m l) -> snd p <> Crash.
Proof.
  intros l. induction l as [|p l IH]; intros m s L o H F q I; [destruct I|]. cbn in F. apply andb_prop in F. destruct F as [F1 F2].
  destruct (step_ok m s L o p H F1) as (E & N & L' & o' & H'). cbn [run] in I. destruct (step m p) as [m' r]. cbn [fst snd] in *.
  destruct r; [| |contradiction N; reflexivity]; (destruct I as [<-|I]; [exact N|exact (IH m' _ L' o' H' F2 q I)]).
Qed.
Theorem no_crash : forall l, fair_all sstart l = true -> forall p, In p (run start l) -> snd p <> Crash.
Proof. intros l F. exact (no_crash_from l start sstart [0] None start_inv F). Qed.

(** Without transfers. *)
Definition kept (s s' : sstate) : Prop := transfers s' = transfers s /\ (forall x, aimed (sfib s' x) = aimed (sfib s x)).
Lemma kept_refl : forall s, kept s s.
Proof. intros. split; reflexivity. Qed.
Lemma kept_trans : forall s s1 s2, kept s s1 -> kept s1 s2 -> kept s s2.
Proof. intros s s1 s2 [A B] [C D]. split; [congruence|]. intros x. rewrite D. apply B. Qed.
Lemma kept_son : forall s t u, (forall r, aimed (u r) = aimed r) -> kept s (son s t u).
Proof. intros s t u E. split; [reflexivity|]. intros x. cbn. unfold upd. destruct (Nat.eqb_spec x t) as [->|]; [apply E|reflexivity]. Qed.
Lemma kept_land : forall s t r, kept s (fst (land s t r)).
Proof.
  intros. unfold land. cbn [sgo sfib]. destruct (killed (sfib s t)); [split; reflexivity|]. destruct r; try (split; reflexivity). destruct (_ && _); split; reflexivity.
Qed.
Lemma kept_to_fiber : forall s t r, kept s (fst (to_fiber s t r)).
Proof.
  intros. unfold to_fiber. pose proof (kept_land s t r) as E. destruct (land s t r) as [s' r']. cbn [fst] in E.
  destruct (sst (sfib s t)); cbn [fst].
  - exact (kept_son s t (s_st Live) (fun r => eq_refl)).
  - exact (kept_trans _ _ _ E (kept_son s' t (s_yielding false) (fun r => eq_refl))).
  - exact (kept_trans _ _ _ E (kept_son s' t (s_yielding false) (fun r => eq_refl))).
Qed.
Lemma kept_sresume : forall s f r k, kept s (fst (sresume s f r k)).
Proof.
  intros. unfold sresume. cbn zeta. eapply kept_trans; [|apply kept_to_fiber]. eapply kept_trans; [|apply kept_son; reflexivity]. apply kept_son. reflexivity.
Qed.
Lemma kept_leave : forall s r, kept s (fst (leave s r)).
Proof.
  intros. unfold leave. cbn zeta. destruct (prev (sfib s (scur s))); [|apply kept_land].
  eapply kept_trans; [|apply kept_land]. eapply kept_trans; [|apply kept_son; reflexivity]. apply kept_son. reflexivity.
Qed.
Lemma kept_sraise : forall s f e k, kept s (fst (sraise s f e k)).
Proof.
  intros. unfold sraise. destruct (yielding (sfib s f)); [apply kept_sresume|]. unfold stransfer. eapply kept_trans; [|apply kept_to_fiber]. apply kept_son. reflexivity.
Qed.
Lemma kept_step : forall s o, plain s o = true -> (forall x, aimed (sfib s x) = false) -> transfers s = false ->
  transfers (fst (sstep s o)) = false /\ forall x, aimed (sfib (fst (sstep s o)) x) = false.
Proof.
  intros s o P A T. assert (forall s', kept s s' -> transfers s' = false /\ forall x, aimed (sfib s' x) = false) as K.
  { intros s' [E1 E2]. split; [congruence|]. intros x. rewrite E2. apply A. }
  unfold sstep. destruct (named o <? scount s); [|apply K, kept_refl].
  destruct o as [i|f v|f v|v|v|e|f e|f|f]; try discriminate; try (apply K, kept_refl).
  - cbn. split; [exact T|]. intros x. unfold upd. destruct (x =? scount s); [reflexivity|apply A].
  - apply K. destruct (resumable s f); [apply kept_refl|]. apply kept_sresume.
  - apply K. destruct (prev (sfib s (scur s))); [|apply kept_refl]. eapply kept_trans; [|apply kept_leave]. apply kept_son. reflexivity.
  - apply K. destruct (scur s =? 0); [apply kept_refl|]. unfold send. eapply kept_trans; [|apply kept_leave]. apply kept_son. reflexivity.
  - apply K. destruct (scur s =? 0); [apply kept_refl|]. unfold send. eapply kept_trans; [|apply kept_leave]. apply kept_son. reflexivity.
  - apply K. cbn zeta. destruct (inmost s f =? scur s); [apply kept_refl|]. destruct (sst (sfib s (inmost s f))); [apply kept_refl| |apply kept_refl]. apply kept_sraise.
  - apply K. destruct (killed (sfib s f)); [apply kept_refl|]. destruct (sst (sfib s f)).
    + apply kept_son. reflexivity.
    + destruct (f =? scur s); [apply kept_son; reflexivity|]. cbn zeta.
      destruct (inmost (son s f (s_killed true)) f =? scur (son s f (s_killed true))); [apply kept_son; reflexivity|].
      eapply kept_trans; [|apply kept_sraise]. apply kept_son. reflexivity.
    + apply kept_refl.
Qed.
Lemma plain_fair : forall m s L o p, Inv m s L o -> transfers s = false -> (forall x, aimed (sfib s x) = false) -> plain s p = true -> fair s p = true.
Proof.
  intros m s L o p H T A P. destruct (i_tr _ _ _ _ H T) as [-> Q]. unfold plain in P. unfold fair.
  pose proof (i_base _ _ _ _ H) as B. cbn in B.
  assert (forall x, In x L -> x <> scur s -> waits (sfib s x) <> None) as Wt.
  { intros x I E. apply (linked_wait m s L x (i_lk _ _ _ _ H) I). rewrite <- (i_top _ _ _ _ H). exact E. }
  assert (In 0 L) as I0. { destruct (rstack_linked _ _ _ _ H) as (_ & _ & Z & _). exact Z. }
  destruct p as [i|f v|f v|v|v|e|f e|f|f]; try discriminate.
  - rewrite T, andb_false_r. destruct (killed (sfib s (scur s))); reflexivity.
  - apply negb_true_iff in P. rewrite P, !A. cbn [andb negb]. destruct (Nat.eqb_spec f 0) as [->|]; [|reflexivity].
    destruct (Nat.eqb_spec (scur s) 0) as [E|E]; [reflexivity|]. pose proof (Wt 0 I0 (not_eq_sym E)) as W. destruct (waits (sfib s 0)); [reflexivity|contradiction W; reflexivity].
  - apply negb_true_iff in P. rewrite P. reflexivity.
  - destruct (killed (sfib s (scur s))); reflexivity.
  - destruct (killed (sfib s (scur s))); [|rewrite orb_false_r in P; exact P]. destruct e; try reflexivity.
    destruct (Nat.eqb_spec (scur s) 0) as [E|E]; [reflexivity|]. cbn [orb]. apply orb_true_iff. left.
    destruct (cur_in _ _ _ _ H) as [_ [t Et]]. pose proof (i_lk _ _ _ _ H) as Lk. rewrite Et in Lk, B. destruct t as [|y t]; [contradiction E|].
    destruct Lk as (_ & Pr & _). rewrite Pr. reflexivity.
  - apply andb_prop in P. destruct P as [P1 P2]. apply negb_true_iff in P2. rewrite P1, P2. cbn [andb].
    destruct (waits (sfib s f)) as [q|] eqn:W; cbn [none].
    + apply Nat.eqb_eq. destruct (in_dec Nat.eq_dec f (L ++ opt None)) as [I|I].
      * cbn [opt] in I. rewrite app_nil_r in I. exact (inmost_run m s L None f H I).
      * rewrite (proj1 (i_out _ _ _ _ H f I)) in W. discriminate.
    + destruct (sst (sfib s f)) eqn:S; try reflexivity. destruct (Nat.eqb_spec f (scur s)) as [E|E]; [reflexivity|].
      destruct (Q f S) as [Y|I]; [rewrite Y; reflexivity|contradiction (Wt f I E W)].
  - apply andb_prop in P. destruct P as [P P4]. apply andb_prop in P. destruct P as [P P3]. apply andb_prop in P. destruct P as [P1 P2].
    apply negb_true_iff in P1. rewrite P1, P2, P3. cbn [andb]. destruct (sst (sfib s f)) eqn:S; [reflexivity| |discriminate].
    destruct (Nat.eqb_spec f (scur s)) as [E|E]; [reflexivity|]. destruct (Q f S) as [Y|I]; [rewrite Y; reflexivity|].
    exfalso. apply (Wt f I E). destruct (waits (sfib s f)); [discriminate|reflexivity].
  - destruct (killed (sfib s (scur s))); reflexivity.
Qed.
Lemma plain_all_fair : forall l m s L o, Inv m s L o -> transfers s = false -> (forall x, aimed (sfib s x) = false) -> plain_all s l = true -> fair_all s l = true.
Proof.
  intros l. induction l as [|p l IH]; intros m s L o H T A P; [reflexivity|]. cbn in P |- *. apply andb_prop in P. destruct P as [P1 P2].
  pose proof (plain_fair m s L o p H T A P1) as F. rewrite F. cbn [andb]. destruct (step_ok m s L o p H F) as (_ & _ & L' & o' & H').
  destruct (kept_step s p P1 A T) as [T' A']. exact (IH _ _ L' o' H' T' A' P2).
Qed.
Theorem plain_history : forall l, plain_all sstart l = true -> fair_all sstart l = true.
Proof.
  intros l P. apply (plain_all_fair l start sstart [0] None start_inv eq_refl); [|exact P].
  intros x. cbn. unfold upd. destruct (x =? 0); reflexivity.
Qed.
Theorem resumes : forall l, plain_all sstart l = true -> run start l = srun sstart l /\ forall p, In p (run start l) -> snd p <> Crash.
Proof. intros l P. pose proof (plain_history l P) as F. split; [exact (history l F)|exact (no_crash l F)]. Qed.
