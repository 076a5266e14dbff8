(** The file invariant and the reference allocator. *)
From Coq Require Import ZArith Bool List Arith Lia.
From Verif Require Import GpModel GpSpec GpFileProofs.
Import ListNotations.

(** Every register holds the value of the slot it caches; the home of a slot
    is current unless a dirty register caches it.  [L]: slots that may be
    cached; [H]: slots whose value lives in their home. *)
Record FI (L H : slot -> Prop) (f : file) (m : mach) (fr : frame) : Prop := mkFI {
  fi_ok : fok f;
  fi_live : forall r h, hold f r = Some h -> L (hslot h);
  fi_reg : forall r h, hold f r = Some h -> regs m r = fr (hslot h);
  fi_dirty : forall r h, hold f r = Some h -> hdirty h = true -> H (hslot h);
  fi_home : forall s, H s -> (forall r h, hold f r = Some h -> hslot h = s -> hdirty h = false) ->
            home m s = fr s }.

Definition spilled (m : mach) (r : reg) (v : option slot) : mach :=
  match v with Some s => mkm (regs m) (upd (home m) s (regs m r)) | None => m end.
Lemma spilled_regs m r v : regs (spilled m r v) = regs m.
Proof. destruct v; reflexivity. Qed.
Lemma spilled_home m r v s :
  home (spilled m r v) s = home m s \/ (v = Some s /\ home (spilled m r v) s = regs m r).
Proof.
  destruct v as [t|]; cbn; [|auto]. destruct (Nat.eq_dec s t) as [->|N].
  - rewrite upd_eq. auto.
  - rewrite upd_ne by auto. auto.
Qed.

Lemma fi_alloc L H f m fr pinned f1 r v : (length pinned < 4)%nat ->
  FI L H f m fr -> alloc_reg f pinned = (f1, r, v) ->
  FI L H f1 (spilled m r v) fr /\ hold f1 r = None.
Proof.
  intros Hl [Ho Hli Hr Hd Hh] E. pose proof (alloc_fok _ _ _ _ _ Hl Ho E) as Ho1.
  apply alloc_spec in E as (_ & _ & Ev & _ & Hs); [|exact Hl].
  assert (forall q h, hold f1 q = Some h -> q <> r /\ hold f q = Some h) as Hsub.
  { intros q h. rewrite Hs. destruct (Nat.eqb_spec q r); [discriminate|auto]. }
  split; [split|].
  - exact Ho1.
  - intros q h E. apply Hsub in E as [_ E]. eauto.
  - intros q h E. apply Hsub in E as [_ E]. rewrite spilled_regs. eauto.
  - intros q h E. apply Hsub in E as [_ E]. eauto.
  - intros s Hs1 Hc. destruct (hold f r) as [h|] eqn:Er.
    + destruct (Nat.eq_dec (hslot h) s) as [<-|N].
      * cbn in Ev. destruct (hdirty h) eqn:D; subst v; cbn.
        -- rewrite upd_eq. eauto.
        -- apply Hh; [exact Hs1|]. intros q h' E Eq.
           pose proof (f_uniq _ Ho _ _ _ _ Er E (eq_sym Eq)) as <-. congruence.
      * destruct (spilled_home m r v s) as [E|[E _]].
        -- rewrite E. apply Hh; [exact Hs1|]. intros q h' Eq Es.
           destruct (Nat.eq_dec q r) as [->|Nq]; [congruence|].
           eapply Hc; [|exact Es]. rewrite Hs. apply Nat.eqb_neq in Nq. now rewrite Nq.
        -- cbn in Ev. destruct (hdirty h); congruence.
    + cbn in Ev. subst v. cbn. apply Hh; [exact Hs1|]. intros q h' Eq Es.
      apply (Hc q h'); [|exact Es]. rewrite Hs. destruct (Nat.eqb_spec q r); congruence.
  - rewrite Hs, Nat.eqb_refl. reflexivity.
Qed.

Lemma fi_bind_clean L H f m fr r s :
  FI L H f m fr -> hold f r = None -> In r pool -> L s -> (forall q, ~ res f q s) ->
  FI L H (bind f r s false) (mkm (upd (regs m) r (fr s)) (home m)) fr.
Proof.
  intros [Ho Hli Hr Hd Hh] Er Hp Ls Hn.
  assert (forall q h, hold (invalidate f s) q = Some h -> hold f q = Some h) as Hsub.
  { intros q h E. now apply invalidate_hold in E as [E _]. }
  split; cbn [regs home].
  - now apply bind_fok.
  - intros q h. rewrite bind_hold. destruct (Nat.eqb_spec q r).
    + intros E. injection E as <-. exact Ls.
    + intros E. eauto.
  - intros q h. rewrite bind_hold. unfold upd. destruct (Nat.eqb_spec q r).
    + intros E. injection E as <-. reflexivity.
    + intros E. eauto.
  - intros q h. rewrite bind_hold. destruct (Nat.eqb_spec q r).
    + intros E D. injection E as <-. discriminate.
    + intros E. eauto.
  - intros t Ht Hc. apply Hh; [exact Ht|]. intros q h E Es.
    destruct (Nat.eq_dec q r) as [->|Nq]; [congruence|].
    eapply Hc; [|exact Es]. rewrite bind_hold. apply Nat.eqb_neq in Nq. rewrite Nq.
    apply invalidate_hold. split; [exact E|]. intros Et. apply (Hn q). exists h. auto.
Qed.

(** ** The reference allocator *)
Section Ref.
Variable op : bkind -> word -> word -> word.
Definition acts := fold_left (act op).

Lemma acts_app c d m : acts (c ++ d) m = acts d (acts c m).
Proof. apply fold_left_app. Qed.
Lemma acts_spill r v m : acts (spill_act r v) m = spilled m r v.
Proof. destruct v; reflexivity. Qed.

Definition RI sp := FI (fun s => (s < sp)%nat) (fun s => (s < sp)%nat).

Lemma r_ensure_ok sp f m fr s pinned f1 r c : (length pinned < 4)%nat ->
  RI sp f m fr -> (s < sp)%nat -> r_ensure f s pinned = (f1, r, c) ->
  RI sp f1 (acts c m) fr /\ res f1 r s /\
  (forall p h, In p pinned -> hold f p = Some h -> hold f1 p = Some h).
Proof.
  intros Hl HI Hs. unfold r_ensure. destruct (reg_of f s) as [q|] eqn:E.
  - intros F. injection F as <- <- <-. apply reg_of_some in E. auto.
  - destruct (alloc_reg f pinned) as [[f2 q] v] eqn:Ea. intros F. injection F as <- <- <-.
    pose proof (reg_of_none _ _ (fi_ok _ _ _ _ _ HI) E) as Hn.
    destruct (fi_alloc _ _ _ _ _ _ _ _ _ Hl HI Ea) as [HI2 Er].
    apply alloc_spec in Ea as (Hp & Hnp & Ev & _ & Hh); [|exact Hl].
    rewrite acts_app, acts_spill. cbn [acts fold_left act].
    assert (home (spilled m q v) s = fr s) as Hv.
    { apply (fi_home _ _ _ _ _ HI2); [exact Hs|]. intros z h Ez Es.
      exfalso. apply (Hn z). rewrite Hh in Ez. destruct (Nat.eqb z q); [discriminate|].
      exists h; auto. }
    rewrite Hv. split; [|split].
    + apply fi_bind_clean; auto. intros z (h & Ez & Es). apply (Hn z).
      rewrite Hh in Ez. destruct (Nat.eqb z q); [discriminate|]. exists h; auto.
    + eexists. rewrite bind_hold, Nat.eqb_refl. split; reflexivity.
    + intros p h Hip Eh. rewrite bind_hold. destruct (Nat.eqb_spec p q) as [->|Nq]; [tauto|].
      apply invalidate_hold. rewrite Hh. apply Nat.eqb_neq in Nq. rewrite Nq.
      split; [exact Eh|]. intros Es. apply (Hn p). exists h; auto.
Qed.

Lemma res_reg sp f m fr r s : RI sp f m fr -> res f r s -> regs m r = fr s.
Proof. intros HI (h & E & <-). apply (fi_reg _ _ _ _ _ HI _ _ E). Qed.

Lemma r_step_ok sp f m fr i f1 c :
  RI sp f m fr -> (rlhs i < sp)%nat -> (rrhs i < sp)%nat -> (rdst i < rsp i)%nat ->
  (forall s, (s < rsp i)%nat -> (s < sp)%nat \/ s = rdst i) ->
  r_step f i = (f1, c) -> RI (rsp i) f1 (acts c m) (r_exec op fr i).
Proof.
  intros HI H1 H2 H3 H4. unfold r_step.
  destruct (r_ensure f (rlhs i) []) as [[f2 l] c1] eqn:E1.
  destruct (r_ensure f2 (rrhs i) [l]) as [[f3 r] c2] eqn:E2.
  destruct (alloc_reg _ [r]) as [[f4 d] v] eqn:Ea. intros F. injection F as <- <-.
  assert (length (@nil reg) < 4)%nat as L0 by (cbn; lia).
  assert (length [l] < 4)%nat as L1 by (cbn; lia).
  destruct (r_ensure_ok sp f m fr _ _ _ _ _ L0 HI H1 E1) as (HI1 & R1 & _).
  destruct (r_ensure_ok sp f2 _ fr _ _ _ _ _ L1 HI1 H2 E2) as (HI2 & R2 & K2).
  assert (res f3 l (rlhs i)) as R1'.
  { destruct R1 as (h & E & Es). exists h. split; [|exact Es]. apply K2; [now left|exact E]. }
  pose proof (res_reg _ _ _ _ _ _ HI2 R1') as V1. pose proof (res_reg _ _ _ _ _ _ HI2 R2) as V2.
  rewrite !acts_app, acts_spill. set (m2 := acts c2 (acts c1 m)) in *. clearbody m2.
  cbn [acts fold_left act]. rewrite spilled_regs, V1, V2.
  pose proof (fi_ok _ _ _ _ _ HI2) as Ho.
  assert (fok f4) as Ho4.
  { eapply alloc_fok; [|apply free_above_fok, invalidate_fok, Ho|exact Ea]. cbn; lia. }
  apply alloc_spec in Ea as (Hp & Hnp & Ev & _ & Hh); [|cbn; lia].
  assert (forall q h, hold f4 q = Some h <->
            q <> d /\ hold f3 q = Some h /\ hslot h <> rdst i /\ (hslot h < rsp i)%nat) as Hs.
  { intros q h. rewrite Hh. destruct (Nat.eqb_spec q d); [split; [discriminate|tauto]|].
    rewrite free_above_hold, invalidate_hold. tauto. }
  unfold r_exec. split; cbn [regs home].
  - now apply bind_fok.
  - intros q h. rewrite bind_hold. destruct (Nat.eqb q d).
    + intros E. injection E as <-. exact H3.
    + intros E. apply invalidate_hold in E as [E _]. apply Hs in E. tauto.
  - intros q h. rewrite bind_hold. unfold upd at 1. destruct (Nat.eqb q d).
    + intros E. injection E as <-. cbn. now rewrite upd_eq.
    + intros E. apply invalidate_hold in E as [E N]. apply Hs in E as (_ & E & _ & _).
      rewrite upd_ne by auto. apply (fi_reg _ _ _ _ _ HI2 _ _ E).
  - intros q h. rewrite bind_hold. destruct (Nat.eqb q d).
    + intros E. injection E as <-. intros _. exact H3.
    + intros E _. apply invalidate_hold in E as [E _]. apply Hs in E. tauto.
  - intros s Hls Hc. destruct (Nat.eq_dec s (rdst i)) as [->|Nd].
    { exfalso. specialize (Hc d _ ltac:(rewrite bind_hold, Nat.eqb_refl; reflexivity) eq_refl).
      discriminate. }
    rewrite upd_ne by auto. destruct (H4 _ Hls) as [Hlive|]; [|congruence].
    assert (forall q h, hold f4 q = Some h -> hslot h = s -> hdirty h = false) as Hc'.
    { intros q h E Es. eapply Hc; [|exact Es]. rewrite bind_hold.
      pose proof (proj1 (Hs _ _) E) as (Nq & _). apply Nat.eqb_neq in Nq. rewrite Nq.
      apply invalidate_hold. split; [exact E|]. congruence. }
    destruct (hold (free_above (invalidate f3 (rdst i)) (rsp i)) d) as [hd|] eqn:Ed.
    + pose proof Ed as Ed'. apply free_above_hold in Ed' as [Ed' Ld].
      apply invalidate_hold in Ed' as [Ed' Nd'].
      destruct (Nat.eq_dec (hslot hd) s) as [Es|Ns].
      * cbn in Ev. destruct (hdirty hd) eqn:Dd; subst v; cbn.
        -- rewrite Es, upd_eq, <- Es. apply (fi_reg _ _ _ _ _ HI2 _ _ Ed').
        -- apply (fi_home _ _ _ _ _ HI2); [exact Hlive|]. intros q h E E'.
           pose proof (f_uniq _ Ho _ _ _ _ E Ed' ltac:(congruence)) as ->. congruence.
      * destruct (spilled_home m2 d v s) as [E|[E _]].
        -- rewrite E. apply (fi_home _ _ _ _ _ HI2); [exact Hlive|]. intros q h Eq Es.
           apply (Hc' q); [|exact Es]. apply Hs. repeat split; try congruence.
        -- cbn in Ev. destruct (hdirty hd); congruence.
    + cbn in Ev. subst v. cbn. apply (fi_home _ _ _ _ _ HI2); [exact Hlive|]. intros q h Eq Es.
      apply (Hc' q); [|exact Es]. apply Hs. repeat split; try congruence.
      intros ->. assert (hold (free_above (invalidate f3 (rdst i)) (rsp i)) d = Some h); [|congruence].
      apply free_above_hold. split; [|lia]. apply invalidate_hold. split; [exact Eq|congruence].
Qed.

Lemma r_run_ok p : forall sp f m fr f1 c, RI sp f m fr -> r_wf sp p -> r_run f p = (f1, c) ->
  RI (r_last sp p) f1 (acts c m) (fold_left (r_exec op) p fr).
Proof.
  induction p as [|i p IH]; cbn; intros sp f m fr f1 c HI Hw E.
  - injection E as <- <-. exact HI.
  - destruct Hw as (A & B & C & D & Hw).
    destruct (r_step f i) as [f2 c1] eqn:E1. destruct (r_run f2 p) as [f3 c2] eqn:E2.
    injection E as <- <-. rewrite acts_app. eapply IH; [|exact Hw|exact E2].
    eapply r_step_ok; eauto.
Qed.

Lemma acts_flush f m : home (acts (r_flush f) m) = stores (regs m) (dirty_residents f) (home m).
Proof.
  unfold r_flush, stores. generalize (dirty_residents f). intros l. revert m.
  induction l as [|[r s] l IH]; intros m; [reflexivity|]. cbn [map acts fold_left fst snd].
  fold acts. rewrite IH. reflexivity.
Qed.

Theorem allocate_run_ok p sp m fr : r_wf sp p -> (forall s, (s < sp)%nat -> home m s = fr s) ->
  forall s, (s < r_last sp p)%nat -> home (acts (allocate_run p) m) s = fold_left (r_exec op) p fr s.
Proof.
  intros Hw Hm s Hs. unfold allocate_run. destruct (r_run fnew p) as [f c] eqn:E.
  assert (RI sp fnew m fr) as HI.
  { split; cbn; try discriminate; auto. apply fnew_ok. }
  pose proof (r_run_ok _ _ _ _ _ _ _ HI Hw E) as HF. rewrite acts_app, acts_flush.
  destruct (stores_spec (regs (acts c m)) (dirty_residents f) (home (acts c m)) s) as [[Es N]|(r & Hr & Es)];
    rewrite Es.
  - apply (fi_home _ _ _ _ _ HF); [exact Hs|]. intros r h Eh Eq. destruct (hdirty h) eqn:D; [|reflexivity].
    exfalso. apply N. apply in_map_iff. exists (r, s). split; [reflexivity|].
    apply dirty_residents_in; [apply (fi_ok _ _ _ _ _ HF)|]. eauto.
  - apply dirty_residents_in in Hr as (h & Eh & <- & D); [|apply (fi_ok _ _ _ _ _ HF)].
    apply (fi_reg _ _ _ _ _ HF _ _ Eh).
Qed.
End Ref.
