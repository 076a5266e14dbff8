(** Correctness of each compiled instruction and of whole blocks. *)
From Coq Require Import ZArith Bool List Arith Lia.
From Verif Require Import IntModel FixAsmModel FixAsmProofs ValueModel GpModel GpSpec GpFileProofs
  GpRefProofs GpOpProofs GpInvProofs GpProofs.
Import ListNotations.

Lemma pre_ok sp nsp a c1 c m m1 f i : exec c1 m = MOk m1 -> taken c1 = None ->
  step_res sp nsp a c m1 f i -> step_res sp nsp a (c1 ++ c) m f i.
Proof.
  intros E T. unfold step_res. rewrite exec_app, E, taken_app, T.
  destruct (exec c m1); auto. now destruct (taken c).
Qed.

Lemma sub4 a dst nsp q h :
  hold (free_above (oinv (rf a) dst) nsp) q = Some h -> hold (rf a) q = Some h.
Proof. intros E. apply free_above_hold in E as [E _]. now apply oinv_hold in E as [E _]. Qed.
Lemma fok4 a dst nsp : fok (rf a) -> fok (free_above (oinv (rf a) dst) nsp).
Proof. apply sub_fok. intros q h E. apply sub4 in E. eauto. Qed.
Lemma inv_slots sp a m f r h : INV (live sp) a m f -> hold (rf a) r = Some h -> (hslot h < sp)%nat.
Proof. intros HI E. exact (fi_live _ _ _ _ _ (iv_fi _ _ _ _ HI) _ _ E). Qed.

Lemma imm32_some w k2 : imm32 w = Some k2 -> k2 = (w - 1)%Z.
Proof. unfold imm32. destruct (_ && _); [|discriminate]. congruence. Qed.

Definition is_some {A} (o : option A) : bool := match o with Some _ => true | None => false end.

Lemma bin_imm_ok sp nsp k dst l r a m f w k2 a1 c :
  wf1 sp (IBin k dst l r) nsp -> INV (live sp) a m f -> k = Add \/ k = Sub ->
  fix_lit a r = Some w -> imm32 w = Some k2 -> bin_imm a k dst l k2 nsp = (a1, c) ->
  step_res sp nsp a1 c m f (IBin k dst l r).
Proof.
  intros W HI Hk Hlit Himm. unfold bin_imm.
  assert ((l < sp)%nat) as Ll by (apply W; cbn; auto).
  assert ((r < sp)%nat) as Lr by (apply W; cbn; auto).
  destruct (gp_ensure a l []) as [[[a2 lr] lg] c1] eqn:Ee.
  destruct (ensure_ok (live sp) a m f l [] _ _ _ _ ltac:(cbn; lia) HI Ll Ee)
    as (m1 & E1 & H1 & R1 & M1 & G1 & T1 & _). clear Ee.
  destruct (dst_reg _ l lr _ []) as [[f3 d] v] eqn:Ed. intros E. injection E as <- <-.
  pose proof (iv_ok _ _ _ _ H1) as Ho.
  destruct R1 as (hl & El & Sl).
  assert (In lr pool) as Hp by (eapply (f_pool _ Ho); eauto).
  set (ld := match dirty_reg_of (rf a2) l with Some _ => true | None => false end) in *.
  assert (Hldc : ld = false -> forall q h, hold (free_above (oinv (rf a2) dst) nsp) q = Some h ->
            hslot h = l -> hdirty h = false).
  { intros Hld q h Eq Es. apply sub4 in Eq. unfold ld in Hld.
    destruct (dirty_reg_of (rf a2) l) eqn:Edr; [discriminate|]. exact (dirty_reg_none _ _ Ho Edr _ _ Eq Es). }
  destruct (dst_reg_picked _ l lr ld [] f3 d v (fok4 a2 dst nsp Ho) ltac:(cbn; lia) Hp Hldc Ed)
    as (Hpk & _ & Hdl).
  destruct (iv_fix_lit _ _ _ _ _ _ HI Lr Hlit) as (Ew & Ow & Mw).
  apply (pre_ok _ _ _ c1 _ _ m1); [exact E1|exact T1|].
  pose proof (tail_ok sp nsp k dst l r a2 m1 f lr lr d lg false f3 v
    (BinImm k d lr k2 (snapshot a2)) (imm_exec k d lr k2)) as T.
  assert (clobbers k = false) as Ck by (destruct Hk as [-> | ->]; reflexivity).
  rewrite Ck in T. cbv zeta in T. apply T; clear T.
  - exact W.
  - exact H1.
  - exact Hpk.
  - eapply iv_res; [exact H1|]. exists hl. auto.
  - intros ->. symmetry in G1. apply negb_false_iff in G1. exact (iv_fixnum _ _ _ _ _ HI Ll G1).
  - discriminate.
  - intros _ _. congruence.
  - reflexivity.
  - destruct Hk as [-> | ->]; reflexivity.
  - intros ll rv g' e Tl Tr Fl Fr Ex.
    assert (k2 = 2 * rv)%Z as K2 by (apply imm32_some in Himm; unfold tag in Tr; lia).
    assert (regs m1 lr = tag ll) as Vl.
    { rewrite <- Tl. eapply iv_res; [exact H1|]. exists hl. auto. }
    destruct (imm_exec_ok k d lr k2 (regs m1) g' e ll rv Vl Fl K2 Hk Ex) as [A B].
    split; [auto|]. split; [|exact B]. destruct Hk as [-> | ->]; discriminate.
  - discriminate.
  - intros h Eh Dh. split; intros Es.
    + assert (d = lr) as -> by (apply (f_uniq _ Ho _ _ _ _ Eh El); congruence).
      specialize (Hdl eq_refl). unfold ld in Hdl. destruct (dirty_reg_of (rf a2) l) eqn:Edr; [discriminate|].
      rewrite (dirty_reg_none _ _ Ho Edr _ _ Eh Es) in Dh. discriminate.
    + destruct (fi_dirty _ _ _ _ _ (iv_fi _ _ _ _ H1) _ _ Eh Dh) as [_ [b Mb]].
      rewrite Es, M1, Mw in Mb. discriminate.
  - intros Hv. apply (pigeon (rf a2)); [exact Ho| |].
    + intros. eapply inv_slots; eauto.
    + intros q Hq. destruct (Nat.eq_dec q lr) as [->|N]; [eauto|].
      destruct (dst_reg_full _ _ _ _ _ _ _ _ Ed Hv q Hq) as [h Eh].
      * cbn. intuition congruence.
      * apply sub4 in Eh. eauto.
Qed.

Lemma inv_sync L a m f r q : INV L a m f -> dirty_reg_of (rf a) r = Some q ->
  INV L (with_rf a (sync (rf a) r)) (mkm (regs m) (upd (home m) r (regs m q))) f.
Proof.
  intros HI Ed. apply dirty_reg_some in Ed as (hq & Eq & Sq & Dq).
  assert (regs m q = f r) as Vq by (eapply iv_res; [exact HI|exists hq; auto]). rewrite Vq.
  pose proof (iv_ok _ _ _ _ HI) as Ho. destruct HI as [A B C D E].
  split; cbn [rf modes with_rf]; auto. destruct A as [A1 A2 A3 A4 A5].
  split; cbn [regs home].
  - now apply sync_fok.
  - intros z h Ez. apply sync_hold in Ez as (h0 & Ez & -> & _); eauto.
  - intros z h Ez. apply sync_hold in Ez as (h0 & Ez & -> & _); eauto.
  - intros z h Ez Dz. apply sync_hold in Ez as (h0 & Ez & -> & _ & Dh); [|exact Ho].
    apply (A4 _ _ Ez). rewrite Dh in Dz. destruct (Nat.eqb (hslot h0) r); [discriminate|auto].
  - intros s Hs Hc. destruct (Nat.eq_dec s r) as [->|N]; [now rewrite upd_eq|].
    rewrite upd_ne by auto. apply A5; [exact Hs|]. intros z h Ez Es.
    apply (Hc z h); [|exact Es]. apply sync_hold; [exact Ho|]. exists h. repeat split; auto.
    destruct (Nat.eqb_spec (hslot h) r); [congruence|reflexivity].
Qed.

Lemma bin_reg_ok sp nsp k dst l r a m f a1 c :
  wf1 sp (IBin k dst l r) nsp -> INV (live sp) a m f ->
  (k = Div -> l <> r /\ ~ (intval (f l) = Some (- 2 ^ 62)%Z /\ intval (f r) = Some (-1)%Z)) ->
  bin_reg a k dst l r nsp = (a1, c) -> step_res sp nsp a1 c m f (IBin k dst l r).
Proof.
  intros W HI Hdiv. unfold bin_reg.
  assert ((l < sp)%nat) as Ll by (apply W; cbn; auto).
  assert ((r < sp)%nat) as Lr by (apply W; cbn; auto).
  destruct (gp_ensure a l []) as [[[b1 lr] lg] c1] eqn:Ee.
  destruct (ensure_ok (live sp) a m f l [] _ _ _ _ ltac:(cbn; lia) HI Ll Ee)
    as (m1 & E1 & H1 & R1 & M1 & G1 & T1 & _). clear Ee.
  destruct (gp_ensure b1 r [lr]) as [[[b2 rr] rg0] c2] eqn:Ee.
  destruct (ensure_ok (live sp) b1 m1 f r [lr] _ _ _ _ ltac:(cbn; lia) H1 Lr Ee)
    as (m2 & E2 & H2 & R2 & M2 & G2 & T2 & K2). clear Ee.
  assert (res (rf b2) lr l) as R1'.
  { destruct R1 as (h & Eh & Sh). exists h. split; [|exact Sh]. apply K2; [now left|exact Eh]. }
  set (o := if clobbers k then dirty_reg_of (rf b2) r else None).
  assert (exists b3 c3 m3, (match o with
            | Some q => (with_rf b2 (sync (rf b2) r), [Store q r])
            | None => (b2, []) end) = (b3, c3) /\
          exec c3 m2 = MOk m3 /\ taken c3 = None /\ INV (live sp) b3 m3 f /\
          res (rf b3) lr l /\ res (rf b3) rr r /\ modes b3 = modes b2 /\
          (clobbers k = true ->
           forall q h, hold (rf b3) q = Some h -> hslot h = r -> hdirty h = false))
    as (b3 & c3 & m3 & E3 & X3 & T3 & H3 & R1s & R2s & M3 & C3).
  { subst o. pose proof (iv_ok _ _ _ _ H2) as Ho2.
    destruct (clobbers k) eqn:Ck; [destruct (dirty_reg_of (rf b2) r) as [q|] eqn:Eq|].
    - do 3 eexists. split; [reflexivity|]. cbn [exec exec1 taken taken1].
      split; [reflexivity|]. split; [reflexivity|]. split; [now apply inv_sync|].
      cbn [rf modes with_rf].
      assert (forall z s, res (rf b2) z s -> res (sync (rf b2) r) z s) as Hz.
      { intros z s (h & Eh & Sh).
        exists (mkh (hslot h) (if Nat.eqb (hslot h) r then false else hdirty h) (hage h)).
        split; [|exact Sh]. apply sync_hold; [exact Ho2|]. exists h. cbn. auto. }
      repeat split; auto. intros _ z h Eh Sh.
      apply sync_hold in Eh as (h0 & Eh & S0 & _ & Dh); [|exact Ho2].
      rewrite Dh, <- S0, Sh, Nat.eqb_refl. reflexivity.
    - exists b2, [], m2. split; [reflexivity|]. split; [reflexivity|]. split; [reflexivity|].
      split; [exact H2|]. repeat split; auto. intros _. now apply dirty_reg_none.
    - exists b2, [], m2. split; [reflexivity|]. split; [reflexivity|]. split; [reflexivity|].
      split; [exact H2|]. repeat split; auto. discriminate. }
  rewrite E3. clear E3. clearbody o. clear o.
  set (dbl := match k with Add => Nat.eqb lr rr | _ => false end).
  set (ld := match dirty_reg_of (rf b3) l with Some _ => true | None => false end).
  set (f4 := free_above (oinv (rf b3) dst) nsp).
  destruct (if clobbers k then alloc_reg f4 [lr; rr]
            else if dbl then dst_reg f4 l lr ld [] else dst_reg f4 l lr ld [rr])
    as [[f5 d] v] eqn:Ed.
  intros E. injection E as <- <-.
  pose proof (iv_ok _ _ _ _ H3) as Ho.
  destruct R1s as (hl & El & Sl). destruct R2s as (hr & Er & Sr).
  assert (In lr pool) as Hp by (eapply (f_pool _ Ho); eauto).
  assert (fok f4) as Ho4 by (now apply fok4).
  assert (Hldc : ld = false -> forall q h, hold f4 q = Some h -> hslot h = l -> hdirty h = false).
  { intros Hld q h Eq Es. apply sub4 in Eq. unfold ld in Hld.
    destruct (dirty_reg_of (rf b3) l) eqn:Edr; [discriminate|]. exact (dirty_reg_none _ _ Ho Edr _ _ Eq Es). }
  assert (Hpick : picked f4 f5 d v /\ (d = lr -> ld = false) /\ (dbl = false -> d <> rr) /\
            (v <> None -> forall q, In q pool -> q <> lr -> q <> rr -> exists h, hold f4 q = Some h)).
  { destruct (clobbers k) eqn:Ck; [|destruct dbl eqn:Edb].
    - destruct (alloc_picked f4 [lr; rr] f5 d v ltac:(cbn; lia) Ed) as [A B]. split; [exact A|].
      split; [intros ->; cbn in B; tauto|]. split; [intros _ ->; cbn in B; tauto|].
      intros Hv q Hq N1 N2. apply (alloc_full _ _ _ _ _ Ed Hv q Hq). cbn. intuition congruence.
    - destruct (dst_reg_picked _ l lr ld [] f5 d v Ho4 ltac:(cbn; lia) Hp Hldc Ed) as (A & _ & B).
      split; [exact A|]. split; [exact B|]. split; [discriminate|].
      intros Hv q Hq N1 N2. apply (dst_reg_full _ _ _ _ _ _ _ _ Ed Hv q Hq). cbn. intuition congruence.
    - destruct (dst_reg_picked _ l lr ld [rr] f5 d v Ho4 ltac:(cbn; lia) Hp Hldc Ed) as (A & C & B).
      split; [exact A|]. split; [exact B|]. split; [intros _ ->; cbn in C; tauto|].
      intros Hv q Hq N1 N2. apply (dst_reg_full _ _ _ _ _ _ _ _ Ed Hv q Hq). cbn. intuition congruence. }
  destruct Hpick as (Hpk & Hdl & Hdr & Hfl). clear Ed.
  assert (Hdbl : dbl = true -> k = Add /\ lr = rr /\ l = r).
  { unfold dbl. destruct k; try discriminate. intros F. apply Nat.eqb_eq in F.
    split; [reflexivity|]. split; [exact F|]. subst rr. congruence. }
  assert (V1 : regs m3 lr = f l) by (eapply iv_res; [exact H3|exists hl; auto]).
  assert (V2 : regs m3 rr = f r) by (eapply iv_res; [exact H3|exists hr; auto]).
  assert (Hlg : lg = false -> odd (f l) = true).
  { intros ->. symmetry in G1. apply negb_false_iff in G1. exact (iv_fixnum _ _ _ _ _ HI Ll G1). }
  assert (Hlrr : k = Div -> lr <> rr).
  { intros Ek ->. destruct (Hdiv Ek) as [N _]. congruence. }
  apply (pre_ok _ _ _ c1 _ _ m1); [exact E1|exact T1|].
  apply (pre_ok _ _ _ c2 _ _ m2); [exact E2|exact T2|].
  apply (pre_ok _ _ _ c3 _ _ m3); [exact X3|exact T3|].
  set (rg := rg0 && negb (Nat.eqb l r)).
  apply (tail_ok sp nsp k dst l r b3 m3 f lr rr d lg rg f5 v
    (if dbl then Double d lr (snapshot b3) else Bin k d lr rr (snapshot b3))
    (fun g => if dbl then double_exec d lr g else bin_exec k d lr rr g)).
  - exact W.
  - exact H3.
  - exact Hpk.
  - exact V1.
  - exact Hlg.
  - intros _. exact V2.
  - intros Hrg Ol. unfold rg in Hrg. destruct (Nat.eqb_spec l r) as [<-|N]; [exact Ol|].
    rewrite andb_true_r in Hrg. rewrite Hrg in G2. symmetry in G2. apply negb_false_iff in G2.
    exact (iv_fixnum _ _ _ _ _ H1 Lr G2).
  - intros m0. destruct dbl; reflexivity.
  - destruct dbl eqn:Edb; [|destruct k; reflexivity].
    destruct (Hdbl eq_refl) as [-> _]. reflexivity.
  - intros ll rv g' e Tl Tr Fl Fr Ex. rewrite Tl in V1. rewrite Tr in V2. destruct dbl eqn:Edb.
    + destruct (Hdbl eq_refl) as (-> & <- & Elr). cbv beta iota in Ex.
      destruct (double_exec_ok d lr (regs m3) g' e ll V1 Fl Ex) as [A B].
      assert (ll = rv) as <- by (rewrite V1 in V2; unfold tag in V2; lia).
      split; [auto|]. split; [discriminate|exact B].
    + assert (k = Div -> lr <> rr /\ ~ (ll = - 2 ^ 62 /\ rv = -1)%Z) as Hd.
      { intros Ek. split; [auto|]. destruct (Hdiv Ek) as [_ N]. rewrite Tl, Tr, !intval_tag in N.
        intros [-> ->]. apply N. auto. }
      exact (bin_exec_ok k d lr rr (regs m3) g' e ll rv V1 V2 Fl Fr (Hdr eq_refl) Hd Ex).
  - intros Ck. split; [exists hr; auto|exact (C3 Ck)].
  - intros h Eh Dh. split; intros Es.
    + assert (d = lr) as -> by (apply (f_uniq _ Ho _ _ _ _ Eh El); congruence).
      specialize (Hdl eq_refl). unfold ld in Hdl.
      destruct (dirty_reg_of (rf b3) l) eqn:Edr; [discriminate|].
      rewrite (dirty_reg_none _ _ Ho Edr _ _ Eh Es) in Dh. discriminate.
    + assert (d = rr) as Edrr by (apply (f_uniq _ Ho _ _ _ _ Eh Er); congruence).
      destruct dbl eqn:Edb; [|now apply (Hdr eq_refl)].
      destruct (Hdbl eq_refl) as (_ & Elr & Eslr).
      specialize (Hdl (eq_trans Edrr (eq_sym Elr))). unfold ld in Hdl.
      destruct (dirty_reg_of (rf b3) l) eqn:Edr; [discriminate|].
      rewrite (dirty_reg_none _ _ Ho Edr _ _ Eh ltac:(congruence)) in Dh. discriminate.
  - intros Hv. apply (pigeon (rf b3)); [exact Ho| |].
    + intros. eapply inv_slots; eauto.
    + intros q Hq. destruct (Nat.eq_dec q lr) as [->|N1]; [eauto|].
      destruct (Nat.eq_dec q rr) as [->|N2]; [eauto|].
      destruct (Hfl Hv q Hq N1 N2) as [h Eh]. apply sub4 in Eh. eauto.
Qed.

(** ** More transfers *)
Lemma inv_modes L a m f md : INV L a m f -> (forall t, L t -> md t = modes a t) ->
  INV L (mka (rf a) md) m f.
Proof.
  intros [A B C D E] Hm. split; cbn [rf modes]; auto.
  - destruct A as [A1 A2 A3 A4 A5]. split; auto.
    + intros r h X Y. destruct (A4 _ _ X Y) as [Z1 Z2]. split; [exact Z1|]. now rewrite Hm.
    + intros s [X Y]. rewrite Hm in Y by auto. auto.
  - intros s w Ls. rewrite Hm by auto. auto.
  - intros s Ls. rewrite Hm by auto. auto.
  - intros s Ls. rewrite Hm by auto. auto.
Qed.

Lemma inv_setC (L L' : slot -> Prop) a m f s w md : INV L a m f -> (forall t, L' t -> L t \/ t = s) ->
  (forall t, L t -> L' t) -> ~ L s ->
  is_i64 w -> md s = MC w -> (forall t, t <> s -> md t = modes a t) ->
  INV L' (mka (rf a) md) m (upd f s w).
Proof.
  intros [A B C D E] HL HL2 Ns Hi Hs Hm.
  assert (forall t, L t -> t <> s) as Hn by (intros t Lt ->; tauto).
  split; cbn [rf modes].
  - destruct A as [Ho Hli Hr Hd Hh]. split; auto.
    + intros q h F. apply HL2. eauto.
    + intros q h F. rewrite upd_ne by eauto. eauto.
    + intros q h F Dq. destruct (Hd _ _ F Dq) as [X Y].
      split; [auto|]. rewrite Hm by auto. exact Y.
    + intros t [Lt [b Mt]] Hc. destruct (Nat.eq_dec t s) as [->|N]; [congruence|].
      rewrite upd_ne by auto. rewrite Hm in Mt by auto. apply HL in Lt as [Lt|]; [|congruence].
      apply Hh; eauto.
  - intros t v Lt Mt. destruct (Nat.eq_dec t s) as [->|N]; [rewrite upd_eq; congruence|].
    rewrite upd_ne by auto. rewrite Hm in Mt by auto. apply HL in Lt as [Lt|]; [eauto|congruence].
  - intros t Lt. destruct (Nat.eq_dec t s) as [->|N]; [congruence|]. rewrite Hm by auto.
    apply HL in Lt as [Lt|]; [eauto|congruence].
  - intros t Lt Mt. destruct (Nat.eq_dec t s) as [->|N]; [congruence|]. rewrite Hm in Mt by auto.
    rewrite upd_ne by auto. apply HL in Lt as [Lt|]; [eauto|congruence].
  - intros t Lt. destruct (Nat.eq_dec t s) as [->|N].
    + now rewrite upd_eq.
    + rewrite upd_ne by auto. apply HL in Lt as [Lt|]; [eauto|congruence].
Qed.

Lemma inv_clear2 (L : slot -> Prop) sp a m f : INV L a m f -> (forall s, (s < sp)%nat -> L s) ->
  INV (live sp) (clear_above a sp) m f.
Proof.
  intros HI HL.
  assert (INV (live sp) (with_rf a (free_above (rf a) sp)) m f) as H1.
  { apply (inv_drop L); [exact HI|exact HL|]. intros q h. apply free_above_hold. }
  apply (inv_modes _ _ _ _ (fun s => if Nat.leb sp s then MV else modes a s)) in H1; [exact H1|].
  intros t Lt. unfold live in Lt. destruct (Nat.leb_spec sp t); [lia|reflexivity].
Qed.

Lemma inv_frame (L : slot -> Prop) a m f f1 : INV L a m f -> (forall s, L s -> f1 s = f s) -> INV L a m f1.
Proof.
  intros [A B C D E] Hf. split; auto.
  - destruct A as [A1 A2 A3 A4 A5]. split; auto.
    + intros r h X. rewrite Hf by eauto. eauto.
    + intros s [X Y] Z. rewrite Hf by auto. auto.
  - intros s w X Y. rewrite Hf by auto. eauto.
  - intros s X Y. rewrite Hf by auto. eauto.
  - intros s X. rewrite Hf by auto. eauto.
Qed.

Definition sub (L : slot -> Prop) (s : slot) : slot -> Prop := fun t => L t /\ t <> s.
Lemma inv_forget L a m f s : INV L a m f -> INV (sub L s) (with_rf a (invalidate (rf a) s)) m f.
Proof.
  intros HI. apply (inv_drop L); [exact HI|unfold sub; tauto|].
  intros q h. rewrite invalidate_hold. unfold sub. split; [|tauto].
  intros [E N]. split; [exact E|]. split; [|exact N].
  exact (fi_live _ _ _ _ _ (iv_fi _ _ _ _ HI) _ _ E).
Qed.

Lemma inv_def_C L a m f s w : INV L a m f -> is_i64 w ->
  INV (fun t => L t \/ t = s) (def_C a s w) m (upd f s w).
Proof.
  intros HI Hw. pose proof (inv_forget _ _ _ _ s HI) as H1.
  apply (inv_setC (sub L s) (fun t => L t \/ t = s) _ _ _ s w (upd (upd (modes a) s MV) s (MC w)) H1).
  - unfold sub. intros t [X|X]; [|auto]. destruct (Nat.eq_dec t s); auto.
  - unfold sub. tauto.
  - unfold sub. tauto.
  - exact Hw.
  - now rewrite upd_eq.
  - intros t N. cbn [with_rf modes]. now rewrite !upd_ne.
Qed.
Lemma inv_odef_C sp nsp dst a m f w : INV (live sp) a m f -> is_i64 w ->
  (forall s, (s < nsp)%nat -> (s < sp)%nat \/ dst = Some s) ->
  INV (live nsp) (clear_above (odef_C a dst w) nsp) m (store f dst w).
Proof.
  intros HI Hw W3. destruct dst as [s|]; cbn [odef_C store].
  - assert (INV (sub (live sp) s) (with_rf a (invalidate (rf a) s)) m f) as H1 by (now apply inv_forget).
    apply (inv_def_C _ _ _ _ s w) in H1; [|exact Hw].
    apply (inv_clear2 _ _ _ _ _ H1). intros t Lt. unfold sub, live.
    destruct (Nat.eq_dec t s) as [->|N]; [auto|]. destruct (W3 _ Lt); [auto|congruence].
  - apply (inv_clear2 _ _ _ _ _ HI). intros t Lt. destruct (W3 _ Lt); [auto|discriminate].
Qed.

Lemma fold_bin_ok k x y w : fixr x -> fixr y -> fold_bin k (tag x) (tag y) = Some w ->
  exists z, zop k x y = Some z /\ fits_i63 z = true /\ w = tag z.
Proof.
  intros Fx Fy. unfold fold_bin. rewrite !untag.
  assert (forall o, option_map tag o = Some w -> exists z, o = Some z /\ w = tag z) as H.
  { intros [z|]; cbn; [|discriminate]. intros E. injection E as <-. eauto. }
  intros E. apply H in E as (z & E & ->). exists z.
  assert (forall z', check_fixnum z' = Some z -> z' = z /\ fits_i63 z = true) as Hc.
  { intros z'. unfold check_fixnum. destruct (fits_i63 z') eqn:F; [|discriminate].
    intros G. injection G as <-. auto. }
  destruct k; cbn [zop].
  - apply fold_arith_ok in E as [-> F]. rewrite (proj2 (fits_fixr _) F). auto.
  - apply fold_arith_ok in E as [-> F]. rewrite (proj2 (fits_fixr _) F). auto.
  - apply fold_arith_ok in E as [-> F]. rewrite (proj2 (fits_fixr _) F). auto.
  - apply fold_div_ok in E as (N & -> & F); [|assumption..].
    destruct (Z.eqb_spec y 0); [contradiction|]. rewrite (proj2 (fits_fixr _) F). auto.
  - apply Hc in E as [-> F]. auto.
  - apply Hc in E as [-> F]. auto.
  - apply Hc in E as [-> F]. auto.
Qed.

Definition div1 (f : frame) (i : ins) : Prop :=
  match i with
  | IBin Div _ l r => l <> r /\ ~ (intval (f l) = Some (- 2 ^ 62)%Z /\ intval (f r) = Some (-1)%Z)
  | _ => True
  end.

Lemma fix_lit_val sp a m f s w : INV (live sp) a m f -> (s < sp)%nat -> fix_lit a s = Some w ->
  exists x, w = tag x /\ f s = tag x /\ fixr x.
Proof.
  intros HI Ls E. destruct (iv_fix_lit _ _ _ _ _ _ HI Ls E) as (Ef & Eo & _).
  apply odd_spec in Eo. exists ((w - 1) / 2)%Z. split; [exact Eo|]. split; [congruence|].
  apply tag_fixr. rewrite <- Eo, <- Ef. exact (iv_word _ _ _ _ HI _ Ls).
Qed.

Lemma step_res_swap sp nsp a c m f dst l r :
  step_res sp nsp a c m f (IBin Add dst l r) -> step_res sp nsp a c m f (IBin Add dst r l).
Proof.
  assert (step f (IBin Add dst l r) = step f (IBin Add dst r l)) as Es.
  { cbn [step]. destruct (intval (f l)), (intval (f r)); cbn [zop]; try reflexivity.
    now rewrite Z.add_comm. }
  unfold step_res, exit_res. rewrite Es. destruct (exec c m); auto.
  intros [A B]. split; [exact A|]. intros s Ls. destruct (B s Ls) as [|(C & D & E & F)]; [auto|].
  right. split; [|split; [exact D|split; [|exact F]]].
  - cbn in C |- *. destruct C as (x & y & z & C1 & C2 & C3 & C4). exists y, x, z.
    rewrite Z.add_comm. auto.
  - cbn in E |- *. tauto.
Qed.

Lemma bin_ok sp nsp k dst l r a m f a1 c :
  wf1 sp (IBin k dst l r) nsp -> INV (live sp) a m f -> div1 f (IBin k dst l r) ->
  bin a k dst l r nsp = (a1, c) -> step_res sp nsp a1 c m f (IBin k dst l r).
Proof.
  intros W HI Hd. unfold bin.
  assert ((l < sp)%nat) as Ll by (apply W; cbn; auto).
  assert ((r < sp)%nat) as Lr by (apply W; cbn; auto).
  assert (k = Div -> l <> r /\ ~ (intval (f l) = Some (- 2 ^ 62)%Z /\ intval (f r) = Some (-1)%Z)) as Hdv.
  { intros ->. exact Hd. }
  destruct (match fix_lit a l with Some wl => _ | None => _ end) as [w|] eqn:Ef.
  - intros E. injection E as <- <-.
    destruct (fix_lit a l) as [wl|] eqn:El; [|discriminate].
    destruct (fix_lit a r) as [wr|] eqn:Er; [|discriminate].
    destruct (fix_lit_val _ _ _ _ _ _ HI Ll El) as (x & -> & Vx & Fx).
    destruct (fix_lit_val _ _ _ _ _ _ HI Lr Er) as (y & -> & Vy & Fy).
    destruct (fold_bin_ok _ _ _ _ Fx Fy Ef) as (z & Ez & Fz & ->).
    unfold step_res. cbn [exec]. exists (store f dst (tag z)). split.
    + cbn [step]. rewrite Vx, Vy, !intval_tag, Ez, Fz. reflexivity.
    + apply (inv_odef_C sp); [exact HI| |apply W]. apply fixr_tag. now apply fits_fixr.
  - clear Ef. destruct (bin_imm_form a k l r) as [[v k2]|] eqn:Ei.
    + intros Eb. unfold bin_imm_form in Ei.
      assert (k = Add \/ k = Sub) as Hk by (destruct k; auto; discriminate).
      assert ((v = l /\ exists w, fix_lit a r = Some w /\ imm32 w = Some k2) \/
              (v = r /\ k = Add /\ exists w, fix_lit a l = Some w /\ imm32 w = Some k2)) as [H|H].
      { assert (forall w s, option_map (fun k2 => (s, k2)) (imm32 w) = Some (v, k2) ->
                  v = s /\ imm32 w = Some k2) as Hm.
        { intros w s. destruct (imm32 w); cbn; [|discriminate]. intros F. injection F as <- <-. auto. }
        destruct (fix_lit a r) as [w|] eqn:Er.
        - left. assert (option_map (fun k2 => (l, k2)) (imm32 w) = Some (v, k2)) as Ei'
            by (destruct Hk as [-> | ->]; exact Ei).
          apply Hm in Ei' as [-> Ei']. eauto.
        - right. destruct Hk as [-> | ->]; [|discriminate].
          destruct (fix_lit a l) as [w|]; [|discriminate]. apply Hm in Ei as [-> Ei]. eauto. }
      * destruct H as (-> & w & Er & Em). eapply bin_imm_ok; eauto.
      * destruct H as (-> & -> & w & El & Em). apply step_res_swap.
        eapply (bin_imm_ok sp nsp Add dst r l); eauto.
        destruct W as (W1 & W2 & W3 & W4). split; [|auto].
        cbn in *. intros s [<-|[<-|[]]]; auto.
    + intros Eb. eapply bin_reg_ok; eauto.
Qed.

Lemma recv_guard_ok sp a m f s a1 c : INV (live sp) a m f -> (s < sp)%nat ->
  recv_guard a s = (a1, c) -> taken c = None /\
  match exec c m with
  | MOk m1 => INV (live sp) a1 m1 f /\ odd (f s) = true
  | MExit h => odd (f s) = false /\ forall t, (t < sp)%nat -> h t = f t
  | MTrap => False
  end.
Proof.
  intros HI Ls. unfold recv_guard. destruct (is_fixnum a s) eqn:Ef.
  { intros E. injection E as <- <-. split; [reflexivity|]. cbn [exec]. split; [exact HI|].
    exact (iv_fixnum _ _ _ _ _ HI Ls Ef). }
  destruct (gp_ensure a s []) as [[[a2 r] g] c1] eqn:Ee.
  destruct (ensure_ok (live sp) a m f s [] _ _ _ _ ltac:(cbn; lia) HI Ls Ee)
    as (m1 & E1 & H1 & R1 & M1 & G1 & T1 & _). rewrite Ef in G1. cbn in G1. subst g.
  intros E. injection E as <- <-. rewrite taken_app, T1. split; [reflexivity|].
  rewrite exec_app, E1. cbn [exec exec1].
  pose proof (iv_res _ _ _ _ _ _ H1 R1) as V. rewrite V. destruct (odd (f s)) eqn:Eo.
  - split; [now apply inv_refine|reflexivity].
  - split; [reflexivity|]. intros t Lt. apply (wb_ok _ _ m1 _ _ _ H1 Lt); auto.
Qed.

Lemma recv_pre sp nsp a m f i s a1 c1 a2 c2 : INV (live sp) a m f -> (s < sp)%nat ->
  (odd (f s) = false -> step f i = None) -> recv_guard a s = (a1, c1) ->
  (forall m1, INV (live sp) a1 m1 f -> step_res sp nsp a2 c2 m1 f i) ->
  step_res sp nsp a2 (c1 ++ c2) m f i.
Proof.
  intros HI Ls Hs E Hk. destruct (recv_guard_ok _ _ _ _ _ _ _ HI Ls E) as [T X].
  unfold step_res. rewrite exec_app, taken_app, T. destruct (exec c1 m) as [m1|h|].
  - destruct X as [X _]. specialize (Hk _ X). unfold step_res in Hk.
    destruct (exec c2 m1); auto. now destruct (taken c2).
  - destruct X as [X Y]. split; auto.
  - exact X.
Qed.

(** ** Comparisons *)
Lemma zcmp_eq k a b : zcmp k a b = cmpz k a b.
Proof.
  unfold zcmp, cmpz, Z.leb, Z.ltb. rewrite Z.eqb_compare, (Z.compare_antisym a b).
  destruct k, (a ?= b)%Z; reflexivity.
Qed.
Lemma cmpz_tag k x y : cmpz k (tag x) (tag y) = cmpz k x y.
Proof. unfold tag. destruct k; cbn [cmpz]; lia. Qed.
Lemma wbool_i64 b : is_i64 (wbool b).
Proof. destruct b; unfold is_i64, wbool, TRUE_VALUE, FALSE_VALUE; lia. Qed.

Lemma inv_odef_S nsp dst a m f w : INV (live_but nsp dst) a m f ->
  (forall s, dst = Some s -> (s < nsp)%nat) -> is_i64 w ->
  INV (live nsp) (clear_above (odef_S a dst) nsp) (store_opt m dst w) (store f dst w).
Proof.
  intros HI Hd Hi. apply inv_clear. destruct dst as [s|]; cbn [odef_S store_opt store].
  - specialize (Hd _ eq_refl). apply (inv_homed (live_but nsp (Some s))) with (b := false).
    + apply inv_def_S; [|unfold live_but; intuition congruence]. eapply inv_regs; [exact HI|auto|].
      intros t [_ N]. cbn [home]. rewrite upd_ne; congruence.
    + intros t. unfold live, live_but. destruct (Nat.eq_dec t s) as [->|]; [tauto|].
      split; [intros; left; split; congruence|tauto].
    + unfold live_but. intuition congruence.
    + cbn. now rewrite upd_eq.
    + cbn [home]. now rewrite upd_eq.
    + exact Hi.
    + discriminate.
  - eapply inv_ext; [|exact HI]. intros t. unfold live, live_but. split; [tauto|]. intros; split; congruence.
Qed.

Lemma cmp_ok sp nsp k dst l r a m f a1 c :
  wf1 sp (ICmp k dst l r) nsp -> INV (live sp) a m f ->
  cmp_ a k dst l r nsp = (a1, c) -> step_res sp nsp a1 c m f (ICmp k dst l r).
Proof.
  intros W HI. unfold cmp_.
  assert ((l < sp)%nat) as Ll by (apply W; cbn; auto).
  assert ((r < sp)%nat) as Lr by (apply W; cbn; auto).
  destruct W as (W1 & W2 & W3 & _). cbn [writes] in W2, W3.
  set (o := match fix_lit a r with
            | Some w => if (- 2 ^ 31 <=? w)%Z && (w <? 2 ^ 31)%Z then Some w else None
            | None => None end).
  destruct (match fix_lit a l, fix_lit a r with Some wl, Some wr => Some (wl, wr) | _, _ => None end)
    as [[wl wr]|] eqn:Eb.
  { destruct (fix_lit a l) as [wl'|] eqn:El; [|discriminate].
    destruct (fix_lit a r) as [wr'|] eqn:Er; [|discriminate]. injection Eb as -> ->.
    intros E. injection E as <- <-.
    destruct (fix_lit_val _ _ _ _ _ _ HI Ll El) as (x & -> & Vx & Fx).
    destruct (fix_lit_val _ _ _ _ _ _ HI Lr Er) as (y & -> & Vy & Fy).
    unfold step_res. cbn [exec]. rewrite !untag. eexists. split.
    - cbn [step]. rewrite Vx, Vy, !intval_tag, zcmp_eq. reflexivity.
    - apply (inv_odef_C sp); auto using wbool_i64. }
  match goal with |- ?G = _ -> _ =>
    replace G with
      (match o with
       | Some w =>
          let '(a1, lr, lg, c1) := gp_ensure a l [] in
          let x := snapshot a1 in
          let f2 := free_above (oinv (rf a1) dst) nsp in
          (odef_S (refine_if lg (with_rf a1 f2) l) dst,
           c1 ++ guard_code lg lr x ++ [CmpImm k dst lr w])
      | None =>
          let '(a1, lr, lg, c1) := gp_ensure a l [] in
          let '(a2, rr, rg, c2) := gp_ensure a1 r [lr] in
          let x := snapshot a2 in
          let f3 := free_above (oinv (rf a2) dst) nsp in
          (odef_S (refine_if rg (refine_if lg (with_rf a2 f3) l) r) dst,
           c1 ++ c2 ++ guard_code lg lr x ++ guard_code rg rr x ++ [Cmp k dst lr rr])
      end)
  end.
  2:{ destruct (fix_lit a l); [destruct (fix_lit a r); [discriminate|]|]; reflexivity. }
  clear Eb. destruct o as [w|] eqn:Eo; subst o.
  - destruct (fix_lit a r) as [w'|] eqn:Er; [|discriminate].
    destruct (_ && _); [|discriminate]. injection Eo as ->.
    destruct (fix_lit_val _ _ _ _ _ _ HI Lr Er) as (y & -> & Vy & Fy).
    destruct (gp_ensure a l []) as [[[a2 lr] lg] c1] eqn:Ee.
    destruct (ensure_ok (live sp) a m f l [] _ _ _ _ ltac:(cbn; lia) HI Ll Ee)
      as (m1 & E1 & H1 & R1 & M1 & G1 & T1 & _). clear Ee.
    intros E. injection E as <- <-. apply (pre_ok _ _ _ c1 _ _ m1); [exact E1|exact T1|].
    pose proof (iv_res _ _ _ _ _ _ H1 R1) as V1.
    assert (Hlg : lg = false -> odd (f l) = true).
    { intros ->. symmetry in G1. apply negb_false_iff in G1. exact (iv_fixnum _ _ _ _ _ HI Ll G1). }
    unfold step_res. rewrite exec_app, exec_guard, V1. destruct (odd (f l)) eqn:Ol.
    2:{ destruct lg; [|now specialize (Hlg eq_refl)]. cbn [andb negb]. split.
        - cbn [step]. now rewrite (intval_even _ Ol).
        - intros s Ls. left. apply (wb_ok _ _ m1 _ _ _ H1 Ls); auto. }
    rewrite andb_false_r. cbn [exec exec1]. rewrite V1.
    pose proof (odd_spec _ Ol) as Tl. set (x := ((f l - 1) / 2)%Z) in *. clearbody x.
    eexists. split.
    + cbn [step]. rewrite Tl, Vy, !intval_tag, zcmp_eq. reflexivity.
    + rewrite Tl, cmpz_tag. apply inv_odef_S; auto using wbool_i64.
      apply inv_refine_if; [|exact Ol]. now apply (inv_drop4 sp).
  - destruct (gp_ensure a l []) as [[[b1 lr] lg] c1] eqn:Ee.
    destruct (ensure_ok (live sp) a m f l [] _ _ _ _ ltac:(cbn; lia) HI Ll Ee)
      as (m1 & E1 & H1 & R1 & M1 & G1 & T1 & _). clear Ee.
    destruct (gp_ensure b1 r [lr]) as [[[b2 rr] rg] c2] eqn:Ee.
    destruct (ensure_ok (live sp) b1 m1 f r [lr] _ _ _ _ ltac:(cbn; lia) H1 Lr Ee)
      as (m2 & E2 & H2 & R2 & M2 & G2 & T2 & K2). clear Ee.
    assert (res (rf b2) lr l) as R1'.
    { destruct R1 as (h & Eh & Sh). exists h. split; [|exact Sh]. apply K2; [now left|exact Eh]. }
    intros E. injection E as <- <-.
    apply (pre_ok _ _ _ c1 _ _ m1); [exact E1|exact T1|].
    apply (pre_ok _ _ _ c2 _ _ m2); [exact E2|exact T2|].
    pose proof (iv_res _ _ _ _ _ _ H2 R1') as V1. pose proof (iv_res _ _ _ _ _ _ H2 R2) as V2.
    assert (Hlg : lg = false -> odd (f l) = true).
    { intros ->. symmetry in G1. apply negb_false_iff in G1. exact (iv_fixnum _ _ _ _ _ HI Ll G1). }
    assert (Hrg : rg = false -> odd (f r) = true).
    { intros ->. symmetry in G2. apply negb_false_iff in G2. exact (iv_fixnum _ _ _ _ _ H1 Lr G2). }
    assert (Hall : forall s, (s < sp)%nat -> write_back (snapshot b2) m2 s = f s).
    { intros s Ls. apply (wb_ok _ _ m2 _ _ _ H2 Ls); auto. }
    unfold step_res. rewrite exec_app, exec_guard, V1. destruct (odd (f l)) eqn:Ol.
    2:{ destruct lg; [|now specialize (Hlg eq_refl)]. cbn [andb negb]. split; [|auto].
        cbn [step]. now rewrite (intval_even _ Ol). }
    rewrite andb_false_r, exec_app, exec_guard, V2. destruct (odd (f r)) eqn:Or.
    2:{ destruct rg; [|now specialize (Hrg eq_refl)]. cbn [andb negb]. split; [|auto].
        cbn [step]. rewrite (intval_even _ Or). now destruct (intval (f l)). }
    rewrite andb_false_r. cbn [exec exec1]. rewrite V1, V2.
    pose proof (odd_spec _ Ol) as Tl. set (x := ((f l - 1) / 2)%Z) in *. clearbody x.
    pose proof (odd_spec _ Or) as Tr. set (y := ((f r - 1) / 2)%Z) in *. clearbody y.
    eexists. split.
    + cbn [step]. rewrite Tl, Tr, !intval_tag, zcmp_eq. reflexivity.
    + rewrite Tl, Tr, cmpz_tag. apply inv_odef_S; auto using wbool_i64.
      apply inv_refine_if; [|exact Or]. apply inv_refine_if; [|exact Ol]. now apply (inv_drop4 sp).
Qed.

(** ** Literals and moves *)
Lemma lit_step_ok sp nsp d w a m f : wf1 sp (ILit d w) nsp -> INV (live sp) a m f ->
  step_res sp nsp (def_C a d w) [] m f (ILit d w).
Proof.
  intros (W1 & W2 & W3 & W4) HI. cbn in *. unfold step_res. cbn [exec]. eexists. split; [reflexivity|].
  apply (inv_def_C _ _ _ _ d w) in HI; [|exact W4]. apply (inv_clear2 _ _ _ _ _ HI).
  intros s Ls. destruct (W3 _ Ls) as [|E]; [now left|right; congruence].
Qed.

Lemma heap_lit_ok sp nsp d w a m f a1 c : wf1 sp (IHeap d w) nsp -> INV (live sp) a m f ->
  heap_lit a d w = (a1, c) -> step_res sp nsp a1 c m f (IHeap d w).
Proof.
  intros (W1 & W2 & W3 & W4) HI. cbn [reads writes lit_ok] in *. unfold heap_lit.
  pose proof (inv_forget _ _ _ _ d HI) as H0.
  apply (inv_modes _ _ _ _ (upd (upd (modes a) d MV) d (MS false))) in H0.
  2:{ intros t [_ N]. cbn [with_rf modes]. now rewrite !upd_ne. }
  change (mka (rf (with_rf a (invalidate (rf a) d))) (upd (upd (modes a) d MV) d (MS false)))
    with (def_S a d false) in H0.
  destruct (alloc_reg (rf (def_S a d false)) []) as [[f2 r] v] eqn:Ea. intros E. injection E as <- <-.
  destruct (alloc_picked (rf (def_S a d false)) [] f2 r v ltac:(cbn; lia) Ea) as [Hpk _].
  destruct (inv_picked _ _ _ _ _ _ _ H0 Hpk) as [H2 Hn].
  unfold step_res. rewrite exec_app, exec_spill. cbn [exec exec1]. eexists. split; [reflexivity|].
  apply (inv_clear2 (fun t => sub (live sp) d t \/ t = d)).
  2:{ intros s Ls. unfold sub, live. destruct (Nat.eq_dec s d); [auto|].
      destruct (W3 _ Ls) as [|E]; [auto|congruence]. }
  change (with_rf (def_S a d false) (bind f2 r d true))
    with (with_rf (with_rf (def_S a d false) f2) (bind (rf (with_rf (def_S a d false) f2)) r d true)).
  apply (inv_bind (sub (live sp) d)) with (b := false).
  - eapply inv_regs; [exact H2| |auto]. intros q h Eq. cbn [regs with_regs]. rewrite upd_ne; [reflexivity|].
    intros ->. cbn [with_rf rf] in Eq. congruence.
  - tauto.
  - unfold sub. tauto.
  - cbn. now rewrite upd_eq.
  - exact Hn.
  - apply Hpk.
  - cbn [regs with_regs]. now rewrite upd_eq.
  - exact W4.
  - discriminate.
Qed.

Lemma exec_stores l : forall m, exec (map (fun p => Store (fst p) (snd p)) l) m =
  MOk (mkm (regs m) (stores (regs m) l (home m))).
Proof.
  induction l as [|[r s] l IH]; intros m; [destruct m; reflexivity|].
  cbn [map exec exec1 fst snd]. rewrite IH. reflexivity.
Qed.
Lemma taken_stores l : taken (map (fun p => Store (fst p) (snd p)) l) = None.
Proof. induction l as [|[r s] l IH]; [reflexivity|]. cbn [map taken]. rewrite IH. reflexivity. Qed.

Lemma flush_ok L a m f a1 c : INV L a m f -> flush a = (a1, c) ->
  exists m1, exec c m = MOk m1 /\ taken c = None /\ INV L a1 m1 f /\ modes a1 = modes a /\
    (forall q, hold (rf a1) q = None).
Proof.
  intros HI E. injection E as <- <-. rewrite exec_stores, taken_stores. eexists.
  split; [reflexivity|]. split; [reflexivity|]. split; [|split; [reflexivity|reflexivity]].
  pose proof (iv_ok _ _ _ _ HI) as Ho. pose proof HI as HI0. destruct HI as [A B C D E].
  split; cbn [rf modes with_rf]; auto. split; cbn [hold regs home]; try discriminate.
  - split; cbn; discriminate.
  - intros s [Ls Ms] _.
    destruct (stores_spec (regs m) (dirty_residents (rf a)) (home m) s) as [[Es N]|(r & Hr & Es)]; rewrite Es.
    + apply (fi_home _ _ _ _ _ A); [auto|]. intros r h Eh Eq. destruct (hdirty h) eqn:Dh; [|reflexivity].
      exfalso. apply N. apply in_map_iff. exists (r, s). split; [reflexivity|].
      apply dirty_residents_in; eauto.
    + apply dirty_residents_in in Hr as (h & Eh & Sh & Dh); [|exact Ho].
      eapply iv_res; [exact HI0|]. exists h. auto.
Qed.

Lemma mov_ok sp nsp d s a m f a1 c : wf1 sp (IMov d s) nsp -> INV (live sp) a m f ->
  mov a d s = (a1, c) -> step_res sp nsp a1 c m f (IMov d s).
Proof.
  intros (W1 & W2 & W3 & W4) HI. cbn [reads writes lit_ok] in *. unfold mov.
  assert ((s < sp)%nat) as Ls by (apply W1; now left).
  destruct (flush a) as [a2 c2] eqn:Ef.
  destruct (flush_ok _ _ _ _ _ _ HI Ef) as (m1 & E1 & T1 & H1 & M1 & N1).
  assert (HL : forall t, (t < nsp)%nat -> (t < sp)%nat \/ t = d).
  { intros t Lt. destruct (W3 _ Lt) as [|E]; [now left|right; congruence]. }
  destruct (Nat.eqb_spec s d) as [<-|N].
  { intros E. injection E as <- <-. unfold step_res. rewrite E1. cbn [step]. eexists. split; [reflexivity|].
    apply (inv_clear2 (live sp)).
    - apply (inv_frame _ _ _ f); [exact H1|]. intros t _. unfold upd. destruct (Nat.eqb_spec t s); congruence.
    - intros t Lt. destruct (HL _ Lt) as [Lt2 | ->]; [exact Lt2|exact Ls]. }
  destruct (modes a2 s) as [b|w|] eqn:Em.
  - intros E. injection E as <- <-. unfold step_res. rewrite exec_app, E1. cbn [exec exec1 step].
    eexists. split; [reflexivity|].
    assert (home m1 s = f s) as Hh.
    { apply (fi_home _ _ _ _ _ (iv_fi _ _ _ _ H1)); [eauto|]. intros r h Eh. now rewrite N1 in Eh. }
    apply (inv_clear2 (fun t => sub (live sp) d t \/ t = d)).
    2:{ intros t Lt. unfold sub, live. destruct (Nat.eq_dec t d); [auto|].
        destruct (HL _ Lt); auto. }
    apply (inv_homed (sub (live sp) d)) with (b := b).
    + pose proof (inv_forget _ _ _ _ d H1) as H0.
      apply (inv_modes _ _ _ _ (upd (upd (modes a2) d MV) d (MS b))) in H0.
      2:{ intros t [_ Nt]. cbn [with_rf modes]. now rewrite !upd_ne. }
      eapply inv_regs; [exact H0|auto|]. intros t [_ Nt]. cbn [home]. now rewrite upd_ne.
    + tauto.
    + unfold sub. tauto.
    + cbn. now rewrite upd_eq.
    + cbn [home]. now rewrite upd_eq.
    + exact (iv_word _ _ _ _ H1 _ Ls).
    + intros ->. exact (iv_fix _ _ _ _ H1 _ Ls Em).
  - intros E. injection E as <- <-. unfold step_res. rewrite E1. cbn [step].
    eexists. split; [reflexivity|].
    assert (f s = w) as Ew by (exact (iv_const _ _ _ _ H1 _ _ Ls Em)).
    rewrite Ew. assert (is_i64 w) as Hw by (rewrite <- Ew; exact (iv_word _ _ _ _ H1 _ Ls)).
    apply (inv_def_C _ _ _ _ d w) in H1; [|exact Hw]. apply (inv_clear2 _ _ _ _ _ H1). exact HL.
  - exfalso. exact (iv_live _ _ _ _ H1 _ Ls Em).
Qed.

(** ** One instruction, one block *)
Lemma compile_step_ok sp nsp i a m f a1 c : wf1 sp i nsp -> INV (live sp) a m f -> div1 f i ->
  compile_step a i nsp = (a1, c) ->
  match exec c m with
  | MOk m1 => exists f1, step f i = Some f1 /\ INV (live nsp) a1 m1 f1
  | MExit h => exit_res sp nsp (taken c) h f i
  | MTrap => False
  end.
Proof.
  intros W HI Hd. unfold compile_step. destruct (compile_ins a i nsp) as [a2 c2] eqn:E.
  intros F. injection F as <- <-. change (step_res sp nsp a2 c2 m f i).
  destruct i as [k dst l r|k dst l r|d w|d w|d s]; cbn [compile_ins] in E.
  - destruct (recv_guard a l) as [b1 c1] eqn:Er. destruct (bin b1 k dst l r nsp) as [b2 c3] eqn:Eb.
    injection E as <- <-. eapply recv_pre; [exact HI| | |exact Er|].
    + apply W; cbn; auto.
    + intros Ho. cbn [step]. now rewrite (intval_even _ Ho).
    + intros m1 H1. eapply bin_ok; eauto.
  - destruct (recv_guard a l) as [b1 c1] eqn:Er. destruct (cmp_ b1 k dst l r nsp) as [b2 c3] eqn:Eb.
    injection E as <- <-. eapply recv_pre; [exact HI| | |exact Er|].
    + apply W; cbn; auto.
    + intros Ho. cbn [step]. now rewrite (intval_even _ Ho).
    + intros m1 H1. eapply cmp_ok; eauto.
  - injection E as <- <-. now apply lit_step_ok.
  - eapply heap_lit_ok; eauto.
  - eapply mov_ok; eauto.
Qed.

Lemma compile_ok p : forall sp n0 a m f a1 cs, INV (live sp) a m f -> wf sp p -> no_self_div p ->
  div_ok f p -> compile a p = (a1, cs) ->
  match exec_block n0 cs m with
  | Done m1 => exists f1, run f p = Some f1 /\ forall s, (s < last_sp sp p)%nat -> final a1 m1 s = f1 s
  | Exit n h => exists q f1 i nsp, n = (n0 + q)%nat /\ run f (firstn q p) = Some f1 /\
      nth_error p q = Some (i, nsp) /\ exit_res (sp_at sp p q) nsp (taken (nth q cs [])) h f1 i
  | Crash => False
  end.
Proof.
  induction p as [|[i nsp] p IH]; cbn [compile]; intros sp n0 a m f a1 cs HI W Hns Hd E.
  - destruct (flush a) as [a2 c] eqn:Ef. injection E as <- <-.
    destruct (flush_ok _ _ _ _ _ _ HI Ef) as (m1 & E1 & T1 & H1 & M1 & N1).
    cbn [exec_block]. rewrite E1. exists f. split; [reflexivity|]. intros s Ls. cbn in Ls.
    unfold final. destruct (modes a2 s) as [b|w|] eqn:Em.
    + apply (fi_home _ _ _ _ _ (iv_fi _ _ _ _ H1)); [eauto|]. intros r h Eh. now rewrite N1 in Eh.
    + symmetry. exact (iv_const _ _ _ _ H1 _ _ Ls Em).
    + exfalso. exact (iv_live _ _ _ _ H1 _ Ls Em).
  - destruct W as (W1 & W2 & W3 & W4 & W). cbn [div_ok] in Hd. destruct Hd as [Hd0 Hd].
    destruct (compile_step a i nsp) as [a2 c] eqn:Ec. destruct (compile a2 p) as [a3 cs'] eqn:Ep.
    injection E as <- <-.
    assert (div1 f i) as Hd1.
    { destruct i as [[] dst l r| | | |]; cbn; auto. split; [|exact Hd0].
      intros ->. apply (Hns dst r nsp). now left. }
    pose proof (compile_step_ok sp nsp i a m f a2 c (conj W1 (conj W2 (conj W3 W4))) HI Hd1 Ec) as S.
    cbn [exec_block]. destruct (exec c m) as [m1|h|].
    + destruct S as (f1 & Es & H1). rewrite Es in Hd.
      assert (no_self_div p) as Hns' by (intros d l s Hin; apply (Hns d l s); now right).
      specialize (IH nsp (S n0) a2 m1 f1 a3 cs' H1 W Hns' Hd Ep).
      destruct (exec_block (S n0) cs' m1) as [m2|n h|].
      * destruct IH as (f2 & E2 & Hf). exists f2. cbn [run last_sp]. rewrite Es. auto.
      * destruct IH as (q & f2 & i2 & nsp2 & -> & E2 & Hn & Hx).
        exists (S q), f2, i2, nsp2. cbn [firstn run nth_error nth]. rewrite Es.
        split; [lia|]. split; [exact E2|]. split; [exact Hn|exact Hx].
      * exact IH.
    + exists 0%nat, f, i, nsp. cbn. split; [lia|]. split; [reflexivity|]. split; [reflexivity|exact S].
    + exact S.
Qed.

Lemma entry_ok sp m f : (forall s, (s < sp)%nat -> home m s = f s) ->
  (forall s, (s < sp)%nat -> is_i64 (f s)) -> INV (live sp) (entry sp) m f.
Proof.
  intros Hm Hw.
  assert (forall s, live sp s -> modes (entry sp) s = MS false) as Ms.
  { intros s Ls. unfold entry, live in *. cbn [modes]. destruct (Nat.ltb_spec s sp); [reflexivity|lia]. }
  split.
  - split; cbn; try discriminate; [apply fnew_ok|]. intros s [Ls _] _. auto.
  - intros s w Ls. rewrite Ms by auto. discriminate.
  - intros s Ls. rewrite Ms by auto. discriminate.
  - intros s Ls. rewrite Ms by auto. discriminate.
  - auto.
Qed.
