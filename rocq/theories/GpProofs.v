(** Correctness of the online driver, instruction by instruction. *)
From Coq Require Import ZArith Bool List Arith Lia.
From Verif Require Import IntModel FixAsmModel FixAsmProofs ValueModel GpModel GpSpec GpFileProofs
  GpRefProofs GpOpProofs GpInvProofs.
Import ListNotations.

(** At an exit every live slot [s] has its value, except possibly the one
    whose register was taken for the result. *)
Definition exit_res (sp nsp : nat) (tk : option slot) (h f : frame) (i : ins) : Prop :=
  step f i = None /\
  forall s, (s < sp)%nat -> h s = f s \/
    (overflows f i /\ tk = Some s /\ ~ In s (reads i) /\
     (writes i = Some s \/ (nsp <= s)%nat \/ (4 <= sp)%nat)).
Definition step_res (sp nsp : nat) (a1 : astate) (c : list minst) (m : mach) (f : frame) (i : ins)
  : Prop :=
  match exec c m with
  | MOk m1 => exists f1, step f i = Some f1 /\ INV (live nsp) (clear_above a1 nsp) m1 f1
  | MExit h => exit_res sp nsp (taken c) h f i
  | MTrap => False
  end.

Definition wf1 (sp : nat) (i : ins) (nsp : nat) : Prop :=
  (forall s, In s (reads i) -> (s < sp)%nat) /\
  (forall s, writes i = Some s -> (s < nsp)%nat) /\
  (forall s, (s < nsp)%nat -> (s < sp)%nat \/ writes i = Some s) /\ lit_ok i.

(** ** Small pieces *)
Lemma alloc_full f pinned f1 r v : alloc_reg f pinned = (f1, r, v) -> v <> None ->
  forall q, In q pool -> ~ In q pinned -> exists h, hold f q = Some h.
Proof.
  unfold alloc_reg. destruct (find_free f pinned) as [z|] eqn:E.
  - intros F N. injection F as <- <- <-. congruence.
  - intros _ _ q Hq Hn. pose proof (find_none _ _ E q Hq) as F. cbn in F.
    assert (memb q pinned = false) as M by (now apply memb_false). rewrite M, andb_true_r in F.
    unfold is_free in F. destruct (hold f q); [eauto|discriminate].
Qed.
Lemma dst_reg_full f s l ld extra f1 r v : dst_reg f s l ld extra = (f1, r, v) -> v <> None ->
  forall q, In q pool -> ~ In q (l :: extra) -> exists h, hold f q = Some h.
Proof.
  unfold dst_reg. destruct (_ && is_free f l); [intros F N; injection F as <- <- <-; congruence|].
  destruct (_ && match reg_of f s with Some r => _ | None => _ end);
    [intros F N; injection F as <- <- <-; congruence|]. apply alloc_full.
Qed.

(** Four registers caching live slots need four live slots. *)
Lemma pigeon f sp : fok f -> (forall r h, hold f r = Some h -> (hslot h < sp)%nat) ->
  (forall q, In q pool -> exists h, hold f q = Some h) -> (4 <= sp)%nat.
Proof.
  intros Hf Hl Hp.
  destruct (Hp 0%nat) as [h0 E0]; [cbn; auto|]. destruct (Hp 1%nat) as [h1 E1]; [cbn; auto|].
  destruct (Hp 2%nat) as [h2 E2]; [cbn; auto|]. destruct (Hp 3%nat) as [h3 E3]; [cbn; auto|].
  assert (forall x y hx hy, hold f x = Some hx -> hold f y = Some hy -> x <> y -> hslot hx <> hslot hy) as D.
  { intros x y hx hy Ex Ey N Es. apply N. eapply (f_uniq _ Hf); eauto. }
  pose proof (D _ _ _ _ E0 E1 ltac:(lia)). pose proof (D _ _ _ _ E0 E2 ltac:(lia)).
  pose proof (D _ _ _ _ E0 E3 ltac:(lia)). pose proof (D _ _ _ _ E1 E2 ltac:(lia)).
  pose proof (D _ _ _ _ E1 E3 ltac:(lia)). pose proof (D _ _ _ _ E2 E3 ltac:(lia)).
  apply Hl in E0, E1, E2, E3. lia.
Qed.

Lemma inv_drop4 sp nsp dst a m f : INV (live sp) a m f ->
  (forall s, (s < nsp)%nat -> (s < sp)%nat \/ dst = Some s) ->
  INV (live_but nsp dst) (with_rf a (free_above (oinv (rf a) dst) nsp)) m f.
Proof.
  intros HI Hw. apply (inv_drop (live sp)); [exact HI| |].
  - intros s [A B]. destruct (Hw _ A); [assumption|contradiction].
  - intros q h. rewrite free_above_hold, oinv_hold. unfold live_but. tauto.
Qed.

Lemma inv_define nsp dst a m f d g w : INV (live_but nsp dst) a m f ->
  (forall s, dst = Some s -> (s < nsp)%nat) -> hold (rf a) d = None -> In d pool ->
  (forall q h, hold (rf a) q = Some h -> g q = regs m q) -> g d = w -> is_i64 w -> odd w = true ->
  INV (live nsp) (clear_above (define a dst d) nsp) (mkm g (home m)) (store f dst w).
Proof.
  intros HI Hd Hn Hp Hg Hw Hi Ho. apply inv_clear.
  assert (INV (live_but nsp dst) a (mkm g (home m)) f) as H1 by (apply (inv_regs _ _ m); auto).
  destruct dst as [s|]; cbn [define store].
  - specialize (Hd _ eq_refl). apply (inv_bind (live_but nsp (Some s))) with (b := true).
    + apply inv_def_S; [exact H1|]. unfold live_but. intuition congruence.
    + intros t. unfold live, live_but. destruct (Nat.eq_dec t s) as [->|]; [tauto|].
      split; [intros; left; split; congruence|tauto].
    + unfold live_but. intuition congruence.
    + cbn. now rewrite upd_eq.
    + destruct (hold (rf (def_S a s true)) d) as [h|] eqn:E; [|reflexivity].
      apply def_S_hold in E. congruence.
    + exact Hp.
    + exact Hw.
    + exact Hi.
    + auto.
  - eapply inv_ext; [|exact H1]. intros t. unfold live, live_but. split; [tauto|]. intros; split; congruence.
Qed.

Lemma rf_refine_if g a s : rf (refine_if g a s) = rf a.
Proof. unfold refine_if, refine. destruct g; [|reflexivity]. destruct (modes a s); reflexivity. Qed.

Lemma exec_guard g r x m :
  exec (guard_code g r x) m = if g && negb (odd (regs m r)) then MExit (write_back x m) else MOk m.
Proof.
  destruct g; [|reflexivity]. cbn [guard_code exec exec1 andb].
  destruct (odd (regs m r)); reflexivity.
Qed.

Lemma spill_home L a m f f4 d v f5 s : INV L a m f -> picked f4 f5 d v ->
  (forall q h, hold f4 q = Some h -> hold (rf a) q = Some h) ->
  home (spilled m d v) s = home m s \/ home (spilled m d v) s = f s.
Proof.
  intros HI (_ & Ev & _) Hs. destruct (spilled_home m d v s) as [E|[E1 E]]; [now left|right].
  rewrite E. subst v. destruct (hold f4 d) as [h|] eqn:Eh; [|discriminate]. cbn in E1.
  destruct (hdirty h); [|discriminate]. injection E1 as E1. eapply iv_res; [exact HI|].
  exists h. auto.
Qed.

(** ** The operation itself *)
Section Tail.
Variables (sp nsp : nat) (k : bkind) (dst : option slot) (l r : slot) (a : astate) (m : mach) (f : frame)
  (lr rr d : reg) (lg rg : bool) (f5 : file) (v : option slot) (opi : minst)
  (ex : (reg -> word) -> (reg -> word) * bool).
Let i := IBin k dst l r.
Let x := snapshot a.
Let f4 := free_above (oinv (rf a) dst) nsp.
Let a5 := refine_if rg (refine_if lg (with_rf a f5) l) r.
Let a6 := if clobbers k then with_rf a5 (invalidate (rf a5) r) else a5.
Let c := spill_code d v ++ guard_code lg lr x ++ guard_code rg rr x ++ [opi].

Lemma tail_ok : wf1 sp i nsp -> INV (live sp) a m f -> picked f4 f5 d v ->
  regs m lr = f l -> (lg = false -> odd (f l) = true) ->
  (rg = true -> regs m rr = f r) -> (rg = false -> odd (f l) = true -> odd (f r) = true) ->
  (forall m, exec1 m opi = finish m x (ex (regs m))) ->
  taken1 opi = (match k with Div => None | _ => in_exit d x end) ->
  (forall ll rv g' e, f l = tag ll -> f r = tag rv -> fixr ll -> fixr rv -> ex (regs m) = (g', e) ->
     (forall q, q <> d -> (clobbers k = true -> q <> rr) -> g' q = regs m q) /\
     (k = Div -> e = true -> forall q, q <> rr -> g' q = regs m q) /\ op_ok k ll rv e (g' d)) ->
  (clobbers k = true -> res (rf a) rr r /\
     forall q h, hold (rf a) q = Some h -> hslot h = r -> hdirty h = false) ->
  (forall h, hold (rf a) d = Some h -> hdirty h = true -> hslot h <> l /\ hslot h <> r) ->
  (v <> None -> (4 <= sp)%nat) ->
  step_res sp nsp (define a6 dst d) c m f i.
Proof.
  intros (W1 & W2 & W3 & _) HI Hpk Hlr Hlg Hrr Hrg Hex Htk Hop Hcl Hnt Hfull.
  cbn [reads writes i] in *.
  assert (Hl : (l < sp)%nat) by (apply W1; cbn; auto).
  assert (Hr : (r < sp)%nat) by (apply W1; cbn; auto).
  assert (Hsub : forall q h, hold f4 q = Some h -> hold (rf a) q = Some h).
  { intros q h E. apply free_above_hold in E as [E _]. now apply oinv_hold in E as [E _]. }
  assert (H4 : INV (live_but nsp dst) (with_rf a f4) m f) by (now apply (inv_drop4 sp)).
  destruct (inv_picked _ _ _ _ _ _ _ H4 Hpk) as [H5 Hd5]. cbn [with_rf modes] in H5.
  change (mka f5 (modes a)) with (with_rf a f5) in H5.
  assert (Hsh : forall s, home (spilled m d v) s = home m s \/ home (spilled m d v) s = f s)
    by (intros s; eapply spill_home; eauto).
  assert (Htc : taken c = taken1 opi).
  { unfold c. rewrite !taken_app, taken_spill, !taken_guard. cbn. now destruct (taken1 opi). }
  unfold step_res. rewrite Htc.
  unfold c. rewrite exec_app, exec_spill, exec_app, exec_guard. rewrite spilled_regs, Hlr.
  assert (Hall : forall s, (s < sp)%nat -> write_back x (spilled m d v) s = f s).
  { intros s Ls. apply (wb_ok _ _ m _ _ _ HI Ls); [|apply Hsh]. intros. now rewrite spilled_regs. }
  destruct (odd (f l)) eqn:Ol.
  2:{ destruct lg; [|now specialize (Hlg eq_refl)]. cbn [andb negb].
      split; [|auto]. unfold i. cbn [step]. now rewrite (intval_even _ Ol). }
  rewrite andb_false_r. rewrite exec_app, exec_guard, spilled_regs.
  destruct (odd (f r)) eqn:Or.
  2:{ destruct rg; [|now specialize (Hrg eq_refl eq_refl)]. rewrite (Hrr eq_refl), Or. cbn [andb negb].
      split; [|auto]. unfold i. cbn [step]. rewrite (intval_even _ Or). now destruct (intval (f l)). }
  replace (rg && negb (odd (regs m rr))) with false.
  2:{ destruct rg; [|reflexivity]. now rewrite (Hrr eq_refl), Or. }
  cbn [exec]. rewrite Hex, spilled_regs.
  destruct (ex (regs m)) as [g' e] eqn:Ex. unfold finish. cbn [fst snd].
  pose proof (odd_spec _ Ol) as Tl. pose proof (odd_spec _ Or) as Tr.
  set (ll := ((f l - 1) / 2)%Z) in *. set (rv := ((f r - 1) / 2)%Z) in *. clearbody ll rv.
  assert (fixr ll) as Fl by (apply tag_fixr; rewrite <- Tl; exact (iv_word _ _ _ _ HI _ Hl)).
  assert (fixr rv) as Fr by (apply tag_fixr; rewrite <- Tr; exact (iv_word _ _ _ _ HI _ Hr)).
  destruct (Hop ll rv g' e Tl Tr Fl Fr eq_refl) as (Hg & Hdv & Hok).
  assert (step f i = match zop k ll rv with
                     | Some z => if fits_i63 z then Some (store f dst (tag z)) else None
                     | None => None end) as Est.
  { unfold i. cbn [step]. rewrite Tl, Tr, !intval_tag. reflexivity. }
  destruct e; cbn [op_ok] in Hok.
  - (* exit *)
    split.
    + rewrite Est. destruct (zop k ll rv) as [z|] eqn:Ez; [|reflexivity].
      now rewrite (Hok z eq_refl).
    + intros s Ls.
      assert (Hgo : (forall q h, hold (rf a) q = Some h -> hdirty h = true -> hslot h = s -> g' q = regs m q) ->
                    write_back x (with_regs (spilled m d v) g') s = f s).
      { intros Hq. apply (wb_ok _ _ m _ _ _ HI Ls); [exact Hq|apply Hsh]. }
      assert (Hnr : forall q h, hold (rf a) q = Some h -> hdirty h = true ->
                    (clobbers k = true -> q <> rr)).
      { intros q h Eh Dh Ck ->. destruct (Hcl Ck) as [(h' & E' & S') Hc].
        rewrite Eh in E'. injection E' as <-. rewrite (Hc _ _ Eh S') in Dh. discriminate. }
      assert (k = Div \/ k <> Div) as [Ek|Nk] by (destruct k; auto; right; discriminate).
      { left. apply Hgo. intros q h Eh Dh Es. apply (Hdv Ek eq_refl).
        apply (Hnr _ _ Eh Dh). now rewrite Ek. }
      assert (taken1 opi = dirty_slot (hold (rf a) d)) as Ht.
      { rewrite Htk. assert (match k with Div => None | _ => in_exit d x end = in_exit d x) as ->
          by (destruct k; congruence). apply in_exit_spec. eapply iv_ok; eauto. }
      rewrite Ht.
      assert ((exists h, hold (rf a) d = Some h /\ hdirty h = true /\ hslot h = s) \/
              (forall h, hold (rf a) d = Some h -> hdirty h = true -> hslot h <> s)) as [Hy|Hn].
      { destruct (hold (rf a) d) as [h|] eqn:Eh; [|right; discriminate].
        destruct (hdirty h) eqn:Dh; [|right; intros h' E'; injection E' as <-; congruence].
        destruct (Nat.eq_dec (hslot h) s); [left; eauto|right].
        intros h' E'. now injection E' as <-. }
      * right. destruct Hy as (h & Eh & Dh & Es).
        split; [|split; [|split]].
        -- unfold i. cbn [overflows].
           destruct (zop k ll rv) as [z|] eqn:Ez; [|destruct k; cbn in Ez; congruence].
           exists ll, rv, z. rewrite Tl, Tr, !intval_tag. repeat split; auto.
        -- rewrite Eh. cbn. rewrite Dh. now rewrite Es.
        -- destruct (Hnt _ Eh Dh) as [N1 N2]. unfold i. cbn. intros [E|[E|[]]]; congruence.
        -- unfold i. cbn [writes]. destruct (le_lt_dec nsp s) as [|Hlt]; [auto|].
           assert (dst = Some s \/ dst <> Some s) as [|Nd].
           { destruct dst as [t|]; [|right; discriminate].
             destruct (Nat.eq_dec t s) as [->|]; [auto|right; congruence]. }
           { auto. }
           right; right. apply Hfull. destruct Hpk as (_ & Ev & _).
           assert (hold f4 d = Some h) as E4.
           { apply free_above_hold. rewrite Es. split; [|exact Hlt]. apply oinv_hold. rewrite Es. auto. }
           rewrite Ev, E4. cbn. rewrite Dh. discriminate.
      * left. apply Hgo. intros q h Eh Dh Es. apply Hg; [|eauto].
        intros ->. apply (Hn _ Eh Dh Es).
  - (* result *)
    destruct Hok as (z & Ez & Ef & Ew). exists (store f dst (tag z)). rewrite Est, Ez, Ef.
    split; [reflexivity|].
    change (with_regs (spilled m d v) g') with (mkm g' (home (spilled m d v))).
    assert (INV (live_but nsp dst) a5 (spilled m d v) f) as H6
      by (unfold a5; apply inv_refine_if; [apply inv_refine_if|]; assumption).
    assert (rf a5 = f5) as Ea5 by (unfold a5; now rewrite !rf_refine_if).
    assert (forall q h, hold f5 q = Some h -> hold (rf a) q = Some h) as Hs5.
    { intros q h. destruct Hpk as (_ & _ & Hh). rewrite Hh. destruct (Nat.eqb q d); [discriminate|auto]. }
    assert (INV (live_but nsp dst) a6 (spilled m d v) f /\ hold (rf a6) d = None /\
            (forall q h, hold (rf a6) q = Some h -> hold f5 q = Some h /\ (clobbers k = true -> q <> rr)))
      as (H7 & Hd7 & Hq7).
    { unfold a6. destruct (clobbers k) eqn:Ck.
      - destruct (Hcl eq_refl) as [(hr & Er & Sr) Hc]. cbn [rf with_rf]. rewrite Ea5.
        split; [|split].
        + rewrite <- Ea5. apply inv_inval; [exact H6|]. rewrite Ea5. eauto.
        + destruct (hold (invalidate f5 r) d) as [h|] eqn:E; [|reflexivity].
          apply invalidate_hold in E as [E _]. congruence.
        + intros q h E. apply invalidate_hold in E as [E N]. split; [exact E|].
          intros _ ->. apply Hs5 in E. congruence.
      - rewrite Ea5. split; [exact H6|]. split; [exact Hd5|]. split; [assumption|discriminate]. }
    apply (inv_define nsp dst a6 (spilled m d v)); auto.
    + apply Hpk.
    + intros q h E. apply Hq7 in E as [E N]. rewrite spilled_regs. apply Hg; [|exact N].
      intros ->. congruence.
    + apply fixr_tag. now apply fits_fixr.
    + apply odd_tag.
Qed.
End Tail.
