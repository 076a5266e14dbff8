(** The invariant of the online driver and how each piece of it is kept. *)
From Coq Require Import ZArith Bool List Arith Lia.
From Verif Require Import IntModel FixAsmModel FixAsmProofs GpModel GpSpec GpFileProofs GpRefProofs
  GpOpProofs.
Import ListNotations.

(** [L]: the slots whose value is tracked. *)
Record INV (L : slot -> Prop) (a : astate) (m : mach) (f : frame) : Prop := mkINV {
  iv_fi : FI L (fun s => L s /\ exists b, modes a s = MS b) (rf a) m f;
  iv_const : forall s w, L s -> modes a s = MC w -> f s = w;
  iv_live : forall s, L s -> modes a s <> MV;
  iv_fix : forall s, L s -> modes a s = MS true -> odd (f s) = true;
  iv_word : forall s, L s -> is_i64 (f s) }.

Lemma iv_ok L a m f : INV L a m f -> fok (rf a).
Proof. intros H. apply (fi_ok _ _ _ _ _ (iv_fi _ _ _ _ H)). Qed.
Lemma iv_res L a m f r s : INV L a m f -> res (rf a) r s -> regs m r = f s.
Proof. intros H (h & E & <-). apply (fi_reg _ _ _ _ _ (iv_fi _ _ _ _ H) _ _ E). Qed.
Lemma iv_fixnum L a m f s : INV L a m f -> L s -> is_fixnum a s = true -> odd (f s) = true.
Proof.
  intros H Ls. unfold is_fixnum. destruct (modes a s) as [b|w|] eqn:E; [| |discriminate].
  - intros ->. eapply iv_fix; eauto.
  - intros Ho. now rewrite (iv_const _ _ _ _ H _ _ Ls E).
Qed.
Lemma iv_fix_lit L a m f s w : INV L a m f -> L s -> fix_lit a s = Some w ->
  f s = w /\ odd w = true /\ modes a s = MC w.
Proof.
  intros H Ls. unfold fix_lit. destruct (modes a s) as [b|v|] eqn:E; try discriminate.
  destruct (odd v) eqn:Ev; [|discriminate]. intros F. injection F as <-.
  split; [|auto]. eapply iv_const; eauto.
Qed.

(** ** Choosing a register *)
Definition picked (f : file) (f1 : file) (r : reg) (v : option slot) : Prop :=
  In r pool /\ v = dirty_slot (hold f r) /\
  (forall q, hold f1 q = if Nat.eqb q r then None else hold f q).

Lemma alloc_picked f pinned f1 r v : (length pinned < 4)%nat -> alloc_reg f pinned = (f1, r, v) ->
  picked f f1 r v /\ ~ In r pinned.
Proof. intros Hl E. apply alloc_spec in E as (A & B & C & _ & D); [|exact Hl]. repeat split; auto. Qed.

Lemma dst_reg_picked f s l ld extra f1 r v : fok f -> (length extra < 3)%nat -> In l pool ->
  (ld = false -> forall q h, hold f q = Some h -> hslot h = s -> hdirty h = false) ->
  dst_reg f s l ld extra = (f1, r, v) ->
  picked f f1 r v /\ ~ In r extra /\ (r = l -> ld = false).
Proof.
  intros Hf Hl Hp Hc. unfold dst_reg.
  destruct (negb ld && negb (memb l extra)) eqn:G; cbn [andb].
  - apply andb_true_iff in G as [G1 G2]. apply negb_true_iff in G1, G2.
    assert (~ In l extra) as Hn by (now apply memb_false).
    destruct (is_free f l) eqn:Ef.
    { intros E. injection E as <- <- <-. unfold is_free in Ef.
      destruct (hold f l) as [h|] eqn:Eh; [discriminate|].
      split; [|auto]. split; [exact Hp|]. rewrite Eh. split; [reflexivity|].
      intros q. destruct (Nat.eqb_spec q l); congruence. }
    destruct (reg_of f s) as [q|] eqn:Er.
    + destruct (Nat.eqb_spec q l) as [->|N].
      * intros E. injection E as <- <- <-. apply reg_of_some in Er as (h & Eh & Es).
        split; [|auto]. split; [exact Hp|]. rewrite Eh. cbn [dirty_slot].
        rewrite (Hc G1 _ _ Eh Es). split; [reflexivity|].
        intros q. destruct (Nat.eqb_spec q l) as [->|N].
        -- cbn. rewrite Eh. cbn. rewrite Es, Nat.eqb_refl. reflexivity.
        -- destruct (hold f q) as [x|] eqn:Eq.
           ++ apply invalidate_hold. split; [exact Eq|]. intros Ex.
              apply N. apply (f_uniq _ Hf _ _ _ _ Eq Eh). congruence.
           ++ cbn. rewrite Eq. reflexivity.
      * intros E. apply alloc_picked in E as [E Hi]; [|cbn; lia].
        split; [exact E|]. split; [intros F; apply Hi; now right|intros ->; exfalso; apply Hi; now left].
    + intros E. apply alloc_picked in E as [E Hi]; [|cbn; lia].
      split; [exact E|]. split; [intros F; apply Hi; now right|intros ->; exfalso; apply Hi; now left].
  - intros E. apply alloc_picked in E as [E Hi]; [|cbn; lia].
    split; [exact E|]. split; [intros F; apply Hi; now right|intros ->; exfalso; apply Hi; now left].
Qed.

Lemma picked_fok f f1 r v : fok f -> picked f f1 r v -> fok f1.
Proof.
  intros Hf (_ & _ & H). apply (sub_fok f); [|exact Hf]. intros q h. rewrite H.
  destruct (Nat.eqb q r); [discriminate|eauto].
Qed.

Lemma fi_picked L H f m fr f1 r v : FI L H f m fr -> picked f f1 r v ->
  FI L H f1 (spilled m r v) fr /\ hold f1 r = None.
Proof.
  intros HI Hpk. pose proof (picked_fok _ _ _ _ (fi_ok _ _ _ _ _ HI) Hpk) as Ho1.
  destruct HI as [Ho Hli Hr Hd Hh]. destruct Hpk as (Hp & Ev & Hs).
  assert (forall q h, hold f1 q = Some h -> q <> r /\ hold f q = Some h) as Hsub.
  { intros q h. rewrite Hs. destruct (Nat.eqb_spec q r); [discriminate|auto]. }
  split; [split|].
  - exact Ho1.
  - intros q h E. apply Hsub in E as [_ E]. eauto.
  - intros q h E. apply Hsub in E as [_ E]. rewrite spilled_regs. eauto.
  - intros q h E. apply Hsub in E as [_ E]. eauto.
  - intros s Hs1 Hc. destruct (hold f r) as [h|] eqn:Er.
    + destruct (Nat.eq_dec (hslot h) s) as [<-|N].
      * cbn in Ev. destruct (hdirty h) eqn:D; subst v; cbn.
        -- rewrite upd_eq. eauto.
        -- apply Hh; [exact Hs1|]. intros q h' E Eq.
           pose proof (f_uniq _ Ho _ _ _ _ Er E (eq_sym Eq)) as <-. congruence.
      * destruct (spilled_home m r v s) as [E|[E _]].
        -- rewrite E. apply Hh; [exact Hs1|]. intros q h' Eq Es.
           destruct (Nat.eq_dec q r) as [->|Nq]; [congruence|].
           eapply Hc; [|exact Es]. rewrite Hs. apply Nat.eqb_neq in Nq. now rewrite Nq.
        -- cbn in Ev. destruct (hdirty h); congruence.
    + cbn in Ev. subst v. cbn. apply Hh; [exact Hs1|]. intros q h' Eq Es.
      apply (Hc q h'); [|exact Es]. rewrite Hs. destruct (Nat.eqb_spec q r); congruence.
  - rewrite Hs, Nat.eqb_refl. reflexivity.
Qed.

(** ** Transfers *)
Lemma inv_picked L a m f f1 r v : INV L a m f -> picked (rf a) f1 r v ->
  INV L (with_rf a f1) (spilled m r v) f /\ hold f1 r = None.
Proof.
  intros [A B C D E] Hp. destruct (fi_picked _ _ _ _ _ _ _ _ A Hp) as [A' N].
  split; [|exact N]. split; auto.
Qed.

Lemma inv_drop (L L' : slot -> Prop) a m f f1 : INV L a m f -> (forall s, L' s -> L s) ->
  (forall q h, hold f1 q = Some h <-> hold (rf a) q = Some h /\ L' (hslot h)) ->
  INV L' (with_rf a f1) m f.
Proof.
  intros [A B C D E] Hl Hh. split; cbn [rf modes with_rf]; auto.
  destruct A as [Ho Hli Hr Hd Hm]. split.
  - apply (sub_fok (rf a)); [|exact Ho]. intros q h Eq. apply Hh in Eq as [Eq _]. eauto.
  - intros q h Eq. apply Hh in Eq. tauto.
  - intros q h Eq. apply Hh in Eq as [Eq _]. eauto.
  - intros q h Eq Dq. apply Hh in Eq as [Eq Lq]. split; [exact Lq|]. apply (Hd _ _ Eq Dq).
  - intros s [Ls Ms] Hc. apply Hm; [auto|]. intros q h Eq Es. apply (Hc q h); [|exact Es].
    apply Hh. split; [exact Eq|]. now rewrite Es.
Qed.

Lemma inv_refine L a m f s : INV L a m f -> odd (f s) = true -> INV L (refine a s) m f.
Proof.
  intros [A B C D E] Ho. unfold refine. destruct (modes a s) as [b|w|] eqn:Em; [|split; auto..].
  split; cbn [rf modes with_mode]; auto.
  - destruct A as [A1 A2 A3 A4 A5]. split; auto.
    + intros r h Eh Dh. destruct (A4 _ _ Eh Dh) as [Lh Mh]. split; [exact Lh|].
      unfold upd. destruct (Nat.eqb (hslot h) s); eauto.
    + intros t [Lt [c Mt]]. apply A5. split; [exact Lt|].
      unfold upd in Mt. destruct (Nat.eqb_spec t s) as [->|]; eauto.
  - intros t w Lt. unfold upd. destruct (Nat.eqb_spec t s); [discriminate|eauto].
  - intros t Lt. unfold upd. destruct (Nat.eqb_spec t s); [discriminate|auto].
  - intros t Lt. unfold upd. destruct (Nat.eqb_spec t s) as [->|]; auto.
Qed.
Lemma inv_refine_if L a m f g s : INV L a m f -> odd (f s) = true -> INV L (refine_if g a s) m f.
Proof. destruct g; cbn; auto using inv_refine. Qed.

Lemma inv_inval L a m f s : INV L a m f ->
  (forall q h, hold (rf a) q = Some h -> hslot h = s -> hdirty h = false) ->
  INV L (with_rf a (invalidate (rf a) s)) m f.
Proof.
  intros [A B C D E] Hc. split; cbn [rf modes with_rf]; auto.
  destruct A as [Ho Hli Hr Hd Hm]. split.
  - now apply invalidate_fok.
  - intros q h Eq. apply invalidate_hold in Eq as [Eq _]. eauto.
  - intros q h Eq. apply invalidate_hold in Eq as [Eq _]. eauto.
  - intros q h Eq. apply invalidate_hold in Eq as [Eq _]. eauto.
  - intros t Ht Hct. apply Hm; [exact Ht|]. intros q h Eq Es.
    destruct (Nat.eq_dec t s) as [->|N]; [eauto|]. apply (Hct q h); [|exact Es].
    apply invalidate_hold. split; congruence.
Qed.

Lemma inv_regs L a m f m1 : INV L a m f ->
  (forall q h, hold (rf a) q = Some h -> regs m1 q = regs m q) ->
  (forall s, L s -> home m1 s = home m s) -> INV L a m1 f.
Proof.
  intros [A B C D E] Hg Hh. split; auto. destruct A as [Ho Hli Hr Hd Hm]. split; auto.
  - intros q h Eq. rewrite (Hg _ _ Eq). eauto.
  - intros t Ht Hc. rewrite Hh by tauto. auto.
Qed.

Lemma inv_def_S L a m f s b : INV L a m f -> ~ L s -> INV L (def_S a s b) m f.
Proof.
  intros [A B C D E] Ns.
  assert (forall t, L t -> t <> s) as Hn by (intros t Lt ->; tauto).
  assert (forall t, L t -> modes (def_S a s b) t = modes a t) as Hm.
  { intros t Lt. cbn. rewrite !upd_ne by auto. reflexivity. }
  split.
  - destruct A as [Ho Hli Hr Hd Hh]. split; cbn [rf def_S with_mode discard].
    + now apply invalidate_fok.
    + intros q h Eq. apply invalidate_hold in Eq as [Eq _]. eauto.
    + intros q h Eq. apply invalidate_hold in Eq as [Eq _]. eauto.
    + intros q h Eq Dq. apply invalidate_hold in Eq as [Eq _]. destruct (Hd _ _ Eq Dq) as [Lq Mq].
      split; [exact Lq|]. change (exists b0, modes (def_S a s b) (hslot h) = MS b0).
      rewrite Hm; auto.
    + intros t [Lt Mt] Hc. change (exists b0, modes (def_S a s b) t = MS b0) in Mt.
      rewrite Hm in Mt by auto. apply Hh; [auto|]. intros q h Eq Es. apply (Hc q h); [|exact Es].
      apply invalidate_hold. split; [exact Eq|]. rewrite Es. auto.
  - intros t w Lt. rewrite Hm by auto. auto.
  - intros t Lt. rewrite Hm by auto. auto.
  - intros t Lt. rewrite Hm by auto. auto.
  - auto.
Qed.

Lemma def_S_hold a s b q h : hold (rf (def_S a s b)) q = Some h -> hold (rf a) q = Some h.
Proof. cbn [rf def_S with_mode discard]. intros E. now apply invalidate_hold in E as [E _]. Qed.

(** A value computed into a free register becomes the value of slot [s]. *)
Lemma inv_bind (L L' : slot -> Prop) a m f s b r w : INV L a m f -> (forall t, L' t <-> L t \/ t = s) -> ~ L s ->
  modes a s = MS b -> hold (rf a) r = None -> In r pool -> regs m r = w -> is_i64 w ->
  (b = true -> odd w = true) ->
  INV L' (with_rf a (bind (rf a) r s true)) m (upd f s w).
Proof.
  intros [A B C D E] HL Ns Ms Hr Hp Hw Hi Hb.
  assert (forall t, L t -> t <> s) as Hn by (intros t Lt ->; tauto).
  split; cbn [rf modes with_rf].
  - destruct A as [Ho Hli Hg Hd Hh]. split.
    + now apply bind_fok.
    + intros q h. rewrite bind_hold. destruct (Nat.eqb q r).
      * intros F. injection F as <-. apply HL. now right.
      * intros F. apply invalidate_hold in F as [F _]. apply HL. left. eauto.
    + intros q h. rewrite bind_hold. destruct (Nat.eqb_spec q r) as [->|].
      * intros F. injection F as <-. cbn. now rewrite upd_eq.
      * intros F. apply invalidate_hold in F as [F N]. rewrite upd_ne by auto. eauto.
    + intros q h. rewrite bind_hold. destruct (Nat.eqb q r).
      * intros F. injection F as <-. intros _. cbn. split; [apply HL; now right|eauto].
      * intros F Dq. apply invalidate_hold in F as [F _]. destruct (Hd _ _ F Dq) as [X Y].
        split; [apply HL; now left|exact Y].
    + intros t [Lt Mt] Hc. destruct (Nat.eq_dec t s) as [->|N].
      { exfalso. specialize (Hc r _ ltac:(rewrite bind_hold, Nat.eqb_refl; reflexivity) eq_refl).
        discriminate. }
      rewrite upd_ne by auto. apply HL in Lt as [Lt|]; [|congruence].
      apply Hh; [auto|]. intros q h F Es. apply (Hc q h); [|exact Es].
      rewrite bind_hold. destruct (Nat.eqb_spec q r) as [->|]; [congruence|].
      apply invalidate_hold. split; congruence.
  - intros t v Lt Mt. destruct (Nat.eq_dec t s) as [->|N]; [congruence|].
    rewrite upd_ne by auto. apply HL in Lt as [Lt|]; [eauto|congruence].
  - intros t Lt. destruct (Nat.eq_dec t s) as [->|N]; [congruence|].
    apply HL in Lt as [Lt|]; [eauto|congruence].
  - intros t Lt Mt. destruct (Nat.eq_dec t s) as [->|N].
    + rewrite upd_eq. apply Hb. congruence.
    + rewrite upd_ne by auto. apply HL in Lt as [Lt|]; [eauto|congruence].
  - intros t Lt. destruct (Nat.eq_dec t s) as [->|N].
    + now rewrite upd_eq.
    + rewrite upd_ne by auto. apply HL in Lt as [Lt|]; [eauto|congruence].
Qed.

(** A value already in the home of [s]. *)
Lemma inv_homed (L L' : slot -> Prop) a m f s b w : INV L a m f -> (forall t, L' t <-> L t \/ t = s) -> ~ L s ->
  modes a s = MS b -> home m s = w -> is_i64 w -> (b = true -> odd w = true) ->
  INV L' a m (upd f s w).
Proof.
  intros [A B C D E] HL Ns Ms Hw Hi Hb.
  assert (forall t, L t -> t <> s) as Hn by (intros t Lt ->; tauto).
  split.
  - destruct A as [Ho Hli Hg Hd Hh]. split; auto.
    + intros q h F. apply HL. left. eauto.
    + intros q h F. rewrite upd_ne by eauto. eauto.
    + intros q h F Dq. destruct (Hd _ _ F Dq) as [X Y]. split; [apply HL; now left|exact Y].
    + intros t [Lt Mt] Hc. destruct (Nat.eq_dec t s) as [->|N]; [now rewrite upd_eq|].
      rewrite upd_ne by auto. apply HL in Lt as [Lt|]; [|congruence]. apply Hh; auto.
  - intros t v Lt Mt. destruct (Nat.eq_dec t s) as [->|N]; [congruence|].
    rewrite upd_ne by auto. apply HL in Lt as [Lt|]; [eauto|congruence].
  - intros t Lt. destruct (Nat.eq_dec t s) as [->|N]; [congruence|].
    apply HL in Lt as [Lt|]; [eauto|congruence].
  - intros t Lt Mt. destruct (Nat.eq_dec t s) as [->|N].
    + rewrite upd_eq. apply Hb. congruence.
    + rewrite upd_ne by auto. apply HL in Lt as [Lt|]; [eauto|congruence].
  - intros t Lt. destruct (Nat.eq_dec t s) as [->|N].
    + now rewrite upd_eq.
    + rewrite upd_ne by auto. apply HL in Lt as [Lt|]; [eauto|congruence].
Qed.

(** A constant. *)
Lemma inv_const (L L' : slot -> Prop) a m f s w : INV L a m f -> (forall t, L' t <-> L t \/ t = s) -> ~ L s ->
  is_i64 w -> INV L' (def_C a s w) m (upd f s w).
Proof.
  intros [A B C D E] HL Ns Hi.
  assert (forall t, L t -> t <> s) as Hn by (intros t Lt ->; tauto).
  assert (forall t, t <> s -> modes (def_C a s w) t = modes a t) as Hm.
  { intros t Lt. cbn. rewrite !upd_ne by auto. reflexivity. }
  assert (modes (def_C a s w) s = MC w) as Hs by (cbn; now rewrite upd_eq).
  split.
  - destruct A as [Ho Hli Hr Hd Hh].
    assert (forall q h, hold (rf (def_C a s w)) q = Some h <-> hold (rf a) q = Some h) as Hx.
    { intros q h. change (rf (def_C a s w)) with (invalidate (rf a) s). rewrite invalidate_hold.
      split; [tauto|]. intros F. split; [exact F|]. apply Hn. eauto. }
    split.
    + apply (sub_fok (rf a)); [|exact Ho]. intros q h F. apply Hx in F. eauto.
    + intros q h F. apply Hx in F. apply HL. left. eauto.
    + intros q h F. apply Hx in F. rewrite upd_ne by eauto. eauto.
    + intros q h F Dq. apply Hx in F. destruct (Hd _ _ F Dq) as [X Y].
      split; [apply HL; now left|]. rewrite Hm by auto. exact Y.
    + intros t [Lt [b Mt]] Hc. destruct (Nat.eq_dec t s) as [->|N]; [congruence|].
      rewrite upd_ne by auto. rewrite Hm in Mt by auto. apply HL in Lt as [Lt|]; [|congruence].
      apply Hh; [eauto|]. intros q h F Es. apply (Hc q h); [|exact Es]. now apply Hx.
  - intros t v Lt Mt. destruct (Nat.eq_dec t s) as [->|N]; [rewrite upd_eq; congruence|].
    rewrite upd_ne by auto. rewrite Hm in Mt by auto. apply HL in Lt as [Lt|]; [eauto|congruence].
  - intros t Lt. destruct (Nat.eq_dec t s) as [->|N]; [congruence|]. rewrite Hm by auto.
    apply HL in Lt as [Lt|]; [eauto|congruence].
  - intros t Lt Mt. destruct (Nat.eq_dec t s) as [->|N]; [congruence|]. rewrite Hm in Mt by auto.
    rewrite upd_ne by auto. apply HL in Lt as [Lt|]; [eauto|congruence].
  - intros t Lt. destruct (Nat.eq_dec t s) as [->|N].
    + now rewrite upd_eq.
    + rewrite upd_ne by auto. apply HL in Lt as [Lt|]; [eauto|congruence].
Qed.

Lemma inv_ext (L L' : slot -> Prop) a m f : (forall t, L t <-> L' t) -> INV L a m f -> INV L' a m f.
Proof.
  intros HL [A B C D E]. split; try (intros; apply HL in H; eauto; fail).
  - destruct A as [Ho Hli Hr Hd Hh]. split; auto.
    + intros. apply HL. eauto.
    + intros r h X Y. destruct (Hd _ _ X Y). split; [now apply HL|auto].
    + intros s [X Y]. apply Hh. split; [now apply HL|auto].
Qed.

Definition live (sp : nat) : slot -> Prop := fun s => (s < sp)%nat.
Definition live_but (sp : nat) (d : option slot) : slot -> Prop := fun s => (s < sp)%nat /\ d <> Some s.

Lemma inv_clear sp a m f : INV (live sp) a m f -> INV (live sp) (clear_above a sp) m f.
Proof.
  intros [A B C D E].
  assert (forall t, live sp t -> modes (clear_above a sp) t = modes a t) as Hm.
  { intros t Lt. cbn. unfold live in Lt. destruct (Nat.leb_spec sp t); [lia|reflexivity]. }
  split.
  - destruct A as [Ho Hli Hr Hd Hh]. cbn [rf clear_above].
    split.
    + now apply free_above_fok.
    + intros q h F. apply free_above_hold in F as [F _]. eauto.
    + intros q h F. apply free_above_hold in F as [F _]. eauto.
    + intros q h F Dq. apply free_above_hold in F as [F Lq]. destruct (Hd _ _ F Dq) as [X Y].
      split; [exact X|]. change (exists b, modes (clear_above a sp) (hslot h) = MS b).
      rewrite Hm; auto.
    + intros t [Lt Mt] Hc. change (exists b, modes (clear_above a sp) t = MS b) in Mt.
      rewrite Hm in Mt by auto. apply Hh; [auto|]. intros q h F Es. apply (Hc q h); [|exact Es].
      apply free_above_hold. split; [exact F|]. now rewrite Es.
  - intros t v Lt. rewrite Hm by auto. auto.
  - intros t Lt. rewrite Hm by auto. auto.
  - intros t Lt. rewrite Hm by auto. auto.
  - auto.
Qed.

(** ** Side exits *)
Lemma wb_ok L a m f m1 s : INV L a m f -> L s ->
  (forall r h, hold (rf a) r = Some h -> hdirty h = true -> hslot h = s -> regs m1 r = regs m r) ->
  home m1 s = home m s \/ home m1 s = f s -> write_back (snapshot a) m1 s = f s.
Proof.
  intros HI Ls Hr Hh. unfold write_back.
  change (stores (regs m1) (dirty_residents (rf a))
     (fun s => match wlit (snapshot a) s with Some v => v | None => home m1 s end) s = f s).
  destruct (stores_spec (regs m1) (dirty_residents (rf a))
     (fun s => match wlit (snapshot a) s with Some v => v | None => home m1 s end) s)
     as [[E N]|(r & Hin & E)]; rewrite E; clear E.
  - cbn. destruct (modes a s) as [b|w|] eqn:Em.
    + assert (home m s = f s) as H0.
      { apply (fi_home _ _ _ _ _ (iv_fi _ _ _ _ HI)); [eauto|]. intros r h Eh Es.
        destruct (hdirty h) eqn:Dh; [|reflexivity]. exfalso. apply N. apply in_map_iff.
        exists (r, s). split; [reflexivity|]. apply dirty_residents_in; [eapply iv_ok; eauto|eauto]. }
      destruct Hh; congruence.
    + symmetry. eapply iv_const; eauto.
    + exfalso. eapply iv_live; eauto.
  - apply dirty_residents_in in Hin as (h & Eh & Es & Dh); [|eapply iv_ok; eauto].
    rewrite (Hr _ _ Eh Dh Es). eapply iv_res; [exact HI|]. exists h. auto.
Qed.

Lemma in_exit_spec a d : fok (rf a) -> in_exit d (snapshot a) = dirty_slot (hold (rf a) d).
Proof.
  intros Hf. unfold in_exit. cbn [wgp snapshot].
  destruct (find (fun p => Nat.eqb (fst p) d) (dirty_residents (rf a))) as [[q s]|] eqn:E; cbn [option_map snd].
  - apply find_some in E as [Hin E]. cbn in E. apply Nat.eqb_eq in E as ->.
    apply dirty_residents_in in Hin as (h & Eh & <- & Dh); [|exact Hf]. rewrite Eh. cbn. now rewrite Dh.
  - destruct (hold (rf a) d) as [h|] eqn:Eh; [|reflexivity]. cbn.
    destruct (hdirty h) eqn:Dh; [|reflexivity]. exfalso.
    assert (In (d, hslot h) (dirty_residents (rf a))) as Hin by (apply dirty_residents_in; eauto).
    pose proof (find_none _ _ E _ Hin) as F. cbn in F. now rewrite Nat.eqb_refl in F.
Qed.

(** ** Code *)
Lemma exec_app c d m : exec (c ++ d) m = match exec c m with MOk m1 => exec d m1 | r => r end.
Proof.
  revert m. induction c as [|i c IH]; intros m; [reflexivity|]. cbn.
  destruct (exec1 m i); auto.
Qed.
Lemma exec_spill r v m : exec (spill_code r v) m = MOk (spilled m r v).
Proof. destruct v; reflexivity. Qed.

Lemma taken_app c d : taken (c ++ d) = match taken d with Some s => Some s | None => taken c end.
Proof.
  induction c as [|i c IH]; cbn; [destruct (taken d); reflexivity|]. rewrite IH.
  destruct (taken d); [reflexivity|]. reflexivity.
Qed.
Lemma taken_spill r v : taken (spill_code r v) = None.
Proof. destruct v; reflexivity. Qed.
Lemma taken_guard g r x : taken (guard_code g r x) = None.
Proof. destruct g; reflexivity. Qed.

Lemma ensure_ok L a m f s pinned a1 r g c : (length pinned < 4)%nat -> INV L a m f -> L s ->
  gp_ensure a s pinned = (a1, r, g, c) ->
  exists m1, exec c m = MOk m1 /\ INV L a1 m1 f /\ res (rf a1) r s /\ modes a1 = modes a /\
    g = negb (is_fixnum a s) /\ taken c = None /\
    (forall p h, In p pinned -> hold (rf a) p = Some h -> hold (rf a1) p = Some h).
Proof.
  intros Hl HI Ls. unfold gp_ensure. destruct (reg_of (rf a) s) as [q|] eqn:Er.
  { intros E. injection E as <- <- <- <-. exists m. apply reg_of_some in Er.
    split; [reflexivity|]. split; [exact HI|]. auto. }
  pose proof (reg_of_none _ _ (iv_ok _ _ _ _ HI) Er) as Hn.
  destruct (alloc_reg (rf a) pinned) as [[f1 q] v] eqn:Ea.
  destruct (alloc_picked _ _ _ _ _ Hl Ea) as [Hpk Hni]. clear Ea.
  destruct Hpk as (Hp & Ev & Hh).
  assert (forall z, ~ res f1 z s) as Hn1.
  { intros z (h & Ez & Es). apply (Hn z). rewrite Hh in Ez. destruct (Nat.eqb z q); [discriminate|].
    exists h; auto. }
  assert (forall p h, In p pinned -> hold (rf a) p = Some h ->
            hold (bind f1 q s false) p = Some h) as Hkeep.
  { intros p h Hip Eh. rewrite bind_hold. destruct (Nat.eqb_spec p q) as [->|Nq]; [tauto|].
    apply invalidate_hold. rewrite Hh. apply Nat.eqb_neq in Nq. rewrite Nq.
    split; [exact Eh|]. intros Es. apply (Hn p). exists h; auto. }
  assert (res (bind f1 q s false) q s) as Hres.
  { eexists. rewrite bind_hold, Nat.eqb_refl. split; reflexivity. }
  assert (forall m0, INV L a m0 f ->
    INV L (with_rf a (bind f1 q s false))
      (mkm (upd (regs (spilled m0 q v)) q (f s)) (home (spilled m0 q v))) f) as Hgo.
  { intros m0 H0. destruct (inv_picked _ _ _ _ _ _ _ H0 (conj Hp (conj Ev Hh))) as [[A B C D E] N].
    split; cbn [rf modes with_rf] in *; auto. apply fi_bind_clean; auto. }
  destruct (fix_lit a s) as [w|] eqn:El.
  - intros E. injection E as <- <- <- <-.
    destruct (iv_fix_lit _ _ _ _ _ _ HI Ls El) as (Ef & Eo & Em).
    eexists. rewrite exec_app, exec_spill. cbn [exec exec1 with_regs].
    split; [reflexivity|]. split; [rewrite <- Ef; now apply Hgo|]. split; [exact Hres|].
    split; [reflexivity|]. split; [|split; [|exact Hkeep]].
    + unfold is_fixnum. now rewrite Em, Eo.
    + rewrite taken_app, taken_spill. reflexivity.
  - intros E. injection E as <- <- <- <-.
    assert (exists m0, exec (home_code a s) m = MOk m0 /\ INV L a m0 f /\ home m0 s = f s /\
              taken (home_code a s) = None) as (m0 & E0 & H0 & Hs & Ht).
    { unfold home_code. destruct (modes a s) as [b|w|] eqn:Em.
      - exists m. cbn. split; [reflexivity|]. split; [exact HI|]. split; [|reflexivity].
        apply (fi_home _ _ _ _ _ (iv_fi _ _ _ _ HI)); [eauto|]. intros r h Eh Es. exfalso.
        apply (Hn r). exists h; auto.
      - eexists. cbn [exec exec1]. split; [reflexivity|]. cbn [home]. rewrite upd_eq.
        assert (f s = w) as Ew by (eapply iv_const; eauto). split; [|split; [auto|reflexivity]].
        destruct HI as [A B C D E]. split; auto. destruct A as [A1 A2 A3 A4 A5]. split; auto.
        intros t [Lt Mt] Hc. cbn [home]. rewrite upd_ne; [auto|]. intros ->.
        destruct Mt as [b Mt]. congruence.
      - exfalso. eapply iv_live; eauto. }
    assert (home (spilled m0 q v) s = f s) as Hs1.
    { destruct (spilled_home m0 q v s) as [E|[E1 E]]; rewrite E; [exact Hs|].
      subst v. destruct (hold (rf a) q) as [h|] eqn:Eh; [|discriminate]. cbn in E1.
      destruct (hdirty h); [|discriminate]. injection E1 as E1.
      exfalso. apply (Hn q). exists h; auto. }
    eexists. rewrite exec_app, E0, exec_app, exec_spill. cbn [exec exec1 with_regs]. rewrite Hs1.
    split; [reflexivity|]. split; [now apply Hgo|]. split; [exact Hres|].
    split; [reflexivity|]. split; [reflexivity|]. split; [|exact Hkeep].
    rewrite !taken_app, taken_spill, Ht. reflexivity.
Qed.
