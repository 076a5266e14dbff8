(** Lemmas about the register file (gp_alloc.rs). *)
From Coq Require Import ZArith Bool List Arith Lia.
From Verif Require Import GpModel.
Import ListNotations.

Lemma upd_eq {A} (g : nat -> A) r x : upd g r x r = x.
Proof. unfold upd. now rewrite Nat.eqb_refl. Qed.
Lemma upd_ne {A} (g : nat -> A) r x q : q <> r -> upd g r x q = g q.
Proof. intros H. unfold upd. apply Nat.eqb_neq in H. now rewrite H. Qed.

Definition res (f : file) (r : reg) (s : slot) : Prop :=
  exists h, hold f r = Some h /\ hslot h = s.

(** A slot is cached by at most one register, and only pool registers cache. *)
Record fok (f : file) : Prop := mkfok {
  f_uniq : forall r1 r2 h1 h2, hold f r1 = Some h1 -> hold f r2 = Some h2 ->
           hslot h1 = hslot h2 -> r1 = r2;
  f_pool : forall r h, hold f r = Some h -> In r pool }.

Lemma fnew_ok : fok fnew.
Proof. split; cbn; discriminate. Qed.

Lemma holds_true h s : holds h s = true <-> exists x, h = Some x /\ hslot x = s.
Proof.
  destruct h as [x|]; cbn; [|split; [discriminate|intros (?&E&_); discriminate]].
  rewrite Nat.eqb_eq. split; [intros <-; eauto|intros (?&E&<-); now injection E as <-].
Qed.
Lemma holds_false h s : holds h s = false <-> forall x, h = Some x -> hslot x <> s.
Proof.
  destruct h as [x|]; cbn; [|split; [discriminate|reflexivity]].
  rewrite Nat.eqb_neq. split; [intros H ? E; now injection E as <-|auto].
Qed.

Lemma reg_of_some f s r : reg_of f s = Some r -> res f r s.
Proof. intros H. apply find_some in H as [_ H]. now apply holds_true in H. Qed.
Lemma reg_of_none f s : fok f -> reg_of f s = None -> forall r, ~ res f r s.
Proof.
  intros [_ Hp] H r (h & E & Es).
  pose proof (find_none _ _ H r (Hp _ _ E)) as F. cbn in F.
  assert (holds (hold f r) s = true) by (apply holds_true; eauto). congruence.
Qed.
Lemma reg_of_res f s r : fok f -> res f r s -> reg_of f s = Some r.
Proof.
  intros Hf Hr. destruct (reg_of f s) as [q|] eqn:E.
  - apply reg_of_some in E as (h & E & Es). destruct Hr as (h' & E' & Es').
    f_equal. eapply (f_uniq _ Hf); eauto. congruence.
  - exfalso. eapply reg_of_none; eauto.
Qed.

Lemma dirty_reg_some f s r : dirty_reg_of f s = Some r ->
  exists h, hold f r = Some h /\ hslot h = s /\ hdirty h = true.
Proof.
  intros H. apply find_some in H as [_ H]. cbn in H.
  destruct (hold f r) as [h|]; cbn in H; [|discriminate].
  apply andb_true_iff in H as [A B]. apply Nat.eqb_eq in A. eauto.
Qed.
Lemma dirty_reg_none f s : fok f -> dirty_reg_of f s = None ->
  forall r h, hold f r = Some h -> hslot h = s -> hdirty h = false.
Proof.
  intros [_ Hp] H r h E Es.
  pose proof (find_none _ _ H r (Hp _ _ E)) as F. cbn in F. rewrite E in F. cbn in F.
  subst s. rewrite Nat.eqb_refl in F. exact F.
Qed.

Lemma memb_true r l : memb r l = true <-> In r l.
Proof.
  unfold memb. rewrite existsb_exists. split.
  - intros (x & Hx & E). apply Nat.eqb_eq in E. now subst.
  - intros H. exists r. now rewrite Nat.eqb_refl.
Qed.
Lemma memb_false r l : memb r l = false <-> ~ In r l.
Proof. rewrite <- memb_true. destruct (memb r l); split; congruence. Qed.

Definition dirty_slot (h : option holder) : option slot :=
  match h with Some h => if hdirty h then Some (hslot h) else None | None => None end.

Lemma pool_nodup : NoDup pool.
Proof. repeat constructor; cbn; intuition lia. Qed.

Lemma pool_unpinned pinned : (length pinned < 4)%nat ->
  filter (fun r => negb (memb r pinned)) pool <> [].
Proof.
  intros Hl E.
  assert (incl pool pinned) as I.
  { intros r Hr. destruct (memb r pinned) eqn:M; [now apply memb_true|exfalso].
    assert (In r (filter (fun r => negb (memb r pinned)) pool)) as F.
    { apply filter_In. rewrite M. auto. }
    rewrite E in F. destruct F. }
  apply (NoDup_incl_length pool_nodup) in I. cbn in I. lia.
Qed.

Lemma oldest_in f l r : oldest f l = Some r -> In r l.
Proof.
  revert r. induction l as [|q l IH]; cbn; [discriminate|].
  intros r. destruct (oldest f l) as [z|].
  - destruct (Nat.leb _ _); intros E; injection E as <-; auto.
  - intros E. injection E as <-. auto.
Qed.
Lemma oldest_some f l : l <> [] -> exists r, oldest f l = Some r.
Proof.
  destruct l as [|q l]; [congruence|intros _; cbn].
  destruct (oldest f l); [destruct (Nat.leb _ _)|]; eauto.
Qed.

(** Allocation: a pool register that is not pinned, emptied; the victim's slot
    is reported when its register was the only copy. *)
Lemma alloc_spec f pinned f1 r v : (length pinned < 4)%nat ->
  alloc_reg f pinned = (f1, r, v) ->
  In r pool /\ ~ In r pinned /\ v = dirty_slot (hold f r) /\ clock f1 = clock f /\
  (forall q, hold f1 q = if Nat.eqb q r then None else hold f q).
Proof.
  intros Hl. unfold alloc_reg. destruct (find_free f pinned) as [q|] eqn:Ef.
  - intros E. injection E as <- <- <-.
    apply find_some in Ef as [Hp Hq]. apply andb_true_iff in Hq as [Hq Hm].
    apply negb_true_iff, memb_false in Hm.
    unfold is_free in Hq. destruct (hold f q) as [h|] eqn:Eh; [discriminate|].
    repeat split; auto. intros z. destruct (Nat.eqb_spec z q); congruence.
  - destruct (oldest_some f _ (pool_unpinned pinned Hl)) as (q & Eq). rewrite Eq.
    intros E. injection E as <- <- <-. apply oldest_in, filter_In in Eq as [Hp Hm].
    apply negb_true_iff, memb_false in Hm. repeat split; auto.
Qed.

(** The victim is an oldest register among those that may be taken. *)
Lemma oldest_min f l r : oldest f l = Some r -> forall q, In q l -> (age_of f r <= age_of f q)%nat.
Proof.
  revert r. induction l as [|z l IH]; cbn; [discriminate|].
  intros r. destruct (oldest f l) as [y|] eqn:Eo.
  - destruct (Nat.leb_spec (age_of f z) (age_of f y)) as [Le|Lt]; intros E; injection E as <-;
      intros q [<-|Hq]; try lia; specialize (IH _ eq_refl _ Hq); lia.
  - intros E. injection E as <-. intros q [<-|Hq]; [lia|].
    destruct (oldest_some f l) as (? & ?); [intros ->; destruct Hq|congruence].
Qed.

Lemma alloc_fok f pinned f1 r v : (length pinned < 4)%nat -> fok f ->
  alloc_reg f pinned = (f1, r, v) -> fok f1.
Proof.
  intros Hl [Hu Hp] E. apply alloc_spec in E as (_ & _ & _ & _ & Hh); [|exact Hl]. split.
  - intros r1 r2 h1 h2. rewrite !Hh. destruct (Nat.eqb r1 r); [discriminate|].
    destruct (Nat.eqb r2 r); [discriminate|]. apply Hu.
  - intros q h. rewrite Hh. destruct (Nat.eqb q r); [discriminate|]. apply Hp.
Qed.

Lemma invalidate_hold f s q h :
  hold (invalidate f s) q = Some h <-> hold f q = Some h /\ hslot h <> s.
Proof.
  cbn. destruct (holds (hold f q) s) eqn:E.
  - apply holds_true in E as (x & E & Es). rewrite E. split; [discriminate|].
    intros [A B]. congruence.
  - split; [|tauto]. intros F. split; [exact F|]. now apply (proj1 (holds_false _ _) E).
Qed.
Lemma free_above_hold f sp q h :
  hold (free_above f sp) q = Some h <-> hold f q = Some h /\ (hslot h < sp)%nat.
Proof.
  cbn. destruct (hold f q) as [x|]; [|split; [discriminate|intros [? _]; discriminate]].
  destruct (Nat.leb_spec sp (hslot x)).
  - split; [discriminate|]. intros [E L]. injection E as <-. lia.
  - split; [|tauto]. intros E. injection E as <-. auto.
Qed.
Lemma oinv_hold f d q h :
  hold (oinv f d) q = Some h <-> hold f q = Some h /\ d <> Some (hslot h).
Proof.
  destruct d as [s|]; cbn [oinv]; [rewrite invalidate_hold|]; intuition congruence.
Qed.

Lemma sub_fok f g : (forall q h, hold g q = Some h -> exists h', hold f q = Some h' /\ hslot h' = hslot h) ->
  fok f -> fok g.
Proof.
  intros Hs [Hu Hp]. split.
  - intros r1 r2 h1 h2 E1 E2 E. apply Hs in E1 as (x & E1 & S1). apply Hs in E2 as (y & E2 & S2).
    eapply Hu; eauto. congruence.
  - intros r h E. apply Hs in E as (x & E & _). eauto.
Qed.
Lemma invalidate_fok f s : fok f -> fok (invalidate f s).
Proof. apply sub_fok. intros q h E. apply invalidate_hold in E as [E _]. eauto. Qed.
Lemma free_above_fok f sp : fok f -> fok (free_above f sp).
Proof. apply sub_fok. intros q h E. apply free_above_hold in E as [E _]. eauto. Qed.

Lemma bind_hold f r s d q :
  hold (bind f r s d) q =
  if Nat.eqb q r then Some (mkh s d (S (clock f))) else hold (invalidate f s) q.
Proof. reflexivity. Qed.
Lemma bind_fok f r s d : fok f -> In r pool -> fok (bind f r s d).
Proof.
  intros Hf Hr. pose proof (invalidate_fok f s Hf) as [Hu Hp]. split.
  - intros r1 r2 h1 h2. rewrite !bind_hold.
    destruct (Nat.eqb_spec r1 r); destruct (Nat.eqb_spec r2 r).
    + congruence.
    + intros E1 E2 E. apply invalidate_hold in E2 as [_ N]. injection E1 as <-. cbn in E. congruence.
    + intros E1 E2 E. apply invalidate_hold in E1 as [_ N]. injection E2 as <-. cbn in E. congruence.
    + apply Hu.
  - intros q h. rewrite bind_hold. destruct (Nat.eqb_spec q r); [now subst|]. apply Hp.
Qed.

Lemma sync_hold f s q h : fok f ->
  hold (sync f s) q = Some h <->
  exists h0, hold f q = Some h0 /\ hslot h = hslot h0 /\ hage h = hage h0 /\
             hdirty h = if Nat.eqb (hslot h0) s then false else hdirty h0.
Proof.
  intros Hf. unfold sync. destruct (reg_of f s) as [r|] eqn:E.
  - pose proof (reg_of_some _ _ _ E) as (x & Ex & Es). cbn. unfold upd.
    destruct (Nat.eqb_spec q r) as [->|Nq].
    + rewrite Ex. cbn. split.
      * intros F. injection F as <-. exists x. cbn. rewrite Es, Nat.eqb_refl. auto.
      * intros (h0 & F & A & B & C). injection F as <-. rewrite Es, Nat.eqb_refl in C.
        destruct h; cbn in *. congruence.
    + split.
      * intros F. exists h. repeat split; auto. destruct (Nat.eqb_spec (hslot h) s) as [Eq|]; [|auto].
        exfalso. apply Nq. eapply (f_uniq _ Hf); eauto. congruence.
      * intros (h0 & F & A & B & C). destruct (Nat.eqb_spec (hslot h0) s) as [Eq|].
        -- exfalso. apply Nq. eapply (f_uniq _ Hf); eauto. congruence.
        -- rewrite F. f_equal. destruct h, h0; cbn in *; congruence.
  - split.
    + intros F. exists h. repeat split; auto. destruct (Nat.eqb_spec (hslot h) s); [|auto].
      exfalso. eapply reg_of_none; eauto. exists h; eauto.
    + intros (h0 & F & A & B & C). destruct (Nat.eqb_spec (hslot h0) s) as [Eq|].
      * exfalso. eapply reg_of_none; eauto. exists h0; eauto.
      * rewrite F. f_equal. destruct h, h0; cbn in *; congruence.
Qed.
Lemma sync_fok f s : fok f -> fok (sync f s).
Proof.
  intros Hf. apply (sub_fok f); [|exact Hf]. intros q h E.
  apply sync_hold in E as (h0 & E & A & _); [|exact Hf]. eauto.
Qed.

Lemma dirty_residents_in f r s : fok f ->
  In (r, s) (dirty_residents f) <-> exists h, hold f r = Some h /\ hslot h = s /\ hdirty h = true.
Proof.
  intros [_ Hp]. unfold dirty_residents. rewrite in_flat_map. split.
  - intros (q & Hq & Hin). destruct (hold f q) as [h|] eqn:E; [|destruct Hin].
    destruct (hdirty h) eqn:D; [|destruct Hin]. destruct Hin as [F|[]]. injection F as <- <-. eauto.
  - intros (h & E & <- & D). exists r. split; [eauto|]. rewrite E, D. now left.
Qed.

(** Storing a list of (register, slot) pairs. *)
Definition stores (g : reg -> word) (l : list (reg * slot)) (h : slot -> word) : slot -> word :=
  fold_left (fun h p => upd h (snd p) (g (fst p))) l h.
Lemma stores_spec g l : forall h s,
  (stores g l h s = h s /\ ~ In s (map snd l)) \/ exists r, In (r, s) l /\ stores g l h s = g r.
Proof.
  induction l as [|[r t] l IH]; cbn; intros h s; [auto|].
  destruct (IH (upd h t (g r)) s) as [[E N]|(q & Hq & E)].
  - unfold stores in E. rewrite E. destruct (Nat.eq_dec s t) as [->|Ne].
    + right. exists r. rewrite upd_eq. auto.
    + left. rewrite upd_ne by auto. split; [reflexivity|]. intros [|]; congruence.
  - right. exists q. auto.
Qed.
