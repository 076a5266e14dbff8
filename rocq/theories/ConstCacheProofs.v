From Coq Require Import List Bool Arith Lia.
From Verif Require Import ConstModel ConstSpec ConstProofs.
Import ListNotations.

Lemma cval_beq_true : forall a b, cval_beq a b = true <-> a = b.
Proof.
  intros a b. split; intros H.
  - destruct (cval_eq_dec a b) as [E|E]; [exact E|]. exact (internal_cval_dec_bl a b H).
  - exact (internal_cval_dec_lb a b H).
Qed.
Lemma opt_cval_true : forall a b, opt_eqb cval_beq a b = true <-> a = b.
Proof.
  intros [a|] [b|]; cbn; try (split; [discriminate|discriminate]); [|split; reflexivity].
  rewrite cval_beq_true. split; [intros ->; reflexivity | intros H; injection H as ->; reflexivity].
Qed.
Lemma opt_nat_true : forall a b, opt_eqb Nat.eqb a b = true <-> a = b.
Proof.
  intros [a|] [b|]; cbn; try (split; [discriminate|discriminate]); [|split; reflexivity].
  rewrite Nat.eqb_eq. split; [intros ->; reflexivity | intros H; injection H as ->; reflexivity].
Qed.
Lemma upd_eq : forall A (f : nat -> A) i v, upd f i v i = v.
Proof. intros. unfold upd. rewrite Nat.eqb_refl. reflexivity. Qed.
Lemma upd_neq : forall A (f : nat -> A) i v j, j <> i -> upd f i v j = f j.
Proof. intros. unfold upd. destruct (Nat.eqb_spec j i); [contradiction|reflexivity]. Qed.

Section Sites.
Variable info : nat -> site.

Definition right (s : st) (i : nat) (c : ccache) : Prop :=
  resolve_at info (senv s) (lexs s) no_hook i (c_base c) (c_key c) = RVal (c_val c) false.
Definition shaped (i : nat) (c : ccache) : Prop :=
  (s_single (info i) = true -> c_key c <> None) /\ (s_single (info i) = false -> c_key c = None)
  /\ (s_base (info i) = false -> c_base c = None).
Definition finv (s : st) (un : cunit) (f : fold) : Prop :=
  f_names f = names (info (f_site f)) /\ shaped (f_site f) (f_cache f)
  /\ (forall k, c_key (f_cache f) = Some k -> k = u_self un)
  /\ (forall n, In n (f_names f) -> In n (map fst (u_epochs un)))
  /\ (u_wild un = wild s -> (forall n e, In n (f_names f) -> In (n, e) (u_epochs un) -> e = epochs s n) ->
      right s (f_site f) (f_cache f)).
Definition uinv (s : st) (un : cunit) : Prop :=
  u_word un <= ver s /\ u_wild un <= wild s /\ (forall n e, In (n, e) (u_epochs un) -> e <= epochs s n)
  /\ (u_word un = ver s -> u_wild un = wild s /\ forall n e, In (n, e) (u_epochs un) -> e = epochs s n)
  /\ (forall f, In f (u_folds un) -> finv s un f).
Definition cinv (s : st) (i : nat) (c : ccache) : Prop :=
  c_ver c <= ver s /\ shaped i c /\ (c_ver c = ver s -> right s i c).
Definition inv (s : st) : Prop :=
  (forall i c, caches s i = Some c -> cinv s i c) /\ (forall u un, units s u = Some un -> uinv s un).

Lemma fresh_inv : forall s, fresh s -> inv s.
Proof. intros s [H1 H2]. split; [intros i c; rewrite H1; discriminate | intros u un; rewrite H2; discriminate]. Qed.

(* ---- reading ---- *)
Lemma right_now : forall s i c h base self, right s i c -> c_base c = base_of (info i) base -> c_key c = key_of (info i) self ->
  now info (senv s, lexs s) h i base self = RVal (c_val c) false.
Proof.
  intros s i c h base self H Hb Hk. unfold now. cbn. rewrite <- Hb, <- Hk. unfold right, resolve_at in H |- *.
  exact (resolve_free _ no_hook h _ _ _ _ _ H).
Qed.

Lemma with_cache_inv : forall s i c, inv s -> cinv s i c -> inv (with_cache s i c).
Proof.
  intros s i c [H1 H2] Hc. split.
  - intros j d. cbn. unfold upd. destruct (Nat.eqb_spec j i) as [->|Hne].
    + intros H. injection H as <-. exact Hc.
    + intros H. exact (H1 j d H).
  - exact H2.
Qed.

Lemma vm_read_ok : forall s i base self h, inv s -> calm info s h i base self ->
  snd (vm_read info s i base self h) = now info (senv s, lexs s) h i base self
  /\ inv (fst (vm_read info s i base self h))
  /\ senv (fst (vm_read info s i base self h)) = senv s /\ lexs (fst (vm_read info s i base self h)) = lexs s
  /\ ver (fst (vm_read info s i base self h)) = ver s
  /\ units (fst (vm_read info s i base self h)) = units s.
Proof.
  intros s i base self h Hi Hcalm. unfold calm in Hcalm.
  set (r := now info (senv s, lexs s) h i base self) in *.
  set (b := base_of (info i) base). set (k := key_of (info i) self).
  assert (Hmiss : let x := match r with RVal v _ => (with_cache s i (mkC (ver s) b k v), r) | _ => (s, r) end in
    snd x = r /\ inv (fst x) /\ senv (fst x) = senv s /\ lexs (fst x) = lexs s /\ ver (fst x) = ver s /\ units (fst x) = units s).
  { cbn zeta. destruct r as [v hk|x|] eqn:Er; cbn; try (split; [reflexivity|split; [exact Hi|repeat split]]).
    split; [reflexivity|]. split; [|repeat split].
    apply with_cache_inv; [exact Hi|]. split; [cbn; lia|]. split.
    - unfold shaped. cbn. subst b k. unfold key_of, base_of. destruct (s_single (info i)), (s_base (info i)); repeat split; intros; discriminate.
    - intros _. unfold right. cbn. destruct hk; [destruct (Hcalm v); reflexivity|].
      unfold r, now in Er. cbn in Er. exact (resolve_free _ h no_hook _ _ _ _ _ Er). }
  unfold vm_read. change (resolve_at info (senv s) (lexs s) h i (base_of (info i) base) (key_of (info i) self)) with r.
  fold b k. destruct (caches s i) as [c|] eqn:Ec; [|exact Hmiss].
  destruct ((c_ver c =? ver s) && opt_eqb cval_beq (c_base c) b && opt_eqb Nat.eqb (c_key c) k) eqn:Eh; [|exact Hmiss].
  apply andb_prop in Eh. destruct Eh as [Eh H3]. apply andb_prop in Eh. destruct Eh as [H1 H2].
  apply Nat.eqb_eq in H1. apply opt_cval_true in H2. apply opt_nat_true in H3.
  cbn. split; [|split; [exact Hi|repeat split]].
  destruct Hi as [Hc _]. destruct (Hc i c Ec) as [_ [_ Hr]].
  symmetry. exact (right_now s i c h base self (Hr H1) H2 H3).
Qed.

(* ---- compiling ---- *)
Lemma fold_sites_ok : forall s self is fs, inv s -> fold_sites info s self is = Some fs ->
  forall f, In f fs -> f_names f = names (info (f_site f)) /\ shaped (f_site f) (f_cache f)
    /\ (forall k, c_key (f_cache f) = Some k -> k = self) /\ right s (f_site f) (f_cache f).
Proof.
  intros s self. induction is as [|i r IH]; intros fs Hi H f Hf; cbn in H.
  - injection H as <-. destruct Hf.
  - destruct (fold_site info s self i) as [f0|] eqn:E0; [|discriminate].
    destruct (fold_sites info s self r) as [fs0|] eqn:E1; [|discriminate]. injection H as <-.
    destruct Hf as [<-|Hf]; [|exact (IH fs0 Hi eq_refl f Hf)].
    unfold fold_site in E0. destruct (caches s i) as [c|] eqn:Ec; [|discriminate].
    match type of E0 with (if ?b then _ else _) = _ => destruct b eqn:Eb; [|discriminate] end.
    injection E0 as <-. cbn. apply andb_prop in Eb. destruct Eb as [Eb _]. apply andb_prop in Eb. destruct Eb as [H1 H2].
    apply Nat.eqb_eq in H1. destruct Hi as [Hc _]. destruct (Hc i c Ec) as [_ [Hs Hr]].
    split; [reflexivity|]. split; [exact Hs|]. split; [|exact (Hr H1)].
    intros k Hk. rewrite Hk in H2. apply Nat.eqb_eq in H2. exact H2.
Qed.
Lemma compile_ok : forall s self blk is un, inv s -> compile info s self blk is = Some un -> uinv s un.
Proof.
  intros s self blk is un Hi H. unfold compile in H. destruct (fold_sites info s self is) as [fs|] eqn:E; [|discriminate].
  injection H as <-. unfold uinv. cbn.
  assert (He : forall n e, In (n, e) (map (fun n => (n, epochs s n)) (nodup Nat.eq_dec (flat_map f_names fs))) -> e = epochs s n).
  { intros n e H. apply in_map_iff in H. destruct H as [x [Hx _]]. injection Hx as -> <-. reflexivity. }
  split; [lia|]. split; [lia|]. split; [intros n e H; rewrite (He n e H); lia|].
  split; [intros _; split; [reflexivity|exact He]|].
  intros f Hf. destruct (fold_sites_ok s self is fs Hi E f Hf) as [H1 [H2 [H3 H4]]].
  split; [exact H1|]. split; [exact H2|]. split; [exact H3|]. split.
  - intros n Hn. cbn. rewrite map_map. apply in_map_iff. exists n. split; [reflexivity|]. apply nodup_In. apply in_flat_map. exists f. split; assumption.
  - intros _ _. exact H4.
Qed.
Lemma with_unit_inv : forall s u x, inv s -> (forall un, x = Some un -> uinv s un) -> inv (with_unit s u x).
Proof.
  intros s u x [H1 H2] Hx. split; [exact H1|]. intros v un. cbn. unfold upd. destruct (Nat.eqb_spec v u) as [->|Hne].
  - intros H. exact (Hx un H).
  - intros H. exact (H2 v un H).
Qed.

(* ---- salvage ---- *)
Lemma salvage_folds_ok : forall s un wm moved fs fs' o,
  (forall i c, caches s i = Some c -> cinv s i c) ->
  (wm = false -> u_wild un = wild s) ->
  (forall n e, In (n, e) (u_epochs un) -> ~ In n moved -> e = epochs s n) ->
  (forall f, In f fs -> finv s un f) -> salvage_folds s wm moved fs = (fs', o) ->
  (forall f, In f fs' -> finv s un f) /\ (o = Healed -> forall f, In f fs' -> right s (f_site f) (f_cache f)).
Proof.
  intros s un wm moved fs fs' o Hc Hw He. revert fs' o. induction fs as [|f r IH]; intros fs' o Hf H; cbn in H.
  - injection H as <- <-. split; [intros f []|intros _ f []].
  - assert (Hf0 : finv s un f) by (apply Hf; left; reflexivity).
    assert (Hr : forall f, In f r -> finv s un f) by (intros g Hg; apply Hf; right; exact Hg).
    destruct (wm || existsb (fun n => existsb (Nat.eqb n) moved) (f_names f)) eqn:Es; cbn in H.
    + destruct (caches s (f_site f)) as [cur|] eqn:Ec.
      * destruct (c_ver cur =? ver s) eqn:Ev; cbn in H.
        -- destruct (cval_beq (c_val cur) (c_val (f_cache f)) && opt_eqb cval_beq (c_base cur) (c_base (f_cache f))
                     && opt_eqb Nat.eqb (c_key cur) (c_key (f_cache f))) eqn:Eq.
           ++ destruct (salvage_folds s wm moved r) as [r' o'] eqn:Er. injection H as <- <-.
              destruct (IH r' o' Hr eq_refl) as [I1 I2].
              apply andb_prop in Eq. destruct Eq as [Eq Q3]. apply andb_prop in Eq. destruct Eq as [Q1 Q2].
              apply cval_beq_true in Q1. apply opt_cval_true in Q2. apply opt_nat_true in Q3. apply Nat.eqb_eq in Ev.
              destruct (Hc _ _ Ec) as [_ [Hsh Hrt]]. specialize (Hrt Ev). destruct Hf0 as [F1 [F2 [F3 [F4 F5]]]].
              split.
              ** intros g [<-|Hg]; [|exact (I1 g Hg)]. split; [exact F1|]. split; [exact Hsh|]. split; [cbn; rewrite Q3; exact F3|].
                 split; [exact F4|]. intros _ _. exact Hrt.
              ** intros Ho g [<-|Hg]; [exact Hrt|exact (I2 Ho g Hg)].
           ++ injection H as <- <-. split; [exact Hf|discriminate].
        -- injection H as <- <-. split; [exact Hf|discriminate].
      * injection H as <- <-. split; [exact Hf|discriminate].
    + destruct (salvage_folds s wm moved r) as [r' o'] eqn:Er. injection H as <- <-.
      destruct (IH r' o' Hr eq_refl) as [I1 I2]. split.
      * intros g [<-|Hg]; [exact Hf0|exact (I1 g Hg)].
      * intros Ho g [<-|Hg]; [|exact (I2 Ho g Hg)].
        apply orb_false_elim in Es. destruct Es as [E1 E2]. destruct Hf0 as [_ [_ [_ [_ F5]]]]. apply F5; [exact (Hw E1)|].
        intros n e Hn Hne. apply (He n e Hne). intros Hm.
        assert (existsb (fun n => existsb (Nat.eqb n) moved) (f_names f) = true); [|congruence].
        apply existsb_exists. exists n. split; [exact Hn|]. apply existsb_exists. exists n. split; [exact Hm|apply Nat.eqb_refl].
Qed.

Lemma salvage_ok : forall s un x, inv s -> uinv s un -> salvage s un = x -> forall un', x = Some un' -> uinv s un'.
Proof.
  intros s un x [Hc _] [U1 [U2 [U3 [U4 U5]]]] <- un'. unfold salvage.
  set (moved := map fst (filter (fun p => negb (epochs s (fst p) =? snd p)) (u_epochs un))).
  destruct (salvage_folds s (negb (u_wild un =? wild s)) moved (u_folds un)) as [fs o] eqn:E.
  destruct (fun A B C => salvage_folds_ok s un (negb (u_wild un =? wild s)) moved (u_folds un) fs o Hc A B C E) as [S1 S2].
  - intros H. apply Nat.eqb_eq. destruct (u_wild un =? wild s); [reflexivity|discriminate].
  - intros n e Hn Hm. destruct (Nat.eq_dec e (epochs s n)) as [Q|Q]; [exact Q|]. destruct Hm.
    unfold moved. apply in_map_iff. exists (n, e). split; [reflexivity|]. apply filter_In. split; [exact Hn|]. cbn.
    destruct (Nat.eqb_spec (epochs s n) e); [congruence|reflexivity].
  - exact U5.
  - assert (Hst : forall d, uinv s (mkU (u_self un) (u_block un) fs (u_word un) (u_epochs un) (u_wild un) d)).
    { intros d. split; [exact U1|]. split; [exact U2|]. split; [exact U3|]. split; [exact U4|]. intros f Hf. exact (S1 f Hf). }
    destruct o.
    + intros H. injection H as <-.
      assert (He : forall n e, In (n, e) (map (fun p : name * nat => (fst p, epochs s (fst p))) (u_epochs un)) -> e = epochs s n).
      { intros n e H. apply in_map_iff in H. destruct H as [p [Hp _]]. injection Hp as <- <-. reflexivity. }
      split; [cbn; lia|]. split; [cbn; lia|]. split; [cbn; intros n e H; rewrite (He n e H); lia|].
      split; [intros _; split; [reflexivity|exact He]|].
      intros f Hf. cbn in Hf. destruct (S1 f Hf) as [F1 [F2 [F3 [F4 _]]]].
      split; [exact F1|]. split; [exact F2|]. split; [exact F3|]. split.
      * intros n Hn. cbn. rewrite map_map. exact (F4 n Hn).
      * intros _ _. exact (S2 eq_refl f Hf).
    + destruct (3 <=? u_defers un); [destruct (u_block un); [|discriminate]|]; intros H; injection H as <-; apply Hst.
    + destruct (u_block un); [|discriminate]; intros H; injection H as <-; apply Hst.
Qed.

(* ---- compiled reads ---- *)
Lemma fold_now : forall s un f i h base, uinv s un -> u_word un = ver s ->
  find (fun f => f_site f =? i) (u_folds un) = Some f ->
  s_base (info i) && negb (opt_eqb cval_beq (c_base (f_cache f)) base) = false ->
  now info (senv s, lexs s) h i base (u_self un) = RVal (c_val (f_cache f)) false.
Proof.
  intros s un f i h base [_ [_ [_ [U4 U5]]]] Hw Hf Hb. destruct (find_some _ _ Hf) as [Hin He]. apply Nat.eqb_eq in He.
  destruct (U4 Hw) as [W1 W2]. destruct (U5 f Hin) as [F1 [F2 [F3 [_ F5]]]]. rewrite He in *.
  assert (Hr : right s i (f_cache f)) by (apply F5; [exact W1|]; intros n e _ H; exact (W2 n e H)).
  apply (right_now s i (f_cache f) h base (u_self un) Hr).
  - unfold base_of. destruct F2 as [_ [_ F2]]. destruct (s_base (info i)); [|exact (F2 eq_refl)].
    cbn in Hb. destruct (opt_eqb cval_beq (c_base (f_cache f)) base) eqn:Eb; [|discriminate]. apply opt_cval_true in Eb. exact Eb.
  - unfold key_of. destruct F2 as [G1 [G2 _]]. destruct (s_single (info i)); [|exact (G2 eq_refl)].
    specialize (G1 eq_refl). destruct (c_key (f_cache f)) as [k|]; [|congruence]. rewrite (F3 k eq_refl). reflexivity.
Qed.

Lemma jit_read_ok : forall s u i base self h, inv s -> calm info s h i base self ->
  snd (jit_read info s u i base self h) = now info (senv s, lexs s) h i base self
  /\ inv (fst (jit_read info s u i base self h))
  /\ senv (fst (jit_read info s u i base self h)) = senv s /\ lexs (fst (jit_read info s u i base self h)) = lexs s.
Proof.
  intros s u i base self h Hi Hcalm.
  assert (Hvm : forall s', inv s' -> senv s' = senv s -> lexs s' = lexs s ->
    snd (vm_read info s' i base self h) = now info (senv s, lexs s) h i base self
    /\ inv (fst (vm_read info s' i base self h))
    /\ senv (fst (vm_read info s' i base self h)) = senv s /\ lexs (fst (vm_read info s' i base self h)) = lexs s).
  { intros s' Hi' He Hl. destruct (vm_read_ok s' i base self h Hi') as [V1 [V2 [V3 [V4 _]]]].
    - unfold calm. rewrite He, Hl. exact Hcalm.
    - rewrite He, Hl in V1. rewrite He in V3. rewrite Hl in V4. exact (conj V1 (conj V2 (conj V3 V4))). }
  unfold jit_read. destruct (units s u) as [un|] eqn:Eu; [|apply Hvm; [exact Hi|reflexivity|reflexivity]].
  destruct (Nat.eqb_spec (u_self un) self) as [Hs|_]; [|apply Hvm; [exact Hi|reflexivity|reflexivity]].
  destruct (find (fun f => f_site f =? i) (u_folds un)) as [f|] eqn:Ef; [|apply Hvm; [exact Hi|reflexivity|reflexivity]].
  destruct (s_base (info i) && negb (opt_eqb cval_beq (c_base (f_cache f)) base)) eqn:Eb; [apply Hvm; [exact Hi|reflexivity|reflexivity]|].
  assert (Hu : uinv s un) by exact (proj2 Hi u un Eu).
  destruct (Nat.eqb_spec (u_word un) (ver s)) as [Hw|Hw].
  - cbn. split; [|split; [exact Hi|split; reflexivity]]. rewrite <- Hs. symmetry. exact (fold_now s un f i h base Hu Hw Ef Eb).
  - apply Hvm; [|reflexivity|reflexivity]. apply with_unit_inv; [exact Hi|]. intros un' H. exact (salvage_ok s un _ Hi Hu eq_refl un' H).
Qed.

(* ---- events ---- *)
Definition only (e1 e2 : env) (n : name) : Prop := (forall c, chain e1 c = chain e2 c) /\ (forall c m, m <> n -> tbl e1 c m = tbl e2 c m).
Lemma only_agree : forall e1 e2 n ns, only e1 e2 n -> ~ In n ns -> agree e1 e2 ns.
Proof. intros e1 e2 n ns [H1 H2] Hn. split; [exact H1|]. intros c m Hm. apply H2. intros ->. exact (Hn Hm). Qed.
Lemma only_set : forall e c n x, only e (set_tbl e c n x) n.
Proof.
  intros e c n x. split; [reflexivity|]. intros d m Hm. cbn. unfold upd. destruct (Nat.eqb_spec d c) as [->|_]; [|reflexivity].
  destruct (Nat.eqb_spec m n); [contradiction|reflexivity].
Qed.
Lemma only_refl : forall e n, only e e n.
Proof. intros e n. split; reflexivity. Qed.
Lemma only_autoload : forall e c n, only e (put_autoload e c n) n.
Proof.
  intros e c n. unfold put_autoload. destruct (tbl e c n) as [x|]; [|apply only_set].
  destruct (e_kind x) as [v|a]; [apply only_refl|]. destruct a; [apply only_refl|apply only_refl|apply only_set].
Qed.
Lemma only_state : forall e c n a, only e (put_state e c n a) n.
Proof. intros e c n a. unfold put_state. destruct (tbl e c n) as [x|]; [destruct (e_kind x); [apply only_refl|apply only_set]|apply only_refl]. Qed.
Lemma only_priv : forall e c n b, only e (put_priv e c n b) n.
Proof. intros e c n b. unfold put_priv. destruct (tbl e c n) as [x|]; [apply only_set|apply only_refl]. Qed.

Lemma right_env : forall s e n i c, only (senv s) e n -> ~ In n (names (info i)) -> right s i c -> right (with_env s e) i c.
Proof.
  intros s e n i c Ho Hn H. unfold right, resolve_at in H |- *. cbn.
  rewrite <- (agree_resolve (senv s) e); [exact H|]. exact (only_agree _ _ n _ Ho Hn).
Qed.

Lemma bump_name_inv : forall s e n, inv s -> only (senv s) e n -> inv (with_env (bump_name s n) e).
Proof.
  intros s e n [H1 H2] Ho. split.
  - intros i c Hc. cbn in Hc. destruct (H1 i c Hc) as [C1 [C2 _]]. split; [cbn; lia|]. split; [exact C2|]. cbn. intros Hv. lia.
  - intros u un Hu. cbn in Hu. destruct (H2 u un Hu) as [U1 [U2 [U3 [U4 U5]]]].
    assert (Hle : forall m, epochs s m <= upd (epochs s) n (S (epochs s n)) m).
    { intros m. unfold upd. destruct (Nat.eqb_spec m n) as [->|_]; lia. }
    split; [cbn; lia|]. split; [exact U2|]. split; [cbn; intros m k Hm; specialize (U3 m k Hm); specialize (Hle m); lia|].
    split; [cbn; intros Hv; lia|].
    intros f Hf. destruct (U5 f Hf) as [F1 [F2 [F3 [F4 F5]]]].
    split; [exact F1|]. split; [exact F2|]. split; [exact F3|]. split; [exact F4|].
    cbn. intros Hw He.
    assert (Hn : ~ In n (f_names f)).
    { intros Hn. specialize (F4 n Hn). apply in_map_iff in F4. destruct F4 as [[n' k] [Hnn Hin]]. cbn in Hnn. subst n'.
      specialize (He n k Hn Hin). rewrite upd_eq in He. specialize (U3 n k Hin). lia. }
    apply (right_env (bump_name s n) e n); [exact Ho|rewrite <- F1; exact Hn|].
    change (right s (f_site f) (f_cache f)). apply F5; [exact Hw|].
    intros m k Hm Hin. specialize (He m k Hm Hin). rewrite upd_neq in He; [exact He|]. intros ->. exact (Hn Hm).
Qed.
Lemma bump_all_inv : forall s e, inv s -> inv (with_env (bump_all s) e).
Proof.
  intros s e [H1 H2]. split.
  - intros i c Hc. cbn in Hc. destruct (H1 i c Hc) as [C1 [C2 _]]. split; [cbn; lia|]. split; [exact C2|]. cbn. intros Hv. lia.
  - intros u un Hu. cbn in Hu. destruct (H2 u un Hu) as [U1 [U2 [U3 [U4 U5]]]].
    split; [cbn; lia|]. split; [cbn; lia|]. split; [exact U3|]. split; [cbn; intros Hv; lia|].
    intros f Hf. destruct (U5 f Hf) as [F1 [F2 [F3 [F4 F5]]]].
    split; [exact F1|]. split; [exact F2|]. split; [exact F3|]. split; [exact F4|]. cbn. intros Hw. lia.
Qed.
Lemma quiet_inv : forall s e n, inv s -> only (senv s) e n -> quiet info s n -> inv (with_env s e).
Proof.
  intros s e n [H1 H2] Ho [Q1 Q2]. split.
  - intros i c Hc. cbn in Hc. destruct (H1 i c Hc) as [C1 [C2 C3]]. split; [exact C1|]. split; [exact C2|]. cbn. intros Hv.
    apply (right_env s e n); [exact Ho| |exact (C3 Hv)]. intros Hn. exact (Q1 i c Hc Hn Hv).
  - intros u un Hu. cbn in Hu. destruct (H2 u un Hu) as [U1 [U2 [U3 [U4 U5]]]].
    split; [exact U1|]. split; [exact U2|]. split; [exact U3|]. split; [exact U4|].
    intros f Hf. destruct (U5 f Hf) as [F1 [F2 [F3 [F4 F5]]]].
    split; [exact F1|]. split; [exact F2|]. split; [exact F3|]. split; [exact F4|]. cbn. intros Hw He.
    apply (right_env s e n); [exact Ho|rewrite <- F1; exact (Q2 u un f Hu Hf)|exact (F5 Hw He)].
Qed.
Lemma right_lex : forall s q l i c, s_iseq (info i) <> q -> right s i c -> right (with_lex s (upd (lexs s) q l)) i c.
Proof. intros s q l i c Hq H. unfold right, resolve_at in H |- *. cbn. rewrite upd_neq; [exact H|exact Hq]. Qed.
Lemma stamp_inv : forall s q l, inv s -> l = lexs s q \/ quiet_code info s q -> inv (with_lex s (upd (lexs s) q l)).
Proof.
  intros s q l [H1 H2] Hq.
  assert (Hsame : l = lexs s q -> forall i c, right s i c -> right (with_lex s (upd (lexs s) q l)) i c).
  { intros -> i c H. unfold right, resolve_at in H |- *. cbn. unfold upd. destruct (Nat.eqb_spec (s_iseq (info i)) q) as [<-|_]; exact H. }
  split.
  - intros i c Hc. cbn in Hc. destruct (H1 i c Hc) as [C1 [C2 C3]]. split; [exact C1|]. split; [exact C2|]. cbn. intros Hv.
    destruct Hq as [Hq|[Q1 _]]; [exact (Hsame Hq i c (C3 Hv))|]. apply right_lex; [|exact (C3 Hv)]. intros He. exact (Q1 i c Hc He Hv).
  - intros u un Hu. cbn in Hu. destruct (H2 u un Hu) as [U1 [U2 [U3 [U4 U5]]]].
    split; [exact U1|]. split; [exact U2|]. split; [exact U3|]. split; [exact U4|].
    intros f Hf. destruct (U5 f Hf) as [F1 [F2 [F3 [F4 F5]]]].
    split; [exact F1|]. split; [exact F2|]. split; [exact F3|]. split; [exact F4|]. cbn. intros Hw He.
    destruct Hq as [Hq|[_ Q2]]; [exact (Hsame Hq _ _ (F5 Hw He))|]. apply right_lex; [exact (Q2 u un f Hu Hf)|exact (F5 Hw He)].
Qed.

Definition world_of (s : st) : world := (senv s, lexs s).
Theorem step_ok : forall s e, inv s -> fair info s e ->
  inv (fst (step info s e)) /\ (world_of (fst (step info s e)), snd (step info s e)) = wstep info (world_of s) e.
Proof.
  intros s e Hi Hf. destruct e; cbn [step] in *; cbn [fst snd].
  - split; [|reflexivity]. apply (bump_name_inv s _ n Hi). apply only_set.
  - split; [|reflexivity]. apply (bump_name_inv s _ n Hi). apply only_set.
  - split; [|reflexivity]. apply (bump_all_inv s _ Hi).
  - split; [|reflexivity]. apply (quiet_inv s _ n Hi); [apply only_set|exact Hf].
  - split; [|reflexivity]. apply (quiet_inv s _ n Hi); [apply only_autoload|exact Hf].
  - split; [|reflexivity]. apply (quiet_inv s _ n Hi); [apply only_state|exact Hf].
  - split; [|reflexivity]. apply (quiet_inv s _ n Hi); [apply only_priv|exact Hf].
  - split; [|reflexivity]. apply (stamp_inv s i l Hi Hf).
  - destruct (vm_read_ok s i base self h Hi Hf) as [V1 [V2 [V3 [V4 _]]]].
    destruct (vm_read info s i base self h) as [s' r]. cbn in V1, V2, V3, V4 |- *. split; [exact V2|].
    unfold world_of. rewrite V1, V3, V4. reflexivity.
  - destruct (compile info s self blk is) as [x|] eqn:Ec; cbn [fst snd]; split; try reflexivity; [|exact Hi].
    apply with_unit_inv; [exact Hi|]. intros un H. injection H as <-. exact (compile_ok s self blk is x Hi Ec).
  - destruct (jit_read_ok s u i base self h Hi Hf) as [V1 [V2 [V3 V4]]].
    destruct (jit_read info s u i base self h) as [s' r]. cbn in V1, V2, V3, V4 |- *. split; [exact V2|].
    unfold world_of. rewrite V1, V3, V4. reflexivity.
Qed.
Theorem run_ok : forall l s, inv s -> fair_all info s l ->
  inv (fst (run info s l)) /\ (world_of (fst (run info s l)), snd (run info s l)) = wrun info (world_of s) l.
Proof.
  induction l as [|e r IH]; intros s Hi Hf; [split; [exact Hi|reflexivity]|].
  destruct Hf as [Hf Hr]. destruct (step_ok s e Hi Hf) as [S1 S2]. cbn [run wrun].
  destruct (step info s e) as [s1 o]. cbn [fst snd] in *. destruct (IH s1 S1 Hr) as [I1 I2].
  destruct (wstep info (world_of s) e) as [w1 o1]. injection S2 as <- <-.
  destruct (run info s1 r) as [s2 os]. cbn [fst snd] in *. destruct (wrun info (world_of s1) r) as [w2 os2]. injection I2 as <- <-.
  split; [exact I1|reflexivity].
Qed.
Theorem reads_right : forall s l, fresh s -> fair_all info s l -> snd (run info s l) = snd (wrun info (senv s, lexs s) l).
Proof.
  intros s l Hs Hf. destruct (run_ok l s (fresh_inv s Hs) Hf) as [_ H]. unfold world_of in H. rewrite <- H. reflexivity.
Qed.
End Sites.

(** What is folded into compiled code. *)
Lemma fold_site_spec : forall info s self i f, fold_site info s self i = Some f <->
  (caches s i = Some (f_cache f) /\ c_ver (f_cache f) = ver s /\ f_site f = i /\ f_names f = names (info i) /\
   match c_key (f_cache f) with Some k => k = self | None => s_single (info i) = false end /\
   (s_base (info i) = true -> c_base (f_cache f) <> None)).
Proof.
  intros info s self i f. unfold fold_site. split.
  - destruct (caches s i) as [c|]; [|discriminate]. destruct (_ && _) eqn:E; [|discriminate]. intro H. injection H as <-. cbn.
    apply andb_prop in E. destruct E as [E E3]. apply andb_prop in E. destruct E as [E1 E2]. apply Nat.eqb_eq in E1.
    split; [reflexivity|]. split; [exact E1|]. split; [reflexivity|]. split; [reflexivity|]. split.
    + destruct (c_key c) as [k|]; [apply Nat.eqb_eq in E2; exact E2|]. destruct (s_single (info i)); [discriminate E2|reflexivity].
    + intros Hb Hn. rewrite Hb, Hn in E3. discriminate E3.
  - intros (Hc & Hv & <- & Hn & Hk & Hb). rewrite Hc. rewrite Hv, Nat.eqb_refl.
    assert (K : match c_key (f_cache f) with Some k => k =? self | None => negb (s_single (info (f_site f))) end = true)
      by (destruct (c_key (f_cache f)) as [k|]; [apply Nat.eqb_eq; exact Hk|rewrite Hk; reflexivity]).
    assert (B : match s_base (info (f_site f)), c_base (f_cache f) with true, None => false | _, _ => true end = true)
      by (destruct (s_base (info (f_site f))), (c_base (f_cache f)); try reflexivity; contradiction (Hb eq_refl eq_refl)).
    rewrite K, B. cbn. destruct f as [i c ns]. cbn in *. rewrite Hn. reflexivity.
Qed.
