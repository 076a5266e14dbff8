From Coq Require Import List Bool Arith Lia.
From Verif Require Import ConstModel ConstSpec ConstProofs ConstCacheProofs.
Import ListNotations.

Section Sites.
Variable info : nat -> site.

Definition core (s : st) := (senv s, lexs s, ver s, epochs s, wild s).
Lemma core_inj : forall s t, core s = core t -> senv s = senv t /\ lexs s = lexs t /\ ver s = ver t /\ epochs s = epochs t /\ wild s = wild t.
Proof. intros s t H. injection H. auto. Qed.
Lemma uinv_core : forall s t un, core s = core t -> uinv info s un -> uinv info t un.
Proof.
  intros s t un H. apply core_inj in H. destruct H as [H1 [H2 [H3 [H4 H5]]]].
  unfold uinv, finv, right. rewrite H1, H2, H3, H4, H5. auto.
Qed.
Lemma vm_read_core : forall s i b self h, core (fst (vm_read info s i b self h)) = core s /\ units (fst (vm_read info s i b self h)) = units s.
Proof.
  intros s i b self h. unfold vm_read. destruct (caches s i) as [c|].
  - destruct (_ && _); [split; reflexivity|]. destruct (resolve_at _ _ _ _ _ _ _); split; reflexivity.
  - destruct (resolve_at _ _ _ _ _ _ _); split; reflexivity.
Qed.

(** What happens to the record of a unit. *)
Definition kept (s t : st) (u : nat) : Prop :=
  (units s u = None -> units t u = None) /\
  (forall un, units s u = Some un -> (u_word un = ver s -> ver t = ver s -> units t u = Some un) /\
              (forall un', units t u = Some un' -> u_self un' = u_self un)) /\ ver s <= ver t.
Lemma kept_same : forall s t u, units t u = units s u -> ver s <= ver t -> kept s t u.
Proof.
  intros s t u H Hv. split; [rewrite H; auto|]. split; [|exact Hv]. intros un Hu. rewrite H. split; [auto|].
  intros un' H'. rewrite Hu in H'. injection H' as <-. reflexivity.
Qed.
Lemma salvage_self : forall s un un', salvage s un = Some un' -> u_self un' = u_self un.
Proof.
  intros s un un'. unfold salvage. destruct (salvage_folds _ _ _ _) as [fs o].
  destruct o; [|destruct (3 <=? u_defers un); [destruct (u_block un)|]|destruct (u_block un)]; intros H; try discriminate; injection H as <-; reflexivity.
Qed.
Lemma jit_read_core : forall s u i b self h v, core (fst (jit_read info s u i b self h)) = core s /\ kept s (fst (jit_read info s u i b self h)) v.
Proof.
  intros s u i b self h v.
  assert (Hvm : core (fst (vm_read info s i b self h)) = core s /\ kept s (fst (vm_read info s i b self h)) v).
  { destruct (vm_read_core s i b self h) as [V1 V2]. split; [exact V1|]. apply kept_same; [rewrite V2; reflexivity|].
    apply core_inj in V1. destruct V1 as [_ [_ [V1 _]]]. lia. }
  unfold jit_read. destruct (units s u) as [un|] eqn:Eu; [|exact Hvm]. destruct (u_self un =? self); [|exact Hvm].
  destruct (find _ _) as [f|]; [|exact Hvm]. destruct (s_base (info i) && _); [exact Hvm|].
  destruct (Nat.eqb_spec (u_word un) (ver s)) as [Hw|Hw].
  - split; [reflexivity|]. apply kept_same; [reflexivity|cbn; lia].
  - destruct (vm_read_core (with_unit s u (salvage s un)) i b self h) as [V1 V2]. split; [exact V1|].
    apply core_inj in V1. destruct V1 as [_ [_ [V1 _]]]. cbn in V1.
    unfold kept. rewrite V1, V2. cbn. unfold upd. destruct (Nat.eqb_spec v u) as [->|_].
    + split; [rewrite Eu; discriminate|]. split; [|lia]. rewrite Eu. intros un0 H0. injection H0 as <-. split; [intros; contradiction|].
      intros un' H. exact (salvage_self s un un' H).
    + split; [auto|]. split; [|lia]. intros un0 H0. rewrite H0. split; [auto|]. intros un' H. injection H as <-. reflexivity.
Qed.
Lemma uinv_bump_name : forall s e n un, only (senv s) e n -> uinv info s un -> uinv info (with_env (bump_name s n) e) un.
Proof.
  intros s e n un Ho Hu.
  set (s0 := mkSt (senv s) (lexs s) (ver s) (epochs s) (wild s) (fun _ => None) (fun _ => Some un)).
  assert (Hi : inv info s0) by (split; [intros i c H; discriminate | intros u un' H; cbn in H; injection H as <-; exact (uinv_core s s0 un eq_refl Hu)]).
  apply (uinv_core (with_env (bump_name s0 n) e)); [reflexivity|].
  exact (proj2 (bump_name_inv info s0 e n Hi Ho) 0 un eq_refl).
Qed.
Lemma uinv_bump_all : forall s e un, uinv info s un -> uinv info (with_env (bump_all s) e) un.
Proof.
  intros s e un Hu.
  set (s0 := mkSt (senv s) (lexs s) (ver s) (epochs s) (wild s) (fun _ => None) (fun _ => Some un)).
  assert (Hi : inv info s0) by (split; [intros i c H; discriminate | intros u un' H; cbn in H; injection H as <-; exact (uinv_core s s0 un eq_refl Hu)]).
  apply (uinv_core (with_env (bump_all s0) e)); [reflexivity|].
  exact (proj2 (bump_all_inv info s0 e Hi) 0 un eq_refl).
Qed.

Lemma tame_fair : forall s e, tame info (world_of s) e -> fair info s e.
Proof. intros s e H. destruct e; cbn in *; try exact I; try contradiction; exact H. Qed.
Lemma tame_step : forall s e u, inv info s -> tame info (world_of s) e -> (forall self b is, e <> ECompile u self b is) ->
  (forall un, uinv info s un -> uinv info (fst (step info s e)) un) /\ kept s (fst (step info s e)) u
  /\ (still e -> ver (fst (step info s e)) = ver s).
Proof.
  intros s e u Hi Ht Hc. destruct e; cbn in Ht; try contradiction; cbn [step fst].
  - split; [intros un Hu; exact (uinv_bump_name s _ n un (only_set _ c n _) Hu)|]. split; [apply kept_same; [reflexivity|cbn; lia]|intros []].
  - split; [intros un Hu; exact (uinv_bump_name s _ n un (only_set _ c n _) Hu)|]. split; [apply kept_same; [reflexivity|cbn; lia]|intros []].
  - split; [intros un Hu; exact (uinv_bump_all s _ un Hu)|]. split; [apply kept_same; [reflexivity|cbn; lia]|intros []].
  - destruct (vm_read_core s i base self h) as [V1 V2]. destruct (vm_read info s i base self h) as [s' r]. cbn [fst] in *.
    split; [intros un Hu; exact (uinv_core s s' un (eq_sym V1) Hu)|]. apply core_inj in V1. destruct V1 as [_ [_ [V1 _]]].
    split; [apply kept_same; [rewrite V2; reflexivity|lia]|intros _; exact V1].
  - destruct (compile info s self blk is) as [x|] eqn:Ec; cbn [fst].
    + split; [intros un Hu; exact (uinv_core s (with_unit s u0 (Some x)) un eq_refl Hu)|]. split; [|intros _; reflexivity].
      apply kept_same; [|cbn; lia]. cbn. apply upd_neq. intros ->. exact (Hc self blk is eq_refl).
    + split; [auto|]. split; [apply kept_same; [reflexivity|lia]|intros _; reflexivity].
  - destruct (jit_read_core s u0 i base self h u) as [V1 V2]. destruct (jit_read info s u0 i base self h) as [s' r]. cbn [fst] in *.
    split; [intros un Hu; exact (uinv_core s s' un (eq_sym V1) Hu)|]. apply core_inj in V1. destruct V1 as [_ [_ [V1 _]]].
    split; [exact V2|intros _; exact V1].
Qed.
Lemma kept_trans : forall s t r u, kept s t u -> kept t r u -> kept s r u.
Proof.
  intros s t r u [A1 [A2 A3]] [B1 [B2 B3]]. split; [auto|]. split; [|lia]. intros un Hs. destruct (A2 un Hs) as [C1 C2]. split.
  - intros Hw Hv. assert (Ht : ver t = ver s) by lia. specialize (C1 Hw Ht). apply (B2 un C1); lia.
  - intros un' Hr. destruct (units t u) as [un0|] eqn:Et; [|rewrite (B1 eq_refl) in Hr; discriminate].
    destruct (B2 un0 eq_refl) as [_ D2]. rewrite (D2 un' Hr). exact (C2 un0 eq_refl).
Qed.
Lemma tame_run : forall l s u, inv info s -> tame_all info (world_of s) l -> (forall self b is, ~ In (ECompile u self b is) l) ->
  inv info (fst (run info s l)) /\ world_of (fst (run info s l)) = fst (wrun info (world_of s) l)
  /\ (forall un, uinv info s un -> uinv info (fst (run info s l)) un) /\ kept s (fst (run info s l)) u
  /\ ((forall e, In e l -> still e) -> ver (fst (run info s l)) = ver s).
Proof.
  induction l as [|e r IH]; intros s u Hi Ht Hc.
  - split; [exact Hi|]. split; [reflexivity|]. split; [auto|]. split; [apply kept_same; [reflexivity|cbn; lia]|reflexivity].
  - destruct Ht as [Ht Hr]. destruct (step_ok info s e Hi (tame_fair s e Ht)) as [S1 S2].
    destruct (tame_step s e u Hi Ht) as [T1 [T2 T3]]; [intros self b is ->; apply (Hc self b is); left; reflexivity|].
    cbn [run wrun]. destruct (step info s e) as [s1 o]. cbn [fst snd] in *.
    destruct (wstep info (world_of s) e) as [w1 o1]. injection S2 as <- <-.
    destruct (IH s1 u S1 Hr) as [I1 [I2 [I3 [I4 I5]]]]; [intros self b is H; apply (Hc self b is); right; exact H|].
    destruct (run info s1 r) as [s2 os]. cbn [fst snd] in *. destruct (wrun info (world_of s1) r) as [w2 os2]. cbn [fst] in *.
    split; [exact I1|]. split; [exact I2|]. split; [intros un H; exact (I3 un (T1 un H))|]. split; [exact (kept_trans s s1 s2 u T2 I4)|].
    intros Hst. rewrite I5; [apply T3, Hst; left; reflexivity|]. intros e0 H0. apply Hst. right. exact H0.
Qed.

Theorem run_vm_ok : forall p s u self h, inv info s -> tame_insts info (world_of s) u self h p ->
  run_vm info s self h p = wrun_inst info (world_of s) self h p.
Proof.
  induction p as [|x r IH]; intros s u self h Hi Ht; [reflexivity|]. destruct x as [i b|l|l]; cbn in Ht |- *.
  - destruct Ht as [Hc Hr]. destruct (vm_read_ok info s i b self h Hi Hc) as [V1 [V2 [V3 [V4 _]]]].
    destruct (vm_read info s i b self h) as [s' x]. cbn in V1, V2, V3, V4. subst x. f_equal.
    assert (Hw : world_of s' = world_of s) by (unfold world_of; rewrite V3, V4; reflexivity).
    rewrite (IH s' u self h V2); rewrite Hw; [reflexivity|exact Hr].
  - destruct Ht as [Ha [Hc Hr]]. destruct (tame_run l s u Hi Ha Hc) as [I1 [I2 _]].
    rewrite (IH (fst (run info s l)) u self h I1); rewrite I2; [reflexivity|exact Hr].
  - destruct Ht as [Ha [Hc [_ Hr]]]. destruct (tame_run l s u Hi Ha Hc) as [I1 [I2 _]].
    rewrite (IH (fst (run info s l)) u self h I1); rewrite I2; [reflexivity|exact Hr].
Qed.

Theorem run_jit_ok : forall p s u un g h, inv info s -> uinv info s un ->
  units s u = Some un \/ units s u = None -> (g = true -> u_word un = ver s) ->
  tame_insts info (world_of s) u (u_self un) h p ->
  run_jit info s u un g h p = wrun_inst info (world_of s) (u_self un) h p.
Proof.
  induction p as [|x r IH]; intros s u un g h Hi Hu Hr Hg Ht; [reflexivity|].
  assert (Hafter : forall l, tame_all info (world_of s) l -> (forall self b is, ~ In (ECompile u self b is) l) ->
    let t := fst (run info s l) in let un' := match units t u with Some un => un | None => un end in
    inv info t /\ world_of t = fst (wrun info (world_of s) l) /\ uinv info t un' /\ (units t u = Some un' \/ units t u = None)
    /\ u_self un' = u_self un /\ ((forall e, In e l -> still e) -> u_word un = ver s -> u_word un' = ver t)).
  { intros l Ha Hc. destruct (tame_run l s u Hi Ha Hc) as [I1 [I2 [I3 [I4 I5]]]]. cbn zeta.
    set (t := fst (run info s l)) in *. split; [exact I1|]. split; [exact I2|].
    destruct I4 as [K1 [K2 K3]]. destruct (units t u) as [un'|] eqn:Et.
    - split; [exact (proj2 I1 u un' Et)|]. split; [left; reflexivity|].
      destruct Hr as [Hr|Hr]; [|discriminate (K1 Hr)]. destruct (K2 un Hr) as [K4 K5]. split; [exact (K5 un' eq_refl)|].
      intros Hst Hw. specialize (I5 Hst). specialize (K4 Hw I5). injection K4 as ->. rewrite I5. exact Hw.
    - split; [exact (I3 un Hu)|]. split; [right; reflexivity|]. split; [reflexivity|]. intros Hst Hw. rewrite (I5 Hst). exact Hw. }
  destruct x as [i b|l|l].
  - pose proof Ht as Ht0. cbn in Ht. destruct Ht as [Hc Htr]. cbn [run_jit].
    assert (Hvm : forall s', inv info s' -> world_of s' = world_of s -> run_vm info s' (u_self un) h (IFold i b :: r) = wrun_inst info (world_of s) (u_self un) h (IFold i b :: r)).
    { intros s' Hi' Hw. rewrite <- Hw. apply (run_vm_ok (IFold i b :: r) s' u (u_self un) h Hi'). rewrite Hw. exact Ht0. }
    destruct (find (fun f => f_site f =? i) (u_folds un)) as [f|] eqn:Ef; [|exact (Hvm s Hi eq_refl)].
    destruct (s_base (info i) && negb (opt_eqb cval_beq (c_base (f_cache f)) b)) eqn:Eb; [exact (Hvm s Hi eq_refl)|].
    destruct (g || (u_word un =? ver s)) eqn:Eg.
    + assert (Hw : u_word un = ver s) by (apply orb_prop in Eg; destruct Eg as [->|E]; [exact (Hg eq_refl)|apply Nat.eqb_eq in E; exact E]).
      cbn [wrun_inst]. f_equal; [symmetry; exact (fold_now info s un f i h b Hu Hw Ef Eb)|].
      apply IH; [exact Hi|exact Hu|exact Hr|intros _; exact Hw|exact Htr].
    + apply Hvm.
      * destruct (units s u) as [un0|] eqn:Eu; [|exact Hi]. apply with_unit_inv; [exact Hi|]. intros un' H.
        exact (salvage_ok info s un0 (salvage s un0) Hi (proj2 Hi u un0 Eu) eq_refl un' H).
      * destruct (units s u); reflexivity.
  - cbn in Ht. destruct Ht as [Ha [Hc Htr]]. destruct (Hafter l Ha Hc) as [A1 [A2 [A3 [A4 [A5 _]]]]]. cbn [run_jit wrun_inst].
    rewrite <- A2, <- A5 in Htr. rewrite <- A2, <- A5. apply IH; [exact A1|exact A3|exact A4|discriminate|exact Htr].
  - cbn in Ht. destruct Ht as [Ha [Hc [Hst Htr]]]. destruct (Hafter l Ha Hc) as [A1 [A2 [A3 [A4 [A5 A6]]]]]. cbn [run_jit wrun_inst].
    rewrite <- A2, <- A5 in Htr. rewrite <- A2, <- A5. apply IH; [exact A1|exact A3|exact A4| |exact Htr].
    intros Hgt. exact (A6 Hst (Hg Hgt)).
Qed.

(** Compiled code entered after any history. *)
Theorem compiled_right : forall s l u un h p, fresh s -> fair_all info s l ->
  let t := fst (run info s l) in units t u = Some un ->
  tame_insts info (senv t, lexs t) u (u_self un) h p ->
  run_jit info t u un false h p = wrun_inst info (senv t, lexs t) (u_self un) h p.
Proof.
  intros s l u un h p Hs Hf t Hu Ht. destruct (run_ok info l s (fresh_inv info s Hs) Hf) as [Hi _]. fold t in Hi.
  apply run_jit_ok; [exact Hi|exact (proj2 Hi u un Hu)|left; exact Hu|discriminate|exact Ht].
Qed.
End Sites.

Lemma salvage_right : forall info s l u un un', fresh s -> fair_all info s l ->
  let t := fst (run info s l) in units t u = Some un -> salvage t un = Some un' -> u_word un' = ver t ->
  forall f, In f (u_folds un') ->
  resolve_at info (senv t) (lexs t) no_hook (f_site f) (c_base (f_cache f)) (c_key (f_cache f)) = RVal (c_val (f_cache f)) false.
Proof.
  intros info s l u un un' Hs Hf t Hu Hsv Hw f Hin. destruct (run_ok info l s (fresh_inv info s Hs) Hf) as [Hi _]. fold t in Hi.
  destruct (salvage_ok info t un (salvage t un) Hi (proj2 Hi u un Hu) eq_refl un' Hsv) as [_ [_ [_ [U4 U5]]]].
  destruct (U4 Hw) as [W1 W2]. destruct (U5 f Hin) as [_ [_ [_ [_ F5]]]]. apply F5; [exact W1|]. intros n e _ H. exact (W2 n e H).
Qed.
