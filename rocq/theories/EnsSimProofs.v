(** The generated code does what the specification says, for runs at whose
    end the flag is still up. *)

From Coq Require Import Arith Bool List Lia.
From Verif Require Import EnsModel EnsSpec EnsProofs.
Import ListNotations.

(** * The stacks of the generator, on the side of the source *)

(** An open begin: its ensure body and where its innermost loop is. *)
Definition ent : Type := option (list stmt) * lkind.

Fixpoint mkE (blk : bool) (E : list ent)
  : list (option (list nat -> nat -> option (list tstmt))) :=
  match E with
  | [] => []
  | (o, _) :: E' =>
      option_map (fun eb lp rt => gens eb (Ctx lp (mkE blk E') rt blk)) o
      :: mkE blk E'
  end.

Definition cx (loops : list nat) (E : list ent) (rt : nat) (blk : bool)
  : ctx := Ctx loops (mkE blk E) rt blk.

Lemma mkE_length : forall blk E, length (mkE blk E) = length E.
Proof. induction E as [|[o lp] E IH]; cbn; auto. Qed.

Definition hasE (E : list ent) : bool := existsb (fun e => some (fst e)) E.

Definition isret (c : sout) : bool :=
  match c with CRet _ | CRetX _ => true | _ => false end.

(** How many of the open begins an exit leaves. *)
Definition kof (loops : list nat) (E : list ent) (c : sout) : nat :=
  match c with
  | CRet _ | CRetX _ => length E
  | CBreak | CNext | CRedo =>
      match loops with d :: _ => length E - d | [] => length E end
  | _ => 0
  end.

Section sim.
Variable P : prog.

(** The exit [c] leaves the innermost [k] open begins. *)
Inductive sl (fr : frame) (d : bool)
  : nat -> list ent -> sst -> sout -> sst -> sout -> Prop :=
| sl_nil : forall k st c, sl fr d k [] st c st c
| sl_zero : forall E st c, sl fr d 0 E st c st c
| sl_cons : forall k o lp E st c n st1 c1 st2 c2,
    sfinish (srun P n) fr lp (hasE E) d o st c = Some (st1, c1) ->
    sl fr d (if isret c1 then length E else k) E st1 c1 st2 c2 ->
    sl fr d (S k) ((o, lp) :: E) st c st2 c2.

Lemma sl_zero_inv : forall fr d E st c st2 c2,
  sl fr d 0 E st c st2 c2 -> st2 = st /\ c2 = c.
Proof. intros. inversion H; subst; auto. Qed.

Lemma sl_nil_inv : forall fr d k st c st2 c2,
  sl fr d k [] st c st2 c2 -> st2 = st /\ c2 = c.
Proof. intros. inversion H; subst; auto. Qed.

Lemma sl_grows : forall fr d k E st c st2 c2,
  sl fr d k E st c st2 c2 -> grows st st2.
Proof.
  intros. induction H.
  - apply grows_refl.
  - apply grows_refl.
  - eapply grows_trans; [|exact IHsl].
    exact (sfinish_grows _ (srun_grows P n) _ _ _ _ _ _ _ _ _ H).
Qed.

Lemma over_nonnorm : forall c1 c2, c1 <> CNorm -> over c1 c2 <> CNorm.
Proof. intros c1 [] H; cbn; congruence. Qed.

Lemma sfinish_over : forall rn fr lp p d o st c st1 c1,
  sfinish rn fr lp p d o st c = Some (st1, c1) -> exists c', c1 = over c c'.
Proof.
  intros until c1. destruct o as [eb|]; cbn; intro H.
  - destruct (rn fr (outl lp) p (d || is_unw c) st eb) as [[s' c']|];
      inversion H; subst. eauto.
  - inversion H; subst. exists CNorm. reflexivity.
Qed.

Lemma sl_nonnorm : forall fr d k E st c st2 c2,
  sl fr d k E st c st2 c2 -> c <> CNorm -> c2 <> CNorm.
Proof.
  intros. induction H; auto. apply IHsl.
  destruct (sfinish_over _ _ _ _ _ _ _ _ _ _ H) as [c' Hc]. subst c1.
  apply over_nonnorm. auto.
Qed.

(** ** An ensure body in a run whose flag stays up *)

Definition good (c1 : sout) (x0 : nat) (c' : sout) (x1 : nat) : Prop :=
  (match c' with CBreak | CNext | CRedo | CRetry => False | _ => True end) /\
  (is_jump c1 = true -> is_err c' = false) /\
  (is_unw c1 = true -> c' = CNorm) /\
  c1 <> CRetry /\
  (forall v, c1 = CRetX v -> x0 = x1).

Lemma low_quiet : forall b st, s_q (low b st) = true ->
  b = false /\ low b st = st.
Proof.
  intros b [tr x q n]. cbn. destruct b; [discriminate|]. auto.
Qed.

Lemma sfin_inv : forall n fr lp p d eb st c1 st2 c2,
  sfinish (srun P n) fr lp p d (Some eb) st c1 = Some (st2, c2) ->
  s_q st2 = true ->
  exists c', d = false /\
    srun P n fr (outl lp) p (is_unw c1) st eb = Some (st2, c') /\
    c2 = over c1 c' /\ good c1 (s_x st) c' (s_x st2).
Proof.
  intros until c2. cbn.
  destruct (srun P n fr (outl lp) p (d || is_unw c1) st eb) as [[st' c']|] eqn:E;
    [|discriminate].
  intros H Q. inversion H; subst. clear H.
  destruct (low_quiet _ _ Q) as [O L]. rewrite L. exists c'.
  unfold odd in O.
  apply orb_false_iff in O. destruct O as [O O6].
  apply orb_false_iff in O. destruct O as [O O5].
  apply orb_false_iff in O. destruct O as [O O4].
  apply orb_false_iff in O. destruct O as [O O3].
  apply orb_false_iff in O. destruct O as [O1 O2].
  subst d. cbn in E. split; [auto|]. split; [auto|]. split; [auto|].
  unfold good. split; [|split; [|split; [|split]]].
  - destruct c'; cbn in O2; auto; discriminate.
  - intro J. rewrite J in O3. exact O3.
  - intro J. rewrite J in O4. cbn in O4. destruct c'; auto; discriminate.
  - intro J. subst c1. discriminate.
  - intros v J. subst c1. apply negb_false_iff in O6.
    apply Nat.eqb_eq. exact O6.
Qed.

Lemma isret_over : forall c c' x0 x1,
  isret c = true -> good c x0 c' x1 -> isret (over c c') = true.
Proof.
  intros c c' x0 x1 R [A [B _]].
  destruct c'; auto; cbn in A; try contradiction;
    (assert (J : is_jump c = true) by (destruct c; auto; discriminate));
    apply B in J; discriminate.
Qed.

Lemma sl_ret : forall fr d k E st c st2 c2,
  sl fr d k E st c st2 c2 -> s_q st2 = true -> isret c = true ->
  isret c2 = true.
Proof.
  intros. induction H; auto. apply IHsl; auto.
  destruct o as [eb|].
  - pose proof (sl_grows _ _ _ _ _ _ _ _ H2) as [_ G].
    destruct (sfin_inv _ _ _ _ _ _ _ _ _ _ H (G H0))
      as [c' [A [B [C D]]]]. subst c1.
    eapply isret_over; eauto.
  - cbn in H. inversion H; subst. auto.
Qed.

(** * The relation between the two sides *)

Definition T (st : sst) (df : list (nat * unw)) : tst :=
  Tst (s_tr st) (s_x st) df.

Definition outm (p : bool) (loops : list nat) (rt : nat) (c : sout)
    (o : tout) : Prop :=
  match c with
  | CNorm => o = ONorm
  | CRaise e => o = ORaise e
  | CUnw u => o = OUnw u \/ (p = false /\ o = OHid u)
  | CRet v | CRetX v => o = ORet v
  | CBreak => exists d ls, loops = d :: ls /\ o = OJmp (JBrk (length ls))
  | CNext => exists d ls, loops = d :: ls /\ o = OJmp (JNxt (length ls))
  | CRedo => (exists d ls, loops = d :: ls /\ o = OJmp (JRdo (length ls)))
             \/ (loops = [] /\ o = OJmp JRdoB)
  | CRetry => o = OJmp (JRty (pred rt)) /\ rt <> 0
  end.

Lemma outm_nonnorm : forall p loops rt c o,
  outm p loops rt c o -> c <> CNorm -> o <> ONorm.
Proof.
  intros p loops rt c o H N. destruct c; cbn in H; try congruence.
  - destruct H as [H|[_ H]]; congruence.
  - destruct H as [? [? [? H]]]. congruence.
  - destruct H as [? [? [? H]]]. congruence.
  - destruct H as [[? [? [? H]]]|[_ H]]; congruence.
  - destruct H; congruence.
Qed.

Definition wf (loops : list nat) (E : list ent) (lp : lkind) (blk : bool)
  : Prop :=
  (lp <> LNo -> loops <> []) /\
  (lp = LNo -> loops = [] \/ blk = false) /\
  Forall (fun e : ent => snd e <> LNo -> loops <> []) E /\
  (lp = LIn -> forall d ls, loops = d :: ls ->
     d <= length E /\
     Forall (fun e : ent => snd e = LIn) (firstn (length E - d) E)).

Fixpoint clo_ok (c : closure) : Prop :=
  match c with
  | Clo b _ _ parent =>
      gens b (top true) <> None /\
      match parent with Some c => clo_ok c | None => True end
  end.

Definition frame_ok (fr : frame) : Prop :=
  match f_blk fr with Some c => clo_ok c | None => True end.

Definition df_ok (l : nat) (d : bool) (df : list (nat * unw)) : Prop :=
  match df with
  | [] => True
  | (l', _) :: _ => l' <= l /\ (d = false -> l' <> l)
  end.

Definition SIM (N : nat) : Prop :=
  forall n fr lp d st code st1 c E loops rt tcode st2 c2 df,
    srun P n fr lp (hasE E) d st code = Some (st1, c) ->
    gens code (cx loops E rt (some (f_outer fr))) = Some tcode ->
    frame_ok fr ->
    wf loops E lp (some (f_outer fr)) ->
    sl fr d (kof loops E c) E st1 c st2 c2 ->
    s_q st2 = true ->
    s_n st2 < s_n st + N ->
    df_ok (f_lfp fr) d df ->
    exists o, tev P fr (T st df) tcode (T st2 df) o /\
              outm (hasE E) loops rt c2 o.

(** ** Deferred unwindings *)

Lemma ensure_end_other : forall l st df, df_ok l false df ->
  ensure_end l (T st df) = (T st df, ONorm).
Proof.
  intros l st [|[l' u] df] H; cbn; auto.
  destruct H as [_ H]. destruct (l' =? l) eqn:E; auto.
  apply Nat.eqb_eq in E. exfalso. exact (H eq_refl E).
Qed.

Lemma discard_other : forall l st df, df_ok l false df ->
  discard l (T st df) = T st df.
Proof.
  intros l st [|[l' u] df] H; cbn; auto. unfold discard. cbn.
  destruct H as [_ H]. destruct (l' =? l) eqn:E; auto.
  apply Nat.eqb_eq in E. exfalso. exact (H eq_refl E).
Qed.

Lemma defer_other : forall l u st df, df_ok l false df ->
  defer l u (T st df) = T st ((l, u) :: df).
Proof.
  intros l u st [|[l' u'] df] H; cbn; auto. unfold defer. cbn.
  destruct H as [_ H]. destruct (l' =? l) eqn:E; auto.
  apply Nat.eqb_eq in E. exfalso. exact (H eq_refl E).
Qed.

Lemma df_ok_deferred : forall l u df, df_ok l true ((l, u) :: df).
Proof. intros. cbn. split; [lia|discriminate]. Qed.

Lemma df_ok_call : forall l d df, df_ok l d df -> df_ok (S l) false df.
Proof. intros l d [|[l' u] df] H; cbn in *; auto. split; [lia|intro; lia]. Qed.

Lemma df_ok_true : forall l d df, df_ok l d df -> df_ok l true df.
Proof.
  intros l d [|[l' u] df] H; cbn in *; auto. split; [lia|discriminate].
Qed.

(** ** Which exits a quiet run can end in *)

Definition kind_ok (lp : lkind) (fr : frame) (c : sout) : Prop :=
  match c with
  | CBreak | CNext => lp = LIn
  | CRedo => lp = LIn \/ (lp = LNo /\ some (f_outer fr) = true)
  | _ => True
  end.

Definition kinds
    (rn : frame -> lkind -> bool -> bool -> sst -> list stmt -> sres) : Prop :=
  forall fr lp p d st code st' c,
    rn fr lp p d st code = Some (st', c) -> s_q st' = true ->
    kind_ok lp fr c.

Lemma kind_over : forall n fr lp p d o st c st' c',
  sfinish (srun P n) fr lp p d o st c = Some (st', c') -> s_q st' = true ->
  kind_ok lp fr c -> kind_ok lp fr c'.
Proof.
  intros until c'. intros H Q K. destruct o as [eb|].
  - destruct (sfin_inv _ _ _ _ _ _ _ _ _ _ H Q) as [c1 [A [B [C G]]]].
    subst c'. destruct G as [G _].
    destruct c1; cbn [over]; try exact I; auto; contradiction.
  - cbn in H. inversion H; subst. auto.
Qed.

Lemma kind_clauses : forall n fr lp d p' cs e st st' c,
  kinds (srun P n) ->
  sclauses P (srun P n) fr lp d p' e st cs = Some (st', c) ->
  s_q st' = true -> kind_ok lp fr c.
Proof.
  intros n fr lp d p' cs e. revert cs.
  induction cs as [|[k b] cs IHc]; intros st st' c K H Q.
  - inversion H; subst. exact I.
  - rewrite sclauses_cons in H. destruct (p_ask P ((k, e) :: s_tr st)).
    + exact (K _ _ _ _ _ _ _ _ H Q).
    + exact (IHc _ _ _ K H Q).
    + inversion H; subst. exact I.
Qed.

Lemma safter_kind : forall fr d r st' c lp,
  safter fr d r = Some (st', c) -> kind_ok lp fr c.
Proof.
  intros fr d [[st r]|] st' c lp H; cbn in H; [|discriminate].
  destruct r as [v|e|u]; try (inversion H; subst; exact I).
  destruct u as [t|t v|o v]; try (inversion H; subst; exact I).
  destruct (o =? f_lfp fr); inversion H; subst; exact I.
Qed.

Lemma kind_far : forall lp st, s_q (far lp st) = true -> lp <> LOut.
Proof. intros lp st H. intro. subst. discriminate. Qed.

Lemma kind_body : forall n fr lp p d st k body st' c,
  kinds (srun P n) ->
  sbody (srun P n) fr lp p d st k body = Some (st', c) ->
  s_q st' = true -> kind_ok lp fr c.
Proof.
  intros until c. intros K H Q. unfold sbody in H.
  destruct (srun P n fr LIn p d st body) as [[s1 c1]|] eqn:E; [|discriminate].
  destruct c1; try (inversion H; subst; exact I);
    exact (K _ _ _ _ _ _ _ _ H Q).
Qed.

Lemma kind_one : forall n fr lp p d st s st' c,
  kinds (srun P n) ->
  sone P (srun P n) fr lp p d st s = Some (st', c) ->
  s_q st' = true -> kind_ok lp fr c.
Proof.
  intros until c. intros K H Q.
  destruct s; cbn [sone] in H; cbn zeta in H.
  - rewrite sask_eq in H. destruct (p_ask P ((k, 0) :: s_tr st));
      inversion H; subst; exact I.
  - inversion H; subst; exact I.
  - rewrite sask_eq in H. destruct (p_ask P ((k, 0) :: s_tr st));
      try exact (K _ _ _ _ _ _ _ _ H Q).
    inversion H; subst; exact I.
  - destruct again; [exact (kind_body _ _ _ _ _ _ _ _ _ _ K H Q)|].
    rewrite sask_eq in H. destruct (p_ask P ((k, 0) :: s_tr st)).
    + exact (kind_body _ _ _ _ _ _ _ _ _ _ K H Q).
    + inversion H; subst; exact I.
    + inversion H; subst; exact I.
  - destruct (srun P n fr lp (p || some ens) d st body) as [[s1 c1]|] eqn:E;
      [|discriminate].
    assert (GEN : forall b c1', kind_ok lp fr c1' ->
      sfinish (srun P n) fr lp p d ens (low b s1) c1' = Some (st', c) ->
      kind_ok lp fr c).
    { intros b c1' K1 H1. exact (kind_over _ _ _ _ _ _ _ _ _ _ H1 Q K1). }
    assert (Q1 : forall b c1',
      sfinish (srun P n) fr lp p d ens (low b s1) c1' = Some (st', c) ->
      s_q s1 = true).
    { intros b c1' H1.
      pose proof (sfinish_grows _ (srun_grows P n) _ _ _ _ _ _ _ _ _ H1)
        as [_ G1].
      pose proof (grows_low s1 b) as [_ G2]. auto. }
    destruct c1;
      try (exact (GEN _ _ (K _ _ _ _ _ _ _ _ E (Q1 _ _ H)) H));
      try (exact (GEN _ _ I H)).
    + destruct els as [el|].
      * destruct (srun P n fr lp (p || some ens) d s1 el) as [[s2 c2]|] eqn:F;
          [|discriminate].
        pose proof (sfinish_grows _ (srun_grows P n) _ _ _ _ _ _ _ _ _ H)
          as [_ G1].
        pose proof (grows_low s2 (some ens && is_err c2)) as [_ G2].
        apply (kind_over _ _ _ _ _ _ _ _ _ _ H Q).
        exact (K _ _ _ _ _ _ _ _ F (G2 (G1 Q))).
      * exact (kind_over _ _ _ _ _ _ _ _ _ _ H Q I).
    + destruct (sclauses P (srun P n) fr lp d (p || some ens) e s1 resc)
        as [[s2 c2]|] eqn:F; [|discriminate].
      assert (FIN : sfinish (srun P n) fr lp p d ens s2 c2 = Some (st', c) ->
                    kind_ok lp fr c).
      { intro H1.
        pose proof (sfinish_grows _ (srun_grows P n) _ _ _ _ _ _ _ _ _ H1)
          as [_ G1].
        apply (kind_over _ _ _ _ _ _ _ _ _ _ H1 Q).
        exact (kind_clauses _ _ _ _ _ _ _ _ _ _ K F (G1 Q)). }
      destruct c2; try (exact (FIN H)). exact (K _ _ _ _ _ _ _ _ H Q).
  - destruct lp; try (inversion H; subst; apply kind_far in Q; cbn;
                      congruence).
    destruct (f_outer fr); inversion H; subst; exact I.
  - destruct lp; try (inversion H; subst; apply kind_far in Q; cbn;
                      congruence).
    destruct (some (f_outer fr)); inversion H; subst; exact I.
  - destruct lp; try (inversion H; subst; apply kind_far in Q; cbn;
                      first [left; congruence | congruence]).
    destruct (some (f_outer fr)) eqn:B; inversion H; subst. right. auto.
  - inversion H; subst; exact I.
  - inversion H; subst. destruct (some (f_outer fr)); exact I.
  - inversion H; subst. destruct (some (f_outer fr)); exact I.
  - inversion H; subst; exact I.
  - exact (safter_kind _ _ _ _ _ _ H).
  - exact (safter_kind _ _ _ _ _ _ H).
  - exact (safter_kind _ _ _ _ _ _ H).
  - destruct (f_blk fr); [|discriminate]. exact (safter_kind _ _ _ _ _ _ H).
  - destruct (srun P n fr LNo false d st b) as [[s1 c1]|] eqn:E;
      [|discriminate].
    destruct c1; try (inversion H; subst;
      pose proof (K _ _ _ _ _ _ _ _ E Q) as A; cbn in A |- *; auto;
      discriminate).
    exact (K _ _ _ _ _ _ _ _ H Q).
Qed.

Lemma srun_kinds : forall n, kinds (srun P n).
Proof.
  induction n as [|n K]; intros fr lp p d st code st' c H Q; [discriminate|].
  cbn [srun] in H. destruct code as [|s rest].
  - inversion H; subst. exact I.
  - destruct (sone P (srun P n) fr lp p d (tick st) s) as [[s1 c1]|] eqn:E;
      [|discriminate].
    destruct c1; try (inversion H; subst;
                      exact (kind_one _ _ _ _ _ _ _ _ _ K E Q)).
    exact (K _ _ _ _ _ _ _ _ H Q).
Qed.

Lemma sl_jump : forall fr d k E st c st2 c2,
  sl fr d k E st c st2 c2 -> s_q st2 = true -> is_jump c = true ->
  is_jump c2 = true.
Proof.
  intros. induction H; auto. apply IHsl; auto.
  destruct o as [eb|].
  - pose proof (sl_grows _ _ _ _ _ _ _ _ H2) as [_ G].
    destruct (sfin_inv _ _ _ _ _ _ _ _ _ _ H (G H0))
      as [c' [A [B [C [D1 [D2 _]]]]]]. subst c1. specialize (D2 H1).
    destruct c'; auto; discriminate.
  - cbn in H. inversion H; subst. auto.
Qed.

Lemma wf_push : forall loops E lp blk o,
  wf loops E lp blk -> wf loops ((o, lp) :: E) lp blk.
Proof.
  intros loops E lp blk o [A [B [C D]]].
  split; [auto|split; [auto|split]].
  - constructor; auto.
  - intros HL d ls Hl. destruct (D HL d ls Hl) as [D1 D2].
    cbn [length]. split; [lia|].
    replace (S (length E) - d) with (S (length E - d)) by lia.
    cbn [firstn]. constructor; auto.
Qed.

Lemma wf_loop : forall loops E lp blk,
  wf loops E lp blk -> wf (length E :: loops) E LIn blk.
Proof.
  intros loops E lp blk [A [B [C D]]].
  split; [discriminate|split; [discriminate|split]].
  - apply Forall_forall. intros. discriminate.
  - intros _ d ls Hl. inversion Hl; subst. split; [lia|].
    rewrite Nat.sub_diag. constructor.
Qed.

Lemma kind_side : forall lp fr c loops E,
  kind_ok lp fr c -> wf loops E lp (some (f_outer fr)) ->
  match c with CBreak | CNext | CRedo => lp = LIn \/ loops = []
  | _ => True end.
Proof.
  intros lp fr c loops E K [_ [W _]].
  destruct c; auto; cbn in K; auto. destruct K as [K|[K1 K2]]; auto.
  destruct (W K1); [auto|congruence].
Qed.

Lemma jump_passes : forall p loops rt c o,
  is_jump c = true -> outm p loops rt c o ->
  passes o /\ (forall l, o <> OJmp (JRty l)) /\
  (forall p' rt', outm p' loops rt' c o).
Proof.
  intros p loops rt c o J H.
  assert (A : forall p' rt', outm p' loops rt' c o)
    by (destruct c; try discriminate; intros; exact H).
  split; [|split; [|exact A]]; destruct c; try discriminate; cbn in H.
  - destruct H as [? [? [_ ?]]]; subst; exact I.
  - destruct H as [? [? [_ ?]]]; subst; exact I.
  - destruct H as [[? [? [_ ?]]]|[_ ?]]; subst; exact I.
  - subst; exact I.
  - subst; exact I.
  - destruct H as [? [? [_ ?]]]; subst; discriminate.
  - destruct H as [? [? [_ ?]]]; subst; discriminate.
  - destruct H as [[? [? [_ ?]]]|[_ ?]]; subst; discriminate.
  - subst; discriminate.
  - subst; discriminate.
Qed.

Section step.
Variable N : nat.
Hypothesis IH : SIM N.

(** ** The copies emitted at an exit *)

Lemma wf_copy : forall loops E lp blk,
  (lp <> LNo -> loops <> []) ->
  (lp = LNo -> loops = [] \/ blk = false) ->
  Forall (fun e : ent => snd e <> LNo -> loops <> []) E ->
  wf loops E (outl lp) blk.
Proof.
  intros. unfold wf. split; [|split; [|split]]; auto.
  - intro Q. apply H. intro. subst. apply Q. reflexivity.
  - intro Q. apply H0. destruct lp; auto; discriminate.
  - intro Q. destruct lp; discriminate.
Qed.

Lemma wf_ens : forall loops E lp blk, wf loops E lp blk ->
  wf loops E (outl lp) blk.
Proof. intros loops E lp blk [A [B [C D]]]. apply wf_copy; auto. Qed.

Lemma site : forall E k fr d st c st2 c2 loops rt p df,
  is_jump c = true -> (isret c = true -> k = length E) ->
  pend k (mkE (some (f_outer fr)) E) loops rt = Some p ->
  sl fr d k E st c st2 c2 ->
  s_q st2 = true -> s_n st2 < s_n st + N ->
  frame_ok fr ->
  Forall (fun e : ent => snd e <> LNo -> loops <> []) E ->
  Forall (fun e : ent => snd e = LNo ->
            loops = [] \/ some (f_outer fr) = false) (firstn k E) ->
  df_ok (f_lfp fr) d df ->
  (tev P fr (T st df) p (T st2 df) ONorm /\ c2 = c /\
     forall v, c = CRetX v -> s_x st2 = s_x st) \/
  (exists v, tev P fr (T st df) p (T st2 df) (ORet v) /\
             (c2 = CRet v \/ c2 = CRetX v)).
Proof.
  induction E as [|[o lp] E IHE];
    intros k fr d st c st2 c2 loops rt p df J HK Hp L Q B F W1 W2 D.
  - destruct (sl_nil_inv _ _ _ _ _ _ _ L); subst.
    destruct k; cbn in Hp; inversion Hp; subst; left;
      (split; [apply tev_nil|auto]).
  - destruct k as [|k].
    + destruct (sl_zero_inv _ _ _ _ _ _ _ L); subst.
      cbn in Hp. inversion Hp; subst. left. split; [apply tev_nil|auto].
    + cbn [mkE pend] in Hp.
      apply obind_some in Hp. destruct Hp as [q [Hq Hp]].
      apply obind_some in Hp. destruct Hp as [r [Hr Hp]].
      inversion Hp; subst p. clear Hp.
      inversion L as [| |k0 o0 lp0 E0 s0 c0 n sa ca sb cb HF HL]; subst.
      cbn [firstn] in W2.
      inversion W1 as [|e0 l0 W1a W1b]; subst.
      inversion W2 as [|e1 l1 W2a W2b]; subst. cbn [snd] in *.
      assert (HK' : isret c = true -> k = length E)
        by (intro R; specialize (HK R); cbn in HK; lia).
      assert (KK : (if isret c then length E else k) = k)
        by (destruct (isret c); auto; symmetry; auto).
      destruct o as [eb|].
      * pose proof (sl_grows _ _ _ _ _ _ _ _ HL) as [GN GQ].
        destruct (sfin_inv _ _ _ _ _ _ _ _ _ _ HF (GQ Q))
          as [c' [Hd [Hrun [Hc G]]]].
        subst d. destruct G as [G1 [G2 [G3 [G4 G5]]]].
        assert (UW : is_unw c = false)
          by (destruct c; auto; discriminate).
        rewrite UW in Hrun.
        cbn [option_map] in Hq.
        assert (WF : wf loops E (outl lp) (some (f_outer fr)))
          by (apply wf_copy; auto).
        pose proof (srun_grows P n _ _ _ _ _ _ _ _ Hrun) as [GN' GQ'].
        assert (CASES : c' = CNorm \/ isret c' = true).
        { specialize (G2 J). destruct c'; auto; try discriminate;
            contradiction. }
        destruct CASES as [CN|CR].
        -- subst c'. cbn [over] in Hc. subst ca.
           destruct (IH n fr (outl lp) false st eb sa CNorm E loops rt q
                       sa CNorm df Hrun Hq F WF (sl_zero _ _ _ _ _)
                       (GQ Q) ltac:(lia) D) as [o [Ho Hm]].
           cbn in Hm. subst o. rewrite KK in HL.
           destruct (IHE k fr false sa c st2 c2 loops rt r df J HK' Hr HL Q
                         ltac:(lia) F W1b W2b D) as [[A [A1 A2]]|[v [A A1]]].
           ++ left. split; [eapply tev_app; eauto|]. split; [auto|].
              intros v Hv. rewrite (A2 v Hv). symmetry. eapply G5. eauto.
           ++ right. exists v. split; [eapply tev_app; eauto|auto].
        -- assert (Hca : ca = c') by (subst ca; destruct c'; auto; discriminate).
           subst ca. rewrite Hca in HL.
           assert (KR : kof loops E c' = length E)
             by (destruct c'; auto; discriminate).
           rewrite CR in HL. rewrite <- KR in HL.
           destruct (IH n fr (outl lp) false st eb sa c' E loops rt q
                       st2 c2 df Hrun Hq F WF HL Q ltac:(lia) D)
             as [o [Ho Hm]].
           pose proof (sl_ret _ _ _ _ _ _ _ _ HL Q CR) as R2.
           right.
           destruct c2; cbn in R2; try discriminate; cbn in Hm; subst o;
             exists v; (split; [apply tev_app_stop; [exact Ho|congruence]
                               |auto]).
      * cbn in HF. inversion HF; subst. rewrite KK in HL.
        cbn [option_map] in Hq. inversion Hq; subst q. cbn [app].
        exact (IHE k fr d sa ca st2 c2 loops rt r df J HK' Hr HL Q
                   ltac:(lia) F W1b W2b D).
Qed.

(** ** The ensure of a begin *)

Lemma gopt_some : forall {A} (g : A -> option (list tstmt)) a t,
  gopt g (Some a) = Some t -> exists u, t = Some u /\ g a = Some u.
Proof.
  intros A g a t H. cbn in H. apply obind_some in H.
  destruct H as [u [H1 H2]]. inversion H2; subst. eauto.
Qed.

Lemma over_norm : forall c, over CNorm c = c.
Proof. destruct c; reflexivity. Qed.

Lemma fin_normal : forall fr lp d E loops rt ens tn n sta stb c st2 c2 df,
  sfinish (srun P n) fr lp (hasE E) d ens sta CNorm = Some (stb, c) ->
  gopt (fun eb => gens eb (cx loops E rt (some (f_outer fr)))) ens
    = Some tn ->
  frame_ok fr -> wf loops E lp (some (f_outer fr)) ->
  sl fr d (kof loops E c) E stb c st2 c2 ->
  s_q st2 = true -> s_n st2 < s_n sta + N -> df_ok (f_lfp fr) d df ->
  exists o, ev_finish P fr (T sta df) tn (T st2 df) o /\
            outm (hasE E) loops rt c2 o.
Proof.
  intros until df. intros HF Hg F W L Q B D.
  destruct ens as [eb|].
  - pose proof (sl_grows _ _ _ _ _ _ _ _ L) as [GN GQ].
    destruct (sfin_inv _ _ _ _ _ _ _ _ _ _ HF (GQ Q))
      as [c' [Hd [Hrun [Hc G]]]].
    subst d. rewrite over_norm in Hc. subst c'. cbn [is_unw] in Hrun.
    destruct (gopt_some _ _ _ Hg) as [u [Hu Hg']]. subst tn.
    destruct (IH n fr (outl lp) false sta eb stb c E loops rt u st2 c2 df
                Hrun Hg' F (wf_ens _ _ _ _ W) L Q B D) as [o [Ho Hm]].
    assert (DC : c2 = CNorm \/ c2 <> CNorm)
      by (destruct c2; auto; right; congruence).
    destruct DC as [DC|DC].
    + subst c2. cbn in Hm. subst o. exists ONorm. split; [|reflexivity].
      pose proof (finish_norm P _ _ _ _ Ho) as R.
      rewrite ensure_end_other in R; auto.
    + exists o. split; [|auto]. apply finish_stop; auto.
      eapply outm_nonnorm; eauto.
  - cbn in HF, Hg. inversion HF; subst. inversion Hg; subst.
    destruct (sl_zero_inv _ _ _ _ _ _ _ L); subst.
    exists ONorm. split; [apply finish_none|reflexivity].
Qed.

Lemma hasE_none : forall lp E, hasE ((None, lp) :: E) = hasE E.
Proof. reflexivity. Qed.

Lemma fin_raise : forall fr lp d E loops rt ens tc n sta e stb c st2 c2 df,
  sfinish (srun P n) fr lp (hasE E) d ens sta (CRaise e) = Some (stb, c) ->
  gopt (fun eb => gens eb (gpush (cx loops E rt (some (f_outer fr))) None))
    ens = Some tc ->
  frame_ok fr -> wf loops E lp (some (f_outer fr)) ->
  sl fr d (kof loops E c) E stb c st2 c2 ->
  s_q st2 = true -> s_n st2 < s_n sta + N -> df_ok (f_lfp fr) d df ->
  exists o, ev_nomatch P fr e (T sta df) tc (T st2 df) o /\
            outm (hasE E) loops rt c2 o.
Proof.
  intros until df. intros HF Hg F W L Q B D.
  destruct ens as [eb|].
  - pose proof (sl_grows _ _ _ _ _ _ _ _ L) as [GN GQ].
    destruct (sfin_inv _ _ _ _ _ _ _ _ _ _ HF (GQ Q))
      as [c' [Hd [Hrun [Hc G]]]].
    subst d. cbn [is_unw] in Hrun.
    destruct (gopt_some _ _ _ Hg) as [u [Hu Hg']]. subst tc.
    change (gpush (cx loops E rt (some (f_outer fr))) None)
      with (cx loops ((None, lp) :: E) rt (some (f_outer fr))) in Hg'.
    rewrite <- (hasE_none lp E) in Hrun.
    assert (W' : wf loops ((None, lp) :: E) (outl lp) (some (f_outer fr))).
    { destruct W as [A1 [A2 [A3 A4]]]. apply wf_copy; auto. }
    destruct G as [G1 [G2 [G3 [G4 G5]]]].
    assert (DC : c' = CNorm \/ c' <> CNorm)
      by (destruct c'; auto; right; congruence).
    destruct DC as [DC|DC].
    + subst c'. cbn [over] in Hc. subst c.
      destruct (sl_zero_inv _ _ _ _ _ _ _ L); subst.
      destruct (IH n fr (outl lp) false sta eb stb CNorm
                  ((None, lp) :: E) loops rt u stb CNorm df
                  Hrun Hg' F W' (sl_zero _ _ _ _ _) Q B D) as [o [Ho Hm]].
      cbn in Hm. subst o. exists (ORaise e). split; [|reflexivity].
      apply nomatch_norm. exact Ho.
    + assert (Hcc : c = c') by (subst c; destruct c'; auto; congruence).
      subst c'. clear Hc.
      assert (L' : sl fr false (kof loops ((None, lp) :: E) c)
                      ((None, lp) :: E) stb c st2 c2).
      { destruct (isret c) eqn:R.
        - replace (kof loops ((None, lp) :: E) c) with (S (length E))
            by (destruct c; auto; discriminate).
          apply sl_cons with (n := 0) (st1 := stb) (c1 := c); [reflexivity|].
          rewrite R.
          replace (kof loops E c) with (length E) in L
            by (destruct c; auto; discriminate). exact L.
        - replace (kof loops ((None, lp) :: E) c) with 0
            by (destruct c; auto; try discriminate; contradiction).
          replace (kof loops E c) with 0 in L
            by (destruct c; auto; try discriminate; contradiction).
          destruct (sl_zero_inv _ _ _ _ _ _ _ L); subst. constructor. }
      destruct (IH n fr (outl lp) false sta eb stb c
                  ((None, lp) :: E) loops rt u st2 c2 df
                  Hrun Hg' F W' L' Q B D) as [o [Ho Hm]].
      exists o. rewrite hasE_none in Hm. split; [|auto].
      apply nomatch_stop; auto.
      eapply outm_nonnorm; [exact Hm|]. eapply sl_nonnorm; eauto.
  - cbn in HF, Hg. inversion HF; subst. inversion Hg; subst.
    destruct (sl_zero_inv _ _ _ _ _ _ _ L); subst.
    exists (ORaise e). split; [apply nomatch_none|reflexivity].
Qed.

Lemma fin_unw : forall fr lp d E loops rt eb tn n sta u stb c st2 c2 df,
  sfinish (srun P n) fr lp (hasE E) d (Some eb) sta (CUnw u)
    = Some (stb, c) ->
  gens eb (cx loops E rt (some (f_outer fr))) = Some tn ->
  frame_ok fr -> wf loops E lp (some (f_outer fr)) ->
  sl fr d (kof loops E c) E stb c st2 c2 ->
  s_q st2 = true -> s_n st2 < s_n sta + N -> df_ok (f_lfp fr) d df ->
  ev_finish P fr (defer (f_lfp fr) u (T sta df)) (Some tn) (T st2 df) (OUnw u)
  /\ c2 = CUnw u.
Proof.
  intros until df. intros HF Hg F W L Q B D.
  pose proof (sl_grows _ _ _ _ _ _ _ _ L) as [GN GQ].
  destruct (sfin_inv _ _ _ _ _ _ _ _ _ _ HF (GQ Q))
    as [c' [Hd [Hrun [Hc G]]]].
  subst d. destruct G as [_ [_ [G3 _]]]. specialize (G3 eq_refl). subst c'.
  cbn [over] in Hc. subst c.
  destruct (sl_zero_inv _ _ _ _ _ _ _ L); subst. split; [|reflexivity].
  rewrite defer_other by exact D.
  destruct (IH n fr (outl lp) true sta eb stb CNorm E loops rt tn
              stb CNorm ((f_lfp fr, u) :: df) Hrun Hg F (wf_ens _ _ _ _ W)
              (sl_zero _ _ _ _ _) Q B (df_ok_deferred _ _ _))
    as [o [Ho Hm]].
  cbn in Hm. subst o.
  pose proof (finish_norm P _ _ _ _ Ho) as R.
  unfold ensure_end in R. cbn [t_df T t_tr t_x] in R.
  rewrite Nat.eqb_refl in R. exact R.
Qed.

Lemma kof_push : forall loops E lp blk o c,
  is_jump c = true -> wf loops E lp blk ->
  (match c with CBreak | CNext | CRedo => lp = LIn \/ loops = []
   | _ => True end) ->
  kof loops ((o, lp) :: E) c = S (kof loops E c).
Proof.
  intros loops E lp blk o c J [_ [_ [_ W]]] H.
  destruct c; try discriminate; cbn [kof length]; auto;
    (destruct loops as [|d ls]; [reflexivity|];
     destruct H as [H|H]; [|discriminate];
     destruct (W H d ls eq_refl); lia).
Qed.

Lemma fin_jump : forall fr lp d E loops ens n stc cc stb cb st2 c2,
  is_jump cc = true ->
  sfinish (srun P n) fr lp (hasE E) d ens stc cc = Some (stb, cb) ->
  wf loops E lp (some (f_outer fr)) ->
  (match cc with CBreak | CNext | CRedo => lp = LIn \/ loops = []
   | _ => True end) ->
  sl fr d (kof loops E cb) E stb cb st2 c2 -> s_q st2 = true ->
  sl fr d (kof loops ((ens, lp) :: E) cc) ((ens, lp) :: E) stc cc st2 c2.
Proof.
  intros until c2. intros J HF W H L Q.
  rewrite (kof_push _ _ _ _ _ _ J W H).
  eapply sl_cons; [exact HF|].
  replace (if isret cb then length E else kof loops E cc)
    with (kof loops E cb); [exact L|].
  destruct ens as [eb|].
  - pose proof (sl_grows _ _ _ _ _ _ _ _ L) as [GN GQ].
    destruct (sfin_inv _ _ _ _ _ _ _ _ _ _ HF (GQ Q))
      as [c' [Hd [Hrun [Hc G]]]].
    destruct G as [G1 [G2 _]]. specialize (G2 J).
    destruct c'; try contradiction; try discriminate; cbn [over] in Hc;
      subst cb; auto. destruct cc; auto; discriminate.
  - cbn in HF. inversion HF; subst. destruct cb; auto; discriminate.
Qed.
(** ** The clauses *)

Lemma clauses_sim : forall n fr lp d E loops rt ens tc tn df cs tcs e sta
    stc cc,
  sclauses P (srun P n) fr lp d (hasE ((ens, lp) :: E)) e sta cs
    = Some (stc, cc) ->
  genc cs (cx loops ((ens, lp) :: E) (S rt) (some (f_outer fr)))
    = Some tcs ->
  gopt (fun eb => gens eb (gpush (cx loops E rt (some (f_outer fr))) None))
    ens = Some tc ->
  gopt (fun eb => gens eb (cx loops E rt (some (f_outer fr)))) ens
    = Some tn ->
  frame_ok fr -> wf loops E lp (some (f_outer fr)) ->
  df_ok (f_lfp fr) d df ->
  (cc = CRetry -> s_q stc = true -> s_n stc < s_n sta + N ->
     ev_clauses P fr rt e (T sta df) tcs tc tn (T stc df) None) /\
  (forall stb cb st2 c2, cc <> CRetry ->
     sfinish (srun P n) fr lp (hasE E) d ens stc cc = Some (stb, cb) ->
     sl fr d (kof loops E cb) E stb cb st2 c2 ->
     s_q st2 = true -> s_n st2 < s_n sta + N ->
     exists o, ev_clauses P fr rt e (T sta df) tcs tc tn (T st2 df) (Some o)
               /\ outm (hasE E) loops rt c2 o).
Proof.
  intros n fr lp d E loops rt ens tc tn df.
  induction cs as [|[k b] cs IHc];
    intros tcs e sta stc cc H Hg Hc Hn F W D.
  - inversion H; subst. cbn in Hg. inversion Hg; subst. split; [discriminate|].
    intros stb cb st2 c2 _ HF L Q B.
    destruct (fin_raise _ _ _ _ _ _ _ _ _ _ _ _ _ _ _ _ HF Hc F W L Q B D)
      as [o [A M]].
    exists o. split; [apply clauses_nil; exact A|exact M].
  - cbn [genc] in Hg. apply obind_some in Hg. destruct Hg as [tb [Hb Hg]].
    apply obind_some in Hg. destruct Hg as [tr [Hr Hg]].
    inversion Hg; subst tcs. clear Hg.
    rewrite sclauses_cons in H.
    destruct (p_ask P ((k, e) :: s_tr sta)) as [| |e'] eqn:ASK.
    + (* the clause is taken *)
      pose proof (srun_grows P n _ _ _ _ _ _ _ _ H) as [GN GQ].
      cbn [s_ev s_n s_q] in GN, GQ.
      pose proof (wf_push _ _ _ _ ens W) as W'.
      assert (RUN : forall st2 c2,
        sl fr d (kof loops ((ens, lp) :: E) cc) ((ens, lp) :: E) stc cc
           st2 c2 -> s_q st2 = true -> s_n st2 < s_n sta + N ->
        exists o, tev P fr (with_tr (T sta df) (k, e)) tb (T st2 df) o /\
                  outm (hasE ((ens, lp) :: E)) loops (S rt) c2 o).
      { intros st2 c2 L Q B.
        exact (IH n fr lp d (s_ev sta (k, e)) b stc cc ((ens, lp) :: E)
                 loops (S rt) tb st2 c2 df H Hb F W' L Q B D). }
      split.
      * intros EQ Q B. subst cc.
        destruct (RUN stc CRetry (sl_zero _ _ _ _ _) Q B) as [o [A M]].
        cbn in M. destruct M as [M _]. subst o.
        eapply clauses_retry; eauto.
      * intros stb cb st2 c2 NR HF L Q B.
        pose proof (sl_grows _ _ _ _ _ _ _ _ L) as [LN LQ].
        pose proof (sfinish_grows _ (srun_grows P n) _ _ _ _ _ _ _ _ _ HF)
          as [FN FQ].
        pose proof (FQ (LQ Q)) as QC.
        assert (BC : s_n stc < s_n sta + N) by lia.
        destruct (is_jump cc) eqn:J.
        -- pose proof (kind_side _ _ _ _ _
              (srun_kinds _ _ _ _ _ _ _ _ _ H QC) W) as SD.
           pose proof (fin_jump _ _ _ _ _ _ _ _ _ _ _ _ _ J HF W SD L Q)
             as L'.
           destruct (RUN st2 c2 L' Q B) as [o [A M]].
           destruct (jump_passes _ _ _ _ _ (sl_jump _ _ _ _ _ _ _ _ L' Q J) M)
             as [PO [NJ M']].
           exists o. split; [|apply M'].
           destruct o as [|x|u|u|j|v]; cbn in PO; try contradiction.
           ++ eapply clauses_hid; eauto.
           ++ eapply clauses_jmp; eauto. intros l' EJ. subst j.
              exfalso. exact (NJ l' eq_refl).
           ++ eapply clauses_ret; eauto.
        -- assert (K0 : kof loops ((ens, lp) :: E) cc = 0)
             by (destruct cc; auto; discriminate).
           destruct (RUN stc cc
             ltac:(rewrite K0; apply sl_zero) QC BC) as [o [A M]].
           destruct cc as [|e'|u| | | | |v|v]; try discriminate; try congruence.
           ++ cbn in M. subst o.
              destruct (fin_normal _ _ _ _ _ _ _ _ _ _ _ _ _ _ _
                          HF Hn F W L Q ltac:(lia) D) as [o [A' M']].
              exists o. split; [eapply clauses_norm; eauto|exact M'].
           ++ cbn in M. subst o.
              destruct (fin_raise _ _ _ _ _ _ _ _ _ _ _ _ _ _ _ _
                          HF Hc F W L Q ltac:(lia) D) as [o [A' M']].
              exists o. split; [eapply clauses_raise; eauto|exact M'].
           ++ destruct ens as [eb|].
              ** cbn in M. destruct M as [M|[M _]]; [|discriminate]. subst o.
                 destruct (gopt_some _ _ _ Hn) as [tu [Hu Hg']]. subst tn.
                 destruct (fin_unw _ _ _ _ _ _ _ _ _ _ _ _ _ _ _ _
                             HF Hg' F W L Q ltac:(lia) D) as [A' M'].
                 subst c2. exists (OUnw u).
                 split; [eapply clauses_unw; eauto|left; reflexivity].
              ** cbn in HF. inversion HF; subst.
                 destruct (sl_zero_inv _ _ _ _ _ _ _ L); subst.
                 cbn in Hn. inversion Hn; subst tn.
                 destruct M as [M|[M1 M]]; subst o.
                 --- exists (OUnw u).
                     split; [eapply clauses_unw0; eauto|left; reflexivity].
                 --- exists (OHid u).
                     split; [eapply clauses_hid; eauto|].
                     right. split; [exact M1|reflexivity].
    + destruct (IHc tr e (s_ev sta (k, e)) stc cc H Hr Hc Hn F W D)
        as [I1 I2].
      split.
      * intros. eapply clauses_no; eauto.
      * intros stb cb st2 c2 NR HF L Q B.
        destruct (I2 stb cb st2 c2 NR HF L Q B) as [o [A M]].
        exists o. split; [eapply clauses_no; eauto|exact M].
    + inversion H; subst. split; [discriminate|].
      intros stb cb st2 c2 _ HF L Q B.
      destruct (fin_raise _ _ _ _ _ _ _ _ _ _ _ _ _ _ _ _ HF Hc F W L Q B D)
        as [o [A M]].
      exists o. split; [eapply clauses_exc; eauto|exact M].
Qed.
(** ** Calls *)

Lemma inv_sim : forall n fr' blk body st st' r df code l d,
  sinvoke (srun P n) fr' body st = Some (st', r) ->
  gens body (top blk) = Some code ->
  blk = some (f_outer fr') -> frame_ok fr' -> f_lfp fr' = S l ->
  df_ok l d df -> s_q st' = true -> s_n st' < s_n st + N ->
  ev_invoke P fr' blk body (T st df) (T st' df) r.
Proof.
  intros until d. intros H G HB F HL D Q B. unfold sinvoke in H.
  destruct (srun P n fr' LNo false false (s_setx st 0) body)
    as [[s1 c]|] eqn:E; [|discriminate].
  assert (D' : df_ok (f_lfp fr') false df)
    by (rewrite HL; eapply df_ok_call; eauto).
  assert (W : wf [] [] LNo (some (f_outer fr'))).
  { split; [congruence|split; [auto|split; [constructor|discriminate]]]. }
  assert (A : st' = s_setx s1 (s_x st)).
  { destruct c as [| |u| | | | | |]; try discriminate;
      try (inversion H; subst; reflexivity).
    destruct u; try (inversion H; subst; reflexivity).
    destruct (target =? f_lfp fr'); inversion H; subst; reflexivity. }
  subst st'. subst blk. change (s_q s1 = true) in Q.
  change (s_n s1 < s_n (s_setx st 0) + N) in B.
  destruct (IH n fr' LNo false (s_setx st 0) body s1 c [] [] 0 code s1 c df
              E G F W (sl_nil _ _ _ _ _) Q B D') as [o [A M]].
  change (T (s_setx st 0) df) with (with_x (T st df) 0) in A.
  assert (NJ : forall j, o <> OJmp j).
  { intros j EJ. subst o.
    destruct c; try discriminate; cbn in M; try congruence.
    destruct M as [M|[_ M]]; congruence. }
  pose proof (invoke_run P _ _ _ _ _ _ _ G A NJ) as R.
  destruct c as [|e|u| | | | |v|v]; try discriminate; cbn in M.
  - subst o. inversion H; subst. exact R.
  - subst o. inversion H; subst. rewrite discard_other in R by auto. exact R.
  - assert (R' : ev_invoke P fr' (some (f_outer fr')) body (T st df)
                   (T (s_setx s1 (s_x st)) df)
                   (match u with
                    | URet t v => if t =? f_lfp fr' then RVal v
                                  else RUnw (URet t v)
                    | _ => RUnw u end)).
    { destruct M as [M|[_ M]]; subst o; rewrite discard_other in R by auto;
        destruct u; exact R. }
    destruct u as [t|t v|o' v]; try (inversion H; subst; exact R').
    destruct (t =? f_lfp fr'); inversion H; subst; exact R'.
  - subst o. inversion H; subst. exact R.
  - subst o. inversion H; subst. exact R.
Qed.

Lemma after_sim : forall fr d sta r st' c df p loops rt,
  safter fr d (Some (sta, r)) = Some (st', c) -> s_q st' = true ->
  df_ok (f_lfp fr) d df ->
  exists o, after fr (Some (T sta df, r)) = Some (T st' df, o) /\
            outm p loops rt c o /\ is_jump c = false /\ s_q sta = true /\
            s_n st' = s_n sta.
Proof.
  intros until rt. intros H Q D. cbn in H.
  destruct r as [v|e|u].
  - inversion H; subst. exists ONorm. split; [reflexivity|]. cbn in *. auto.
  - inversion H; subst. exists (ORaise e). split; [reflexivity|].
    cbn in *. auto.
  - destruct u as [t|t v|o v].
    + inversion H; subst. eexists. split; [reflexivity|]. cbn in *.
      split; [left; reflexivity|auto].
    + inversion H; subst. eexists. split; [reflexivity|]. cbn in *.
      split; [left; reflexivity|auto].
    + cbn [after]. destruct (o =? f_lfp fr).
      * inversion H; subst. destruct (low_quiet _ _ Q) as [L1 L2].
        rewrite L2 in *. subst d. rewrite discard_other by exact D.
        exists ONorm. split; [reflexivity|]. cbn in *. auto.
      * inversion H; subst. eexists. split; [reflexivity|]. cbn in *.
        split; [left; reflexivity|auto].
Qed.

Lemma caught_sim : forall t sta r st' r' df,
  scaught t (Some (sta, r)) = Some (st', r') ->
  st' = sta /\ caught t (Some (T sta df, r)) = Some (T sta df, r').
Proof.
  intros t sta r st' r' df H. cbn in *.
  destruct r as [v|e|u]; try (inversion H; subst; auto).
  destruct u as [t'|t' v|o v]; try (inversion H; subst; auto).
  destruct (t' =? t); inversion H; subst; auto.
Qed.

Lemma kof_zero : forall loops E c, is_jump c = false -> kof loops E c = 0.
Proof. intros loops E c H. destruct c; auto; discriminate. Qed.

(** ** One statement *)

Definition ONE : Prop :=
  forall n fr lp d st s st1 c E loops rt code st2 c2 df,
    sone P (srun P n) fr lp (hasE E) d st s = Some (st1, c) ->
    gen s (cx loops E rt (some (f_outer fr))) = Some code ->
    frame_ok fr ->
    wf loops E lp (some (f_outer fr)) ->
    sl fr d (kof loops E c) E st1 c st2 c2 ->
    s_q st2 = true ->
    s_n st2 < s_n st + N ->
    df_ok (f_lfp fr) d df ->
    exists o, tev P fr (T st df) code (T st2 df) o /\
              outm (hasE E) loops rt c2 o.

Lemma one_call : forall fr d fr' blk body n st st1 c E loops rt st2 c2 df code,
  safter fr d (sinvoke (srun P n) fr' body st) = Some (st1, c) ->
  gens body (top blk) = Some code ->
  blk = some (f_outer fr') -> frame_ok fr' -> f_lfp fr' = S (f_lfp fr) ->
  sl fr d (kof loops E c) E st1 c st2 c2 -> s_q st2 = true ->
  s_n st2 < s_n st + N -> df_ok (f_lfp fr) d df ->
  exists m o, after fr (invoke (trun P m) fr' blk body (T st df))
              = Some (T st2 df, o) /\ outm (hasE E) loops rt c2 o.
Proof.
  intros until code. intros H G HB F HL L Q B D.
  destruct (sinvoke (srun P n) fr' body st) as [[sta r]|] eqn:E1;
    [|discriminate].
  pose proof (sl_grows _ _ _ _ _ _ _ _ L) as [LN LQ].
  destruct (after_sim _ _ _ _ _ _ df (hasE E) loops rt H (LQ Q) D)
    as [o [A [M [J [Q1 N1]]]]].
  rewrite (kof_zero _ _ _ J) in L.
  destruct (sl_zero_inv _ _ _ _ _ _ _ L); subst st2 c2.
  destruct (inv_sim _ _ _ _ _ _ _ _ _ _ _ E1 G HB F HL D Q1 ltac:(lia))
    as [m R].
  exists m, o. rewrite R. auto.
Qed.

Lemma one_catch : forall fr d fr' blk body n st st1 c E loops rt st2 c2 df
    code t,
  safter fr d (scaught t (sinvoke (srun P n) fr' body st)) = Some (st1, c) ->
  gens body (top blk) = Some code ->
  blk = some (f_outer fr') -> frame_ok fr' -> f_lfp fr' = S (f_lfp fr) ->
  sl fr d (kof loops E c) E st1 c st2 c2 -> s_q st2 = true ->
  s_n st2 < s_n st + N -> df_ok (f_lfp fr) d df ->
  exists m o, after fr (caught t (invoke (trun P m) fr' blk body (T st df)))
              = Some (T st2 df, o) /\ outm (hasE E) loops rt c2 o.
Proof.
  intros until t. intros H G HB F HL L Q B D.
  destruct (sinvoke (srun P n) fr' body st) as [[sta r]|] eqn:E1;
    [|discriminate].
  destruct (scaught t (Some (sta, r))) as [[stb r']|] eqn:E2; [|discriminate].
  destruct (caught_sim _ _ _ _ _ df E2) as [EQ C]. subst stb.
  pose proof (sl_grows _ _ _ _ _ _ _ _ L) as [LN LQ].
  destruct (after_sim _ _ _ _ _ _ df (hasE E) loops rt H (LQ Q) D)
    as [o [A [M [J [Q1 N1]]]]].
  rewrite (kof_zero _ _ _ J) in L.
  destruct (sl_zero_inv _ _ _ _ _ _ _ L); subst st2 c2.
  destruct (inv_sim _ _ _ _ _ _ _ _ _ _ _ E1 G HB F HL D Q1 ltac:(lia))
    as [m R].
  exists m, o. rewrite R, C. auto.
Qed.

Lemma body_sim : forall n fr lp d E loops rt k body tb st st1 c st2 c2 df,
  sbody (srun P n) fr lp (hasE E) d st k body = Some (st1, c) ->
  gens body (cx (length E :: loops) E rt (some (f_outer fr))) = Some tb ->
  frame_ok fr -> wf loops E lp (some (f_outer fr)) ->
  sl fr d (kof loops E c) E st1 c st2 c2 ->
  s_q st2 = true -> s_n st2 < s_n st + N -> df_ok (f_lfp fr) d df ->
  exists o, ev_body P fr (T st df) (length loops) k tb (T st2 df) o /\
            outm (hasE E) loops rt c2 o.
Proof.
  intros until df. intros H G F W L Q B D. unfold sbody in H.
  destruct (srun P n fr LIn (hasE E) d st body) as [[s1 c1]|] eqn:E1;
    [|discriminate].
  pose proof (srun_grows P n _ _ _ _ _ _ _ _ E1) as [GN1 GQ1].
  pose proof (sl_grows _ _ _ _ _ _ _ _ L) as [LN LQ].
  assert (RUN : forall s2 c',
    sl fr d (kof (length E :: loops) E c1) E s1 c1 s2 c' ->
    s_q s2 = true -> s_n s2 < s_n st + N ->
    exists o, tev P fr (T st df) tb (T s2 df) o /\
              outm (hasE E) (length E :: loops) rt c' o).
  { intros s2 c' L' Q' B'.
    exact (IH n fr LIn d st body s1 c1 E (length E :: loops) rt tb s2 c' df
             E1 G F (wf_loop _ _ _ _ W) L' Q' B' D). }
  assert (AGAIN : forall again, gens [While again k body]
            (cx loops E rt (some (f_outer fr)))
          = Some [TWhile (length loops) again k tb]).
  { intro again. cbn [gens]. rewrite gen_while.
    cbn [c_loops c_ens c_rty c_blk cx]. rewrite mkE_length.
    unfold cx in G. rewrite G. reflexivity. }
  assert (LOOP : forall again, s_q s1 = true ->
    srun P n fr lp (hasE E) d s1 [While again k body] = Some (st1, c) ->
    exists o, tev P fr (T s1 df) [TWhile (length loops) again k tb]
                  (T st2 df) o /\ outm (hasE E) loops rt c2 o).
  { intros again Q1 H1.
    exact (IH n fr lp d s1 [While again k body] st1 c E loops rt _ st2 c2 df
             H1 (AGAIN again) F W L Q ltac:(lia) D). }
  assert (ZERO : kof (length E :: loops) E c1 = 0 -> s_q s1 = true ->
    s_n s1 < s_n st + N ->
    exists o, tev P fr (T st df) tb (T s1 df) o /\
              outm (hasE E) (length E :: loops) rt c1 o).
  { intros K Q1 B1. apply RUN; auto. rewrite K. apply sl_zero. }
  destruct c1 as [|e|u| | | | |v|v].
  - pose proof (srun_grows P n _ _ _ _ _ _ _ _ H) as [GN2 GQ2].
    destruct (ZERO eq_refl (GQ2 (LQ Q)) ltac:(lia)) as [o [A M]].
    cbn in M. subst o.
    destruct (LOOP false (GQ2 (LQ Q)) H) as [o [A' M']].
    exists o. split; [|exact M'].
    eapply body_next; [exact A|left; reflexivity|exact A'].
  - inversion H; subst. destruct (sl_zero_inv _ _ _ _ _ _ _ L); subst.
    destruct (ZERO eq_refl Q B) as [o [A M]]. cbn in M. subst o.
    exists (ORaise e). split; [apply body_pass; [exact A|exact I]|reflexivity].
  - inversion H; subst. destruct (sl_zero_inv _ _ _ _ _ _ _ L); subst.
    destruct (ZERO eq_refl Q B) as [o [A M]]. cbn in M.
    exists o. split; [|exact M]. apply body_pass; [exact A|].
    destruct M as [M|[_ M]]; subst o; exact I.
  - inversion H; subst. destruct (sl_zero_inv _ _ _ _ _ _ _ L); subst.
    destruct (ZERO ltac:(cbn; lia) Q B) as [o [A M]]. cbn in M.
    destruct M as [d0 [ls [EL M]]]. inversion EL; subst.
    exists ONorm. split; [apply body_break; exact A|reflexivity].
  - pose proof (srun_grows P n _ _ _ _ _ _ _ _ H) as [GN2 GQ2].
    destruct (ZERO ltac:(cbn; lia) (GQ2 (LQ Q)) ltac:(lia)) as [o [A M]].
    cbn in M. destruct M as [d0 [ls [EL M]]]. inversion EL; subst.
    destruct (LOOP false (GQ2 (LQ Q)) H) as [o [A' M']].
    exists o. split; [|exact M'].
    eapply body_next; [exact A|right; reflexivity|exact A'].
  - pose proof (srun_grows P n _ _ _ _ _ _ _ _ H) as [GN2 GQ2].
    destruct (ZERO ltac:(cbn; lia) (GQ2 (LQ Q)) ltac:(lia)) as [o [A M]].
    cbn in M. destruct M as [[d0 [ls [EL M]]]|[EL _]]; [|discriminate].
    inversion EL; subst.
    destruct (LOOP true (GQ2 (LQ Q)) H) as [o [A' M']].
    exists o. split; [|exact M'].
    eapply body_redo; [exact A|exact A'].
  - inversion H; subst. destruct (sl_zero_inv _ _ _ _ _ _ _ L); subst.
    destruct (ZERO eq_refl Q B) as [o [A M]]. cbn in M.
    exists o. split; [|exact M]. apply body_pass; [exact A|].
    destruct M as [M _]; subst o; exact I.
  - inversion H; subst. destruct (RUN st2 c2 L Q B) as [o [A M]].
    pose proof (sl_ret _ _ _ _ _ _ _ _ L Q eq_refl) as R.
    exists o. split; [|destruct c2; try discriminate; exact M].
    apply body_pass; [exact A|].
    destruct c2; try discriminate; cbn in M; subst o; exact I.
  - inversion H; subst. destruct (RUN st2 c2 L Q B) as [o [A M]].
    pose proof (sl_ret _ _ _ _ _ _ _ _ L Q eq_refl) as R.
    exists o. split; [|destruct c2; try discriminate; exact M].
    apply body_pass; [exact A|].
    destruct c2; try discriminate; cbn in M; subst o; exact I.
Qed.

Lemma begin_sim : forall n fr lp d st body resc els ens st1 c E loops rt code
    st2 c2 df,
  sone P (srun P n) fr lp (hasE E) d st (Begin body resc els ens)
    = Some (st1, c) ->
  gen (Begin body resc els ens) (cx loops E rt (some (f_outer fr)))
    = Some code ->
  frame_ok fr ->
  wf loops E lp (some (f_outer fr)) ->
  sl fr d (kof loops E c) E st1 c st2 c2 ->
  s_q st2 = true ->
  s_n st2 < s_n st + N ->
  df_ok (f_lfp fr) d df ->
  exists o, tev P fr (T st df) code (T st2 df) o /\
            outm (hasE E) loops rt c2 o.
Proof.
  intros until df. intros H G F W L Q B D.
  pose proof G as G0. rewrite gen_begin in G.
  destruct (some els && none_of resc); [discriminate|].
  apply obind_some in G. destruct G as [tb [Gb G]].
  apply obind_some in G. destruct G as [tr [Gr G]].
  apply obind_some in G. destruct G as [tc [Gc G]].
  apply obind_some in G. destruct G as [te [Ge G]].
  apply obind_some in G. destruct G as [tn [Gn G]].
  inversion G; subst code. clear G.
  change (gpush (cx loops E rt (some (f_outer fr)))
            (gmine (cx loops E rt (some (f_outer fr))) ens))
    with (cx loops ((ens, lp) :: E) rt (some (f_outer fr))) in Gb, Ge.
  change (Ctx (c_loops (cx loops E rt (some (f_outer fr))))
            (gmine (cx loops E rt (some (f_outer fr))) ens
             :: c_ens (cx loops E rt (some (f_outer fr))))
            (S (c_rty (cx loops E rt (some (f_outer fr)))))
            (c_blk (cx loops E rt (some (f_outer fr)))))
    with (cx loops ((ens, lp) :: E) (S rt) (some (f_outer fr))) in Gr.
  cbn [c_rty cx] in *.
  assert (HE : hasE E || some ens = hasE ((ens, lp) :: E))
    by (cbn; apply orb_comm).
  pose proof (wf_push _ _ _ _ ens W) as W'.
  pose proof (sl_grows _ _ _ _ _ _ _ _ L) as [LN LQ].
  pose proof (LQ Q) as Q1.
  cbn [sone] in H. cbn zeta in H. rewrite HE in H.
  destruct (srun P n fr lp (hasE ((ens, lp) :: E)) d st body)
    as [[sa ca]|] eqn:EB; [|discriminate].
  pose proof (srun_grows P n _ _ _ _ _ _ _ _ EB) as [GNa GQa].
  assert (RUN : forall s2 c',
    sl fr d (kof loops ((ens, lp) :: E) ca) ((ens, lp) :: E) sa ca s2 c' ->
    s_q s2 = true -> s_n s2 < s_n st + N ->
    exists o, tev P fr (T st df) tb (T s2 df) o /\
              outm (hasE ((ens, lp) :: E)) loops rt c' o).
  { intros s2 c' L' Q' B'.
    exact (IH n fr lp d st body sa ca ((ens, lp) :: E) loops rt tb s2 c' df
             EB Gb F W' L' Q' B' D). }
  assert (ZERO : is_jump ca = false -> s_q sa = true ->
    s_n sa < s_n st + N ->
    exists o, tev P fr (T st df) tb (T sa df) o /\
              outm (hasE ((ens, lp) :: E)) loops rt ca o).
  { intros K Qa Ba. apply RUN; auto. rewrite (kof_zero _ _ _ K).
    apply sl_zero. }
  (* the end of the body goes straight to the ensure *)
  assert (PASS : forall b,
    sfinish (srun P n) fr lp (hasE E) d ens (low b sa) ca = Some (st1, c) ->
    b = false /\ s_q sa = true /\ s_n sa < s_n st + N /\
    sfinish (srun P n) fr lp (hasE E) d ens sa ca = Some (st1, c)).
  { intros b HF.
    pose proof (sfinish_grows _ (srun_grows P n) _ _ _ _ _ _ _ _ _ HF)
      as [FN FQ].
    destruct (low_quiet b sa (FQ Q1)) as [L1 L2]. rewrite L2 in HF, FN, FQ.
    split; [exact L1|]. split; [exact (FQ Q1)|]. split; [lia|exact HF]. }
  destruct (is_jump ca) eqn:J.
  - (* break, next, redo, return out of the body *)
    assert (HF : exists b, sfinish (srun P n) fr lp (hasE E) d ens (low b sa)
                             ca = Some (st1, c))
      by (destruct ca; try discriminate; eauto).
    destruct HF as [b HF]. destruct (PASS b HF) as [_ [Qa [Ba HF']]].
    pose proof (kind_side _ _ _ _ _
                  (srun_kinds _ _ _ _ _ _ _ _ _ EB Qa) W) as SD.
    pose proof (fin_jump _ _ _ _ _ _ _ _ _ _ _ _ _ J HF' W SD L Q) as L'.
    destruct (RUN st2 c2 L' Q B) as [o [A M]].
    destruct (jump_passes _ _ _ _ _ (sl_jump _ _ _ _ _ _ _ _ L' Q J) M)
      as [PO [_ M']].
    exists o. split; [|apply M'].
    apply tev_one. apply begin_pass; auto.
  - destruct ca as [|e|u| | | | |v|v]; try discriminate.
    + (* normal *)
      destruct els as [el|].
      * destruct (gopt_some _ _ _ Ge) as [tel [Hu Ge']]. subst te.
        destruct (srun P n fr lp (hasE ((ens, lp) :: E)) d sa el)
          as [[sb cb]|] eqn:EE; [|discriminate].
        pose proof (srun_grows P n _ _ _ _ _ _ _ _ EE) as [GNb GQb].
        pose proof (sfinish_grows _ (srun_grows P n) _ _ _ _ _ _ _ _ _ H)
          as [FN FQ].
        destruct (low_quiet _ sb (FQ Q1)) as [L1 L2].
        rewrite L2 in H, FN, FQ.
        pose proof (FQ Q1) as Qb.
        destruct (ZERO eq_refl (GQb Qb) ltac:(lia)) as [o [A M]].
        cbn in M. subst o.
        destruct (is_jump cb) eqn:Jb.
        -- pose proof (kind_side _ _ _ _ _
                  (srun_kinds _ _ _ _ _ _ _ _ _ EE Qb) W) as SD.
           pose proof (fin_jump _ _ _ _ _ _ _ _ _ _ _ _ _ Jb H W SD L Q)
             as L'.
           destruct (IH n fr lp d sa el sb cb ((ens, lp) :: E) loops rt tel
                       st2 c2 df EE Ge' F W' L' Q ltac:(lia) D)
             as [o [A' M]].
           destruct (jump_passes _ _ _ _ _
                       (sl_jump _ _ _ _ _ _ _ _ L' Q Jb) M) as [PO [_ M']].
           exists o. split; [|apply M'].
           apply tev_one. eapply begin_else_stop; eauto.
           intro. subst o. exact PO.
        -- destruct (IH n fr lp d sa el sb cb ((ens, lp) :: E) loops rt tel
                       sb cb df EE Ge' F W'
                       ltac:(rewrite (kof_zero _ _ _ Jb); apply sl_zero)
                       Qb ltac:(lia) D) as [o [A' M]].
           assert (DC : cb = CNorm \/ cb <> CNorm)
             by (destruct cb; auto; right; congruence).
           destruct DC as [DC|DC].
           ++ subst cb. cbn in M. subst o.
              destruct (fin_normal _ _ _ _ _ _ _ _ _ _ _ _ _ _ _
                          H Gn F W L Q ltac:(lia) D) as [o [A2 M2]].
              exists o. split; [|exact M2].
              apply tev_one. eapply begin_else; eauto.
           ++ (* raise, unwinding, retry: only without ensure *)
              destruct ens as [eb|].
              { exfalso. destruct (sfin_inv _ _ _ _ _ _ _ _ _ _ H Q1)
                  as [c' [_ [_ [_ [_ [_ [_ [G4 _]]]]]]]].
                destruct cb; try discriminate; congruence. }
              cbn in H. inversion H; subst.
              rewrite (kof_zero _ _ _ Jb) in L.
              destruct (sl_zero_inv _ _ _ _ _ _ _ L); subst.
              exists o. split; [|exact M].
              apply tev_one. eapply begin_else_stop; eauto.
              eapply outm_nonnorm; eauto.
      * cbn in Ge. inversion Ge; subst te.
        pose proof (sfinish_grows _ (srun_grows P n) _ _ _ _ _ _ _ _ _ H)
          as [FN FQ].
        destruct (ZERO eq_refl (FQ Q1) ltac:(lia)) as [o [A M]].
        cbn in M. subst o.
        destruct (fin_normal _ _ _ _ _ _ _ _ _ _ _ _ _ _ _
                    H Gn F W L Q ltac:(lia) D) as [o [A2 M2]].
        exists o. split; [|exact M2].
        apply tev_one. eapply begin_norm; eauto.
    + (* an exception *)
      destruct (sclauses P (srun P n) fr lp d (hasE ((ens, lp) :: E)) e sa
                  resc) as [[sc cc]|] eqn:EC; [|discriminate].
      pose proof (sclauses_grows P _ (srun_grows P n) _ _ _ _ _ _ _ _ _ EC)
        as [GNc GQc].
      destruct (clauses_sim n fr lp d E loops rt ens tc tn df resc tr e sa sc
                  cc EC Gr Gc Gn F W D) as [C1 C2].
      assert (DC : cc = CRetry \/ cc <> CRetry)
        by (destruct cc; auto; right; congruence).
      destruct DC as [DC|DC].
      * subst cc.
        pose proof (srun_grows P n _ _ _ _ _ _ _ _ H) as [GN2 GQ2].
        pose proof (GQ2 Q1) as Qc.
        destruct (ZERO eq_refl (GQc Qc) ltac:(lia)) as [o [A M]].
        cbn in M. subst o.
        assert (GG : gens [Begin body resc els ens]
                       (cx loops E rt (some (f_outer fr)))
                     = Some [TBegin rt tb tr tc te tn]).
        { cbn [gens]. rewrite G0. reflexivity. }
        destruct (IH n fr lp d sc [Begin body resc els ens] st1 c E loops rt
                    _ st2 c2 df H GG F W L Q ltac:(lia) D) as [o [A2 M2]].
        exists o. split; [|exact M2].
        apply tev_one. eapply begin_again; eauto. apply C1; auto. lia.
      * assert (HF : sfinish (srun P n) fr lp (hasE E) d ens sc cc
                     = Some (st1, c))
          by (destruct cc; try congruence; exact H).
        pose proof (sfinish_grows _ (srun_grows P n) _ _ _ _ _ _ _ _ _ HF)
          as [FN FQ].
        destruct (ZERO eq_refl (GQc (FQ Q1)) ltac:(lia)) as [o [A M]].
        cbn in M. subst o.
        destruct (C2 st1 c st2 c2 DC HF L Q ltac:(lia)) as [o [A2 M2]].
        exists o. split; [|exact M2].
        apply tev_one. eapply begin_raise; eauto.
    + (* an unwinding *)
      destruct (PASS _ H) as [LB [Qa [Ba HF]]].
      destruct (ZERO eq_refl Qa Ba) as [o [A M]].
      destruct ens as [eb|].
      * cbn in M. destruct M as [M|[M _]]; [|discriminate]. subst o.
        destruct (gopt_some _ _ _ Gn) as [tu [Hu Gn']]. subst tn.
        destruct (fin_unw _ _ _ _ _ _ _ _ _ _ _ _ _ _ _ _
                    HF Gn' F W L Q ltac:(lia) D) as [A2 M2].
        subst c2. exists (OUnw u). split; [|left; reflexivity].
        apply tev_one. eapply begin_unw; eauto.
      * cbn in HF. inversion HF; subst.
        destruct (sl_zero_inv _ _ _ _ _ _ _ L); subst.
        cbn in Gn. inversion Gn; subst tn.
        destruct M as [M|[M1 M]]; subst o.
        -- destruct resc as [|r0 rs].
           ++ cbn in Gr. inversion Gr; subst tr.
              exists (OUnw u). split; [|left; reflexivity].
              apply tev_one. eapply begin_unw0; eauto.
           ++ exists (OHid u). split.
              ** apply tev_one. eapply begin_hide; eauto.
                 destruct r0 as [k0 b0]. cbn [genc] in Gr.
                 apply obind_some in Gr. destruct Gr as [a0 [_ Gr]].
                 apply obind_some in Gr. destruct Gr as [a1 [_ Gr]].
                 inversion Gr; subst. discriminate.
              ** right. split; [|reflexivity].
                 cbn in LB. exact LB.
        -- exists (OHid u). split; [|right; split; [exact M1|reflexivity]].
           apply tev_one. apply begin_pass; [exact A|exact I].
    + (* retry *)
      destruct (PASS _ H) as [_ [Qa [Ba HF]]].
      destruct ens as [eb|].
      { exfalso. destruct (sfin_inv _ _ _ _ _ _ _ _ _ _ HF Q1)
          as [c' [_ [_ [_ [_ [_ [_ [G4 _]]]]]]]]. congruence. }
      destruct (ZERO eq_refl Qa Ba) as [o [A M]].
      cbn in HF. inversion HF; subst.
      destruct (sl_zero_inv _ _ _ _ _ _ _ L); subst.
      exists o. split; [|exact M].
      apply tev_one. apply begin_pass; [exact A|].
      destruct M as [M _]. subst o. exact I.
Qed.
(** ** Exits *)

Lemma site_loop : forall fr d E st c st2 c2 dd ls rt p df j,
  is_jump c = true -> isret c = false ->
  pend (length E - dd) (mkE (some (f_outer fr)) E) (dd :: ls) rt = Some p ->
  sl fr d (length E - dd) E st c st2 c2 ->
  s_q st2 = true -> s_n st2 < s_n st + N ->
  frame_ok fr -> wf (dd :: ls) E LIn (some (f_outer fr)) ->
  df_ok (f_lfp fr) d df ->
  (outm (hasE E) (dd :: ls) rt c (OJmp j)) ->
  exists o, tev P fr (T st df) (p ++ [TJmp j]) (T st2 df) o /\
            outm (hasE E) (dd :: ls) rt c2 o.
Proof.
  intros until j. intros J R Hp L Q B F W D M.
  destruct W as [_ [_ [W3 W4]]].
  destruct (W4 eq_refl dd ls eq_refl) as [_ W5].
  destruct (site E _ fr d st c st2 c2 (dd :: ls) rt p df J
              ltac:(intro X; congruence) Hp L Q B F W3
              ltac:(eapply Forall_impl; [|exact W5]; intros a Ha Hb;
                    congruence) D) as [[A [A1 A2]]|[v [A A1]]].
  - subst c2. exists (OJmp j). split; [|exact M].
    eapply tev_app; [exact A|]. apply tev_one. exists 0. reflexivity.
  - exists (ORet v). split; [apply tev_app_stop; [exact A|discriminate]|].
    destruct A1; subst c2; reflexivity.
Qed.

Lemma site_all : forall fr d E st c st2 c2 loops rt p df s o,
  is_jump c = true ->
  pend_all (cx loops E rt (some (f_outer fr))) = Some p ->
  sl fr d (length E) E st c st2 c2 ->
  s_q st2 = true -> s_n st2 < s_n st + N ->
  frame_ok fr ->
  Forall (fun e : ent => snd e <> LNo -> loops <> []) E ->
  (loops = [] \/ some (f_outer fr) = false) ->
  df_ok (f_lfp fr) d df ->
  (forall df', (forall v, c = CRetX v -> s_x st2 = s_x st) ->
     tev1 P fr (T st2 df') s (T st2 df') o /\
     outm (hasE E) loops rt c o) ->
  exists o, tev P fr (T st df) (p ++ [s]) (T st2 df) o /\
            outm (hasE E) loops rt c2 o.
Proof.
  intros until o. intros J Hp L Q B F W3 W2 D M.
  unfold pend_all in Hp. cbn [c_ens c_loops c_rty cx] in Hp.
  rewrite mkE_length in Hp.
  destruct (site E _ fr d st c st2 c2 loops rt p df J
              ltac:(auto) Hp L Q B F W3
              ltac:(apply Forall_forall; auto) D)
    as [[A [A1 A2]]|[v [A A1]]].
  - subst c2. destruct (M df A2) as [M1 M2]. exists o. split; [|exact M2].
    eapply tev_app; [exact A|]. apply tev_one. exact M1.
  - exists (ORet v). split; [apply tev_app_stop; [exact A|discriminate]|].
    destruct A1; subst c2; reflexivity.
Qed.

Lemma far_quiet : forall lp st, s_q (far lp st) = true -> lp <> LNo ->
  lp = LIn /\ far lp st = st.
Proof.
  intros lp st Q NN. destruct lp; try congruence; [|discriminate].
  split; [reflexivity|]. destruct st. reflexivity.
Qed.

Lemma far_n : forall lp st, s_n (far lp st) = s_n st.
Proof. reflexivity. Qed.

Hypothesis LOADS : loads P.

Lemma clo_frame : forall fr c, clo_ok c -> frame_ok (blk_frame fr c).
Proof.
  intros fr [b o h [p|]] H; unfold frame_ok; cbn in *; tauto.
Qed.

Lemma clo_gens : forall c, clo_ok c ->
  exists t, gens (blk_body c) (top true) = Some t.
Proof.
  intros [b o h p] [H _].
  destruct (gens b (top true)) as [t|] eqn:E; [|congruence].
  assert (GB : gen (Block b) (top true) = Some [TBlock t])
    by (rewrite gen_block, E; reflexivity).
  exists [TBlock t]. cbn [blk_body gens]. rewrite GB. reflexivity.
Qed.

Lemma clo_of_ok : forall fr b, frame_ok fr -> gens b (top true) <> None ->
  clo_ok (clo_of fr b).
Proof.
  intros fr b F H. cbn. split; [exact H|].
  unfold frame_ok in F. destruct (f_blk fr); auto.
Qed.

Lemma one_sim : ONE.
Proof.
  intros n fr lp d st s st1 c E loops rt code st2 c2 df H G F W L Q B D.
  pose proof (sl_grows _ _ _ _ _ _ _ _ L) as [LN LQ].
  pose proof (LQ Q) as Q1.
  destruct s; cbn [sone] in H; cbn zeta in H.
  - (* Act *)
    inversion G; subst code. rewrite sask_eq in H.
    destruct (p_ask P ((k, 0) :: s_tr st)) as [| |e] eqn:A;
      inversion H; subst; destruct (sl_zero_inv _ _ _ _ _ _ _ L); subst.
    + exists ONorm. split; [|reflexivity]. apply tev_one. exists 0.
      cbn [tone]. rewrite ask_eq. cbn [t_tr T]. rewrite A. reflexivity.
    + exists ONorm. split; [|reflexivity]. apply tev_one. exists 0.
      cbn [tone]. rewrite ask_eq. cbn [t_tr T]. rewrite A. reflexivity.
    + exists (ORaise e). split; [|reflexivity]. apply tev_one. exists 0.
      cbn [tone]. rewrite ask_eq. cbn [t_tr T]. rewrite A. reflexivity.
  - (* Set *)
    inversion G; subst code. inversion H; subst.
    destruct (sl_zero_inv _ _ _ _ _ _ _ L); subst.
    exists ONorm. split; [|reflexivity]. apply tev_one. exists 0. reflexivity.
  - (* If *)
    rewrite gen_if in G.
    apply obind_some in G. destruct G as [ta [Ga G]].
    apply obind_some in G. destruct G as [tb [Gb G]].
    inversion G; subst code. clear G. rewrite sask_eq in H.
    destruct (p_ask P ((k, 0) :: s_tr st)) as [| |e] eqn:A.
    + destruct (IH n fr lp d (s_ev st (k, 0)) a st1 c E loops rt ta st2 c2 df
                  H Ga F W L Q B D) as [o [[m A'] M]].
      exists o. split; [|exact M]. apply tev_one. exists m.
      cbn [tone]. rewrite ask_eq. cbn [t_tr T]. rewrite A. exact A'.
    + destruct (IH n fr lp d (s_ev st (k, 0)) b st1 c E loops rt tb st2 c2 df
                  H Gb F W L Q B D) as [o [[m A'] M]].
      exists o. split; [|exact M]. apply tev_one. exists m.
      cbn [tone]. rewrite ask_eq. cbn [t_tr T]. rewrite A. exact A'.
    + inversion H; subst. destruct (sl_zero_inv _ _ _ _ _ _ _ L); subst.
      exists (ORaise e). split; [|reflexivity]. apply tev_one. exists 0.
      cbn [tone]. rewrite ask_eq. cbn [t_tr T]. rewrite A. reflexivity.
  - (* While *)
    rewrite gen_while in G. cbn [c_loops c_ens c_rty c_blk cx] in G.
    rewrite mkE_length in G.
    apply obind_some in G. destruct G as [tb [Gb G]].
    inversion G; subst code. clear G.
    destruct again.
    + destruct (body_sim _ _ _ _ _ _ _ _ _ _ _ _ _ _ _ _
                  H Gb F W L Q B D) as [o [[m A'] M]].
      exists o. split; [|exact M]. apply tev_one. exists m. exact A'.
    + rewrite sask_eq in H.
      destruct (p_ask P ((k, 0) :: s_tr st)) as [| |e] eqn:A.
      * destruct (body_sim _ _ _ _ _ _ _ _ _ _ _ _ _ _ _ _
                    H Gb F W L Q B D) as [o [[m A'] M]].
        exists o. split; [|exact M]. apply tev_one. exists m.
        cbn [tone]. rewrite ask_eq. cbn [t_tr T]. rewrite A. exact A'.
      * inversion H; subst. destruct (sl_zero_inv _ _ _ _ _ _ _ L); subst.
        exists ONorm. split; [|reflexivity]. apply tev_one. exists 0.
        cbn [tone]. rewrite ask_eq. cbn [t_tr T]. rewrite A. reflexivity.
      * inversion H; subst. destruct (sl_zero_inv _ _ _ _ _ _ _ L); subst.
        exists (ORaise e). split; [|reflexivity]. apply tev_one. exists 0.
        cbn [tone]. rewrite ask_eq. cbn [t_tr T]. rewrite A. reflexivity.
  - (* Begin *)
    exact (begin_sim n fr lp d st body resc els ens st1 c E loops rt code
             st2 c2 df H G F W L Q B D).
  - (* Break *)
    destruct lp eqn:EL.
    + destruct W as [_ [W2 [W3 _]]]. destruct (f_outer fr) as [o0|] eqn:EO;
        [|discriminate].
      inversion H; subst. destruct (sl_zero_inv _ _ _ _ _ _ _ L); subst.
      destruct (W2 eq_refl) as [W2'|W2']; [|discriminate]. subst loops.
      cbn in G. inversion G; subst code.
      exists (OUnw (UBrk o0 v)). split; [|left; reflexivity].
      apply tev_one. exists 0. cbn [tone]. rewrite EO. reflexivity.
    + inversion H; subst.
      destruct (far_quiet _ _ Q1 ltac:(discriminate)) as [_ FS].
      rewrite FS in *.
      destruct loops as [|dd ls]; [exfalso; destruct W as [W1 _];
        apply W1; [discriminate|reflexivity]|].
      cbn [gen c_loops c_ens c_rty cx] in G. rewrite mkE_length in G.
      apply obind_some in G. destruct G as [p [Gp G]].
      inversion G; subst code.
      eapply site_loop with (c := CBreak); eauto.
      cbn. eauto.
    + inversion H; subst.
      destruct (far_quiet _ _ Q1 ltac:(discriminate)). discriminate.
  - (* Next *)
    destruct lp eqn:EL.
    + pose proof W as W0. destruct W as [_ [W2 [W3 _]]].
      destruct (some (f_outer fr)) eqn:EO; [|discriminate].
      inversion H; subst.
      destruct (W2 eq_refl) as [W2'|W2']; [|discriminate]. subst loops.
      cbn [gen c_loops c_ens c_rty c_blk cx] in G.
      apply obind_some in G. destruct G as [p [Gp G]].
      inversion G; subst code. rewrite <- EO in Gp.
      eapply site_all with (c := CRet v) (o := ORet v); eauto.
      intros df' _. split; [exists 0; reflexivity|reflexivity].
    + inversion H; subst.
      destruct (far_quiet _ _ Q1 ltac:(discriminate)) as [_ FS].
      rewrite FS in *.
      destruct loops as [|dd ls]; [exfalso; destruct W as [W1 _];
        apply W1; [discriminate|reflexivity]|].
      cbn [gen c_loops c_ens c_rty cx] in G. rewrite mkE_length in G.
      apply obind_some in G. destruct G as [p [Gp G]].
      inversion G; subst code.
      eapply site_loop with (c := CNext); eauto.
      cbn. eauto.
    + inversion H; subst.
      destruct (far_quiet _ _ Q1 ltac:(discriminate)). discriminate.
  - (* Redo *)
    destruct lp eqn:EL.
    + pose proof W as W0. destruct W as [_ [W2 [W3 _]]].
      destruct (some (f_outer fr)) eqn:EO; [|discriminate].
      inversion H; subst.
      destruct (W2 eq_refl) as [W2'|W2']; [|discriminate]. subst loops.
      cbn [gen c_loops c_ens c_rty c_blk cx] in G.
      apply obind_some in G. destruct G as [p [Gp G]].
      inversion G; subst code. rewrite <- EO in Gp.
      eapply site_all with (c := CRedo) (o := OJmp JRdoB); eauto.
      intros df' _. split; [exists 0; reflexivity|].
      cbn. right. auto.
    + inversion H; subst.
      destruct (far_quiet _ _ Q1 ltac:(discriminate)) as [_ FS].
      rewrite FS in *.
      destruct loops as [|dd ls]; [exfalso; destruct W as [W1 _];
        apply W1; [discriminate|reflexivity]|].
      cbn [gen c_loops c_ens c_rty cx] in G. rewrite mkE_length in G.
      apply obind_some in G. destruct G as [p [Gp G]].
      inversion G; subst code.
      eapply site_loop with (c := CRedo); eauto.
      cbn. left. eauto.
    + inversion H; subst.
      destruct (far_quiet _ _ Q1 ltac:(discriminate)). discriminate.
  - (* Retry *)
    inversion H; subst. destruct (sl_zero_inv _ _ _ _ _ _ _ L); subst.
    cbn in G. destruct rt as [|rt]; [discriminate|]. inversion G; subst code.
    exists (OJmp (JRty rt)). split; [|cbn; auto].
    apply tev_one. exists 0. reflexivity.
  - (* Return *)
    cbn [gen c_blk cx] in G. inversion H; subst.
    destruct (some (f_outer fr)) eqn:EO.
    + inversion G; subst code. destruct (sl_zero_inv _ _ _ _ _ _ _ L); subst.
      exists (OUnw (URet (f_home fr) v)). split; [|left; reflexivity].
      apply tev_one. exists 0. reflexivity.
    + apply obind_some in G. destruct G as [p [Gp G]].
      inversion G; subst code. destruct W as [_ [W2 [W3 _]]].
      rewrite <- EO in Gp.
      eapply site_all with (c := CRet v) (o := ORet v); eauto.
      intros df' _. split; [exists 0; reflexivity|reflexivity].
  - (* ReturnX *)
    cbn [gen c_blk cx] in G. inversion H; subst.
    destruct (some (f_outer fr)) eqn:EO.
    + inversion G; subst code. destruct (sl_zero_inv _ _ _ _ _ _ _ L); subst.
      eexists. split; [|left; reflexivity].
      apply tev_one. exists 0. reflexivity.
    + apply obind_some in G. destruct G as [p [Gp G]].
      inversion G; subst code. destruct W as [_ [W2 [W3 _]]].
      rewrite <- EO in Gp.
      eapply site_all with (c := CRetX (s_x st1)) (o := ORet (s_x st1)); eauto.
      intros df' X. split; [|reflexivity].
      exists 0. cbn [tone]. cbn [t_x T].
      rewrite (X (s_x st1) eq_refl). reflexivity.
  - (* Throw *)
    inversion G; subst code. inversion H; subst.
    destruct (sl_zero_inv _ _ _ _ _ _ _ L); subst.
    exists (OUnw (UThrow t)). split; [|left; reflexivity].
    apply tev_one. exists 0. reflexivity.
  - (* Catch *)
    rewrite gen_catch in G. apply obind_some in G. destruct G as [tb [Gb G]].
    inversion G; subst code.
    pose proof (clo_of_ok fr b F ltac:(congruence)) as CO.
    destruct (clo_gens _ CO) as [tc Gc].
    destruct (one_catch _ _ _ true _ _ _ _ _ _ _ rt _ _ _ _ _ H Gc
                eq_refl (clo_frame fr _ CO) eq_refl L Q B D)
      as [m [o [A M]]].
    exists o. split; [|exact M]. apply tev_one. exists m. exact A.
  - (* Call *)
    inversion G; subst code.
    destruct (gens (p_meth P f) (top false)) as [tc|] eqn:Gc;
      [|exfalso; exact (LOADS f Gc)].
    destruct (one_call _ _ _ false _ _ _ _ _ _ _ rt _ _ _ _ H Gc
                eq_refl I eq_refl L Q B D) as [m [o [A M]]].
    exists o. split; [|exact M]. apply tev_one. exists m. exact A.
  - (* CallB *)
    rewrite gen_callb in G. apply obind_some in G. destruct G as [tb [Gb G]].
    inversion G; subst code.
    pose proof (clo_of_ok fr b F ltac:(congruence)) as CO.
    destruct (gens (p_meth P f) (top false)) as [tc|] eqn:Gc;
      [|exfalso; exact (LOADS f Gc)].
    destruct (one_call _ _ _ false _ _ _ _ _ _ _ rt _ _ _ _ H Gc
                eq_refl CO eq_refl L Q B D) as [m [o [A M]]].
    exists o. split; [|exact M]. apply tev_one. exists m. exact A.
  - (* Yield *)
    inversion G; subst code.
    destruct (f_blk fr) as [cl|] eqn:EC; [|discriminate].
    assert (CO : clo_ok cl)
      by (unfold frame_ok in F; rewrite EC in F; exact F).
    destruct (clo_gens _ CO) as [tc Gc].
    destruct (one_call _ _ _ true _ _ _ _ _ _ _ rt _ _ _ _ H Gc
                ltac:(destruct cl; reflexivity) (clo_frame fr _ CO)
                ltac:(destruct cl; reflexivity) L Q B D) as [m [o [A M]]].
    exists o. split; [|exact M]. apply tev_one. exists m.
    cbn [tone]. rewrite EC. exact A.
  - (* Block *)
    pose proof G as G0. rewrite gen_block in G.
    cbn [c_loops c_ens c_rty c_blk cx] in G.
    destruct loops as [|? ?]; [|discriminate].
    destruct E as [|[? ?] ?]; [|discriminate]. cbn [mkE] in G.
    destruct rt; [|discriminate].
    destruct (some (f_outer fr)) eqn:EO; [|discriminate].
    apply obind_some in G. destruct G as [tb [Gb G]].
    inversion G; subst code. clear G.
    destruct (srun P n fr LNo false d st b) as [[s1 c1]|] eqn:EB;
      [|discriminate].
    pose proof (srun_grows P n _ _ _ _ _ _ _ _ EB) as [GN GQ].
    assert (W' : wf [] [] LNo (some (f_outer fr))).
    { split; [congruence|split; [auto|split; [constructor|discriminate]]]. }
    assert (RUN : s_q s1 = true -> s_n s1 < s_n st + N ->
      exists o, tev P fr (T st df) tb (T s1 df) o /\
                outm false [] 0 c1 o).
    { intros Qs Bs.
      change (Ctx [] (mkE true []) 0 true)
        with (cx [] [] 0 true) in Gb. rewrite <- EO in Gb.
      exact (IH n fr LNo d st b s1 c1 [] [] 0 tb s1 c1 df EB Gb F W'
               (sl_nil _ _ _ _ _) Qs Bs D). }
    assert (DC : c1 = CRedo \/ c1 <> CRedo)
      by (destruct c1; auto; right; congruence).
    destruct DC as [DC|DC].
    + subst c1.
      pose proof (srun_grows P n _ _ _ _ _ _ _ _ H) as [GN2 GQ2].
      destruct (RUN (GQ2 Q1) ltac:(lia)) as [o [A M]].
      cbn in M. destruct M as [[? [? [M _]]]|[_ M]]; [discriminate|]. subst o.
      assert (GG : gens [Block b] (cx [] [] 0 (some (f_outer fr)))
                   = Some [TBlock tb]).
      { rewrite EO. cbn [gens]. rewrite G0. reflexivity. }
      rewrite <- EO in W.
      destruct (IH n fr lp d s1 [Block b] st1 c [] [] 0 _ st2 c2 df H GG F W
                  L Q ltac:(lia) D) as [o [A2 M2]].
      exists o. split; [|exact M2]. apply tev_one.
      destruct A as [m A]. destruct A2 as [m2 A2]. exists (m + m2).
      cbn [tone].
      rewrite (trun_below P m (m + m2) ltac:(lia) _ _ _ _ A).
      exact (trun_below P m2 (m + m2) ltac:(lia) _ _ _ _ A2).
    + assert (HH : Some (s1, c1) = Some (st1, c))
        by (destruct c1; try congruence; exact H).
      inversion HH; subst.
      destruct (sl_nil_inv _ _ _ _ _ _ _ L); subst.
      destruct (RUN Q B) as [o [A M]].
      exists o. split; [|exact M]. apply tev_one.
      destruct A as [m A]. exists m. cbn [tone]. rewrite A.
      destruct o as [|e|u|u|j|v]; auto. destruct j; auto.
      exfalso. destruct c; cbn in M; try congruence;
        try (destruct M as [? [? [M _]]]; discriminate).
      * destruct M as [M|[_ M]]; discriminate.
      * destruct M as [M _]; discriminate.
Qed.

End step.

Theorem sim_all : loads P -> forall N, SIM N.
Proof.
  intros LO. induction N as [|N IH];
    intros n fr lp d st code st1 c E loops rt tcode st2 c2 df H G F W L Q B D.
  - exfalso. pose proof (sl_grows _ _ _ _ _ _ _ _ L) as [LN _].
    pose proof (srun_grows P n _ _ _ _ _ _ _ _ H) as [GN _]. lia.
  - destruct n as [|n]; [discriminate|]. cbn [srun] in H.
    pose proof (sl_grows _ _ _ _ _ _ _ _ L) as [LN LQ].
    destruct code as [|s rest].
    + inversion H; subst. destruct (sl_zero_inv _ _ _ _ _ _ _ L); subst.
      cbn in G. inversion G; subst. exists ONorm.
      split; [apply tev_nil|reflexivity].
    + cbn [gens] in G.
      apply obind_some in G. destruct G as [ta [Ga G]].
      apply obind_some in G. destruct G as [tb [Gb G]].
      inversion G; subst tcode. clear G.
      destruct (sone P (srun P n) fr lp (hasE E) d (tick st) s)
        as [[s1 c1]|] eqn:E1; [|discriminate].
      assert (DC : c1 = CNorm \/ c1 <> CNorm)
        by (destruct c1; auto; right; congruence).
      pose proof (sone_grows P _ (srun_grows P n) _ _ _ _ _ _ _ _ E1)
        as [GN1 GQ1]. cbn [tick s_n s_q] in GN1, GQ1.
      destruct DC as [DC|DC].
      * subst c1.
        pose proof (srun_grows P n _ _ _ _ _ _ _ _ H) as [GN2 GQ2].
        destruct (one_sim N IH LO n fr lp d (tick st) s s1 CNorm E loops rt
                    ta s1 CNorm df E1 Ga F W (sl_zero _ _ _ _ _)
                    (GQ2 (LQ Q)) ltac:(cbn [tick s_n]; lia) D)
          as [o [A M]].
        cbn in M. subst o.
        destruct (IH n fr lp d s1 rest st1 c E loops rt tb st2 c2 df H Gb F W
                    L Q ltac:(lia) D) as [o [A2 M2]].
        exists o. split; [|exact M2]. eapply tev_app; [exact A|exact A2].
      * assert (HH : Some (s1, c1) = Some (st1, c))
          by (destruct c1; try congruence; exact H).
        inversion HH; subst.
        destruct (one_sim N IH LO n fr lp d (tick st) s st1 c E loops rt
                    ta st2 c2 df E1 Ga F W L Q
                    ltac:(cbn [tick s_n]; lia) D) as [o [A M]].
        exists o. split; [|exact M]. apply tev_app_stop; [exact A|].
        eapply outm_nonnorm; [exact M|]. eapply sl_nonnorm; eauto.
Qed.

(** Whole programs. *)
Theorem prog_sim : loads P -> forall n f tr r,
  srun_prog P n f = Some (tr, r, true) ->
  exists m, trun_prog P m f = Some (tr, r).
Proof.
  intros LO n f tr r H. unfold srun_prog in H.
  destruct (sinvoke (srun P n) (Frame 1 1 None None) (p_meth P f)
              (Sst [] 0 true 0)) as [[st r']|] eqn:E; [|discriminate].
  inversion H; subst.
  destruct (gens (p_meth P f) (top false)) as [code|] eqn:G;
    [|exfalso; exact (LO f G)].
  destruct (inv_sim (S (s_n st)) (sim_all LO _) n (Frame 1 1 None None) false
              (p_meth P f) (Sst [] 0 true 0) st r [] code 0 false E G
              eq_refl I eq_refl I ltac:(auto) ltac:(cbn; lia)) as [m R].
  exists m. unfold trun_prog.
  change (Tst [] 0 []) with (T (Sst [] 0 true 0) []). rewrite R. reflexivity.
Qed.

(** More fuel does not change the result. *)
Lemma trun_prog_mono : forall n m f r, n <= m ->
  trun_prog P n f = Some r -> trun_prog P m f = Some r.
Proof.
  intros n m f r L H. unfold trun_prog in *.
  destruct (invoke (trun P n) (Frame 1 1 None None) false (p_meth P f)
              (Tst [] 0 [])) as [[st r']|] eqn:E; [|discriminate].
  rewrite (invoke_mono _ _ (trun_below P n m L) _ _ _ _ _ E). exact H.
Qed.

Theorem prog_agree : loads P -> forall n f tr r m tr' r',
  srun_prog P n f = Some (tr, r, true) ->
  trun_prog P m f = Some (tr', r') -> tr' = tr /\ r' = r.
Proof.
  intros LO n f tr r m tr' r' H H'.
  destruct (prog_sim LO n f tr r H) as [k K].
  pose proof (trun_prog_mono k (k + m) f _ ltac:(lia) K) as A.
  pose proof (trun_prog_mono m (k + m) f _ ltac:(lia) H') as B.
  rewrite A in B. inversion B; subst. auto.
Qed.

End sim.
