(** A condition on the text of a program under which the flag of EnsSpec.v
    stays up in every run. *)
From Coq Require Import Arith Bool List Lia.
From Verif Require Import EnsModel EnsSpec EnsTidySpec EnsProofs EnsSimProofs EnsBadProofs.
Import ListNotations.

Section tidy.
Variable P : prog.

Lemma alls_eq : forall p r l, alls P p r l =
  match l with [] => True | s :: l => tidy P p r s /\ alls P p r l end.
Proof. intros p r l. destruct l; reflexivity. Qed.

Lemma tidy_begin : forall p r body resc els ens,
  tidy P p r (Begin body resc els ens) <->
  (alls P (p || some ens) (r && negb (some ens)) body
   /\ allc P (p || some ens) resc
   /\ match els with
      | None => True
      | Some el => ens = None /\ alls P p r el
      end
   /\ (p && negb (some ens) = true -> resc = [])
   /\ match ens with None => True | Some eb => plains P eb end).
Proof. reflexivity. Qed.

(** ** Ensure bodies *)

Definition steady (rn : frame -> lkind -> bool -> bool -> sst -> list stmt
                        -> sres) : Prop :=
  forall fr lp p d st l st' c, plains P l ->
  rn fr lp p d st l = Some (st', c) ->
  c = CNorm /\ s_x st' = s_x st /\ s_q st' = s_q st.

Lemma sbody_steady : forall rn, steady rn ->
  forall fr lp p d st k body st' c, plain P (While false k body) ->
  sbody rn fr lp p d st k body = Some (st', c) ->
  c = CNorm /\ s_x st' = s_x st /\ s_q st' = s_q st.
Proof.
  intros rn S fr lp p d st k body st' c PL H. unfold sbody in H.
  destruct (rn fr LIn p d st body) as [[s1 c1]|] eqn:E; [|discriminate].
  destruct (S _ _ _ _ _ _ _ _ (proj2 PL) E) as [A [B C]]. subst c1.
  destruct (S fr lp p d s1 [While false k body] st' c (conj PL I) H) as [A' [B' C']].
  split; [exact A'|]. split; congruence.
Qed.

Lemma sone_steady : forall rn, steady rn ->
  forall fr lp p d st s st' c, plain P s ->
  sone P rn fr lp p d st s = Some (st', c) ->
  c = CNorm /\ s_x st' = s_x st /\ s_q st' = s_q st.
Proof.
  intros rn S fr lp p d st s st' c PL H.
  destruct s; try contradiction; cbn [sone] in H.
  - rewrite sask_eq in H. cbn [plain] in PL. specialize (PL (s_tr st)).
    destruct (p_ask P ((k, 0) :: s_tr st)); [| |contradiction];
      inversion H; subst; auto.
  - rewrite sask_eq in H. cbn in PL. destruct PL as [K [A B]].
    specialize (K (s_tr st)).
    destruct (p_ask P ((k, 0) :: s_tr st)); [| |contradiction];
      eapply S in H; eauto.
  - destruct PL as [K PL]. rewrite sask_eq in H.
    assert (PW : plain P (While false k body)) by (split; assumption).
    destruct again; [eapply sbody_steady; eauto|].
    specialize (K (s_tr st)).
    destruct (p_ask P ((k, 0) :: s_tr st)); [| |contradiction].
    + destruct (sbody_steady _ S _ _ _ _ _ _ _ _ _ PW H) as [A [B C]]. auto.
    + inversion H; subst; auto.
Qed.

Lemma srun_steady : forall n, steady (srun P n).
Proof.
  induction n as [|n IH]; intros fr lp p d st l st' c PL H; [discriminate|].
  cbn [srun] in H. destruct l as [|s l]; [inversion H; subst; auto|].
  destruct (sone P (srun P n) fr lp p d (tick st) s) as [[s1 c1]|] eqn:E;
    [|discriminate].
  destruct PL as [PS PL].
  destruct (sone_steady _ IH _ _ _ _ _ _ _ _ PS E) as [A [B C]]. subst c1.
  destruct (IH _ _ _ _ _ _ _ _ PL H) as [A' [B' C']].
  cbn [tick s_x s_q] in *. split; [exact A'|]. split; congruence.
Qed.

(** ** The rest of the program *)

Fixpoint tidy_clo (c : closure) : Prop :=
  match c with
  | Clo b _ _ parent =>
      alls P false false b
      /\ match parent with None => True | Some c => tidy_clo c end
  end.

Definition tidy_frame (fr : frame) : Prop :=
  match f_blk fr with None => True | Some c => tidy_clo c end.

Definition calm (rn : frame -> lkind -> bool -> bool -> sst -> list stmt
                      -> sres) : Prop :=
  forall fr lp p r st l st' c, tidy_frame fr -> lp <> LOut ->
  alls P p r l -> s_q st = true ->
  rn fr lp p false st l = Some (st', c) ->
  s_q st' = true /\ (c = CRetry -> r = true).

Lemma sfinish_calm : forall n fr lp p ens st c st' c',
  match ens with None => True | Some eb => plains P eb end ->
  s_q st = true -> (c = CRetry -> ens = None) ->
  sfinish (srun P n) fr lp p false ens st c = Some (st', c') ->
  s_q st' = true /\ c' = c.
Proof.
  intros n fr lp p ens st c st' c' PL Q R H. unfold sfinish in H.
  destruct ens as [eb|]; [|inversion H; subst; auto].
  destruct (srun P n fr (outl lp) p (false || is_unw c) st eb)
    as [[s1 c1]|] eqn:E; [|discriminate].
  destruct (srun_steady n _ _ _ _ _ _ _ _ PL E) as [A [B C]]. subst c1.
  assert (HC : c' = c) by (inversion H; reflexivity).
  assert (HS : st' = low (odd false c (s_x st) CNorm (s_x s1)) s1)
    by (inversion H; reflexivity).
  split; [|exact HC]. rewrite HS, B.
  unfold low, odd. cbn [s_q]. rewrite C, Q, Nat.eqb_refl.
  destruct c; try reflexivity. specialize (R eq_refl). discriminate.
Qed.

Lemma sinvoke_calm : forall rn fr body st st' r, calm rn ->
  tidy_frame fr -> alls P false false body -> s_q st = true ->
  sinvoke rn fr body st = Some (st', r) -> s_q st' = true.
Proof.
  intros rn fr body st st' r C F A Q H. unfold sinvoke in H.
  destruct (rn fr LNo false false (s_setx st 0) body) as [[s1 c]|] eqn:E;
    [|discriminate].
  destruct (C fr LNo false false (s_setx st 0) body s1 c F
              ltac:(discriminate) A Q E) as [Q1 _].
  destruct c as [|e|u| | | | |v|v]; try discriminate;
    try (inversion H; subst; exact Q1).
  destruct u as [t|t v|o v]; try (inversion H; subst; exact Q1).
  destruct (t =? f_lfp fr); inversion H; subst; exact Q1.
Qed.

Lemma safter_calm : forall fr r st c,
  match r with Some (s, _) => s_q s = true | None => True end ->
  safter fr false r = Some (st, c) -> s_q st = true /\ c <> CRetry.
Proof.
  intros fr r st c Q H. unfold safter in H.
  destruct r as [[s [v|e|u]]|]; [| | |discriminate].
  - inversion H; subst. split; [exact Q|discriminate].
  - inversion H; subst. split; [exact Q|discriminate].
  - destruct u as [t|t v|o v].
    + inversion H; subst. split; [exact Q|discriminate].
    + inversion H; subst. split; [exact Q|discriminate].
    + destruct (o =? f_lfp fr); inversion H; subst;
        (split; [exact Q|discriminate]).
Qed.

Lemma scaught_calm : forall t r,
  match r with Some (s, _) => s_q s = true | None => True end ->
  match scaught t r with Some (s, _) => s_q s = true | None => True end.
Proof.
  intros t [[s [v|e|[t'|t' v|o v]]]|] H; cbn; auto.
  destruct (t' =? t); auto.
Qed.

Lemma sclauses_calm : forall n, calm (srun P n) ->
  forall fr lp p cs e st st' c, tidy_frame fr -> lp <> LOut ->
  allc P p cs -> s_q st = true ->
  sclauses P (srun P n) fr lp false p e st cs = Some (st', c) ->
  s_q st' = true.
Proof.
  intros n C fr lp p cs. induction cs as [|[k b] cs IH];
    intros e st st' c F LP A Q H.
  - cbn in H. inversion H; subst. exact Q.
  - rewrite sclauses_cons in H. cbn [allc] in A. destruct A as [A1 A2].
    destruct (p_ask P ((k, e) :: s_tr st)).
    + exact (proj1 (C _ _ _ _ (s_ev st (k, e)) _ _ _ F LP A1 Q H)).
    + exact (IH _ (s_ev st (k, e)) _ _ F LP A2 Q H).
    + inversion H; subst. exact Q.
Qed.

Lemma sbody_calm : forall rn, calm rn ->
  forall fr lp p r st k body st' c, tidy_frame fr -> lp <> LOut ->
  alls P p r body -> s_q st = true ->
  sbody rn fr lp p false st k body = Some (st', c) ->
  s_q st' = true /\ (c = CRetry -> r = true).
Proof.
  intros rn C fr lp p r st k body st' c F LP A Q H. unfold sbody in H.
  destruct (rn fr LIn p false st body) as [[s1 c1]|] eqn:E; [|discriminate].
  destruct (C fr LIn _ _ _ _ _ _ F ltac:(discriminate) A Q E) as [Q1 R1].
  assert (W : forall a, alls P p r [While a k body])
    by (intro a; split; [exact A|exact I]).
  destruct c1; try (inversion H; subst; split; [exact Q1|first
    [exact R1|discriminate]]).
  - exact (C _ _ _ _ _ _ _ _ F LP (W false) Q1 H).
  - exact (C _ _ _ _ _ _ _ _ F LP (W false) Q1 H).
  - exact (C _ _ _ _ _ _ _ _ F LP (W true) Q1 H).
Qed.

Hypothesis METHS : forall f, alls P false false (p_meth P f).

Lemma sone_calm : forall n, calm (srun P n) ->
  forall fr lp p r st s st' c, tidy_frame fr -> lp <> LOut ->
  tidy P p r s -> s_q st = true ->
  sone P (srun P n) fr lp p false st s = Some (st', c) ->
  s_q st' = true /\ (c = CRetry -> r = true).
Proof.
  intros n C fr lp p r st s st' c F LP A Q H.
  assert (CALL : forall fr' body t,
    tidy_frame fr' -> alls P false false body ->
    safter fr false (match t with
                     | None => sinvoke (srun P n) fr' body st
                     | Some t => scaught t (sinvoke (srun P n) fr' body st)
                     end) = Some (st', c) ->
    s_q st' = true /\ (c = CRetry -> r = true)).
  { intros fr' body t F' A' H'.
    assert (QQ : match sinvoke (srun P n) fr' body st with
                 | Some (s, _) => s_q s = true | None => True end).
    { destruct (sinvoke (srun P n) fr' body st) as [[s1 r1]|] eqn:E;
        [|exact I]. eapply sinvoke_calm; eauto. }
    destruct (safter_calm fr (match t with
                     | None => sinvoke (srun P n) fr' body st
                     | Some t => scaught t (sinvoke (srun P n) fr' body st)
                     end) st' c ltac:(destruct t; [apply scaught_calm|];
                                      exact QQ) H') as [X Y].
    split; [exact X|]. intro; contradiction. }
  assert (BF : forall c0, tidy_clo c0 -> tidy_frame (blk_frame fr c0)
                                      /\ alls P false false (blk_body c0)).
  { intros [b o h pa] [T1 T2]. split; [exact T2|].
    cbn [blk_body]. split; [exact T1|exact I]. }
  assert (CF : forall b, alls P false false b -> tidy_clo (clo_of fr b)).
  { intros b T. split; [exact T|exact F]. }
  assert (FAR : s_q (far lp st) = true).
  { destruct lp; [exact Q|exact Q|congruence]. }
  destruct s; cbn [sone] in H; cbn zeta in H.
  - rewrite sask_eq in H.
    destruct (p_ask P ((k, 0) :: s_tr st)); inversion H; subst;
      (split; [exact Q|discriminate]).
  - inversion H; subst. split; [exact Q|discriminate].
  - rewrite sask_eq in H. destruct A as [A1 A2].
    destruct (p_ask P ((k, 0) :: s_tr st)).
    + exact (C _ _ _ _ (s_ev st (k, 0)) _ _ _ F LP A1 Q H).
    + exact (C _ _ _ _ (s_ev st (k, 0)) _ _ _ F LP A2 Q H).
    + inversion H; subst. split; [exact Q|discriminate].
  - destruct again;
      [exact (sbody_calm _ C _ _ _ _ _ _ _ _ _ F LP A Q H)|].
    rewrite sask_eq in H.
    destruct (p_ask P ((k, 0) :: s_tr st)).
    + exact (sbody_calm _ C _ _ _ _ (s_ev st (k, 0)) _ _ _ _ F LP A Q H).
    + inversion H; subst. split; [exact Q|discriminate].
    + inversion H; subst. split; [exact Q|discriminate].
  - pose proof A as A0. apply tidy_begin in A.
    destruct A as [A1 [A2 [A3 [A4 A5]]]].
    destruct (srun P n fr lp (p || some ens) false st body)
      as [[s1 c1]|] eqn:E1; [|discriminate].
    destruct (C _ _ _ _ _ _ _ _ F LP A1 Q E1) as [Q1 R1].
    assert (GEN : forall st0 c0, s_q st0 = true ->
      (c0 = CRetry -> r && negb (some ens) = true) ->
      sfinish (srun P n) fr lp p false ens st0 c0 = Some (st', c) ->
      s_q st' = true /\ (c = CRetry -> r = true)).
    { intros st0 c0 Q0 R0 H0.
      destruct (sfinish_calm _ _ _ _ _ _ _ _ _ A5 Q0
        ltac:(intro X; specialize (R0 X); destruct ens;
              [rewrite andb_false_r in R0; discriminate|reflexivity]) H0)
        as [X Y].
      subst c0. split; [exact X|]. intro Z. specialize (R0 Z).
      apply andb_true_iff in R0. tauto. }
    assert (UNW : forall c0,
      s_q (low (is_unw c0 && negb (none_of resc) && negb (some ens) && p) s1)
      = true).
    { intros c0. unfold low. cbn [s_q]. rewrite Q1.
      destruct (p && negb (some ens)) eqn:PE.
      - rewrite (A4 eq_refl). cbn. rewrite andb_false_r. reflexivity.
      - replace (is_unw c0 && negb (none_of resc) && negb (some ens) && p)
          with (is_unw c0 && negb (none_of resc) && (p && negb (some ens)))
          by (destruct p, (some ens), (is_unw c0), (none_of resc);
              reflexivity).
        rewrite PE, andb_false_r. reflexivity. }
    destruct c1 as [|e|u| | | | |v|v];
      try (exact (GEN _ _ (UNW _) R1 H)).
    + destruct els as [el|].
      * destruct A3 as [EE A3]. subst ens.
        cbn [some] in *. rewrite orb_false_r in *.
        destruct (srun P n fr lp p false s1 el) as [[s2 c2]|] eqn:E2;
          [|discriminate].
        destruct (C _ _ _ _ _ _ _ _ F LP A3 Q1 E2) as [Q2 R2].
        refine (GEN _ _ _ _ H); [exact Q2|].
        intro X. rewrite (R2 X). reflexivity.
      * refine (GEN _ _ Q1 _ H). discriminate.
    + destruct (sclauses P (srun P n) fr lp false (p || some ens) e s1 resc)
        as [[s2 c2]|] eqn:E2; [|discriminate].
      pose proof (sclauses_calm n C _ _ _ _ _ _ _ _ F LP A2 Q1 E2) as Q2.
      destruct c2; try (refine (GEN _ _ Q2 _ H); discriminate).
      exact (C fr lp p r s2 [Begin body resc els ens] st' c F LP (conj A0 I) Q2 H).
  - destruct lp.
    + destruct (f_outer fr); inversion H; subst.
      split; [exact Q|discriminate].
    + inversion H; subst. split; [exact FAR|discriminate].
    + congruence.
  - destruct lp.
    + destruct (some (f_outer fr)); inversion H; subst.
      split; [exact Q|discriminate].
    + inversion H; subst. split; [exact FAR|discriminate].
    + congruence.
  - destruct lp.
    + destruct (some (f_outer fr)); inversion H; subst.
      split; [exact Q|discriminate].
    + inversion H; subst. split; [exact FAR|discriminate].
    + congruence.
  - inversion H; subst. split; [exact Q|]. intros _. exact A.
  - inversion H; subst. split; [exact Q|].
    destruct (some (f_outer fr)); discriminate.
  - inversion H; subst. split; [exact Q|].
    destruct (some (f_outer fr)); discriminate.
  - inversion H; subst. split; [exact Q|discriminate].
  - destruct (BF _ (CF b A)) as [B1 B2].
    exact (CALL _ _ (Some t) B1 B2 H).
  - exact (CALL (meth_frame fr None) _ None I (METHS f) H).
  - exact (CALL (meth_frame fr (Some (clo_of fr b))) _ None (CF b A)
             (METHS f) H).
  - destruct (f_blk fr) as [c0|] eqn:EB; [|discriminate].
    assert (TC : tidy_clo c0) by (unfold tidy_frame in F; rewrite EB in F;
                                  exact F).
    destruct (BF _ TC) as [B1 B2]. exact (CALL _ _ None B1 B2 H).
  - destruct (srun P n fr LNo false false st b) as [[s1 c1]|] eqn:E;
      [|discriminate].
    destruct (C fr LNo _ _ _ _ _ _ F ltac:(discriminate) A Q E) as [Q1 R1].
    destruct c1; try (inversion H; subst; split; [exact Q1|discriminate]).
    + exact (C fr lp p r s1 [Block b] st' c F LP (conj A I) Q1 H).
    + specialize (R1 eq_refl). discriminate.
Qed.

Lemma srun_calm : forall n, calm (srun P n).
Proof.
  induction n as [|n IH]; intros fr lp p r st l st' c F LP A Q H;
    [discriminate|].
  cbn [srun] in H. destruct l as [|s l].
  - inversion H; subst. split; [exact Q|discriminate].
  - destruct A as [A1 A2].
    destruct (sone P (srun P n) fr lp p false (tick st) s)
      as [[s1 c1]|] eqn:E; [|discriminate].
    destruct (sone_calm n IH _ _ _ _ (tick st) _ _ _ F LP A1 Q E) as [Q1 R1].
    destruct c1; try (inversion H; subst; split; [exact Q1|exact R1]).
    exact (IH _ _ _ _ _ _ _ _ F LP A2 Q1 H).
Qed.

Lemma prog_calm : forall n f tr r q,
  srun_prog P n f = Some (tr, r, q) -> q = true.
Proof.
  intros n f tr r q H. unfold srun_prog in H.
  destruct (sinvoke (srun P n) (Frame 1 1 None None) (p_meth P f)
              (Sst [] 0 true 0)) as [[st r']|] eqn:E; [|discriminate].
  inversion H; subst.
  exact (sinvoke_calm _ (Frame 1 1 None None) _ (Sst [] 0 true 0) _ _
           (srun_calm n) I
           (METHS f) eq_refl E).
Qed.
End tidy.

Theorem tidy_sim : forall P, loads P -> tidy_prog P -> forall n f tr r q,
  srun_prog P n f = Some (tr, r, q) ->
  q = true /\ exists m, trun_prog P m f = Some (tr, r).
Proof.
  intros P LO T n f tr r q H.
  pose proof (prog_calm P T n f tr r q H). subst q.
  split; [reflexivity|]. eapply prog_sim; eauto.
Qed.

(** The program of EnsBadProofs.good_run is one of these. *)
Lemma good_tidy : tidy_prog p_good.
Proof.
  assert (S : forall k, k <> 100 -> safe p_good k).
  { intros k K tr. cbn [p_good meths p_ask]. unfold once.
    destruct (Nat.eq_dec k 100) as [E|E]; [contradiction|].
    do 100 (destruct k as [|k]; [exact I|]).
    destruct k as [|k]; [congruence|exact I]. }
  intros f. cbn [p_good meths p_meth].
  destruct f as [|[|f]]; [| |destruct f; exact I]; cbn;
    repeat split; try apply S; try discriminate.
Qed.
