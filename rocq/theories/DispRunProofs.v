(** Proofs for DispModel, running: the invariant of the compiled units and the
    simulation of the interpreter. *)
From Coq Require Import List Arith Bool PeanoNat Lia.
From Verif Require Import DispModel DispSpec DispProofs.
Import ListNotations.

(** ** What the interpreter leaves alone *)

Definition kept (w w' : world) : Prop :=
  (calm w' -> calm w /\ forall o, cls w' o = cls w o) /\ w_ver w <= w_ver w'.

Lemma kept_refl : forall w, kept w w.
Proof. intros. split; auto. Qed.

Lemma kept_trans : forall a b c, kept a b -> kept b c -> kept a c.
Proof.
  intros a b c [H1 L1] [H2 L2]. split; [|lia]. intro Hc.
  destruct (H2 Hc) as [Hb E2]. destruct (H1 Hb) as [Ha E1].
  split; [exact Ha|]. intro o. rewrite E2. apply E1.
Qed.

Lemma kept_log : forall w f o, kept w (log w f o).
Proof. intros. split; [intro H; split; [exact H|reflexivity]|apply le_n]. Qed.

Lemma kept_write : forall w o iv v, kept w (write w o iv v).
Proof. intros. split; [intro H; split; [exact H|reflexivity]|apply le_n]. Qed.

Lemma kept_redefine : forall g w, kept w (redefine g w).
Proof.
  intros. split; [intro H; split; [exact H|reflexivity]|].
  cbn [redefine w_ver]. lia.
Qed.

Lemma kept_loud : forall w, kept w (loud w).
Proof. intros. split; [intro H; discriminate|apply le_n]. Qed.

Lemma kept_singleton : forall o g w, kept w (singleton o g w).
Proof.
  intros. unfold singleton. destruct (w_sing w o).
  - split; [intro H; discriminate|]. cbn [loud redefine w_ver]. lia.
  - split; [intro H; discriminate|]. cbn [w_ver]. lia.
Qed.

Lemma kept_hushed : forall w w', kept w w' -> kept w (hushed w w').
Proof.
  intros w w' H. unfold hushed. destruct (w_ver w =? w_ver w'); [exact H|].
  eapply kept_trans; [exact H|apply kept_loud].
Qed.

Definition keeps (rn : srunner) : Prop :=
  forall w e code w' e', rn w e code = Some (w', e') -> kept w w'.

Lemma sinvoke_kept : forall P rn, keeps rn -> forall w f o args w' v,
  sinvoke P rn w f o args = Some (w', v) -> kept w w'.
Proof.
  intros P rn K w f o args w' v H. unfold sinvoke in H.
  destruct (p_meth P f).
  - injection H as <- <-. apply kept_log.
  - injection H as <- <-. eapply kept_trans; [apply kept_log|apply kept_write].
  - injection H as <- <-. apply kept_log.
  - destruct (rn (log w f o) (env_of o args) body) as [[w2 e2]|] eqn:E; [|discriminate].
    injection H as <- <-. eapply kept_trans; [apply kept_log|]. eapply K. exact E.
Qed.

Lemma sdispatch_kept : forall P rn, keeps rn -> forall w n o args w' v,
  sdispatch P rn w n o args = Some (w', v) -> kept w w'.
Proof.
  intros P rn K w n o args w' v H. unfold sdispatch in H.
  destruct (w_tab w (cls w o) n).
  - eapply sinvoke_kept; eassumption.
  - injection H as <- <-. apply kept_log.
Qed.

Lemma srun_kept : forall P n, keeps (srun P n).
Proof.
  intros P. induction n as [|n IH]; intros w e code w' e' H; cbn [srun] in H; [discriminate|].
  destruct code as [|s rest].
  - injection H as <- <-. apply kept_refl.
  - destruct s.
    + eapply IH. exact H.
    + eapply IH. exact H.
    + destruct (sdispatch P (srun P n) w n0 (e r) (map e args)) as [[w1 v]|] eqn:E; [|discriminate].
      eapply kept_trans; [eapply sdispatch_kept; [exact IH|exact E]|]. eapply IH. exact H.
    + destruct (sdispatch P (srun P n) w n0 (e r) []) as [[w1 v]|] eqn:E; [|discriminate].
      eapply kept_trans; [apply kept_hushed; eapply sdispatch_kept; [exact IH|exact E]|].
      eapply IH. exact H.
    + eapply kept_trans; [apply kept_redefine|]. eapply IH. exact H.
    + eapply kept_trans; [apply kept_singleton|]. eapply IH. exact H.
    + destruct (sdispatch P (srun P n) w n0 (e r) []) as [[w1 v]|] eqn:E; [|discriminate].
      eapply kept_trans; [eapply sdispatch_kept; [exact IH|exact E]|].
      eapply kept_trans; [apply kept_loud|]. eapply IH. exact H.
    + destruct (srun P n w e (if truthy (e s) then a else b)) as [[w1 e1]|] eqn:E; [|discriminate].
      eapply kept_trans; [eapply IH; exact E|]. eapply IH. exact H.
    + destruct (truthy (e s)).
      * destruct (srun P n w e body) as [[w1 e1]|] eqn:E; [|discriminate].
        eapply kept_trans; [eapply IH; exact E|]. eapply IH. exact H.
      * eapply IH. exact H.
Qed.

(** ** The units *)

Record Inv (P : prog) (j : jit) (w : world) : Prop := {
  i_sound : sound_units j w;
  i_le : forall x, j_word j x <= w_ver w;
  i_lt : forall f c u, j_units j f c = Some u -> u_id u < j_next j;
  i_one : forall f c u f' c' u',
    j_units j f c = Some u -> j_units j f' c' = Some u' -> u_id u = u_id u' ->
    f = f' /\ c = c';
  i_wf : forall f c u, j_units j f c = Some u ->
    exists body o, p_meth P f = KBody body
      /\ wf P (u_entries u) (Some (Facts false [Some c])) body (u_code u) o;
}.

Definition ext (j j' : jit) : Prop :=
  (forall f c u, j_units j f c = Some u -> j_units j' f c = Some u)
  /\ (forall x, x < j_next j -> j_word j x <= j_word j' x)
  /\ j_next j <= j_next j'.

Lemma ext_refl : forall j, ext j j.
Proof. intros. split; [auto|]. split; [auto|apply le_n]. Qed.

Lemma ext_trans : forall a b c, ext a b -> ext b c -> ext a c.
Proof.
  intros a b c (U1 & W1 & N1) (U2 & W2 & N2). split; [auto|]. split; [|lia].
  intros x Hx. specialize (W1 x Hx). assert (x < j_next b) as Hb by lia.
  specialize (W2 x Hb). lia.
Qed.

Lemma Inv_jit0 : forall P w, Inv P jit0 w.
Proof.
  intros P w. constructor; try (intros; discriminate).
  intros x. cbn [jit0 j_word]. lia.
Qed.

Lemma Inv_same : forall P j w w', w_ver w' = w_ver w -> w_tab w' = w_tab w ->
  Inv P j w -> Inv P j w'.
Proof.
  intros P j w w' Ev Et I. constructor; try apply I.
  - intros f c u Hu Hw. unfold fresh. rewrite Et. apply (i_sound _ _ _ I f c u Hu).
    rewrite Hw, Ev. reflexivity.
  - intros x. rewrite Ev. apply (i_le _ _ _ I).
Qed.

Lemma Inv_next : forall P j w w', w_ver w < w_ver w' -> Inv P j w -> Inv P j w'.
Proof.
  intros P j w w' Ev I. constructor; try apply I.
  - intros f c u Hu Hw. pose proof (i_le _ _ _ I (u_id u)). lia.
  - intros x. pose proof (i_le _ _ _ I x). lia.
Qed.

Lemma set_word_ok : forall P j w f c u,
  Inv P j w -> j_units j f c = Some u -> fresh w u ->
  Inv P (set_word j (u_id u) (w_ver w)) w.
Proof.
  intros P j w f c u I Hu Hf. constructor; try apply I.
  - intros f' c' u' Hu' Hw. cbn [set_word j_units j_word] in *.
    destruct (u_id u' =? u_id u) eqn:E.
    + apply Nat.eqb_eq in E.
      destruct (i_one _ _ _ I _ _ _ _ _ _ Hu Hu' (eq_sym E)) as [<- <-].
      rewrite Hu in Hu'. injection Hu' as <-. exact Hf.
    + eapply (i_sound _ _ _ I); eassumption.
  - intros x. cbn [set_word j_word]. destruct (x =? u_id u); [apply le_n|apply (i_le _ _ _ I)].
Qed.

Lemma set_word_ext : forall P j w u, Inv P j w -> ext j (set_word j u (w_ver w)).
Proof.
  intros P j w u I. split; [auto|]. split; [|apply le_n].
  intros x _. cbn [set_word j_word]. destruct (x =? u); [apply (i_le _ _ _ I)|apply le_n].
Qed.

Lemma valid_fresh : forall w u, valid w u = true -> fresh w u.
Proof.
  intros w u H. unfold valid in H. unfold fresh. apply Forall_forall. intros e He.
  rewrite forallb_forall in H. apply H in He. apply same_cls_eq in He. exact He.
Qed.

Lemma install_units : forall j w f c l es f' c',
  j_units (install j w f c l es) f' c'
  = if (f' =? f) && (c' =? c) then Some (Unit (j_next j) es l) else j_units j f' c'.
Proof. reflexivity. Qed.

Lemma install_ok : forall P pol j j0 w f c l es n,
  Inv P j w -> compile P pol w j0 n f c = Some (l, es) ->
  Inv P (install j w f c l es) w.
Proof.
  intros P pol j j0 w f c l es n I Hc. apply compile_ok in Hc.
  destruct Hc as (body & o & Hb & Hh & Hwf).
  constructor.
  - intros f' c' u Hu Hw. rewrite install_units in Hu.
    destruct ((f' =? f) && (c' =? c)).
    + injection Hu as <-. exact Hh.
    + cbn [install set_unit j_word] in Hw.
      pose proof (i_lt _ _ _ I _ _ _ Hu) as Hlt.
      destruct (u_id u =? j_next j) eqn:E; [apply Nat.eqb_eq in E; lia|].
      eapply (i_sound _ _ _ I); eassumption.
  - intros x. cbn [install set_unit j_word]. destruct (x =? j_next j);
      [apply le_n|apply (i_le _ _ _ I)].
  - intros f' c' u Hu. rewrite install_units in Hu. cbn [install set_unit j_next].
    destruct ((f' =? f) && (c' =? c)).
    + injection Hu as <-. cbn [u_id]. lia.
    + pose proof (i_lt _ _ _ I _ _ _ Hu). lia.
  - intros f1 c1 u1 f2 c2 u2 H1 H2 E. rewrite install_units in H1, H2.
    destruct ((f1 =? f) && (c1 =? c)) eqn:E1; destruct ((f2 =? f) && (c2 =? c)) eqn:E2.
    + apply andb_prop in E1. apply andb_prop in E2.
      destruct E1 as [A1 B1]. destruct E2 as [A2 B2].
      apply Nat.eqb_eq in A1, A2, B1, B2. subst. split; reflexivity.
    + injection H1 as <-. cbn [u_id] in E. pose proof (i_lt _ _ _ I _ _ _ H2). lia.
    + injection H2 as <-. cbn [u_id] in E. pose proof (i_lt _ _ _ I _ _ _ H1). lia.
    + eapply (i_one _ _ _ I); eassumption.
  - intros f' c' u Hu. rewrite install_units in Hu.
    destruct ((f' =? f) && (c' =? c)) eqn:E.
    + apply andb_prop in E. destruct E as [A B]. apply Nat.eqb_eq in A, B. subst.
      injection Hu as <-. exists body, o. split; [exact Hb|exact Hwf].
    + eapply (i_wf _ _ _ I). exact Hu.
Qed.

Lemma install_ext : forall j w f c l es,
  j_units j f c = None -> ext j (install j w f c l es).
Proof.
  intros j w f c l es Hn. split; [|split].
  - intros f' c' u Hu. rewrite install_units.
    destruct ((f' =? f) && (c' =? c)) eqn:E; [|exact Hu].
    apply andb_prop in E. destruct E as [A B]. apply Nat.eqb_eq in A, B. subst.
    rewrite Hn in Hu. discriminate.
  - intros x Hx. cbn [install set_unit j_word].
    destruct (x =? j_next j) eqn:E; [apply Nat.eqb_eq in E; lia|apply le_n].
  - cbn [install set_unit j_next]. lia.
Qed.

Lemma drop_ok : forall P j w f c, Inv P j w -> Inv P (set_unit j f c None) w.
Proof.
  intros P j w f c I.
  assert (Sub : forall f' c' u, j_units (set_unit j f c None) f' c' = Some u ->
    j_units j f' c' = Some u).
  { intros f' c' u H. cbn [set_unit j_units] in H.
    destruct ((f' =? f) && (c' =? c)); [discriminate|exact H]. }
  constructor.
  - intros f' c' u Hu Hw. apply Sub in Hu. eapply (i_sound _ _ _ I); eassumption.
  - apply I.
  - intros f' c' u Hu. apply Sub in Hu. eapply (i_lt _ _ _ I); eassumption.
  - intros f1 c1 u1 f2 c2 u2 H1 H2 E. apply Sub in H1, H2. eapply (i_one _ _ _ I); eassumption.
  - intros f' c' u Hu. apply Sub in Hu. eapply (i_wf _ _ _ I); eassumption.
Qed.

Lemma recompile_ok : forall P pol j w f c, Inv P j w -> Inv P (recompile P pol j w f c) w.
Proof.
  intros P pol j w f c I. unfold recompile.
  destruct (j_units j f c); [|exact I].
  destruct (compile P pol w j (size pol w j f c) f c) as [[l es]|] eqn:E.
  - eapply install_ok; eassumption.
  - apply drop_ok. exact I.
Qed.

(** ** A compiled frame *)

Definition framed (ES : list entry) (j : jit) (w : world) (fr : frame) : Prop :=
  exists u, j_units j (fr_fid fr) (fr_cls fr) = Some u
    /\ u_id u = fr_uid fr /\ u_entries u = ES
    /\ (fr_spec fr = false -> cls w (fr_self fr) = fr_cls fr).

Lemma framed_ext : forall ES j j' w w' fr,
  framed ES j w fr -> ext j j' -> (forall o, cls w' o = cls w o) -> framed ES j' w' fr.
Proof.
  intros ES j j' w w' fr (u & H1 & H2 & H3 & H4) (U & _) Hc.
  exists u. split; [apply U; exact H1|]. split; [exact H2|]. split; [exact H3|].
  intro Hs. rewrite Hc. apply H4. exact Hs.
Qed.

Lemma framed_fresh : forall P ES j w fr,
  Inv P j w -> framed ES j w fr -> j_word j (fr_uid fr) = w_ver w ->
  forall c n f, In (Entry c n f) ES -> w_tab w c n = Some f.
Proof.
  intros P ES j w fr I (u & H1 & H2 & H3 & _) Hw c n f Hin.
  rewrite <- H2 in Hw. pose proof (i_sound _ _ _ I _ _ _ H1 Hw) as Hf.
  unfold fresh in Hf. rewrite H3 in Hf. rewrite Forall_forall in Hf.
  apply Hf in Hin. exact Hin.
Qed.

Lemma version_guard_ok : forall P pol ES j w fr pass j1,
  Inv P j w -> framed ES j w fr ->
  version_guard P pol j w fr = (pass, j1) ->
  Inv P j1 w /\ (pass = true -> ext j j1 /\ j_word j1 (fr_uid fr) = w_ver w).
Proof.
  intros P pol ES j w fr pass j1 I (u & H1 & H2 & H3 & H4) H. unfold version_guard in H.
  destruct (j_word j (fr_uid fr) =? w_ver w) eqn:Ew.
  { injection H as <- <-. apply Nat.eqb_eq in Ew. split; [exact I|].
    intros _. split; [apply ext_refl|exact Ew]. }
  destruct (fr_spec fr) eqn:Es.
  - rewrite H1 in H. destruct (valid w u) eqn:Ev; injection H as <- <-.
    + split; [|intro; discriminate]. apply valid_fresh in Ev. rewrite <- H2.
      assert (I1 : Inv P (set_word j (u_id u) (w_ver w)) w)
        by (eapply set_word_ok; eassumption).
      eapply set_word_ok; [exact I1|exact H1|exact Ev].
    + split; [exact I|intro; discriminate].
  - rewrite (H4 eq_refl) in H. rewrite H1 in H.
    destruct (valid w u) eqn:Ev; injection H as <- <-.
    + apply valid_fresh in Ev. split; [eapply set_word_ok; eassumption|].
      intros _. split; [eapply set_word_ext; exact I|].
      cbn [set_word j_word]. rewrite <- H2, Nat.eqb_refl. reflexivity.
    + split; [apply recompile_ok; exact I|intro; discriminate].
Qed.

(** ** The state in which a frame runs *)

Definition mode (ES : list entry) (j : jit) (w : world) (e : env) (fr : option frame)
    (cv : bool) (o : option facts) : Prop :=
  (exists F fx, fr = Some F /\ cv = false /\ o = Some fx /\ framed ES j w F
     /\ facts_ok fx w e /\ (f_flag fx = true -> j_word j (fr_uid F) = w_ver w))
  \/ (o = None /\ (fr = None \/ cv = true)).

(** What a compiled frame knows at the end. *)
Definition done (j : jit) (w : world) (e : env) (fr : option frame)
    (cv : bool) (o : option facts) : Prop :=
  forall F, fr = Some F -> cv = false ->
  exists fx, o = Some fx /\ facts_ok fx w e
    /\ (f_flag fx = true -> j_word j (fr_uid F) = w_ver w).

Definition simulates (P : prog) (rn : runner) (sr : srunner) : Prop :=
  forall ES j w e fr cv code acode o o' w' e',
  Inv P j w -> wf P ES o code acode o' -> mode ES j w e fr cv o ->
  sr w e code = Some (w', e') -> calm w' ->
  exists j' cv', rn j w e fr cv acode = Some (j', w', e', cv')
    /\ Inv P j' w' /\ (cv = true -> cv' = true) /\ (cv' = false -> ext j j')
    /\ done j' w' e' fr cv' o'.

Lemma facts_ok_learn : forall fx w e d v c,
  facts_ok fx w e -> (forall k, c = Some k -> cls w v = k) ->
  facts_ok (learn fx d c) w (upd e d v).
Proof.
  intros fx w e d v c H Hc s k Hk. rewrite known_learn in Hk. unfold upd.
  destruct (s =? d); [apply Hc; exact Hk|apply H; exact Hk].
Qed.

Lemma facts_ok_cls : forall fx w w' e,
  facts_ok fx w e -> (forall o, cls w' o = cls w o) -> facts_ok fx w' e.
Proof. intros fx w w' e H Hc s k Hk. rewrite Hc. apply H. exact Hk. Qed.

Lemma facts_ok_weaker : forall h fx w e, facts_ok fx w e -> weaker h fx -> facts_ok h w e.
Proof. intros h fx w e H [_ Hw] s k Hk. apply H. apply Hw. exact Hk. Qed.

Lemma facts_args : forall fx w e args s k,
  facts_ok fx w e -> nth s (map (known fx) args) None = Some k ->
  cls w (nth s (map e args) 0) = k.
Proof.
  intros fx w e. induction args as [|a args IH]; intros s k Hf Hk;
    destruct s as [|s]; cbn [map nth] in *; try discriminate.
  - apply Hf. exact Hk.
  - apply IH; assumption.
Qed.

Section Sim.
Variable P : prog.
Variable pol : policy.
Variable rn : runner.
Variable sr : srunner.
Hypothesis SIM : simulates P rn sr.
Hypothesis KEEP : keeps sr.

Lemma enter_ok : forall j w f o body args j1 fr code,
  Inv P j w -> p_meth P f = KBody body ->
  enter P pol j w f (cls w o) o body = (j1, fr, code) ->
  Inv P j1 w /\ ext j j1
  /\ exists ES ox o', wf P ES ox body code o' /\ mode ES j1 w (env_of o args) fr false ox.
Proof.
  intros j w f o body args j1 fr code I Hb H. unfold enter in H.
  assert (Hf : facts_ok (Facts false [Some (cls w o)]) w (env_of o args)).
  { intros s c Hk. unfold known in Hk. cbn [f_cls] in Hk.
    destruct s as [|s]; cbn [nth] in Hk.
    - injection Hk as <-. reflexivity.
    - destruct s; discriminate. }
  destruct (j_units j f (cls w o)) as [u|] eqn:Eu.
  - injection H as <- <- <-. split; [exact I|]. split; [apply ext_refl|].
    destruct (i_wf _ _ _ I _ _ _ Eu) as (body' & o' & Hb' & Hwf).
    rewrite Hb in Hb'. injection Hb' as <-.
    exists (u_entries u), (Some (Facts false [Some (cls w o)])), o'.
    split; [exact Hwf|]. left.
    exists (Frame f (cls w o) o (u_id u) false), (Facts false [Some (cls w o)]).
    split; [reflexivity|]. split; [reflexivity|]. split; [reflexivity|].
    split; [|split; [exact Hf|intro; discriminate]].
    exists u. split; [exact Eu|]. split; [reflexivity|]. split; [reflexivity|].
    intros _. reflexivity.
  - assert (Plain : Inv P j w /\ ext j j
      /\ exists ES ox o', wf P ES ox body (plain body) o'
           /\ mode ES j w (env_of o args) None false ox).
    { split; [exact I|]. split; [apply ext_refl|].
      exists [], None, None. split; [eapply wf_plain; apply le_n|].
      right. split; [reflexivity|left; reflexivity]. }
    destruct (hot pol w j f (cls w o));
      [|injection H as <- <- <-; exact Plain].
    destruct (compile P pol w j (size pol w j f (cls w o)) f (cls w o)) as [[l es]|] eqn:Ec;
      [|injection H as <- <- <-; exact Plain].
    injection H as <- <- <-.
    pose proof (compile_ok _ _ _ _ _ _ _ _ _ Ec) as (body' & o' & Hb' & _ & Hwf).
    rewrite Hb in Hb'. injection Hb' as <-.
    split; [eapply install_ok; eassumption|].
    split; [apply install_ext; exact Eu|].
    exists es, (Some (Facts false [Some (cls w o)])), o'. split; [exact Hwf|]. left.
    exists (Frame f (cls w o) o (j_next j) false), (Facts false [Some (cls w o)]).
    split; [reflexivity|]. split; [reflexivity|]. split; [reflexivity|].
    split; [|split; [exact Hf|intro; discriminate]].
    exists (Unit (j_next j) es l). cbn [fr_fid fr_cls fr_uid u_id u_entries].
    rewrite install_units, !Nat.eqb_refl. cbn [andb].
    split; [reflexivity|]. split; [reflexivity|]. split; [reflexivity|].
    intros _. reflexivity.
Qed.

Lemma invoke_ok : forall j w f o args w' v,
  Inv P j w -> sinvoke P sr w f o args = Some (w', v) -> calm w' ->
  exists j' cv, invoke P pol rn j w f (cls w o) o args = Some (j', w', v, cv)
    /\ Inv P j' w' /\ (cv = false -> ext j j').
Proof.
  intros j w f o args w' v I H Hq. unfold sinvoke in H. unfold invoke.
  assert (I0 : Inv P j (log w f o)) by (eapply Inv_same; [| |exact I]; reflexivity).
  destruct (p_meth P f) as [iv|iv|k|body] eqn:Em.
  - injection H as <- <-. exists j, false. split; [reflexivity|]. split; [exact I0|].
    intros _. apply ext_refl.
  - injection H as <- <-. exists j, false. split; [reflexivity|].
    split; [eapply Inv_same; [| |exact I]; reflexivity|]. intros _. apply ext_refl.
  - injection H as <- <-. exists j, false. split; [reflexivity|]. split; [exact I0|].
    intros _. apply ext_refl.
  - destruct (sr (log w f o) (env_of o args) body) as [[w2 e2]|] eqn:E; [|discriminate].
    injection H as <- <-.
    change (cls w o) with (cls (log w f o) o).
    destruct (enter P pol j (log w f o) f (cls (log w f o) o) o body)
      as [[j1 fr] code] eqn:Ee.
    destruct (enter_ok _ _ _ _ _ args _ _ _ I0 Em Ee) as (I1 & X1 & ES & ox & o' & Hwf & Hm).
    destruct (SIM _ _ _ _ _ _ _ _ _ _ _ _ I1 Hwf Hm E Hq)
      as (j2 & cv & Hr & I2 & _ & X2 & _).
    rewrite Hr. exists j2, cv. split; [reflexivity|]. split; [exact I2|].
    intro Hcv. eapply ext_trans; [exact X1|apply X2; exact Hcv].
Qed.

Lemma dispatch_ok : forall j w n o args w' v,
  Inv P j w -> sdispatch P sr w n o args = Some (w', v) -> calm w' ->
  exists j' cv, dispatch P pol rn j w n o args = Some (j', w', v, cv)
    /\ Inv P j' w' /\ (cv = false -> ext j j').
Proof.
  intros j w n o args w' v I H Hq. unfold sdispatch in H. unfold dispatch.
  destruct (w_tab w (cls w o) n).
  - eapply invoke_ok; eassumption.
  - injection H as <- <-. exists j, false. split; [reflexivity|].
    split; [eapply Inv_same; [| |exact I]; reflexivity|]. intros _. apply ext_refl.
Qed.

(** A call made by compiled code. *)
Definition call_ok (ES : list entry) (fx : facts) (a : ann) (d r n : nat) (args : list nat)
    (o1 : option facts) : Prop :=
  forall j w e F w' v,
  Inv P j w -> framed ES j w F -> facts_ok fx w e ->
  (f_flag fx = true -> j_word j (fr_uid F) = w_ver w) ->
  sdispatch P sr w n (e r) (map e args) = Some (w', v) -> calm w' ->
  exists j' cv, call P pol rn j w e F r n args a = Some (j', w', v, cv)
    /\ Inv P j' w' /\ (cv = false -> ext j j')
    /\ (cv = false -> exists fx', o1 = Some fx' /\ facts_ok fx' w' (upd e d v)
          /\ (f_flag fx' = true -> j_word j' (fr_uid F) = w_ver w')).

Lemma slow_ok : forall j w n o args w' v,
  Inv P j w -> sdispatch P sr w n o args = Some (w', v) -> calm w' ->
  exists j', match dispatch P pol rn j w n o args with
             | Some (j', w', v, _) => Some (j', w', v, true)
             | None => None
             end = Some (j', w', v, true) /\ Inv P j' w'.
Proof.
  intros j w n o args w' v I H Hq.
  destruct (dispatch_ok _ _ _ _ _ _ _ I H Hq) as (j' & cv & Hd & I' & _).
  rewrite Hd. exists j'. split; [reflexivity|exact I'].
Qed.

(** Past the guards: the function found at compile time is the current one. *)
Lemma guards_ok : forall ES fx fx1 r n c f cg j w e F,
  Inv P j w -> framed ES j w F -> facts_ok fx w e ->
  j_word j (fr_uid F) = w_ver w ->
  In (Entry c n f) ES -> guarded ES fx r n c f cg fx1 ->
  class_ok cg c (cls w (e r)) = true ->
  w_tab w (cls w (e r)) n = Some f /\ facts_ok fx1 w e
  /\ match cg with GSet _ => cls w (e r) | _ => c end = cls w (e r).
Proof.
  intros ES fx fx1 r n c f cg j w e F I Hfr Hf Hw Hin Hg Hok.
  pose proof (framed_fresh _ _ _ _ _ I Hfr Hw) as Fr.
  destruct cg as [| |l]; cbn [guarded class_ok] in *.
  - destruct Hg as [Hk ->]. pose proof (Hf _ _ Hk) as Hc. rewrite Hc.
    split; [apply Fr; exact Hin|]. split; [exact Hf|reflexivity].
  - apply Nat.eqb_eq in Hok. subst fx1. rewrite Hok.
    split; [apply Fr; exact Hin|]. split; [|reflexivity].
    intros s k Hk. rewrite known_learn in Hk. destruct (s =? r) eqn:E.
    + apply Nat.eqb_eq in E. subst s. injection Hk as <-. exact Hok.
    + apply Hf. exact Hk.
  - destruct Hg as [-> Hl]. apply existsb_exists in Hok. destruct Hok as (k & Hk & E).
    apply Nat.eqb_eq in E. subst k. rewrite Forall_forall in Hl.
    split; [apply Fr; apply Hl; exact Hk|]. split; [exact Hf|reflexivity].
Qed.

Lemma ann_ok : forall ES fx fx1 d r n args vg cg c f h o1,
  (vg = false -> f_flag fx = true) ->
  In (Entry c n f) ES ->
  guarded ES fx r n c f cg fx1 ->
  (* what the call itself gives *)
  (forall j w e F w' v,
     Inv P j w -> framed ES j w F -> facts_ok fx1 w e ->
     j_word j (fr_uid F) = w_ver w -> cls w (e r) = (match cg with GSet _ => cls w (e r) | _ => c end) ->
     sinvoke P sr w f (e r) (map e args) = Some (w', v) -> calm w' ->
     exists j' cv,
       match h with
       | HInline | HSend => invoke P pol rn j w f (cls w (e r)) (e r) (map e args)
       | HSpec body => specialized rn j w F f (e r) (map e args) body
       end = Some (j', w', v, cv)
       /\ Inv P j' w' /\ (cv = false -> ext j j')
       /\ (cv = false -> exists fx', o1 = Some fx' /\ facts_ok fx' w' (upd e d v)
             /\ (f_flag fx' = true -> j_word j' (fr_uid F) = w_ver w'))) ->
  call_ok ES fx (Ann vg cg c f h) d r n args o1.
Proof.
  intros ES fx fx1 d r n args vg cg c f h o1 Hvg Hin Hg Hcall.
  intros j w e F w' v I Hfr Hf Hw Hs Hq. unfold call.
  assert (Hv : exists pass j1,
    (if vg then version_guard P pol j w F else (true, j)) = (pass, j1)
    /\ Inv P j1 w /\ (pass = true -> ext j j1 /\ j_word j1 (fr_uid F) = w_ver w)).
  { destruct vg.
    - destruct (version_guard P pol j w F) as [pass j1] eqn:E.
      exists pass, j1. split; [reflexivity|]. eapply version_guard_ok; eassumption.
    - exists true, j. split; [reflexivity|]. split; [exact I|].
      intros _. split; [apply ext_refl|apply Hw; apply Hvg; reflexivity]. }
  destruct Hv as (pass & j1 & Ev & I1 & Hp). rewrite Ev.
  destruct pass; cbn [negb].
  - destruct (Hp eq_refl) as [X1 W1].
    destruct (class_ok cg c (cls w (e r))) eqn:Eok; cbn [negb].
    + assert (Hfr1 : framed ES j1 w F)
        by (eapply framed_ext; [exact Hfr|exact X1|reflexivity]).
      destruct (guards_ok _ _ _ _ _ _ _ _ _ _ _ _ I1 Hfr1 Hf W1 Hin Hg Eok)
        as (Ht & Hf1 & Hk).
      rewrite Hk. unfold sdispatch in Hs. rewrite Ht in Hs.
      destruct (Hcall _ _ _ _ _ _ I1 Hfr1 Hf1 W1 (eq_sym Hk) Hs Hq)
        as (j' & cv & Hr & I' & X' & D').
      exists j', cv. split; [exact Hr|]. split; [exact I'|]. split; [|exact D'].
      intro Hcv. eapply ext_trans; [exact X1|apply X'; exact Hcv].
    + set (j2 := if _ && _ then _ else _).
      assert (I2 : Inv P j2 w)
        by (unfold j2; destruct (negb (fr_spec F) && relearn pol w j1 (fr_fid F));
            [apply recompile_ok; exact I1|exact I1]).
      destruct (slow_ok _ _ _ _ _ _ _ I2 Hs Hq) as (j' & Hr & I').
      exists j', true. split; [exact Hr|]. split; [exact I'|]. split; intro; discriminate.
  - destruct (slow_ok _ _ _ _ _ _ _ I1 Hs Hq) as (j' & Hr & I').
    exists j', true. split; [exact Hr|]. split; [exact I'|]. split; intro; discriminate.
Qed.

Lemma deopt_ok : forall ES fx d r n args o1, call_ok ES fx Deopt d r n args o1.
Proof.
  intros ES fx d r n args o1 j w e F w' v I Hfr Hf Hw Hs Hq. unfold call.
  destruct (slow_ok _ _ _ _ _ _ _ I Hs Hq) as (j' & Hr & I').
  exists j', true. split; [exact Hr|]. split; [exact I'|]. split; intro; discriminate.
Qed.

Lemma invoked_kept : forall w f o args w' v,
  sinvoke P sr w f o args = Some (w', v) -> calm w' -> forall x, cls w' x = cls w x.
Proof.
  intros w f o args w' v H Hq. apply (sinvoke_kept _ _ KEEP) in H.
  destruct H as [H _]. apply H. exact Hq.
Qed.

Lemma inline_ok : forall ES fx fx1 d r n args vg cg c f,
  (vg = false -> f_flag fx = true) -> In (Entry c n f) ES ->
  guarded ES fx r n c f cg fx1 -> (forall body, p_meth P f <> KBody body) ->
  call_ok ES fx (Ann vg cg c f HInline) d r n args (Some (learn fx1 d None)).
Proof.
  intros ES fx fx1 d r n args vg cg c f Hvg Hin Hg Hnb.
  apply (ann_ok ES fx fx1); try assumption.
  intros j w e F w' v I Hfr Hf Hw _ Hs Hq.
  pose proof (invoked_kept _ _ _ _ _ _ Hs Hq) as Hc.
  unfold sinvoke in Hs. unfold invoke.
  assert (D : forall w1 v1, (forall x, cls w1 x = cls w x) -> w_ver w1 = w_ver w ->
    false = false -> exists fx', Some (learn fx1 d None) = Some fx'
      /\ facts_ok fx' w1 (upd e d v1)
      /\ (f_flag fx' = true -> j_word j (fr_uid F) = w_ver w1)).
  { intros w1 v1 Hc1 Hv1 _. exists (learn fx1 d None). split; [reflexivity|].
    split; [|intros _; rewrite Hv1; exact Hw].
    apply facts_ok_learn; [|intros k Hk; discriminate].
    eapply facts_ok_cls; [exact Hf|exact Hc1]. }
  destruct (p_meth P f) as [iv|iv|k|body] eqn:Em.
  - injection Hs as <- <-. exists j, false. split; [reflexivity|].
    split; [eapply Inv_same; [| |exact I]; reflexivity|].
    split; [intros _; apply ext_refl|]. apply D; reflexivity.
  - injection Hs as <- <-. exists j, false. split; [reflexivity|].
    split; [eapply Inv_same; [| |exact I]; reflexivity|].
    split; [intros _; apply ext_refl|]. apply D; reflexivity.
  - injection Hs as <- <-. exists j, false. split; [reflexivity|].
    split; [eapply Inv_same; [| |exact I]; reflexivity|].
    split; [intros _; apply ext_refl|]. apply D; reflexivity.
  - exfalso. apply (Hnb body). reflexivity.
Qed.

Lemma send_ok : forall ES fx fx1 d r n args vg cg c f,
  (vg = false -> f_flag fx = true) -> In (Entry c n f) ES ->
  guarded ES fx r n c f cg fx1 ->
  call_ok ES fx (Ann vg cg c f HSend) d r n args (Some (flag (learn fx1 d None) false)).
Proof.
  intros ES fx fx1 d r n args vg cg c f Hvg Hin Hg.
  apply (ann_ok ES fx fx1); try assumption.
  intros j w e F w' v I Hfr Hf Hw _ Hs Hq.
  pose proof (invoked_kept _ _ _ _ _ _ Hs Hq) as Hc.
  destruct (invoke_ok _ _ _ _ _ _ _ I Hs Hq) as (j' & cv & Hr & I' & X').
  exists j', cv. split; [exact Hr|]. split; [exact I'|]. split; [exact X'|].
  intros _. exists (flag (learn fx1 d None) false). split; [reflexivity|].
  split; [|intro; discriminate].
  intros s k Hk. rewrite known_flag in Hk. revert s k Hk.
  change (facts_ok (learn fx1 d None) w' (upd e d v)).
  apply facts_ok_learn; [|intros k Hk; discriminate].
  eapply facts_ok_cls; [exact Hf|exact Hc].
Qed.

Lemma spec_ok : forall ES fx fx1 d r n args vg cg c f body b ob,
  (vg = false -> f_flag fx = true) -> In (Entry c n f) ES ->
  guarded ES fx r n c f cg fx1 -> is_set cg = false ->
  p_meth P f = KBody body ->
  wf P ES (Some (spec_facts fx1 c args)) body b ob ->
  call_ok ES fx (Ann vg cg c f (HSpec b)) d r n args
    (match ob with
     | None => None
     | Some fb => Some (flag (learn fx1 d None) (f_flag fx1 && f_flag fb))
     end).
Proof.
  intros ES fx fx1 d r n args vg cg c f body b ob Hvg Hin Hg Hset Hb Hwf.
  apply (ann_ok ES fx fx1); try assumption.
  intros j w e F w' v I Hfr Hf Hw Hk Hs Hq.
  pose proof (invoked_kept _ _ _ _ _ _ Hs Hq) as Hc.
  unfold sinvoke in Hs. rewrite Hb in Hs. unfold specialized.
  destruct (sr (log w f (e r)) (env_of (e r) (map e args)) body) as [[w2 e2]|] eqn:E;
    [|discriminate].
  injection Hs as <- <-.
  assert (I0 : Inv P j (log w f (e r))) by (eapply Inv_same; [| |exact I]; reflexivity).
  assert (Hm : mode ES j (log w f (e r)) (env_of (e r) (map e args))
    (Some (Frame (fr_fid F) (fr_cls F) (e r) (fr_uid F) true)) false
    (Some (spec_facts fx1 c args))).
  { left. exists (Frame (fr_fid F) (fr_cls F) (e r) (fr_uid F) true), (spec_facts fx1 c args).
    split; [reflexivity|]. split; [reflexivity|]. split; [reflexivity|].
    split; [|split; [|intro; discriminate]].
    - destruct Hfr as (u & H1 & H2 & H3 & _). exists u.
      split; [exact H1|]. split; [exact H2|]. split; [exact H3|].
      cbn [fr_spec]. intro; discriminate.
    - intros s k Hs. unfold known, spec_facts in Hs. cbn [f_cls] in Hs.
      change (cls w (env_of (e r) (map e args) s) = k).
      destruct s as [|s]; cbn [nth env_of] in *.
      + injection Hs as <-. destruct cg; cbn [is_set] in Hset; try discriminate; exact Hk.
      + eapply facts_args; [exact Hf|exact Hs]. }
  destruct (SIM _ _ _ _ _ _ _ _ _ _ _ _ I0 Hwf Hm E Hq)
    as (j2 & cv & Hr & I2 & _ & X2 & D2).
  rewrite Hr. exists j2, cv. split; [reflexivity|]. split; [exact I2|]. split; [exact X2|].
  intro Hcv. destruct (D2 _ eq_refl Hcv) as (fb & -> & _ & Hfb). cbn [fr_uid] in Hfb.
  exists (flag (learn fx1 d None) (f_flag fx1 && f_flag fb)). split; [reflexivity|].
  split.
  - intros s k Hs. rewrite known_flag in Hs. revert s k Hs.
    change (facts_ok (learn fx1 d None) w2 (upd e d (e2 1))).
    apply facts_ok_learn; [|intros k Hk'; discriminate].
    eapply facts_ok_cls; [exact Hf|exact Hc].
  - cbn [flag f_flag]. intro Hb2. apply andb_prop in Hb2. apply Hfb. tauto.
Qed.

(** Behind a call: the frame goes on compiled, or interpreted. *)
Lemma goes_on : forall ES j w e fr cv o j1 w1 e1 cv1 o1,
  mode ES j w e fr cv o ->
  (cv1 = false -> ext j j1) -> (forall x, cls w1 x = cls w x) ->
  (forall F fx, fr = Some F -> cv = false -> o = Some fx -> cv1 = false ->
     exists fx', o1 = Some fx' /\ facts_ok fx' w1 e1
       /\ (f_flag fx' = true -> j_word j1 (fr_uid F) = w_ver w1)) ->
  (o = None -> o1 = None) ->
  mode ES j1 w1 e1 fr (cv || cv1) o1 \/ mode ES j1 w1 e1 fr (cv || cv1) None.
Proof.
  intros ES j w e fr cv o j1 w1 e1 cv1 o1 [Hm|Hm] Hx Hc Hgo Hno.
  - destruct Hm as (F & fx & -> & -> & -> & Hfr & Hf & Hw). cbn [orb].
    destruct cv1.
    + right. right. split; [reflexivity|right; reflexivity].
    + left. left. destruct (Hgo F fx eq_refl eq_refl eq_refl eq_refl) as (fx' & -> & H1 & H2).
      exists F, fx'. split; [reflexivity|]. split; [reflexivity|]. split; [reflexivity|].
      split; [|split; assumption]. eapply framed_ext; [exact Hfr|apply Hx; reflexivity|exact Hc].
  - destruct Hm as [-> Hm]. right. right. split; [reflexivity|].
    destruct Hm as [->| ->]; [left|right]; reflexivity.
Qed.

End Sim.

Lemma mode_none : forall ES j w e fr cv, fr = None \/ cv = true -> mode ES j w e fr cv None.
Proof. intros. right. split; [reflexivity|assumption]. Qed.

(** ** The simulation *)

Lemma run_sim : forall P pol n, simulates P (run P pol n) (srun P n).
Proof.
  intros P pol. induction n as [|n IH]; [intros ES j w e fr cv code acode o o' w' e' _ _ _ H; discriminate|].
  pose proof (srun_kept P n) as KEEP.
  intros ES j w e fr cv code acode o o' w' e' I Hwf Hm Hs Hq.
  (* finish with the rest of the code *)
  assert (Rest : forall j1 w1 e1 cv1 o1 rest l,
    Inv P j1 w1 -> wf P ES o1 rest l o' ->
    (mode ES j1 w1 e1 fr cv1 o1 \/ mode ES j1 w1 e1 fr cv1 None) ->
    (cv = true -> cv1 = true) -> (cv1 = false -> ext j j1) ->
    srun P n w1 e1 rest = Some (w', e') ->
    exists j' cv', run P pol n j1 w1 e1 fr cv1 l = Some (j', w', e', cv')
      /\ Inv P j' w' /\ (cv = true -> cv' = true) /\ (cv' = false -> ext j j')
      /\ done j' w' e' fr cv' o').
  { intros j1 w1 e1 cv1 o1 rest l I1 Hwf1 [Hm1|Hm1] Hcv1 X1 Hs1.
    - destruct (IH _ _ _ _ _ _ _ _ _ _ _ _ I1 Hwf1 Hm1 Hs1 Hq)
        as (j' & cv' & Hr & I' & Hcv & X' & D').
      exists j', cv'. split; [exact Hr|]. split; [exact I'|].
      split; [auto|]. split; [|exact D'].
      intro Hc. assert (cv1 = false) as Hc1.
      { destruct cv1; [|reflexivity]. rewrite (Hcv eq_refl) in Hc. discriminate. }
      eapply ext_trans; [apply X1; exact Hc1|apply X'; exact Hc].
    - apply wf_none in Hwf1.
      destruct (IH _ _ _ _ _ _ _ _ _ _ _ _ I1 Hwf1 Hm1 Hs1 Hq)
        as (j' & cv' & Hr & I' & Hcv & X' & D').
      exists j', cv'. split; [exact Hr|]. split; [exact I'|].
      split; [auto|]. split.
      + intro Hc. assert (cv1 = false) as Hc1.
        { destruct cv1; [|reflexivity]. rewrite (Hcv eq_refl) in Hc. discriminate. }
        eapply ext_trans; [apply X1; exact Hc1|apply X'; exact Hc].
      + intros F HF Hc. destruct (D' F HF Hc) as (fx & Hno & _). discriminate. }
  destruct Hwf; cbn [srun] in Hs; cbn [run].
  - (* nothing left *)
    injection Hs as <- <-. exists j, cv. split; [reflexivity|]. split; [exact I|].
    split; [auto|]. split; [intros _; apply ext_refl|].
    intros F HF Hc. destruct Hm as [Hm|[_ Hm]].
    + destruct Hm as (F' & fx & HF' & _ & -> & _ & Hf & Hw).
      rewrite HF in HF'. injection HF' as <-. exists fx.
      split; [reflexivity|]. split; assumption.
    + destruct Hm as [Hm|Hm]; [rewrite HF in Hm|rewrite Hc in Hm]; discriminate.
  - (* move *)
    eapply Rest; [exact I|exact Hwf| |auto|intros _; apply ext_refl|exact Hs].
    left. destruct Hm as [Hm|[-> Hm]]; [|apply mode_none; exact Hm].
    destruct Hm as (F & fx & -> & -> & -> & Hfr & Hf & Hw). left. cbn [omap].
    exists F, (learn fx d (known fx s)). split; [reflexivity|]. split; [reflexivity|].
    split; [reflexivity|]. split; [exact Hfr|]. split; [|exact Hw].
    apply facts_ok_learn; [exact Hf|]. intros k Hk. apply Hf. exact Hk.
  - (* prim *)
    eapply Rest with (cv1 := cv || _); [exact I|exact Hwf| | |intros _; apply ext_refl|exact Hs].
    + destruct Hm as [Hm|[-> Hm]].
      * destruct Hm as (F & fx & -> & -> & -> & Hfr & Hf & Hw). cbn [orb omap].
        destruct (odd pol w j k); [right; apply mode_none; right; reflexivity|].
        left. left.
        exists F, (learn fx d None). split; [reflexivity|]. split; [reflexivity|].
        split; [reflexivity|]. split; [exact Hfr|]. split; [|exact Hw].
        apply facts_ok_learn; [exact Hf|]. intros q Hk. discriminate.
      * left. apply mode_none. destruct Hm as [->| ->]; [left|right]; reflexivity.
    + intros ->. reflexivity.
  - (* helper *)
    destruct (sdispatch P (srun P n) w nm (e r) []) as [[w1 v]|] eqn:Ed; [|discriminate].
    pose proof (KEEP _ _ _ _ _ Hs) as [K1 _].
    destruct (K1 Hq) as [Q1 _].
    assert (Hh : hushed w w1 = w1 /\ w_ver w1 = w_ver w).
    { unfold hushed in *. destruct (w_ver w =? w_ver w1) eqn:E.
      - apply Nat.eqb_eq in E. split; [reflexivity|auto].
      - discriminate Q1. }
    destruct Hh as [Hh Hv]. rewrite Hh in *.
    destruct (dispatch_ok P pol _ _ IH _ _ _ _ _ _ _ I Ed Q1) as (j1 & cv1 & Hr & I1 & X1).
    rewrite Hr. rewrite Hh.
    assert (Hc : forall x, cls w1 x = cls w x).
    { apply (sdispatch_kept _ _ KEEP) in Ed. destruct Ed as [Ed _]. apply Ed. exact Q1. }
    eapply Rest with (cv1 := cv || cv1); [exact I1|exact Hwf| | | |exact Hs].
    + eapply goes_on; [exact Hm|exact X1|exact Hc| |intros ->; reflexivity].
      intros F fx -> -> -> Hcv1. cbn [omap]. exists (learn fx d None).
      split; [reflexivity|].
      destruct Hm as [Hm|[Hm _]]; [|discriminate].
      destruct Hm as (F' & fx' & HF & _ & Ho & Hfr & Hf & Hw).
      injection HF as <-. injection Ho as <-.
      split.
      * apply facts_ok_learn; [|intros k Hk; discriminate].
        eapply facts_ok_cls; [exact Hf|exact Hc].
      * intro Hfl. specialize (Hw Hfl). destruct (X1 Hcv1) as (_ & W1 & _).
        destruct Hfr as (u & Hu & Hid & _). pose proof (i_lt _ _ _ I _ _ _ Hu) as Hlt.
        rewrite Hid in Hlt. specialize (W1 _ Hlt).
        pose proof (i_le _ _ _ I1 (fr_uid F)) as Hle. lia.
    + intros ->. reflexivity.
    + intro Hcc. apply orb_false_elim in Hcc. apply X1. tauto.
  - (* def *)
    eapply Rest; [|exact Hwf| |auto|intros _; apply ext_refl|exact Hs].
    + eapply Inv_next; [|exact I]. cbn [redefine w_ver]. lia.
    + left. destruct Hm as [Hm|[-> Hm]]; [|apply mode_none; exact Hm].
      destruct Hm as (F & fx & -> & -> & -> & Hfr & Hf & Hw). left. cbn [omap].
      exists F, (flag fx false). split; [reflexivity|]. split; [reflexivity|].
      split; [reflexivity|]. split; [exact Hfr|]. split; [exact Hf|intro; discriminate].
  - (* a singleton class is not calm *)
    exfalso. pose proof (KEEP _ _ _ _ _ Hs) as [K1 _]. destruct (K1 Hq) as [Q1 _].
    unfold calm, singleton in Q1. destruct (w_sing w (e r)); discriminate.
  - (* a fiber is not calm *)
    exfalso. destruct (sdispatch P (srun P n) w nm (e r) []) as [[w1 v]|]; [|discriminate].
    pose proof (KEEP _ _ _ _ _ Hs) as [K1 _]. destruct (K1 Hq) as [Q1 _]. discriminate.
  - (* an interpreted call *)
    destruct (sdispatch P (srun P n) w nm (e r) (map e args)) as [[w1 v]|] eqn:Ed; [|discriminate].
    pose proof (KEEP _ _ _ _ _ Hs) as [K1 _]. destruct (K1 Hq) as [Q1 _].
    assert (Hc : forall x, cls w1 x = cls w x).
    { apply (sdispatch_kept _ _ KEEP) in Ed. destruct Ed as [Ed' _]. apply Ed'. exact Q1. }
    destruct Hm as [Hm|[-> Hm]].
    + destruct Hm as (F & fx & -> & -> & -> & Hfr & Hf & Hw).
      destruct H as [H|H]; [discriminate|]. subst a.
      destruct (deopt_ok P pol _ _ IH ES fx d r nm args None _ _ _ _ _ _ I Hfr Hf Hw Ed Q1)
        as (j1 & cv1 & Hr & I1 & X1 & D1).
      rewrite Hr. cbn [orb].
      eapply Rest with (cv1 := cv1); [exact I1|exact Hwf| |intro; discriminate|exact X1|exact Hs].
      left. destruct cv1; [apply mode_none; right; reflexivity|].
      destruct (D1 eq_refl) as (fx' & Hno & _). discriminate.
    + destruct (dispatch_ok P pol _ _ IH _ _ _ _ _ _ _ I Ed Q1) as (j1 & cv1 & Hr & I1 & X1).
      assert (Hsame : match fr, cv with
        | Some fr0, false => call P pol (run P pol n) j w e fr0 r nm args a
        | _, _ => dispatch P pol (run P pol n) j w nm (e r) (map e args)
        end = Some (j1, w1, v, cv1)).
      { destruct Hm as [->| ->]; [exact Hr|]. destruct fr; exact Hr. }
      rewrite Hsame.
      eapply Rest with (cv1 := cv || cv1); [exact I1|exact Hwf| | | |exact Hs].
      * left. apply mode_none. destruct Hm as [->| ->]; [left|right]; reflexivity.
      * intros ->. reflexivity.
      * intro Hcc. apply orb_false_elim in Hcc. apply X1. tauto.
  - (* inline *)
    destruct (sdispatch P (srun P n) w nm (e r) (map e args)) as [[w1 v]|] eqn:Ed; [|discriminate].
    pose proof (KEEP _ _ _ _ _ Hs) as [K1 _]. destruct (K1 Hq) as [Q1 _].
    destruct Hm as [Hm|[Hm _]]; [|discriminate].
    destruct Hm as (F & fx' & -> & -> & Ho & Hfr & Hf & Hw). injection Ho as <-.
    destruct (inline_ok P pol _ _ IH KEEP ES fx fx1 d r nm args vg cg c f H H0 H1 H2
                _ _ _ _ _ _ I Hfr Hf Hw Ed Q1) as (j1 & cv1 & Hr & I1 & X1 & D1).
    rewrite Hr. cbn [orb].
    assert (Hc : forall x, cls w1 x = cls w x).
    { apply (sdispatch_kept _ _ KEEP) in Ed. destruct Ed as [Ed' _]. apply Ed'. exact Q1. }
    eapply Rest with (cv1 := cv1); [exact I1|exact Hwf| |intro; discriminate|exact X1|exact Hs].
    destruct cv1; [right; apply mode_none; right; reflexivity|].
    left. left. destruct (D1 eq_refl) as (fx' & Ho & Hf' & Hw'). injection Ho as <-.
    exists F, (learn fx1 d None). split; [reflexivity|]. split; [reflexivity|].
    split; [reflexivity|]. split; [|split; assumption].
    eapply framed_ext; [exact Hfr|apply X1; reflexivity|exact Hc].
  - (* send *)
    destruct (sdispatch P (srun P n) w nm (e r) (map e args)) as [[w1 v]|] eqn:Ed; [|discriminate].
    pose proof (KEEP _ _ _ _ _ Hs) as [K1 _]. destruct (K1 Hq) as [Q1 _].
    destruct Hm as [Hm|[Hm _]]; [|discriminate].
    destruct Hm as (F & fx' & -> & -> & Ho & Hfr & Hf & Hw). injection Ho as <-.
    destruct (send_ok P pol _ _ IH KEEP ES fx fx1 d r nm args vg cg c f H H0 H1
                _ _ _ _ _ _ I Hfr Hf Hw Ed Q1) as (j1 & cv1 & Hr & I1 & X1 & D1).
    rewrite Hr. cbn [orb].
    assert (Hc : forall x, cls w1 x = cls w x).
    { apply (sdispatch_kept _ _ KEEP) in Ed. destruct Ed as [Ed' _]. apply Ed'. exact Q1. }
    eapply Rest with (cv1 := cv1); [exact I1|exact Hwf| |intro; discriminate|exact X1|exact Hs].
    destruct cv1; [right; apply mode_none; right; reflexivity|].
    left. left. destruct (D1 eq_refl) as (fx' & Ho & Hf' & Hw'). injection Ho as <-.
    exists F, (flag (learn fx1 d None) false). split; [reflexivity|]. split; [reflexivity|].
    split; [reflexivity|]. split; [|split; assumption].
    eapply framed_ext; [exact Hfr|apply X1; reflexivity|exact Hc].
  - (* specialized *)
    destruct (sdispatch P (srun P n) w nm (e r) (map e args)) as [[w1 v]|] eqn:Ed; [|discriminate].
    pose proof (KEEP _ _ _ _ _ Hs) as [K1 _]. destruct (K1 Hq) as [Q1 _].
    destruct Hm as [Hm|[Hm _]]; [|discriminate].
    destruct Hm as (F & fx' & -> & -> & Ho & Hfr & Hf & Hw). injection Ho as <-.
    destruct (spec_ok P pol _ _ IH KEEP ES fx fx1 d r nm args vg cg c f body b ob H H0 H1 H2 H3
                Hwf1 _ _ _ _ _ _ I Hfr Hf Hw Ed Q1) as (j1 & cv1 & Hr & I1 & X1 & D1).
    rewrite Hr. cbn [orb].
    assert (Hc : forall x, cls w1 x = cls w x).
    { apply (sdispatch_kept _ _ KEEP) in Ed. destruct Ed as [Ed' _]. apply Ed'. exact Q1. }
    eapply Rest with (cv1 := cv1); [exact I1|exact Hwf2| |intro; discriminate|exact X1|exact Hs].
    destruct cv1; [right; apply mode_none; right; reflexivity|].
    left. left. destruct (D1 eq_refl) as (fx' & Ho & Hf' & Hw'). rewrite Ho.
    exists F, fx'. split; [reflexivity|]. split; [reflexivity|].
    split; [reflexivity|]. split; [|split; assumption].
    eapply framed_ext; [exact Hfr|apply X1; reflexivity|exact Hc].
  - (* if *)
    destruct (srun P n w e (if truthy (e s) then a else b)) as [[w1 e1]|] eqn:Eb; [|discriminate].
    pose proof (KEEP _ _ _ _ _ Hs) as [K1 _]. destruct (K1 Hq) as [Q1 _].
    assert (Hc : forall x, cls w1 x = cls w x)
      by (apply KEEP in Eb; destruct Eb as [Eb _]; apply Eb; exact Q1).
    assert (Hbr : exists o2, wf P ES o (if truthy (e s) then a else b)
                    (if truthy (e s) then la else lb) o2 /\ ole o1 o2).
    { destruct (truthy (e s)); [exists oa|exists ob]; split; assumption. }
    destruct Hbr as (o2 & Hwfb & Hle).
    destruct (IH _ _ _ _ _ _ _ _ _ _ _ _ I Hwfb Hm Eb Q1) as (j1 & cv1 & Hr & I1 & Hcv & X1 & D1).
    rewrite Hr.
    eapply Rest; [exact I1|exact Hwf3| |exact Hcv|exact X1|exact Hs].
    destruct Hm as [Hm|[_ Hm]].
    + destruct Hm as (F & fx & -> & -> & -> & Hfr & _).
      destruct cv1; [right; apply mode_none; right; reflexivity|].
      destruct (D1 F eq_refl eq_refl) as (fx2 & -> & Hf2 & Hw2).
      destruct Hle as (g & -> & Hg). left. left. exists F, g.
      split; [reflexivity|]. split; [reflexivity|]. split; [reflexivity|].
      split; [eapply framed_ext; [exact Hfr|apply X1; reflexivity|exact Hc]|].
      split; [eapply facts_ok_weaker; eassumption|].
      intro Hfl. apply Hw2. destruct Hg as [Hg _]. apply Hg. exact Hfl.
    + right. apply mode_none. destruct Hm as [->| ->]; [left; reflexivity|right; apply Hcv; reflexivity].
  - (* while *)
    destruct (truthy (e s)).
    + destruct (srun P n w e body) as [[w1 e1]|] eqn:Eb; [|discriminate].
      pose proof (KEEP _ _ _ _ _ Hs) as [K1 _]. destruct (K1 Hq) as [Q1 _].
      assert (Hc : forall x, cls w1 x = cls w x)
        by (apply KEEP in Eb; destruct Eb as [Eb _]; apply Eb; exact Q1).
      assert (Hm1 : exists hx obx, (hx = h /\ obx = ob \/ hx = None /\ obx = None)
                      /\ wf P ES hx body lb obx /\ mode ES j w e fr cv hx).
      { destruct Hm as [Hm|[-> Hm]].
        - destruct Hm as (F & fx & -> & -> & -> & Hfr & Hf & Hw).
          destruct H as (g & -> & Hg). exists (Some g), ob. split; [left; split; reflexivity|].
          split; [exact Hwf1|]. left. exists F, g.
          split; [reflexivity|]. split; [reflexivity|]. split; [reflexivity|].
          split; [exact Hfr|]. split; [eapply facts_ok_weaker; eassumption|].
          intro Hfl. apply Hw. destruct Hg as [Hg _]. apply Hg. exact Hfl.
        - exists None, None. split; [right; split; reflexivity|].
          split; [eapply wf_none; exact Hwf1|apply mode_none; exact Hm]. }
      destruct Hm1 as (hx & obx & Hcase & Hwfb & Hm1).
      destruct (IH _ _ _ _ _ _ _ _ _ _ _ _ I Hwfb Hm1 Eb Q1)
        as (j1 & cv1 & Hr & I1 & Hcv & X1 & D1).
      rewrite Hr.
      assert (Hagain : wf P ES h (SWhile s body :: rest) (AWhile s lb :: l) o').
      { eapply wf_while with (h := h) (ob := ob); try assumption. apply ole_refl. }
      eapply Rest; [exact I1|exact Hagain| |exact Hcv|exact X1|exact Hs].
      destruct Hm as [Hm|[_ Hm]].
      * destruct Hm as (F & fx & -> & -> & -> & Hfr & _).
        destruct cv1; [right; apply mode_none; right; reflexivity|].
        destruct (D1 F eq_refl eq_refl) as (fx2 & Hfx2 & Hf2 & Hw2).
        destruct Hcase as [[-> ->]|[_ ->]]; [|discriminate]. subst ob.
        destruct H0 as (g & -> & Hg). left. left. exists F, g.
        split; [reflexivity|]. split; [reflexivity|]. split; [reflexivity|].
        split; [eapply framed_ext; [exact Hfr|apply X1; reflexivity|exact Hc]|].
        split; [eapply facts_ok_weaker; eassumption|].
        intro Hfl. apply Hw2. destruct Hg as [Hg _]. apply Hg. exact Hfl.
      * right. apply mode_none.
        destruct Hm as [->| ->]; [left; reflexivity|right; apply Hcv; reflexivity].
    + eapply Rest; [exact I|exact Hwf2| |auto|intros _; apply ext_refl|exact Hs].
      destruct Hm as [Hm|[-> Hm]]; [|right; apply mode_none; exact Hm].
      destruct Hm as (F & fx & -> & -> & -> & Hfr & Hf & Hw).
      destruct H as (g & -> & Hg). left. left. exists F, g.
      split; [reflexivity|]. split; [reflexivity|]. split; [reflexivity|].
      split; [exact Hfr|]. split; [eapply facts_ok_weaker; eassumption|].
      intro Hfl. apply Hw. destruct Hg as [Hg _]. apply Hg. exact Hfl.
Qed.

(** ** Whole programs *)

Theorem start_sim : forall P pol n w f o args w' v,
  sstart P n w f o args = Some (w', v) -> calm w' ->
  start P pol n w f o args = Some (w', v).
Proof.
  intros P pol n w f o args w' v H Hq. unfold sstart in H. unfold start.
  destruct (invoke_ok P pol _ _ (run_sim P pol n) _ _ _ _ _ _ _ (Inv_jit0 P w) H Hq)
    as (j' & cv & Hr & _). rewrite Hr. reflexivity.
Qed.
