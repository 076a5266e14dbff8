(** Proofs for DispModel, all executions: the registered units stay sound,
    also with singleton classes, redefining helpers and fibers. *)
From Coq Require Import List Arith Bool PeanoNat Lia.
From Verif Require Import DispModel DispSpec DispProofs DispRunProofs.
Import ListNotations.

Definition grow (j j' : jit) : Prop :=
  j_next j <= j_next j'
  /\ (forall f c u, j_units j' f c = Some u ->
        j_units j f c = Some u \/ j_next j <= u_id u).

Lemma grow_refl : forall j, grow j j.
Proof. intros. split; [apply le_n|auto]. Qed.

Lemma grow_trans : forall a b c, grow a b -> grow b c -> grow a c.
Proof.
  intros a b c [N1 U1] [N2 U2]. split; [lia|]. intros f k u H.
  destruct (U2 _ _ _ H) as [H'|H']; [apply U1; exact H'|right; lia].
Qed.

(** Only the registered unit of its method and class can have the version
    word of a frame. *)
Definition owner (j : jit) (F : frame) : Prop :=
  fr_uid F < j_next j
  /\ forall f c u, j_units j f c = Some u -> u_id u = fr_uid F ->
       f = fr_fid F /\ c = fr_cls F.

Lemma owner_grow : forall j j' F, owner j F -> grow j j' -> owner j' F.
Proof.
  intros j j' F [L O] [N U]. split; [lia|]. intros f c u H E.
  destruct (U _ _ _ H) as [H'|H']; [eapply O; eassumption|lia].
Qed.

Definition owned (j : jit) (fr : option frame) : Prop :=
  forall F, fr = Some F -> owner j F.

Lemma owned_grow : forall j j' fr, owned j fr -> grow j j' -> owned j' fr.
Proof. intros j j' fr H G F HF. eapply owner_grow; [apply H; exact HF|exact G]. Qed.

Lemma install_grow : forall j w f c l es, grow j (install j w f c l es).
Proof.
  intros. split; [cbn [install set_unit j_next]; lia|].
  intros f' c' u H. rewrite install_units in H.
  destruct ((f' =? f) && (c' =? c)); [|left; exact H].
  injection H as <-. right. apply le_n.
Qed.

Lemma drop_grow : forall j f c, grow j (set_unit j f c None).
Proof.
  intros. split; [apply le_n|]. intros f' c' u H. cbn [set_unit j_units] in H.
  destruct ((f' =? f) && (c' =? c)); [discriminate|left; exact H].
Qed.

Lemma recompile_grow : forall P pol j w f c, grow j (recompile P pol j w f c).
Proof.
  intros. unfold recompile. destruct (j_units j f c); [|apply grow_refl].
  destruct (compile P pol w j (size pol w j f c) f c) as [[l es]|]; [apply install_grow|apply drop_grow].
Qed.

Lemma set_word_grow : forall j u v, grow j (set_word j u v).
Proof. intros. split; [apply le_n|auto]. Qed.

(** The word of a frame's unit is written together with the word of the unit
    found valid. *)
Lemma stamp_ok : forall P j w F u,
  Inv P j w -> owner j F -> j_units j (fr_fid F) (fr_cls F) = Some u -> fresh w u ->
  Inv P (set_word j (fr_uid F) (w_ver w)) w.
Proof.
  intros P j w F u I [_ O] Hu Hf. constructor; try apply I.
  - intros f' c' u' Hu' Hw. cbn [set_word j_units j_word] in *.
    destruct (u_id u' =? fr_uid F) eqn:E.
    + apply Nat.eqb_eq in E. destruct (O _ _ _ Hu' E) as [-> ->].
      rewrite Hu in Hu'. injection Hu' as <-. exact Hf.
    + eapply (i_sound _ _ _ I); eassumption.
  - intros x. cbn [set_word j_word]. destruct (x =? fr_uid F);
      [apply le_n|apply (i_le _ _ _ I)].
Qed.

Lemma version_guard_inv : forall P pol j w F pass j1,
  Inv P j w -> owner j F -> version_guard P pol j w F = (pass, j1) ->
  Inv P j1 w /\ grow j j1.
Proof.
  intros P pol j w F pass j1 I O H. unfold version_guard in H.
  destruct (j_word j (fr_uid F) =? w_ver w).
  { injection H as <- <-. split; [exact I|apply grow_refl]. }
  destruct (fr_spec F).
  - destruct (j_units j (fr_fid F) (fr_cls F)) as [u|] eqn:Hu.
    + destruct (valid w u) eqn:Ev; injection H as <- <-.
      * apply valid_fresh in Ev. split.
        -- eapply stamp_ok with (u := u); [eapply set_word_ok; eassumption| |exact Hu|exact Ev].
           eapply owner_grow; [exact O|apply set_word_grow].
        -- eapply grow_trans; apply set_word_grow.
      * split; [exact I|apply grow_refl].
    + injection H as <- <-. split; [exact I|apply grow_refl].
  - destruct (j_units j (fr_fid F) (cls w (fr_self F))) as [u|] eqn:Hu.
    + destruct (valid w u) eqn:Ev; injection H as <- <-.
      * apply valid_fresh in Ev. split; [eapply set_word_ok; eassumption|apply set_word_grow].
      * split; [apply recompile_ok; exact I|apply recompile_grow].
    + injection H as <- <-. split; [exact I|apply grow_refl].
Qed.

Lemma enter_inv : forall P pol j w f c o body j1 fr code,
  Inv P j w -> enter P pol j w f c o body = (j1, fr, code) ->
  Inv P j1 w /\ grow j j1 /\ owned j1 fr.
Proof.
  intros P pol j w f c o body j1 fr code I H. unfold enter in H.
  destruct (j_units j f c) as [u|] eqn:Hu.
  - injection H as <- <- <-. split; [exact I|]. split; [apply grow_refl|].
    intros F HF. injection HF as <-. split.
    + eapply (i_lt _ _ _ I). exact Hu.
    + intros f' c' u' Hu' E. eapply (i_one _ _ _ I); [exact Hu'|exact Hu|exact E].
  - assert (Plain : Inv P j w /\ grow j j /\ owned j None).
    { split; [exact I|]. split; [apply grow_refl|]. intros F HF. discriminate. }
    destruct (hot pol w j f c); [|injection H as <- <- <-; exact Plain].
    destruct (compile P pol w j (size pol w j f c) f c) as [[l es]|] eqn:Ec;
      [|injection H as <- <- <-; exact Plain].
    injection H as <- <- <-.
    pose proof (install_ok P pol j j w f c l es _ I Ec) as I1.
    split; [exact I1|]. split; [apply install_grow|].
    intros F HF. injection HF as <-. split.
    + cbn [install set_unit j_next fr_uid]. lia.
    + intros f' c' u' Hu' E. cbn [fr_uid fr_fid fr_cls] in *.
      assert (Hnew : j_units (install j w f c l es) f c = Some (Unit (j_next j) es l)).
      { rewrite install_units, !Nat.eqb_refl. reflexivity. }
      eapply (i_one _ _ _ I1); [exact Hu'|exact Hnew|exact E].
Qed.

Definition preserves (P : prog) (rn : runner) : Prop :=
  forall j w e fr cv code j' w' e' cv',
  Inv P j w -> owned j fr -> rn j w e fr cv code = Some (j', w', e', cv') ->
  Inv P j' w' /\ grow j j'.

Section Units.
Variable P : prog.
Variable pol : policy.
Variable rn : runner.
Hypothesis PRES : preserves P rn.

Lemma invoke_inv : forall j w f c o args j' w' v cv,
  Inv P j w -> invoke P pol rn j w f c o args = Some (j', w', v, cv) ->
  Inv P j' w' /\ grow j j'.
Proof.
  intros j w f c o args j' w' v cv I H. unfold invoke in H.
  assert (I0 : Inv P j (log w f o)) by (eapply Inv_same; [| |exact I]; reflexivity).
  destruct (p_meth P f).
  - injection H as <- <- _ _. split; [exact I0|apply grow_refl].
  - injection H as <- <- _ _. split; [|apply grow_refl].
    eapply Inv_same; [| |exact I]; reflexivity.
  - injection H as <- <- _ _. split; [exact I0|apply grow_refl].
  - destruct (enter P pol j (log w f o) f c o body) as [[j1 fr] code] eqn:Ee.
    destruct (enter_inv _ _ _ _ _ _ _ _ _ _ _ I0 Ee) as (I1 & G1 & O1).
    destruct (rn j1 (log w f o) (env_of o args) fr false code) as [[[[j2 w2] e2] cv2]|] eqn:E;
      [|discriminate].
    injection H as <- <- _ _.
    destruct (PRES _ _ _ _ _ _ _ _ _ _ I1 O1 E) as [I2 G2].
    split; [exact I2|]. eapply grow_trans; eassumption.
Qed.

Lemma dispatch_inv : forall j w n o args j' w' v cv,
  Inv P j w -> dispatch P pol rn j w n o args = Some (j', w', v, cv) ->
  Inv P j' w' /\ grow j j'.
Proof.
  intros j w n o args j' w' v cv I H. unfold dispatch in H.
  destruct (w_tab w (cls w o) n).
  - eapply invoke_inv; eassumption.
  - injection H as <- <- _ _. split; [|apply grow_refl].
    eapply Inv_same; [| |exact I]; reflexivity.
Qed.

Lemma call_inv : forall j w e F r n args a j' w' v cv,
  Inv P j w -> owner j F -> call P pol rn j w e F r n args a = Some (j', w', v, cv) ->
  Inv P j' w' /\ grow j j'.
Proof.
  intros j w e F r n args a j' w' v cv I O H. unfold call in H.
  assert (Slow : forall j0, Inv P j0 w -> grow j j0 ->
    match dispatch P pol rn j0 w n (e r) (map e args) with
    | Some (j1, w1, v1, _) => Some (j1, w1, v1, true)
    | None => None
    end = Some (j', w', v, cv) -> Inv P j' w' /\ grow j j').
  { intros j0 I0 G0 H0. destruct (dispatch P pol rn j0 w n (e r) (map e args))
      as [[[[j1 w1] v1] cv1]|] eqn:E; [|discriminate].
    injection H0 as <- <- _ _. destruct (dispatch_inv _ _ _ _ _ _ _ _ _ I0 E) as [I1 G1].
    split; [exact I1|]. eapply grow_trans; eassumption. }
  destruct a as [|vg cg c f h]; [apply (Slow j); [exact I|apply grow_refl|exact H]|].
  assert (Hv : exists pass j1,
    (if vg then version_guard P pol j w F else (true, j)) = (pass, j1)
    /\ Inv P j1 w /\ grow j j1).
  { destruct vg.
    - destruct (version_guard P pol j w F) as [pass j1] eqn:E.
      exists pass, j1. split; [reflexivity|]. eapply version_guard_inv; eassumption.
    - exists true, j. split; [reflexivity|]. split; [exact I|apply grow_refl]. }
  destruct Hv as (pass & j1 & Ev & I1 & G1). rewrite Ev in H.
  destruct pass; cbn [negb] in H; [|eapply Slow; [exact I1|exact G1|exact H]].
  destruct (class_ok cg c (cls w (e r))); cbn [negb] in H.
  - destruct h as [| |body].
    + destruct (invoke_inv _ _ _ _ _ _ _ _ _ _ I1 H) as [I2 G2].
      split; [exact I2|]. eapply grow_trans; eassumption.
    + destruct (invoke_inv _ _ _ _ _ _ _ _ _ _ I1 H) as [I2 G2].
      split; [exact I2|]. eapply grow_trans; eassumption.
    + unfold specialized in H.
      destruct (rn j1 (log w f (e r)) (env_of (e r) (map e args))
                  (Some (Frame (fr_fid F) (fr_cls F) (e r) (fr_uid F) true)) false body)
        as [[[[j2 w2] e2] cv2]|] eqn:E; [|discriminate].
      injection H as <- <- _ _.
      assert (I1' : Inv P j1 (log w f (e r)))
        by (eapply Inv_same; [| |exact I1]; reflexivity).
      assert (O1 : owned j1 (Some (Frame (fr_fid F) (fr_cls F) (e r) (fr_uid F) true))).
      { intros F' HF. injection HF as <-. exact (owner_grow _ _ _ O G1). }
      destruct (PRES _ _ _ _ _ _ _ _ _ _ I1' O1 E) as [I2 G2].
      split; [exact I2|]. eapply grow_trans; eassumption.
  - eapply Slow; [| |exact H].
    + destruct (negb (fr_spec F) && relearn pol w j1 (fr_fid F));
        [apply recompile_ok; exact I1|exact I1].
    + eapply grow_trans; [exact G1|].
      destruct (negb (fr_spec F) && relearn pol w j1 (fr_fid F));
        [apply recompile_grow|apply grow_refl].
Qed.

End Units.

Lemma Inv_loud : forall P j w, Inv P j w -> Inv P j (loud w).
Proof. intros P j w I. eapply Inv_same; [| |exact I]; reflexivity. Qed.

Lemma run_inv : forall P pol n, preserves P (run P pol n).
Proof.
  intros P pol. induction n as [|n IH]; intros j w e fr cv code j' w' e' cv' I O H;
    cbn [run] in H; [discriminate|].
  assert (Rest : forall j1 w1 e1 cv1 l,
    Inv P j1 w1 -> grow j j1 -> run P pol n j1 w1 e1 fr cv1 l = Some (j', w', e', cv') ->
    Inv P j' w' /\ grow j j').
  { intros j1 w1 e1 cv1 l I1 G1 H1.
    destruct (IH _ _ _ _ _ _ _ _ _ _ I1 (owned_grow _ _ _ O G1) H1) as [I2 G2].
    split; [exact I2|]. eapply grow_trans; eassumption. }
  destruct code as [|s rest].
  { injection H as <- <- _ _. split; [exact I|apply grow_refl]. }
  destruct s.
  - eapply Rest; [exact I|apply grow_refl|exact H].
  - eapply Rest; [exact I|apply grow_refl|exact H].
  - destruct (match fr with
      | Some fr0 => if cv then _ else _
      | None => _ end) as [[[[j1 w1] v] cv1]|] eqn:E; [|discriminate].
    assert (IG : Inv P j1 w1 /\ grow j j1).
    { destruct fr as [fr|]; [destruct cv|].
      - eapply dispatch_inv; eassumption.
      - eapply call_inv; [exact IH|exact I|apply O; reflexivity|exact E].
      - eapply dispatch_inv; eassumption. }
    destruct IG as [I1 G1]. eapply Rest; [exact I1|exact G1|exact H].
  - destruct (dispatch P pol (run P pol n) j w n0 (e r) []) as [[[[j1 w1] v] cv1]|] eqn:E;
      [|discriminate].
    destruct (dispatch_inv _ _ _ IH _ _ _ _ _ _ _ _ _ I E) as [I1 G1].
    eapply Rest; [|exact G1|exact H].
    unfold hushed. destruct (w_ver w =? w_ver w1); [exact I1|apply Inv_loud; exact I1].
  - eapply Rest; [|apply grow_refl|exact H].
    eapply Inv_next; [|exact I]. cbn [redefine w_ver]. lia.
  - eapply Rest; [|apply grow_refl|exact H].
    eapply Inv_next; [|exact I]. unfold singleton.
    destruct (w_sing w (e r)); cbn [loud redefine w_ver]; lia.
  - destruct (dispatch P pol (run P pol n) j w n0 (e r) []) as [[[[j1 w1] v] cv1]|] eqn:E;
      [|discriminate].
    destruct (dispatch_inv _ _ _ IH _ _ _ _ _ _ _ _ _ I E) as [I1 G1].
    eapply Rest; [apply Inv_loud; exact I1|exact G1|exact H].
  - destruct (run P pol n j w e fr cv (if truthy (e s) then a else b))
      as [[[[j1 w1] e1] cv1]|] eqn:E; [|discriminate].
    destruct (IH _ _ _ _ _ _ _ _ _ _ I O E) as [I1 G1].
    eapply Rest; [exact I1|exact G1|exact H].
  - destruct (truthy (e s)).
    + destruct (run P pol n j w e fr cv body) as [[[[j1 w1] e1] cv1]|] eqn:E; [|discriminate].
      destruct (IH _ _ _ _ _ _ _ _ _ _ I O E) as [I1 G1].
      eapply Rest; [exact I1|exact G1|exact H].
    + eapply Rest; [exact I|apply grow_refl|exact H].
Qed.

(** ** From the start *)

Lemma call_units : forall P pol n w f o args j' w' v cv,
  invoke P pol (run P pol n) jit0 w f (cls w o) o args = Some (j', w', v, cv) ->
  sound_units j' w'.
Proof.
  intros P pol n w f o args j' w' v cv H.
  destruct (invoke_inv P pol _ (run_inv P pol n) _ _ _ _ _ _ _ _ _ _ (Inv_jit0 P w) H) as [I _].
  apply I.
Qed.

(** A method entered compiled, when its word is current: every resolution its
    code was compiled with is the current one. *)
Lemma enter_units : forall P pol n w f o args j' w' v cv,
  invoke P pol (run P pol n) jit0 w f (cls w o) o args = Some (j', w', v, cv) ->
  forall g c x body j2 F code,
  p_meth P g = KBody body -> enter P pol j' w' g c x body = (j2, Some F, code) ->
  exists u, j_units j2 g c = Some u /\ u_id u = fr_uid F /\ u_code u = code
    /\ (exists o', wf P (u_entries u) (Some (Facts false [Some c])) body code o')
    /\ (j_word j2 (fr_uid F) = w_ver w' -> fresh w' u).
Proof.
  intros P pol n w f o args j' w' v cv H g c x body j2 F code Hb He.
  destruct (invoke_inv P pol _ (run_inv P pol n) _ _ _ _ _ _ _ _ _ _ (Inv_jit0 P w) H) as [I _].
  destruct (enter_inv _ _ _ _ _ _ _ _ _ _ _ I He) as (I2 & _ & _).
  assert (Hu : exists u, j_units j2 g c = Some u /\ u_id u = fr_uid F /\ u_code u = code).
  { unfold enter in He. destruct (j_units j' g c) as [u|] eqn:Hu.
    - injection He as <- <- <-. exists u. split; [exact Hu|]. split; reflexivity.
    - destruct (hot pol w' j' g c); [|discriminate].
      destruct (compile P pol w' j' (size pol w' j' g c) g c) as [[l es]|]; [|discriminate].
      injection He as <- <- <-. exists (Unit (j_next j') es l).
      rewrite install_units, !Nat.eqb_refl. split; [reflexivity|]. split; reflexivity. }
  destruct Hu as (u & Hu & Hid & Hcode). exists u.
  split; [exact Hu|]. split; [exact Hid|]. split; [exact Hcode|]. split.
  - destruct (i_wf _ _ _ I2 _ _ _ Hu) as (b' & o' & Hb' & Hwf).
    rewrite Hb in Hb'. injection Hb' as <-. exists o'. rewrite <- Hcode. exact Hwf.
  - intro Hw. rewrite <- Hid in Hw. exact (i_sound _ _ _ I2 _ _ _ Hu Hw).
Qed.

(** What a passed version guard says, for every state. *)
Lemma guard_passed : forall P pol j w fr j1,
  version_guard P pol j w fr = (true, j1) ->
  j_word j (fr_uid fr) = w_ver w
  \/ exists u, j_units j (fr_fid fr) (cls w (fr_self fr)) = Some u
       /\ valid w u = true /\ j_word j1 (u_id u) = w_ver w.
Proof.
  intros P pol j w fr j1 H. unfold version_guard in H.
  destruct (j_word j (fr_uid fr) =? w_ver w) eqn:Ew.
  - left. apply Nat.eqb_eq. exact Ew.
  - right. destruct (fr_spec fr).
    + destruct (j_units j (fr_fid fr) (fr_cls fr)) as [u|];
        [destruct (valid w u)|]; discriminate.
    + destruct (j_units j (fr_fid fr) (cls w (fr_self fr))) as [u|] eqn:Eu;
        [|discriminate].
      destruct (valid w u) eqn:Ev; [|discriminate].
      injection H as <-. exists u. split; [reflexivity|]. split; [exact Ev|].
      cbn [set_word j_word]. rewrite Nat.eqb_refl. reflexivity.
Qed.
