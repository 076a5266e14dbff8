(** Proofs for DispModel, the other direction: what compiled code ends with,
    the interpreter ends with. *)
From Coq Require Import List Arith Bool PeanoNat Lia.
From Verif Require Import DispModel DispSpec DispProofs DispRunProofs.
Import ListNotations.

(** ** Compiled code never makes a world calm again *)

Definition jkeeps (rn : runner) : Prop :=
  forall j w e fr cv code j' w' e' cv',
  rn j w e fr cv code = Some (j', w', e', cv') -> calm w' -> calm w.

Lemma invoke_quiet : forall P pol rn, jkeeps rn -> forall j w f c o args j' w' v cv,
  invoke P pol rn j w f c o args = Some (j', w', v, cv) -> calm w' -> calm w.
Proof.
  intros P pol rn K j w f c o args j' w' v cv H Hq. unfold invoke in H.
  destruct (p_meth P f).
  - injection H as _ <- _ _. exact Hq.
  - injection H as _ <- _ _. exact Hq.
  - injection H as _ <- _ _. exact Hq.
  - destruct (enter P pol j (log w f o) f c o body) as [[j1 fr] code].
    destruct (rn j1 (log w f o) (env_of o args) fr false code) as [[[[j2 w2] e2] cv2]|] eqn:E;
      [|discriminate].
    injection H as _ <- _ _. exact (K _ _ _ _ _ _ _ _ _ _ E Hq).
Qed.

Lemma dispatch_quiet : forall P pol rn, jkeeps rn -> forall j w n o args j' w' v cv,
  dispatch P pol rn j w n o args = Some (j', w', v, cv) -> calm w' -> calm w.
Proof.
  intros P pol rn K j w n o args j' w' v cv H Hq. unfold dispatch in H.
  destruct (w_tab w (cls w o) n).
  - eapply invoke_quiet; eassumption.
  - injection H as _ <- _ _. exact Hq.
Qed.

Lemma call_quiet : forall P pol rn, jkeeps rn -> forall j w e fr r n args a j' w' v cv,
  call P pol rn j w e fr r n args a = Some (j', w', v, cv) -> calm w' -> calm w.
Proof.
  intros P pol rn K j w e fr r n args a j' w' v cv H Hq. unfold call in H.
  assert (Slow : forall j0,
    match dispatch P pol rn j0 w n (e r) (map e args) with
    | Some (j1, w1, v1, _) => Some (j1, w1, v1, true)
    | None => None
    end = Some (j', w', v, cv) -> calm w).
  { intros j0 H0. destruct (dispatch P pol rn j0 w n (e r) (map e args))
      as [[[[j1 w1] v1] cv1]|] eqn:E; [|discriminate].
    injection H0 as _ <- _ _. eapply dispatch_quiet; eassumption. }
  destruct a as [|vg cg c f h]; [apply (Slow j); exact H|].
  destruct (if vg then version_guard P pol j w fr else (true, j)) as [pass j1].
  destruct pass; cbn [negb] in H; [|eapply Slow; exact H].
  destruct (class_ok cg c (cls w (e r))); cbn [negb] in H; [|eapply Slow; exact H].
  destruct h as [| |body].
  - eapply invoke_quiet; eassumption.
  - eapply invoke_quiet; eassumption.
  - unfold specialized in H.
    destruct (rn j1 (log w f (e r)) (env_of (e r) (map e args))
                (Some (Frame (fr_fid fr) (fr_cls fr) (e r) (fr_uid fr) true)) false body)
      as [[[[j2 w2] e2] cv2]|] eqn:E; [|discriminate].
    injection H as _ <- _ _. exact (K _ _ _ _ _ _ _ _ _ _ E Hq).
Qed.

Lemma hushed_quiet : forall w w', calm (hushed w w') -> calm w'.
Proof.
  intros w w' H. unfold hushed in H. destruct (w_ver w =? w_ver w'); [exact H|discriminate].
Qed.

Lemma run_quiet : forall P pol n, jkeeps (run P pol n).
Proof.
  intros P pol. induction n as [|n IH]; intros j w e fr cv code j' w' e' cv' H Hq;
    cbn [run] in H; [discriminate|].
  destruct code as [|s rest]; [injection H as _ <- _ _; exact Hq|].
  destruct s.
  - exact (IH _ _ _ _ _ _ _ _ _ _ H Hq).
  - exact (IH _ _ _ _ _ _ _ _ _ _ H Hq).
  - destruct (match fr with
      | Some fr0 => if cv then _ else _
      | None => _ end) as [[[[j1 w1] v] cv1]|] eqn:E; [|discriminate].
    pose proof (IH _ _ _ _ _ _ _ _ _ _ H Hq) as Q.
    destruct fr as [fr|]; [destruct cv|];
      [eapply dispatch_quiet|eapply call_quiet|eapply dispatch_quiet]; eassumption.
  - destruct (dispatch P pol (run P pol n) j w n0 (e r) []) as [[[[j1 w1] v] cv1]|] eqn:E;
      [|discriminate].
    pose proof (IH _ _ _ _ _ _ _ _ _ _ H Hq) as Q. apply hushed_quiet in Q. eapply dispatch_quiet; eassumption.
  - pose proof (IH _ _ _ _ _ _ _ _ _ _ H Hq) as Q. exact Q.
  - pose proof (IH _ _ _ _ _ _ _ _ _ _ H Hq) as Q. apply kept_singleton in Q. apply Q.
  - destruct (dispatch P pol (run P pol n) j w n0 (e r) []) as [[[[j1 w1] v] cv1]|] eqn:E;
      [|discriminate].
    pose proof (IH _ _ _ _ _ _ _ _ _ _ H Hq) as Q. discriminate Q.
  - destruct (run P pol n j w e fr cv (if truthy (e s) then a else b))
      as [[[[j1 w1] e1] cv1]|] eqn:E; [|discriminate].
    pose proof (IH _ _ _ _ _ _ _ _ _ _ H Hq) as Q. exact (IH _ _ _ _ _ _ _ _ _ _ E Q).
  - destruct (truthy (e s)).
    + destruct (run P pol n j w e fr cv body) as [[[[j1 w1] e1] cv1]|] eqn:E; [|discriminate].
      pose proof (IH _ _ _ _ _ _ _ _ _ _ H Hq) as Q. exact (IH _ _ _ _ _ _ _ _ _ _ E Q).
    + exact (IH _ _ _ _ _ _ _ _ _ _ H Hq).
Qed.

(** ** Back to the interpreter *)

Definition reflects (P : prog) (rn : runner) (sr : srunner) : Prop :=
  forall ES j w e fr cv code acode o o' j' w' e' cv',
  Inv P j w -> wf P ES o code acode o' -> mode ES j w e fr cv o ->
  rn j w e fr cv acode = Some (j', w', e', cv') -> calm w' ->
  sr w e code = Some (w', e').

Section Back.
Variable P : prog.
Variable pol : policy.
Variable rn : runner.
Variable sr : srunner.
Hypothesis BACK : reflects P rn sr.

Lemma invoke_back : forall j w f o args j' w' v cv,
  Inv P j w -> invoke P pol rn j w f (cls w o) o args = Some (j', w', v, cv) -> calm w' ->
  sinvoke P sr w f o args = Some (w', v).
Proof.
  intros j w f o args j' w' v cv I H Hq. unfold invoke in H. unfold sinvoke.
  assert (I0 : Inv P j (log w f o)) by (eapply Inv_same; [| |exact I]; reflexivity).
  destruct (p_meth P f) as [iv|iv|k|body] eqn:Em.
  - injection H as _ <- <- _. reflexivity.
  - injection H as _ <- <- _. reflexivity.
  - injection H as _ <- <- _. reflexivity.
  - change (cls w o) with (cls (log w f o) o) in H.
    destruct (enter P pol j (log w f o) f (cls (log w f o) o) o body)
      as [[j1 fr] code] eqn:Ee.
    destruct (enter_ok P pol _ _ _ _ _ args _ _ _ I0 Em Ee)
      as (I1 & X1 & ES & ox & o' & Hwf & Hm).
    destruct (rn j1 (log w f o) (env_of o args) fr false code) as [[[[j2 w2] e2] cv2]|] eqn:E;
      [|discriminate].
    injection H as _ <- <- _.
    rewrite (BACK _ _ _ _ _ _ _ _ _ _ _ _ _ _ I1 Hwf Hm E Hq). reflexivity.
Qed.

Lemma dispatch_back : forall j w n o args j' w' v cv,
  Inv P j w -> dispatch P pol rn j w n o args = Some (j', w', v, cv) -> calm w' ->
  sdispatch P sr w n o args = Some (w', v).
Proof.
  intros j w n o args j' w' v cv I H Hq. unfold dispatch in H. unfold sdispatch.
  destruct (w_tab w (cls w o) n).
  - eapply invoke_back; eassumption.
  - injection H as _ <- <- _. reflexivity.
Qed.

Lemma slow_back : forall j w n o args j' w' v cv,
  Inv P j w ->
  match dispatch P pol rn j w n o args with
  | Some (j', w', v, _) => Some (j', w', v, true)
  | None => None
  end = Some (j', w', v, cv) -> calm w' ->
  sdispatch P sr w n o args = Some (w', v).
Proof.
  intros j w n o args j' w' v cv I H Hq.
  destruct (dispatch P pol rn j w n o args) as [[[[j1 w1] v1] cv1]|] eqn:E; [|discriminate].
  injection H as _ <- <- _. eapply dispatch_back; eassumption.
Qed.

(** Compiled calls. *)
Definition call_back (ES : list entry) (fx : facts) (a : ann) (r n : nat) (args : list nat)
    : Prop :=
  forall j w e F j' w' v cv,
  Inv P j w -> framed ES j w F -> facts_ok fx w e ->
  (f_flag fx = true -> j_word j (fr_uid F) = w_ver w) ->
  call P pol rn j w e F r n args a = Some (j', w', v, cv) -> calm w' ->
  sdispatch P sr w n (e r) (map e args) = Some (w', v).

Lemma ann_back : forall ES fx fx1 r n args vg cg c f h,
  (vg = false -> f_flag fx = true) ->
  In (Entry c n f) ES ->
  guarded ES fx r n c f cg fx1 ->
  (forall j w e F j' w' v cv,
     Inv P j w -> framed ES j w F -> facts_ok fx1 w e ->
     j_word j (fr_uid F) = w_ver w ->
     cls w (e r) = (match cg with GSet _ => cls w (e r) | _ => c end) ->
     match h with
     | HInline | HSend => invoke P pol rn j w f (cls w (e r)) (e r) (map e args)
     | HSpec body => specialized rn j w F f (e r) (map e args) body
     end = Some (j', w', v, cv) -> calm w' ->
     sinvoke P sr w f (e r) (map e args) = Some (w', v)) ->
  call_back ES fx (Ann vg cg c f h) r n args.
Proof.
  intros ES fx fx1 r n args vg cg c f h Hvg Hin Hg Hcall.
  intros j w e F j' w' v cv I Hfr Hf Hw H Hq. unfold call in H.
  assert (Hv : exists pass j1,
    (if vg then version_guard P pol j w F else (true, j)) = (pass, j1)
    /\ Inv P j1 w /\ (pass = true -> ext j j1 /\ j_word j1 (fr_uid F) = w_ver w)).
  { destruct vg.
    - destruct (version_guard P pol j w F) as [pass j1] eqn:E.
      exists pass, j1. split; [reflexivity|]. eapply version_guard_ok; eassumption.
    - exists true, j. split; [reflexivity|]. split; [exact I|].
      intros _. split; [apply ext_refl|apply Hw; apply Hvg; reflexivity]. }
  destruct Hv as (pass & j1 & Ev & I1 & Hp). rewrite Ev in H.
  destruct pass; cbn [negb] in H.
  - destruct (Hp eq_refl) as [X1 W1].
    destruct (class_ok cg c (cls w (e r))) eqn:Eok; cbn [negb] in H.
    + assert (Hfr1 : framed ES j1 w F)
        by (eapply framed_ext; [exact Hfr|exact X1|reflexivity]).
      destruct (guards_ok P _ _ _ _ _ _ _ _ _ _ _ _ I1 Hfr1 Hf W1 Hin Hg Eok)
        as (Ht & Hf1 & Hk).
      rewrite Hk in H. unfold sdispatch. rewrite Ht.
      exact (Hcall _ _ _ _ _ _ _ _ I1 Hfr1 Hf1 W1 (eq_sym Hk) H Hq).
    + eapply slow_back; [|exact H|exact Hq].
      destruct (negb (fr_spec F) && relearn pol w j1 (fr_fid F));
        [apply recompile_ok; exact I1|exact I1].
  - eapply slow_back; [exact I1|exact H|exact Hq].
Qed.

Lemma deopt_back : forall ES fx r n args, call_back ES fx Deopt r n args.
Proof.
  intros ES fx r n args j w e F j' w' v cv I Hfr Hf Hw H Hq. unfold call in H.
  eapply slow_back; [exact I|exact H|exact Hq].
Qed.

Lemma invoked_back : forall ES fx fx1 r n args vg cg c f h,
  (vg = false -> f_flag fx = true) -> In (Entry c n f) ES ->
  guarded ES fx r n c f cg fx1 -> h = HInline \/ h = HSend ->
  call_back ES fx (Ann vg cg c f h) r n args.
Proof.
  intros ES fx fx1 r n args vg cg c f h Hvg Hin Hg Hh.
  apply (ann_back ES fx fx1); try assumption.
  intros j w e F j' w' v cv I Hfr Hf Hw _ H Hq.
  assert (H' : invoke P pol rn j w f (cls w (e r)) (e r) (map e args) = Some (j', w', v, cv))
    by (destruct Hh as [->| ->]; exact H).
  eapply invoke_back; eassumption.
Qed.

Lemma spec_back : forall ES fx fx1 r n args vg cg c f body b ob,
  (vg = false -> f_flag fx = true) -> In (Entry c n f) ES ->
  guarded ES fx r n c f cg fx1 -> is_set cg = false ->
  p_meth P f = KBody body ->
  wf P ES (Some (spec_facts fx1 c args)) body b ob ->
  call_back ES fx (Ann vg cg c f (HSpec b)) r n args.
Proof.
  intros ES fx fx1 r n args vg cg c f body b ob Hvg Hin Hg Hset Hb Hwf.
  apply (ann_back ES fx fx1); try assumption.
  intros j w e F j' w' v cv I Hfr Hf Hw Hk H Hq.
  unfold specialized in H. unfold sinvoke. rewrite Hb.
  destruct (rn j (log w f (e r)) (env_of (e r) (map e args))
    (Some (Frame (fr_fid F) (fr_cls F) (e r) (fr_uid F) true)) false b)
    as [[[[j2 w2] e2] cv2]|] eqn:E; [|discriminate].
  injection H as _ <- <- _.
  assert (I0 : Inv P j (log w f (e r))) by (eapply Inv_same; [| |exact I]; reflexivity).
  assert (Hm : mode ES j (log w f (e r)) (env_of (e r) (map e args))
    (Some (Frame (fr_fid F) (fr_cls F) (e r) (fr_uid F) true)) false
    (Some (spec_facts fx1 c args))).
  { left. exists (Frame (fr_fid F) (fr_cls F) (e r) (fr_uid F) true), (spec_facts fx1 c args).
    split; [reflexivity|]. split; [reflexivity|]. split; [reflexivity|].
    split; [|split; [|intro; discriminate]].
    - destruct Hfr as (u & H1 & H2 & H3 & _). exists u.
      split; [exact H1|]. split; [exact H2|]. split; [exact H3|].
      cbn [fr_spec]. intro; discriminate.
    - intros s k Hs. unfold known, spec_facts in Hs. cbn [f_cls] in Hs.
      change (cls w (env_of (e r) (map e args) s) = k).
      destruct s as [|s]; cbn [nth env_of] in *.
      + injection Hs as <-. destruct cg; cbn [is_set] in Hset; try discriminate; exact Hk.
      + eapply facts_args; [exact Hf|exact Hs]. }
  rewrite (BACK _ _ _ _ _ _ _ _ _ _ _ _ _ _ I0 Hwf Hm E Hq). reflexivity.
Qed.

End Back.

(** ** Every run *)

Lemma run_back : forall P pol n, reflects P (run P pol n) (srun P n).
Proof.
  intros P pol. induction n as [|n IB]; [intros ES j w e fr cv code acode o o' j' w' e' cv' _ _ _ H; discriminate|].
  pose proof (run_sim P pol n) as IH.
  pose proof (srun_kept P n) as KEEP.
  pose proof (run_quiet P pol n) as QUIET.
  intros ES j w e fr cv code acode o o' j' w' e' cv' I Hwf Hm Hrun Hq.
  (* finish with the rest of the code *)
  assert (Rest : forall j1 w1 e1 cv1 o1 rest l,
    Inv P j1 w1 -> wf P ES o1 rest l o' ->
    (mode ES j1 w1 e1 fr cv1 o1 \/ mode ES j1 w1 e1 fr cv1 None) ->
    (cv = true -> cv1 = true) -> (cv1 = false -> ext j j1) ->
    run P pol n j1 w1 e1 fr cv1 l = Some (j', w', e', cv') ->
    srun P n w1 e1 rest = Some (w', e')).
  { intros j1 w1 e1 cv1 o1 rest l I1 Hwf1 [Hm1|Hm1] _ _ Hr1.
    - exact (IB _ _ _ _ _ _ _ _ _ _ _ _ _ _ I1 Hwf1 Hm1 Hr1 Hq).
    - apply wf_none in Hwf1.
      exact (IB _ _ _ _ _ _ _ _ _ _ _ _ _ _ I1 Hwf1 Hm1 Hr1 Hq). }
  destruct Hwf; cbn [run] in Hrun; cbn [srun].
  - (* nothing left *)
    injection Hrun as _ <- <- _. reflexivity.
  - (* move *)
    eapply Rest; [exact I|exact Hwf| |exact (fun x => x)|intros _; apply ext_refl|exact Hrun].
    left. destruct Hm as [Hm|[-> Hm]]; [|apply mode_none; exact Hm].
    destruct Hm as (F & fx & -> & -> & -> & Hfr & Hf & Hw). left. cbn [omap].
    exists F, (learn fx d (known fx s)). split; [reflexivity|]. split; [reflexivity|].
    split; [reflexivity|]. split; [exact Hfr|]. split; [|exact Hw].
    apply facts_ok_learn; [exact Hf|]. intros k Hk. apply Hf. exact Hk.
  - (* prim *)
    eapply Rest with (cv1 := cv || _); [exact I|exact Hwf| | |intros _; apply ext_refl|exact Hrun].
    + destruct Hm as [Hm|[-> Hm]].
      * destruct Hm as (F & fx & -> & -> & -> & Hfr & Hf & Hw). cbn [orb omap].
        destruct (odd pol w j k); [right; apply mode_none; right; reflexivity|].
        left. left.
        exists F, (learn fx d None). split; [reflexivity|]. split; [reflexivity|].
        split; [reflexivity|]. split; [exact Hfr|]. split; [|exact Hw].
        apply facts_ok_learn; [exact Hf|]. intros q Hk. discriminate.
      * left. apply mode_none. destruct Hm as [->| ->]; [left|right]; reflexivity.
    + intros ->. reflexivity.
  - (* helper *)
    destruct (dispatch P pol (run P pol n) j w nm (e r) []) as [[[[jx w1] v] cvx]|] eqn:Er;
      [|discriminate].
    pose proof (QUIET _ _ _ _ _ _ _ _ _ _ Hrun Hq) as Q1.
    pose proof (dispatch_back P pol _ _ IB _ _ _ _ _ _ _ _ _ I Er (hushed_quiet _ _ Q1)) as Ed.
    rewrite Ed.
    assert (Hh : hushed w w1 = w1 /\ w_ver w1 = w_ver w).
    { unfold hushed in *. destruct (w_ver w =? w_ver w1) eqn:E.
      - apply Nat.eqb_eq in E. split; [reflexivity|auto].
      - discriminate Q1. }
    destruct Hh as [Hh Hv]. rewrite Hh in *.
    destruct (dispatch_ok P pol _ _ IH _ _ _ _ _ _ _ I Ed Q1) as (j1 & cv1 & Hr & I1 & X1).
    rewrite Hr in Er. injection Er as <- <-.
    assert (Hc : forall x, cls w1 x = cls w x).
    { apply (sdispatch_kept _ _ KEEP) in Ed. destruct Ed as [Ed _]. apply Ed. exact Q1. }
    eapply Rest with (cv1 := cv || cv1); [exact I1|exact Hwf| | | |exact Hrun].
    + eapply goes_on; [exact Hm|exact X1|exact Hc| |intros ->; reflexivity].
      intros F fx -> -> -> Hcv1. cbn [omap]. exists (learn fx d None).
      split; [reflexivity|].
      destruct Hm as [Hm|[Hm _]]; [|discriminate].
      destruct Hm as (F' & fx' & HF & _ & Ho & Hfr & Hf & Hw).
      injection HF as <-. injection Ho as <-.
      split.
      * apply facts_ok_learn; [|intros k Hk; discriminate].
        eapply facts_ok_cls; [exact Hf|exact Hc].
      * intro Hfl. specialize (Hw Hfl). destruct (X1 Hcv1) as (_ & W1 & _).
        destruct Hfr as (u & Hu & Hid & _). pose proof (i_lt _ _ _ I _ _ _ Hu) as Hlt.
        rewrite Hid in Hlt. specialize (W1 _ Hlt).
        pose proof (i_le _ _ _ I1 (fr_uid F)) as Hle. lia.
    + intros ->. reflexivity.
    + intro Hcc. apply orb_false_elim in Hcc. apply X1. tauto.
  - (* def *)
    eapply Rest; [|exact Hwf| |exact (fun x => x)|intros _; apply ext_refl|exact Hrun].
    + eapply Inv_next; [|exact I]. cbn [redefine w_ver]. lia.
    + left. destruct Hm as [Hm|[-> Hm]]; [|apply mode_none; exact Hm].
      destruct Hm as (F & fx & -> & -> & -> & Hfr & Hf & Hw). left. cbn [omap].
      exists F, (flag fx false). split; [reflexivity|]. split; [reflexivity|].
      split; [reflexivity|]. split; [exact Hfr|]. split; [exact Hf|intro; discriminate].
  - (* a singleton class is not calm *)
    exfalso. pose proof (QUIET _ _ _ _ _ _ _ _ _ _ Hrun Hq) as Q1.
    unfold calm, singleton in Q1. destruct (w_sing w (e r)); discriminate.
  - (* a fiber is not calm *)
    exfalso. destruct (dispatch P pol (run P pol n) j w nm (e r) []) as [[[[jx w1] v] cvx]|];
      [|discriminate].
    pose proof (QUIET _ _ _ _ _ _ _ _ _ _ Hrun Hq) as Q1. discriminate.
  - (* an interpreted call *)
    destruct Hm as [Hm|[-> Hm]].
    + destruct Hm as (F & fx & -> & -> & -> & Hfr & Hf & Hw).
      destruct H as [H|H]; [discriminate|]. subst a.
      destruct (call P pol (run P pol n) j w e F r nm args Deopt) as [[[[jx w1] v] cvx]|] eqn:Er;
        [|discriminate].
      pose proof (QUIET _ _ _ _ _ _ _ _ _ _ Hrun Hq) as Q1.
      pose proof (deopt_back P pol _ _ IB ES fx r nm args _ _ _ _ _ _ _ _ I Hfr Hf Hw Er Q1) as Ed.
      rewrite Ed.
      destruct (deopt_ok P pol _ _ IH ES fx d r nm args None _ _ _ _ _ _ I Hfr Hf Hw Ed Q1)
        as (j1 & cv1 & Hr & I1 & X1 & D1).
      rewrite Hr in Er. injection Er as <- <-. cbn [orb] in Hrun.
      eapply Rest with (cv1 := cv1); [exact I1|exact Hwf| |intro; discriminate|exact X1|exact Hrun].
      left. destruct cv1; [apply mode_none; right; reflexivity|].
      destruct (D1 eq_refl) as (fx' & Hno & _). discriminate.
    + assert (Hsame : match fr with
        | Some fr0 => if cv then dispatch P pol (run P pol n) j w nm (e r) (map e args)
                      else call P pol (run P pol n) j w e fr0 r nm args a
        | None => dispatch P pol (run P pol n) j w nm (e r) (map e args)
        end = dispatch P pol (run P pol n) j w nm (e r) (map e args)).
      { destruct Hm as [->| ->]; [reflexivity|]. destruct fr; reflexivity. }
      rewrite Hsame in Hrun.
      destruct (dispatch P pol (run P pol n) j w nm (e r) (map e args))
        as [[[[jx w1] v] cvx]|] eqn:Er; [|discriminate].
      pose proof (QUIET _ _ _ _ _ _ _ _ _ _ Hrun Hq) as Q1.
      pose proof (dispatch_back P pol _ _ IB _ _ _ _ _ _ _ _ _ I Er Q1) as Ed.
      rewrite Ed.
      destruct (dispatch_ok P pol _ _ IH _ _ _ _ _ _ _ I Ed Q1) as (j1 & cv1 & Hr & I1 & X1).
      rewrite Hr in Er. injection Er as <- <-.
      eapply Rest with (cv1 := cv || cv1); [exact I1|exact Hwf| | | |exact Hrun].
      * left. apply mode_none. destruct Hm as [->| ->]; [left|right]; reflexivity.
      * intros ->. reflexivity.
      * intro Hcc. apply orb_false_elim in Hcc. apply X1. tauto.
  - (* inline *)
    destruct Hm as [Hm|[Hm _]]; [|discriminate].
    destruct Hm as (F & fx' & -> & -> & Ho & Hfr & Hf & Hw). injection Ho as <-.
    destruct (call P pol (run P pol n) j w e F r nm args (Ann vg cg c f HInline))
      as [[[[jx w1] v] cvx]|] eqn:Er; [|discriminate].
    pose proof (QUIET _ _ _ _ _ _ _ _ _ _ Hrun Hq) as Q1.
    pose proof (invoked_back P pol _ _ IB ES fx fx1 r nm args vg cg c f HInline H H0 H1 (or_introl eq_refl) _ _ _ _ _ _ _ _ I Hfr Hf Hw Er Q1) as Ed.
    rewrite Ed.
    destruct (inline_ok P pol _ _ IH KEEP ES fx fx1 d r nm args vg cg c f H H0 H1 H2
                _ _ _ _ _ _ I Hfr Hf Hw Ed Q1) as (j1 & cv1 & Hr & I1 & X1 & D1).
    rewrite Hr in Er. injection Er as <- <-. cbn [orb] in Hrun.
    assert (Hc : forall x, cls w1 x = cls w x).
    { apply (sdispatch_kept _ _ KEEP) in Ed. destruct Ed as [Ed' _]. apply Ed'. exact Q1. }
    eapply Rest with (cv1 := cv1); [exact I1|exact Hwf| |intro; discriminate|exact X1|exact Hrun].
    destruct cv1; [right; apply mode_none; right; reflexivity|].
    left. left. destruct (D1 eq_refl) as (fx' & Ho & Hf' & Hw'). injection Ho as <-.
    exists F, (learn fx1 d None). split; [reflexivity|]. split; [reflexivity|].
    split; [reflexivity|]. split; [|split; assumption].
    eapply framed_ext; [exact Hfr|apply X1; reflexivity|exact Hc].
  - (* send *)
    destruct Hm as [Hm|[Hm _]]; [|discriminate].
    destruct Hm as (F & fx' & -> & -> & Ho & Hfr & Hf & Hw). injection Ho as <-.
    destruct (call P pol (run P pol n) j w e F r nm args (Ann vg cg c f HSend))
      as [[[[jx w1] v] cvx]|] eqn:Er; [|discriminate].
    pose proof (QUIET _ _ _ _ _ _ _ _ _ _ Hrun Hq) as Q1.
    pose proof (invoked_back P pol _ _ IB ES fx fx1 r nm args vg cg c f HSend H H0 H1 (or_intror eq_refl) _ _ _ _ _ _ _ _ I Hfr Hf Hw Er Q1) as Ed.
    rewrite Ed.
    destruct (send_ok P pol _ _ IH KEEP ES fx fx1 d r nm args vg cg c f H H0 H1
                _ _ _ _ _ _ I Hfr Hf Hw Ed Q1) as (j1 & cv1 & Hr & I1 & X1 & D1).
    rewrite Hr in Er. injection Er as <- <-. cbn [orb] in Hrun.
    assert (Hc : forall x, cls w1 x = cls w x).
    { apply (sdispatch_kept _ _ KEEP) in Ed. destruct Ed as [Ed' _]. apply Ed'. exact Q1. }
    eapply Rest with (cv1 := cv1); [exact I1|exact Hwf| |intro; discriminate|exact X1|exact Hrun].
    destruct cv1; [right; apply mode_none; right; reflexivity|].
    left. left. destruct (D1 eq_refl) as (fx' & Ho & Hf' & Hw'). injection Ho as <-.
    exists F, (flag (learn fx1 d None) false). split; [reflexivity|]. split; [reflexivity|].
    split; [reflexivity|]. split; [|split; assumption].
    eapply framed_ext; [exact Hfr|apply X1; reflexivity|exact Hc].
  - (* specialized *)
    destruct Hm as [Hm|[Hm _]]; [|discriminate].
    destruct Hm as (F & fx' & -> & -> & Ho & Hfr & Hf & Hw). injection Ho as <-.
    destruct (call P pol (run P pol n) j w e F r nm args (Ann vg cg c f (HSpec b)))
      as [[[[jx w1] v] cvx]|] eqn:Er; [|discriminate].
    pose proof (QUIET _ _ _ _ _ _ _ _ _ _ Hrun Hq) as Q1.
    pose proof (spec_back P pol _ _ IB ES fx fx1 r nm args vg cg c f body b ob H H0 H1 H2 H3 Hwf1 _ _ _ _ _ _ _ _ I Hfr Hf Hw Er Q1) as Ed.
    rewrite Ed.
    destruct (spec_ok P pol _ _ IH KEEP ES fx fx1 d r nm args vg cg c f body b ob H H0 H1 H2 H3
                Hwf1 _ _ _ _ _ _ I Hfr Hf Hw Ed Q1) as (j1 & cv1 & Hr & I1 & X1 & D1).
    rewrite Hr in Er. injection Er as <- <-. cbn [orb] in Hrun.
    assert (Hc : forall x, cls w1 x = cls w x).
    { apply (sdispatch_kept _ _ KEEP) in Ed. destruct Ed as [Ed' _]. apply Ed'. exact Q1. }
    eapply Rest with (cv1 := cv1); [exact I1|exact Hwf2| |intro; discriminate|exact X1|exact Hrun].
    destruct cv1; [right; apply mode_none; right; reflexivity|].
    left. left. destruct (D1 eq_refl) as (fx' & Ho & Hf' & Hw'). rewrite Ho.
    exists F, fx'. split; [reflexivity|]. split; [reflexivity|].
    split; [reflexivity|]. split; [|split; assumption].
    eapply framed_ext; [exact Hfr|apply X1; reflexivity|exact Hc].
  - (* if *)
    destruct (run P pol n j w e fr cv (if truthy (e s) then la else lb))
      as [[[[jx w1] e1] cvx]|] eqn:Er; [|discriminate].
    pose proof (QUIET _ _ _ _ _ _ _ _ _ _ Hrun Hq) as Q1.
    assert (Hbr : exists o2, wf P ES o (if truthy (e s) then a else b)
                    (if truthy (e s) then la else lb) o2 /\ ole o1 o2).
    { destruct (truthy (e s)); [exists oa|exists ob]; split; assumption. }
    destruct Hbr as (o2 & Hwfb & Hle).
    pose proof (IB _ _ _ _ _ _ _ _ _ _ _ _ _ _ I Hwfb Hm Er Q1) as Eb. rewrite Eb.
    assert (Hc : forall x, cls w1 x = cls w x)
      by (apply KEEP in Eb; destruct Eb as [Eb' _]; apply Eb'; exact Q1).
    destruct (IH _ _ _ _ _ _ _ _ _ _ _ _ I Hwfb Hm Eb Q1) as (j1 & cv1 & Hr & I1 & Hcv & X1 & D1).
    rewrite Hr in Er. injection Er as <- <-.
    eapply Rest; [exact I1|exact Hwf3| |exact Hcv|exact X1|exact Hrun].
    destruct Hm as [Hm|[_ Hm]].
    + destruct Hm as (F & fx & -> & -> & -> & Hfr & _).
      destruct cv1; [right; apply mode_none; right; reflexivity|].
      destruct (D1 F eq_refl eq_refl) as (fx2 & -> & Hf2 & Hw2).
      destruct Hle as (g & -> & Hg). left. left. exists F, g.
      split; [reflexivity|]. split; [reflexivity|]. split; [reflexivity|].
      split; [eapply framed_ext; [exact Hfr|apply X1; reflexivity|exact Hc]|].
      split; [eapply facts_ok_weaker; eassumption|].
      intro Hfl. apply Hw2. destruct Hg as [Hg _]. apply Hg. exact Hfl.
    + right. apply mode_none. destruct Hm as [->| ->]; [left; reflexivity|right; apply Hcv; reflexivity].
  - (* while *)
    destruct (truthy (e s)).
    + destruct (run P pol n j w e fr cv lb) as [[[[jx w1] e1] cvx]|] eqn:Er; [|discriminate].
      pose proof (QUIET _ _ _ _ _ _ _ _ _ _ Hrun Hq) as Q1.
      assert (Hm1 : exists hx obx, (hx = h /\ obx = ob \/ hx = None /\ obx = None)
                      /\ wf P ES hx body lb obx /\ mode ES j w e fr cv hx).
      { destruct Hm as [Hm|[-> Hm]].
        - destruct Hm as (F & fx & -> & -> & -> & Hfr & Hf & Hw).
          destruct H as (g & -> & Hg). exists (Some g), ob. split; [left; split; reflexivity|].
          split; [exact Hwf1|]. left. exists F, g.
          split; [reflexivity|]. split; [reflexivity|]. split; [reflexivity|].
          split; [exact Hfr|]. split; [eapply facts_ok_weaker; eassumption|].
          intro Hfl. apply Hw. destruct Hg as [Hg _]. apply Hg. exact Hfl.
        - exists None, None. split; [right; split; reflexivity|].
          split; [eapply wf_none; exact Hwf1|apply mode_none; exact Hm]. }
      destruct Hm1 as (hx & obx & Hcase & Hwfb & Hm1).
      pose proof (IB _ _ _ _ _ _ _ _ _ _ _ _ _ _ I Hwfb Hm1 Er Q1) as Eb. rewrite Eb.
      assert (Hc : forall x, cls w1 x = cls w x)
        by (apply KEEP in Eb; destruct Eb as [Eb' _]; apply Eb'; exact Q1).
      destruct (IH _ _ _ _ _ _ _ _ _ _ _ _ I Hwfb Hm1 Eb Q1)
        as (j1 & cv1 & Hr & I1 & Hcv & X1 & D1).
      rewrite Hr in Er. injection Er as <- <-.
      assert (Hagain : wf P ES h (SWhile s body :: rest) (AWhile s lb :: l) o').
      { eapply wf_while with (h := h) (ob := ob); try assumption. apply ole_refl. }
      eapply Rest; [exact I1|exact Hagain| |exact Hcv|exact X1|exact Hrun].
      destruct Hm as [Hm|[_ Hm]].
      * destruct Hm as (F & fx & -> & -> & -> & Hfr & _).
        destruct cv1; [right; apply mode_none; right; reflexivity|].
        destruct (D1 F eq_refl eq_refl) as (fx2 & Hfx2 & Hf2 & Hw2).
        destruct Hcase as [[-> ->]|[_ ->]]; [|discriminate]. subst ob.
        destruct H0 as (g & -> & Hg). left. left. exists F, g.
        split; [reflexivity|]. split; [reflexivity|]. split; [reflexivity|].
        split; [eapply framed_ext; [exact Hfr|apply X1; reflexivity|exact Hc]|].
        split; [eapply facts_ok_weaker; eassumption|].
        intro Hfl. apply Hw2. destruct Hg as [Hg _]. apply Hg. exact Hfl.
      * right. apply mode_none.
        destruct Hm as [->| ->]; [left; reflexivity|right; apply Hcv; reflexivity].
    + eapply Rest; [exact I|exact Hwf2| |exact (fun x => x)|intros _; apply ext_refl|exact Hrun].
      destruct Hm as [Hm|[-> Hm]]; [|right; apply mode_none; exact Hm].
      destruct Hm as (F & fx & -> & -> & -> & Hfr & Hf & Hw).
      destruct H as (g & -> & Hg). left. left. exists F, g.
      split; [reflexivity|]. split; [reflexivity|]. split; [reflexivity|].
      split; [exact Hfr|]. split; [eapply facts_ok_weaker; eassumption|].
      intro Hfl. apply Hw. destruct Hg as [Hg _]. apply Hg. exact Hfl.
Qed.

(** ** Whole programs *)

Theorem start_back : forall P pol n w f o args w' v,
  start P pol n w f o args = Some (w', v) -> calm w' ->
  sstart P n w f o args = Some (w', v).
Proof.
  intros P pol n w f o args w' v H Hq. unfold start in H. unfold sstart.
  destruct (invoke P pol (run P pol n) jit0 w f (cls w o) o args)
    as [[[[j1 w1] v1] cv1]|] eqn:E; [|discriminate].
  injection H as <- <-.
  exact (invoke_back P pol _ _ (run_back P pol n) _ _ _ _ _ _ _ _ _ (Inv_jit0 P w) E Hq).
Qed.
