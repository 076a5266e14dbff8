(** Proofs for DispModel: compiled code calls what the interpreter calls. *)
From Coq Require Import List Arith Bool PeanoNat Lia.
From Verif Require Import DispModel DispSpec.
Import ListNotations.

(** ** Small facts *)

Lemma same_cls_eq : forall a b, same_cls a b = true <-> a = b.
Proof.
  intros [x|] [y|]; cbn [same_cls]; split; intro H; try discriminate; try reflexivity.
  - apply Nat.eqb_eq in H. subst. reflexivity.
  - injection H as ->. apply Nat.eqb_refl.
Qed.

Lemma same_clss_eq : forall a b, same_clss a b = true -> a = b.
Proof.
  induction a as [|x a IH]; intros [|y b]; cbn [same_clss]; intro H;
    try discriminate; try reflexivity.
  apply andb_prop in H. destruct H as [H1 H2].
  apply same_cls_eq in H1. apply IH in H2. subst. reflexivity.
Qed.

Lemma same_facts_eq : forall a b, same_facts a b = true -> a = b.
Proof.
  intros [fa ca] [fb cb]. unfold same_facts. cbn [f_flag f_cls]. intro H.
  apply andb_prop in H. destruct H as [H1 H2].
  apply Bool.eqb_prop in H1. apply same_clss_eq in H2. subst. reflexivity.
Qed.

Lemma nth_set_at : forall s l v i,
  nth i (set_at l s v) None = if i =? s then v else nth i l None.
Proof.
  induction s as [|s IH]; intros l v i.
  - destruct l as [|x l]; destruct i as [|i]; cbn [set_at nth Nat.eqb]; try reflexivity.
    destruct i; reflexivity.
  - destruct l as [|x l]; destruct i as [|i]; cbn [set_at nth Nat.eqb]; try reflexivity.
    + rewrite IH. destruct (i =? s); [reflexivity|]. destruct i; reflexivity.
    + apply IH.
Qed.

Lemma known_learn : forall fx s v i,
  known (learn fx s v) i = if i =? s then v else known fx i.
Proof. intros. unfold known, learn. cbn [f_cls]. apply nth_set_at. Qed.

Lemma known_flag : forall fx b i, known (flag fx b) i = known fx i.
Proof. reflexivity. Qed.

Definition facts_ok (fx : facts) (w : world) (e : env) : Prop :=
  forall s c, known fx s = Some c -> cls w (e s) = c.

Definition weaker (h fx : facts) : Prop :=
  (f_flag h = true -> f_flag fx = true)
  /\ (forall s c, known h s = Some c -> known fx s = Some c).

Lemma weaker_refl : forall fx, weaker fx fx.
Proof. intros. split; auto. Qed.

Lemma nth_join : forall a b i c,
  nth i (join_cls a b) None = Some c -> nth i a None = Some c /\ nth i b None = Some c.
Proof.
  induction a as [|x a IH]; intros [|y b] i c H; cbn [join_cls] in H;
    try (destruct i; discriminate).
  destruct i as [|i]; cbn [nth] in *.
  - destruct (same_cls x y) eqn:E; [|discriminate].
    apply same_cls_eq in E. split; [exact H|rewrite <- E; exact H].
  - apply IH. exact H.
Qed.

Lemma join_l : forall a b, weaker (join a b) a.
Proof.
  intros a b. split.
  - unfold join. cbn [f_flag]. intro H. apply andb_prop in H. tauto.
  - intros s c H. unfold known, join in *. cbn [f_cls] in H. apply nth_join in H. tauto.
Qed.

Lemma join_r : forall a b, weaker (join a b) b.
Proof.
  intros a b. split.
  - unfold join. cbn [f_flag]. intro H. apply andb_prop in H. tauto.
  - intros s c H. unfold known, join in *. cbn [f_cls] in H. apply nth_join in H. tauto.
Qed.

(** [ole h o]: whatever holds after [o] is enough for [h]. *)
Definition ole (h o : option facts) : Prop :=
  match o with
  | None => True
  | Some f => exists g, h = Some g /\ weaker g f
  end.

Lemma ole_refl : forall o, ole o o.
Proof. intros [f|]; cbn; [exists f; split; [reflexivity|apply weaker_refl]|exact I]. Qed.

Lemma ojoin_l : forall a b, ole (ojoin a b) a.
Proof.
  intros [a|] [b|]; cbn [ojoin ole]; try exact I.
  - exists (join a b). split; [reflexivity|apply join_l].
  - exists a. split; [reflexivity|apply weaker_refl].
Qed.

Lemma ojoin_r : forall a b, ole (ojoin a b) b.
Proof.
  intros [a|] [b|]; cbn [ojoin ole]; try exact I.
  - exists (join a b). split; [reflexivity|apply join_r].
  - exists b. split; [reflexivity|apply weaker_refl].
Qed.

Definition omap (g : facts -> facts) (o : option facts) : option facts :=
  match o with Some f => Some (g f) | None => None end.

(** ** Well annotated code *)

(** The receiver guard [cg] and what is known behind it. *)
Definition guarded (ES : list entry) (fx : facts) (r n c f : nat) (cg : cguard) (fx1 : facts)
    : Prop :=
  match cg with
  | GNone => known fx r = Some c /\ fx1 = flag fx true
  | GOne => fx1 = learn (flag fx true) r (Some c)
  | GSet l => fx1 = flag fx true /\ Forall (fun k => In (Entry k n f) ES) l
  end.

Definition is_set (cg : cguard) : bool := match cg with GSet _ => true | _ => false end.

Inductive wf (P : prog) (ES : list entry)
    : option facts -> list stmt -> list astmt -> option facts -> Prop :=
| wf_nil : forall o, wf P ES o [] [] o
| wf_move : forall o d s rest l o',
    wf P ES (omap (fun fx => learn fx d (known fx s)) o) rest l o' ->
    wf P ES o (SMove d s :: rest) (AMove d s :: l) o'
| wf_prim : forall o d k rest l o',
    wf P ES (omap (fun fx => learn fx d None) o) rest l o' ->
    wf P ES o (SPrim d k :: rest) (APrim d k :: l) o'
| wf_helper : forall o d r nm rest l o',
    wf P ES (omap (fun fx => learn fx d None) o) rest l o' ->
    wf P ES o (SHelper d r nm :: rest) (AHelper d r nm :: l) o'
| wf_def : forall o g rest l o',
    wf P ES (omap (fun fx => flag fx false) o) rest l o' ->
    wf P ES o (SDef g :: rest) (ADef g :: l) o'
| wf_single : forall o r g rest l o',
    wf P ES (omap (fun fx => flag fx false) o) rest l o' ->
    wf P ES o (SSingle r g :: rest) (ASingle r g :: l) o'
| wf_fiber : forall o d r nm rest l o',
    wf P ES (omap (fun fx => flag (learn fx d None) false) o) rest l o' ->
    wf P ES o (SFiber d r nm :: rest) (AFiber d r nm :: l) o'
| wf_dead : forall o site d r nm args a rest l o',
    (o = None \/ a = Deopt) ->
    wf P ES None rest l o' ->
    wf P ES o (SCall site d r nm args :: rest) (ACall d r nm args a :: l) o'
| wf_inline : forall fx fx1 site d r nm args vg cg c f rest l o',
    (vg = false -> f_flag fx = true) ->
    In (Entry c nm f) ES ->
    guarded ES fx r nm c f cg fx1 ->
    (forall body, p_meth P f <> KBody body) ->
    wf P ES (Some (learn fx1 d None)) rest l o' ->
    wf P ES (Some fx) (SCall site d r nm args :: rest)
      (ACall d r nm args (Ann vg cg c f HInline) :: l) o'
| wf_send : forall fx fx1 site d r nm args vg cg c f rest l o',
    (vg = false -> f_flag fx = true) ->
    In (Entry c nm f) ES ->
    guarded ES fx r nm c f cg fx1 ->
    wf P ES (Some (flag (learn fx1 d None) false)) rest l o' ->
    wf P ES (Some fx) (SCall site d r nm args :: rest)
      (ACall d r nm args (Ann vg cg c f HSend) :: l) o'
| wf_spec : forall fx fx1 site d r nm args vg cg c f body b ob rest l o',
    (vg = false -> f_flag fx = true) ->
    In (Entry c nm f) ES ->
    guarded ES fx r nm c f cg fx1 ->
    is_set cg = false ->
    p_meth P f = KBody body ->
    wf P ES (Some (spec_facts fx1 c args)) body b ob ->
    wf P ES (match ob with
             | None => None
             | Some fb => Some (flag (learn fx1 d None) (f_flag fx1 && f_flag fb))
             end) rest l o' ->
    wf P ES (Some fx) (SCall site d r nm args :: rest)
      (ACall d r nm args (Ann vg cg c f (HSpec b)) :: l) o'
| wf_if : forall o s a b la lb oa ob o1 rest l o',
    wf P ES o a la oa -> wf P ES o b lb ob ->
    ole o1 oa -> ole o1 ob ->
    wf P ES o1 rest l o' ->
    wf P ES o (SIf s a b :: rest) (AIf s la lb :: l) o'
| wf_while : forall o s body lb h ob rest l o',
    ole h o -> wf P ES h body lb ob -> ole h ob ->
    wf P ES h rest l o' ->
    wf P ES o (SWhile s body :: rest) (AWhile s lb :: l) o'.

(** Interpreter frames run the same code, annotations aside. *)
Lemma wf_none : forall P ES o code l o',
  wf P ES o code l o' -> wf P ES None code l None.
Proof.
  intros P ES o code l o' H. induction H; try (constructor; assumption).
  - apply wf_dead; [left; reflexivity|assumption].
  - apply wf_dead; [left; reflexivity|assumption].
  - apply wf_dead; [left; reflexivity|assumption].
  - apply wf_dead; [left; reflexivity|assumption].
  - eapply wf_if with (oa := None) (ob := None) (o1 := None); try eassumption; exact I.
  - eapply wf_while with (h := None) (ob := None); try eassumption; exact I.
Qed.

(** Plain code is the code itself. *)
Fixpoint stmt_size (s : stmt) : nat :=
  match s with
  | SIf _ a b => S (fold_right (fun s n => stmt_size s + n) 0 a
                    + fold_right (fun s n => stmt_size s + n) 0 b)
  | SWhile _ b => S (fold_right (fun s n => stmt_size s + n) 0 b)
  | _ => 1
  end.
Definition code_size (l : list stmt) : nat := fold_right (fun s n => stmt_size s + n) 0 l.

Lemma stmt_size_pos : forall s, 1 <= stmt_size s.
Proof. destruct s; cbn [stmt_size]; lia. Qed.

Lemma wf_plain : forall P ES m code, code_size code <= m -> wf P ES None code (plain code) None.
Proof.
  intros P ES. induction m as [|m IH]; intros [|s rest] Hm; try apply wf_nil.
  - unfold code_size in Hm. cbn [fold_right] in Hm.
    pose proof (stmt_size_pos s). lia.
  - assert (Hs : code_size (s :: rest) = stmt_size s + code_size rest) by reflexivity.
    pose proof (stmt_size_pos s) as Hp.
    assert (Hr : wf P ES None rest (plain rest) None) by (apply IH; lia).
    unfold plain. cbn [map]. fold (plain rest).
    destruct s; cbn [plain1]; try (constructor; cbn [omap]; exact Hr).
    + apply wf_dead; [left; reflexivity|exact Hr].
    + change (map plain1 a) with (plain a). change (map plain1 b) with (plain b).
      assert (Hi : stmt_size (SIf s a b) = S (code_size a + code_size b)) by reflexivity.
      eapply wf_if with (oa := None) (ob := None) (o1 := None);
        try (apply IH; lia); exact I.
    + change (map plain1 body) with (plain body).
      assert (Hi : stmt_size (SWhile s body) = S (code_size body)) by reflexivity.
      eapply wf_while with (h := None) (ob := None); try (apply IH; lia); exact I.
Qed.

(** ** The compiler produces well annotated code *)

Section Comp.
Variable P : prog.
Variable pol : policy.
Variable w : world.
Variable j : jit.

Definition holds (e : entry) : Prop := w_tab w (e_cls e) (e_name e) = Some (e_fid e).

Lemma class_guard_ok : forall fx site r nm c f cg fx1 es ES,
  w_tab w c nm = Some f ->
  class_guard P pol w j (flag fx true) site r nm c f = (cg, fx1, es) ->
  incl es ES ->
  guarded ES fx r nm c f cg fx1 /\ Forall holds es
  /\ (forall body, p_meth P f = KBody body -> is_set cg = false).
Proof.
  intros fx site r nm c f cg fx1 es ES Hf H Hi. unfold class_guard in H.
  destruct (same_cls (known (flag fx true) r) (Some c)) eqn:E.
  - injection H as <- <- <-. apply same_cls_eq in E.
    split; [|split; [constructor|reflexivity]]. cbn [guarded]. split; [exact E|reflexivity].
  - set (st := filter _ _) in H.
    assert (Hst : Forall (fun k => w_tab w k nm = Some f) st).
    { apply Forall_forall. intros k Hk. unfold st in Hk. apply filter_In in Hk.
      destruct Hk as [_ Hk]. apply same_cls_eq in Hk. exact Hk. }
    destruct (p_meth P f) eqn:Em; try destruct (2 <=? length st) eqn:El;
      injection H as <- <- <-;
      (split; [|split; [|intros; try discriminate; reflexivity]]);
      try constructor; try reflexivity.
    + apply Forall_forall. intros q Hk. apply Hi. apply in_map_iff.
      exists q. split; [reflexivity|exact Hk].
    + apply Forall_forall. intros e He. apply in_map_iff in He.
      destruct He as (q & <- & Hk). unfold holds. cbn [e_cls e_name e_fid].
      rewrite Forall_forall in Hst. apply Hst. exact Hk.
Qed.

Lemma loop_head_ok : forall m body fx be h,
  loop_head m body fx be = Some h ->
  weaker h fx /\ (forall b, body h = Some (Some b) -> weaker h b)
  /\ (exists o, body h = Some o).
Proof.
  induction m as [|m IH]; intros body fx be h H; cbn [loop_head] in H; [discriminate|].
  destruct be as [b0|].
  - destruct (body (join fx b0)) as [[b|]|] eqn:E; [| |discriminate].
    + destruct (same_facts b0 b) eqn:Es.
      * injection H as <-. apply same_facts_eq in Es. subst b0.
        split; [apply join_l|]. split; [|eexists; exact E].
        intros b' Hb. rewrite E in Hb. injection Hb as <-. apply join_r.
      * apply IH in H. exact H.
    + injection H as <-. split; [apply join_l|]. split; [|eexists; exact E].
      intros b' Hb. rewrite E in Hb. discriminate.
  - destruct (body fx) as [[b|]|] eqn:E; [| |discriminate].
    + apply IH in H. exact H.
    + injection H as <-. split; [apply weaker_refl|]. split; [|eexists; exact E].
      intros b' Hb. rewrite E in Hb. discriminate.
Qed.

Lemma comp_ok : forall n fx code l o es,
  comp P pol w j n fx code = Some (l, o, es) ->
  Forall holds es /\ (forall ES, incl es ES -> wf P ES (Some fx) code l o).
Proof.
  induction n as [|n IH]; intros fx code l o es H; cbn [comp] in H; [discriminate|].
  destruct code as [|s rest].
  - injection H as <- <- <-. split; [constructor|]. intros. apply wf_nil.
  - (* the rest of the code behind one statement *)
    assert (Next : forall a ox ea,
      match ox with
      | None => Some (a :: plain rest, None, ea)
      | Some fx' =>
          match comp P pol w j n fx' rest with
          | None => None
          | Some (l, o', es') => Some (a :: l, o', ea ++ es')
          end
      end = Some (l, o, es) ->
      Forall holds ea ->
      exists lr, l = a :: lr /\ Forall holds es /\ incl ea es
        /\ (forall ES, incl es ES -> wf P ES ox rest lr o)).
    { intros a ox ea Hn Ha. destruct ox as [fx'|].
      - destruct (comp P pol w j n fx' rest) as [[[l' o''] es']|] eqn:Er; [|discriminate].
        injection Hn as <- <- <-. apply IH in Er. destruct Er as [E1 E2].
        exists l'. split; [reflexivity|]. split; [apply Forall_app; split; assumption|].
        split; [apply incl_appl; apply incl_refl|].
        intros ES Hi. apply E2. intros x Hx. apply Hi. apply in_or_app. right. exact Hx.
      - injection Hn as <- <- <-. exists (plain rest). split; [reflexivity|].
        split; [exact Ha|]. split; [apply incl_refl|].
        intros ES _. eapply wf_plain. apply le_n. }
    destruct s; cbn beta iota zeta in H.
    + apply (Next (AMove d s) (Some (learn fx d (known fx s))) []) in H; [|constructor]. destruct H as (lr & -> & H1 & _ & H2).
      split; [exact H1|]. intros ES Hi. apply wf_move. apply H2. exact Hi.
    + apply (Next (APrim d k) (Some (learn fx d None)) []) in H; [|constructor]. destruct H as (lr & -> & H1 & _ & H2).
      split; [exact H1|]. intros ES Hi. apply wf_prim. apply H2. exact Hi.
    + (* SCall *)
      destruct (site_cls pol w j site) as [c|];
        [|apply (Next (ACall d r n0 args Deopt) None []) in H; [|constructor]; destruct H as (lr & -> & H1 & _ & H2);
          split; [exact H1|]; intros ES Hi; apply wf_dead;
          [right; reflexivity|apply H2; exact Hi]].
      destruct (w_tab w c n0) as [f|] eqn:Ef;
        [|apply (Next (ACall d r n0 args Deopt) None []) in H; [|constructor]; destruct H as (lr & -> & H1 & _ & H2);
          split; [exact H1|]; intros ES Hi; apply wf_dead;
          [right; reflexivity|apply H2; exact Hi]].
      destruct (class_guard P pol w j (flag fx true) site r n0 c f) as [[cg fx1] ec] eqn:Eg.
      pose proof (class_guard_ok _ _ _ _ _ _ _ _ _ ec Ef Eg (incl_refl _)) as (_ & Hec & Hset).
      assert (He : holds (Entry c n0 f)) by exact Ef.
      assert (Hvg : negb (f_flag fx) = false -> f_flag fx = true).
      { intro Hb. destruct (f_flag fx); [reflexivity|discriminate]. }
      destruct (p_meth P f) as [iv|iv|k|body] eqn:Em.
      1,2,3: apply (Next (ACall d r n0 args (Ann (negb (f_flag fx)) cg c f HInline))
          (Some (learn fx1 d None)) (Entry c n0 f :: ec)) in H; [|constructor; assumption];
        destruct H as (lr & -> & H1 & H3 & H2);
        split; [exact H1|]; intros ES Hi;
        (eapply wf_inline with (fx1 := fx1);
         [exact Hvg
         |apply Hi; apply H3; left; reflexivity
         |eapply class_guard_ok; [exact Ef|exact Eg|
            intros x Hx; apply Hi; apply H3; right; exact Hx]
         |intros b Hb; rewrite Em in Hb; discriminate
         |apply H2; exact Hi]).
      destruct (inl pol w j f).
      * destruct (comp P pol w j n (spec_facts fx1 c args) body) as [[[b ob] eb]|] eqn:Eb;
          [|discriminate].
        apply IH in Eb. destruct Eb as [Eb1 Eb2].
        apply (Next (ACall d r n0 args (Ann (negb (f_flag fx)) cg c f (HSpec b)))
          (match ob with None => None | Some fb =>
             Some (flag (learn fx1 d None) (f_flag fx1 && f_flag fb)) end)
          (Entry c n0 f :: ec ++ eb)) in H; [|constructor; [assumption|apply Forall_app; split; assumption]].
        destruct H as (lr & -> & H1 & H3 & H2).
        split; [exact H1|]. intros ES Hi.
        eapply wf_spec with (fx1 := fx1) (ob := ob).
        -- exact Hvg.
        -- apply Hi; apply H3; left; reflexivity.
        -- eapply class_guard_ok; [exact Ef|exact Eg|].
           intros x Hx; apply Hi; apply H3; right; apply in_or_app; left; exact Hx.
        -- apply (Hset body). reflexivity.
        -- exact Em.
        -- apply Eb2. intros x Hx; apply Hi; apply H3; right; apply in_or_app; right; exact Hx.
        -- apply H2. exact Hi.
      * apply (Next (ACall d r n0 args (Ann (negb (f_flag fx)) cg c f HSend))
          (Some (flag (learn fx1 d None) false)) (Entry c n0 f :: ec)) in H;
          [|constructor; assumption].
        destruct H as (lr & -> & H1 & H3 & H2).
        split; [exact H1|]. intros ES Hi.
        eapply wf_send with (fx1 := fx1).
        -- exact Hvg.
        -- apply Hi; apply H3; left; reflexivity.
        -- eapply class_guard_ok; [exact Ef|exact Eg|].
           intros x Hx; apply Hi; apply H3; right; exact Hx.
        -- apply H2. exact Hi.
    + apply (Next (AHelper d r n0) (Some (learn fx d None)) []) in H; [|constructor]. destruct H as (lr & -> & H1 & _ & H2).
      split; [exact H1|]. intros ES Hi. apply wf_helper. apply H2. exact Hi.
    + apply (Next (ADef g) (Some (flag fx false)) []) in H; [|constructor]. destruct H as (lr & -> & H1 & _ & H2).
      split; [exact H1|]. intros ES Hi. apply wf_def. apply H2. exact Hi.
    + apply (Next (ASingle r g) (Some (flag fx false)) []) in H; [|constructor]. destruct H as (lr & -> & H1 & _ & H2).
      split; [exact H1|]. intros ES Hi. apply wf_single. apply H2. exact Hi.
    + apply (Next (AFiber d r n0) (Some (flag (learn fx d None) false)) []) in H; [|constructor]. destruct H as (lr & -> & H1 & _ & H2).
      split; [exact H1|]. intros ES Hi. apply wf_fiber. apply H2. exact Hi.
    + (* SIf *)
      destruct (comp P pol w j n fx a) as [[[la oa] ea]|] eqn:Ea; [|discriminate].
      destruct (comp P pol w j n fx b) as [[[lb ob] eb]|] eqn:Eb; [|discriminate].
      apply IH in Ea. apply IH in Eb. destruct Ea as [Ea1 Ea2]. destruct Eb as [Eb1 Eb2].
      apply (Next (AIf s la lb) (ojoin oa ob) (ea ++ eb)) in H;
        [|apply Forall_app; split; assumption].
      destruct H as (lr & -> & H1 & H3 & H2).
      split; [exact H1|]. intros ES Hi.
      eapply wf_if with (oa := oa) (ob := ob) (o1 := ojoin oa ob).
      * apply Ea2. intros x Hx; apply Hi; apply H3; apply in_or_app; left; exact Hx.
      * apply Eb2. intros x Hx; apply Hi; apply H3; apply in_or_app; right; exact Hx.
      * apply ojoin_l.
      * apply ojoin_r.
      * apply H2. exact Hi.
    + (* SWhile *)
      set (bd := fun h => match comp P pol w j n h body with
                          | None => None | Some (_, o, _) => Some o end) in H.
      destruct (loop_head 10 bd fx None) as [h|] eqn:Eh; [|discriminate].
      apply loop_head_ok in Eh. destruct Eh as (Hw1 & Hw2 & _).
      destruct (comp P pol w j n h body) as [[[lb ob] eb]|] eqn:Eb; [|discriminate].
      assert (Hbd : bd h = Some ob) by (unfold bd; rewrite Eb; reflexivity).
      apply IH in Eb. destruct Eb as [Eb1 Eb2].
      apply (Next (AWhile s lb) (Some h) eb) in H; [|assumption].
      destruct H as (lr & -> & H1 & H3 & H2).
      split; [exact H1|]. intros ES Hi.
      eapply wf_while with (h := Some h) (ob := ob).
      * exists h. split; [reflexivity|exact Hw1].
      * apply Eb2. intros x Hx; apply Hi; apply H3; exact Hx.
      * destruct ob as [b|]; [|exact I]. exists h. split; [reflexivity|].
        apply Hw2. exact Hbd.
      * apply H2. exact Hi.
Qed.

Lemma compile_ok : forall n f c l es,
  compile P pol w j n f c = Some (l, es) ->
  exists body o, p_meth P f = KBody body /\ Forall holds es
    /\ wf P es (Some (Facts false [Some c])) body l o.
Proof.
  intros n f c l es H. unfold compile in H.
  destruct (p_meth P f) as [| | |body] eqn:Em; try discriminate.
  destruct (comp P pol w j n (Facts false [Some c]) body) as [[[l' o] es']|] eqn:E;
    [|discriminate].
  injection H as <- <-. apply comp_ok in E. destruct E as [E1 E2].
  exists body, o. split; [reflexivity|]. split; [exact E1|]. apply E2. apply incl_refl.
Qed.

End Comp.
