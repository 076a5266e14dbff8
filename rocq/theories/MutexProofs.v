From Coq Require Import List Bool Arith Lia.
From Verif Require Import MutexModel MutexSpec.
Import ListNotations.

Lemma thr_set : forall s t x u, thr (set s t x) u = if Nat.eqb u t then x else thr s u.
Proof. reflexivity. Qed.
Lemma thr_own : forall s o u, thr (set_owner s o) u = thr s u.
Proof. reflexivity. Qed.
Lemma thr_wait : forall s w u, thr (set_waiters s w) u = thr s u.
Proof. reflexivity. Qed.

Lemma in_delete : forall t u l, In u (delete t l) <-> In u l /\ u <> t.
Proof.
  intros. unfold delete. rewrite filter_In, negb_true_iff, Nat.eqb_neq. tauto.
Qed.

(** What a wake-up can change. *)
Lemma wakeup_owner : forall s t p, owner (wakeup s t p) = owner s.
Proof. intros; unfold wakeup. destruct (alive _); auto. destruct (parked _); auto. destruct (at_ _), p; auto. Qed.
Lemma wakeup_waiters : forall s t p, waiters (wakeup s t p) = waiters s.
Proof. intros; unfold wakeup. destruct (alive _); auto. destruct (parked _); auto. destruct (at_ _), p; auto. Qed.
Lemma wakeup_thr : forall s t p u,
  at_ (thr (wakeup s t p) u) = at_ (thr s u) /\ alive (thr (wakeup s t p) u) = alive (thr s u) /\
  holds (thr (wakeup s t p) u) = holds (thr s u) /\
  (u <> t -> thr (wakeup s t p) u = thr s u) /\
  (parked (thr (wakeup s t p) u) = true -> parked (thr s u) = true) /\
  (permit (thr s u) = true -> permit (thr (wakeup s t p) u) = true).
Proof.
  intros s t p u. unfold wakeup. destruct (alive (thr s t)) eqn:A; [ | repeat split; auto ].
  destruct (parked (thr s t)) eqn:P.
  - rewrite thr_set. destruct (Nat.eqb_spec u t); subst; cbn; repeat split; auto; congruence.
  - destruct (at_ (thr s t)) eqn:E, p; try (repeat split; auto; fail);
      rewrite thr_set; destruct (Nat.eqb_spec u t); subst; cbn; repeat split; auto; congruence.
Qed.

(** ** Mutual exclusion *)
Definition Own (s : state) : Prop :=
  (forall t, holds (thr s t) = true -> owner s = Some t /\ alive (thr s t) = true) /\
  (forall t, owner s = Some t -> alive (thr s t) = true -> holds (thr s t) = true).

Lemma Own_same : forall s s', Own s -> owner s' = owner s ->
  (forall t, holds (thr s' t) = holds (thr s t)) -> (forall t, alive (thr s' t) = alive (thr s t)) -> Own s'.
Proof.
  intros s s' (A & B) O H L. split; intros t; rewrite O, H, L; auto.
Qed.

Lemma Own_set : forall s t x, Own s -> holds x = holds (thr s t) -> alive x = alive (thr s t) -> Own (set s t x).
Proof.
  intros s t x O H L. apply (Own_same s); auto; intros u; rewrite thr_set; destruct (Nat.eqb_spec u t); subst; auto.
Qed.
Lemma Own_waiters : forall s w, Own s -> Own (set_waiters s w).
Proof. intros s w O. apply (Own_same s); auto. Qed.
Lemma Own_wakeup : forall s t p, Own s -> Own (wakeup s t p).
Proof.
  intros s t p O. apply (Own_same s); auto; [ apply wakeup_owner | | ]; intros u; apply wakeup_thr.
Qed.
Lemma Own_turn : forall s t k, Own s -> Own (unlock_turn s t k).
Proof.
  intros s t k O. unfold unlock_turn. destruct (waiters s) as [|w r]; [ apply Own_set; auto | ].
  destruct (alive (thr (set_waiters s r) w)).
  - apply Own_set; auto. apply Own_wakeup. apply Own_waiters; auto.
  - apply Own_set; auto; apply Own_waiters; auto.
Qed.
Lemma Own_take : forall s t x, Own s -> owner s = None -> alive (thr s t) = true -> alive x = true ->
  Own (set (set_owner s (Some t)) t (set_holds x true)).
Proof.
  intros s t x (A & B) N L X. split; intros u; rewrite thr_set; cbn [set set_owner owner];
    destruct (Nat.eqb_spec u t); subst; cbn; auto.
  - intros H. destruct (A u H). congruence.
  - congruence.
Qed.
Lemma Own_release : forall s t, Own s -> owner s = Some t ->
  Own (set (set_owner s None) t (set_holds (thr s t) false)).
Proof.
  intros s t (A & B) N. split; intros u; rewrite thr_set; cbn [set set_owner owner];
    destruct (Nat.eqb_spec u t); subst; cbn; try discriminate.
  intros H. destruct (A u H). congruence.
Qed.

Lemma step_Own : forall s l s', Own s -> step false s l = Some s' -> Own s'.
Proof.
  intros s l s' O E. destruct l; cbn [step] in E.
  - destruct (alive (thr s t) && is_out (at_ (thr s t))); [ | discriminate ].
    destruct (match owner s with Some o => _ | None => _ end).
    + assert (s' = s) as -> by congruence; auto.
    + assert (s' = set s t (goto (thr s t) (LTop false))) as -> by congruence. apply Own_set; auto.
  - destruct (alive (thr s t) && is_out (at_ (thr s t))) eqn:A; [ | discriminate ].
    apply andb_true_iff in A as (A & _). destruct (owner s) eqn:Q.
    + assert (s' = s) as -> by congruence; auto.
    + assert (s' = set (set_owner s (Some t)) t (set_holds (thr s t) true)) as -> by congruence. apply Own_take; auto.
  - destruct (alive (thr s t) && is_out (at_ (thr s t))); [ | discriminate ].
    assert (s' = set s t (goto (thr s t) (UEntry KReturn))) as -> by congruence. apply Own_set; auto.
  - destruct (alive (thr s t) && is_out (at_ (thr s t))); [ | discriminate ].
    destruct (match owner s with Some o => _ | None => _ end).
    + assert (s' = set s t (goto (thr s t) (UEntry KSleep))) as -> by congruence. apply Own_set; auto.
    + assert (s' = s) as -> by congruence; auto.
  - destruct (alive (thr s t)) eqn:A; [ | discriminate ]. unfold run in E.
    destruct (at_ (thr s t)) as [|un|un|un|un|un|k|k| |] eqn:P; try discriminate.
    + destruct (owner s) as [o|] eqn:Q.
      * destruct (alive (thr s o)) eqn:D.
        -- match type of E with Some ?y = _ => assert (s' = y) as -> by congruence end.
           apply Own_set; auto; apply Own_waiters; auto.
        -- assert (s' = set_owner s None) as -> by congruence. destruct O as (O1 & O2). split; cbn [set_owner owner].
           ++ intros u H. change (holds (thr s u) = true) in H. destruct (O1 u H). congruence.
           ++ discriminate.
      * match type of E with Some ?y = _ => assert (s' = y) as -> by congruence end. apply Own_take; auto.
    + destruct (permit (thr s t)); match type of E with Some ?y = _ => assert (s' = y) as -> by congruence end;
        apply Own_set; auto; apply Own_waiters; auto.
    + match type of E with Some ?y = _ => assert (s' = y) as -> by congruence end. apply Own_set; auto.
    + destruct (parked (thr s t)); [ discriminate | ].
      match type of E with Some ?y = _ => assert (s' = y) as -> by congruence end. apply Own_set; auto; apply Own_waiters; auto.
    + destruct (owner s) as [o|] eqn:Q; [ destruct (Nat.eqb_spec o t) | ];
        match type of E with Some ?y = _ => assert (s' = y) as -> by congruence end.
      * subst o. apply Own_turn. apply Own_release; auto.
      * apply Own_set; auto.
      * apply Own_set; auto.
    + match type of E with Some ?y = _ => assert (s' = y) as -> by congruence end. apply Own_turn; auto.
    + destruct (permit (thr s t)); match type of E with Some ?y = _ => assert (s' = y) as -> by congruence end; apply Own_set; auto.
    + destruct (parked (thr s t)); [ discriminate | ].
      match type of E with Some ?y = _ => assert (s' = y) as -> by congruence end. apply Own_set; auto.
  - destruct (at_ (thr s t)); try discriminate. destruct (alive (thr s t)); [ | discriminate ].
    match type of E with Some ?y = _ => assert (s' = y) as -> by congruence end. apply Own_set; auto.
  - assert (s' = wakeup s t p) as -> by congruence. apply Own_wakeup; auto.
  - destruct (is_out _); [ | discriminate ].
    match type of E with Some ?y = _ => assert (s' = y) as -> by congruence end. apply Own_set; auto.
  - destruct (alive (thr s t)); [ | discriminate ]. unfold unwind in E. cbn [at_ set_parked] in E.
    destruct (at_ (thr s t)) as [|[]|[]|[]|[]|[]|k|k| |]; try discriminate;
      match type of E with Some ?y = _ => assert (s' = y) as -> by congruence end;
      auto; apply Own_set; auto; apply Own_waiters; auto.
  - destruct (alive (thr s t) && is_out (at_ (thr s t))); [ | discriminate ].
    assert (s' = set s t (die (thr s t))) as -> by congruence. destruct O as (O1 & O2).
    split; intros u; rewrite thr_set; cbn [set owner]; destruct (Nat.eqb_spec u t); subst; cbn; auto; try discriminate.
  - destruct (alive (thr s t)) eqn:A; [ | discriminate ].
    match type of E with Some ?y = _ => assert (s' = y) as -> by congruence end. destruct O as (O1 & O2).
    split; intros u; cbn [thr owner]; destruct (Nat.eqb_spec u t); subst; cbn; auto; try discriminate.
Qed.

Lemma history_Own : forall ok s, history false ok s -> Own s.
Proof.
  intros ok s H. induction H; [ split; cbn; intros; discriminate | eapply step_Own; eauto ].
Qed.

Lemma exclusion : forall s, history false anything s ->
  (forall t u, holder s t -> holder s u -> t = u) /\
  (forall t, holder s t <-> owner s = Some t /\ alive (thr s t) = true).
Proof.
  intros s H. destruct (history_Own _ _ H) as (A & B). split.
  - intros t u (_ & T) (_ & U). destruct (A t T), (A u U). congruence.
  - intros t; split; [ intros (_ & T); apply A; auto | intros (O & L); split; auto ].
Qed.

(** ** Waiting *)
Definition waiting (x : th) : bool :=
  match at_ x with LReg _ => negb (permit x) | LPark _ => parked x | _ => false end.
Definition committed (x : th) : bool :=
  match at_ x with LTop _ => true | LReg _ => permit x | LPark _ => negb (parked x) | _ => false end.
Definition registered (p : pc) : bool := match p with LReg _ | LPark _ => true | _ => false end.

Record Wt (s : state) : Prop := {
  w_own : Own s;
  w_alive : forall o, owner s = Some o -> alive (thr s o) = true;
  w_mem : forall t, waiting (thr s t) = true -> In t (waiters s);
  w_reg : forall t, In t (waiters s) -> registered (at_ (thr s t)) = true;
  w_out : forall t, alive (thr s t) = false -> at_ (thr s t) = Out;
  w_park : forall t, parked (thr s t) = true -> match at_ (thr s t) with LPark _ | SPark => True | _ => False end;
  w_pcs : forall t, match at_ (thr s t) with ULoop _ | LIo _ | LReclaim _ => False | _ => True end;
  w_next : owner s = None -> (exists t, waiting (thr s t) = true) ->
           exists u, committed (thr s u) = true
}.

Lemma registered_alive : forall s t, Wt s -> registered (at_ (thr s t)) = true -> alive (thr s t) = true.
Proof.
  intros s t W R. destruct (alive (thr s t)) eqn:A; auto. rewrite (w_out _ W t A) in R. discriminate.
Qed.

(** A thread that neither was nor becomes involved in waiting moves. *)
Lemma Wt_set_plain : forall s t x, Wt s -> Own (set s t x) ->
  (owner s = Some t -> alive x = true) ->
  registered (at_ x) = false -> registered (at_ (thr s t)) = false ->
  (alive x = false -> at_ x = Out) ->
  (parked x = true -> match at_ x with LPark _ | SPark => True | _ => False end) ->
  match at_ x with ULoop _ | LIo _ | LReclaim _ => False | _ => True end ->
  (committed (thr s t) = true -> committed x = true \/ owner s <> None) ->
  Wt (set s t x).
Proof.
  intros s t x W O A R1 R0 L P C K.
  assert (NW : waiting x = false) by (unfold waiting; destruct (at_ x); auto; discriminate).
  destruct W. constructor; auto.
  - intros o H. rewrite thr_set. destruct (Nat.eqb_spec o t); subst; auto.
  - intros u. rewrite thr_set. destruct (Nat.eqb_spec u t); subst; [ congruence | auto ].
  - intros u H. rewrite thr_set. destruct (Nat.eqb_spec u t); subst; [ cbn in H; specialize (w_reg0 t H); congruence | auto ].
  - intros u. rewrite thr_set. destruct (Nat.eqb_spec u t); subst; [ exact L | apply w_out0 ].
  - intros u. rewrite thr_set. destruct (Nat.eqb_spec u t); subst; [ exact P | apply w_park0 ].
  - intros u. rewrite thr_set. destruct (Nat.eqb_spec u t); subst; [ exact C | apply w_pcs0 ].
  - intros H (u & Hu). rewrite thr_set in Hu. destruct (Nat.eqb_spec u t); [ congruence | ].
    destruct w_next0 as (v & Hv); eauto. destruct (Nat.eq_dec v t) as [->|Hne].
    + destruct (K Hv) as [?|X]; [ | exfalso; apply X; exact H ]. exists t. rewrite thr_set, Nat.eqb_refl; auto.
    + exists v. rewrite thr_set. destruct (Nat.eqb_spec v t); [ congruence | auto ].
Qed.

Lemma Wt_take : forall s t x, Wt s -> owner s = None -> alive (thr s t) = true -> alive x = true -> at_ x = Out ->
  parked x = false ->
  registered (at_ (thr s t)) = false -> Wt (set (set_owner s (Some t)) t (set_holds x true)).
Proof.
  intros s t x W N A X OX PX R. pose proof (Own_take s t x (w_own _ W) N A X) as O. destruct W.
  constructor; auto.
  - intros o H. cbn in H. assert (o = t) by congruence; subst. rewrite thr_set, Nat.eqb_refl; auto.
  - intros u. rewrite thr_set. destruct (Nat.eqb_spec u t); subst; [ unfold waiting; cbn; rewrite OX; discriminate | apply w_mem0 ].
  - intros u H. rewrite thr_set. destruct (Nat.eqb_spec u t); subst; [ cbn in H; specialize (w_reg0 t H); congruence | apply w_reg0; auto ].
  - intros u. rewrite thr_set. destruct (Nat.eqb_spec u t); subst; [ auto | apply w_out0 ].
  - intros u. rewrite thr_set. destruct (Nat.eqb_spec u t); subst; [ cbn; congruence | apply w_park0 ].
  - intros u. rewrite thr_set. destruct (Nat.eqb_spec u t); subst; [ cbn; rewrite OX; auto | apply w_pcs0 ].
  - cbn; discriminate.
Qed.

(** The waiter leaves the list and re-contends. *)
Lemma Wt_retry : forall s t x un, Wt s -> alive (thr s t) = true -> registered (at_ (thr s t)) = true ->
  alive x = true -> holds x = holds (thr s t) -> at_ x = LTop un -> parked x = false ->
  Wt (set (set_waiters s (delete t (waiters s))) t x).
Proof.
  intros s t x un W A R X HX OX PX.
  assert (O : Own (set (set_waiters s (delete t (waiters s))) t x)).
  { apply Own_set; [ apply Own_waiters; apply W | exact HX | cbn; congruence ]. }
  destruct W. constructor; auto.
  - intros o H. rewrite thr_set. destruct (Nat.eqb_spec o t); subst; auto. apply w_alive0; auto.
  - intros u. rewrite thr_set. cbn [set set_waiters waiters]. rewrite in_delete.
    destruct (Nat.eqb_spec u t); subst; [ unfold waiting; rewrite OX; discriminate | ]. intros H; split; auto.
  - intros u H. rewrite thr_set. cbn [set set_waiters waiters] in H. rewrite in_delete in H. destruct H.
    destruct (Nat.eqb_spec u t); subst; [ congruence | apply w_reg0; auto ].
  - intros u. rewrite thr_set. destruct (Nat.eqb_spec u t); subst; [ congruence | apply w_out0 ].
  - intros u. rewrite thr_set. destruct (Nat.eqb_spec u t); subst; [ congruence | apply w_park0 ].
  - intros u. rewrite thr_set. destruct (Nat.eqb_spec u t); subst; [ rewrite OX; auto | apply w_pcs0 ].
  - intros _ _. exists t. rewrite thr_set, Nat.eqb_refl. unfold committed; rewrite OX; auto.
Qed.

Lemma wakeup_committed : forall s t p u, Wt s -> committed (thr s u) = true -> committed (thr (wakeup s t p) u) = true.
Proof.
  intros s t p u W. destruct (wakeup_thr s t p u) as (A & _ & _ & _ & D & E). unfold committed. rewrite A.
  destruct (at_ (thr s u)); auto. destruct (parked (thr (wakeup s t p) u)); auto. rewrite D; auto.
Qed.

Lemma Wt_wakeup : forall s t p, Wt s -> Wt (wakeup s t p).
Proof.
  intros s t p W. pose proof (Own_wakeup s t p (w_own _ W)) as O. pose proof (wakeup_committed s t p) as CM.
  constructor; auto; rewrite ?wakeup_owner, ?wakeup_waiters.
  - intros o H. destruct (wakeup_thr s t p o) as (_ & -> & _). apply (w_alive _ W); auto.
  - intros u. destruct (wakeup_thr s t p u) as (A & _ & _ & _ & D & E). unfold waiting. rewrite A. intros H.
    apply (w_mem _ W). unfold waiting. destruct (at_ (thr s u)); auto.
    destruct (permit (thr s u)); auto. rewrite E in H; auto; discriminate.
  - intros u H. destruct (wakeup_thr s t p u) as (-> & _). apply (w_reg _ W); auto.
  - intros u. destruct (wakeup_thr s t p u) as (-> & -> & _). apply (w_out _ W).
  - intros u. destruct (wakeup_thr s t p u) as (-> & _ & _ & _ & D & _). intros H. apply (w_park _ W); auto.
  - intros u. destruct (wakeup_thr s t p u) as (-> & _). apply (w_pcs _ W).
  - intros N (u & H). destruct (w_next _ W N) as (v & V).
    + exists u. destruct (wakeup_thr s t p u) as (A & _ & _ & _ & D & E). unfold waiting in *. rewrite A in H.
      destruct (at_ (thr s u)); auto. destruct (permit (thr s u)); auto. rewrite E in H; auto; discriminate.
    + exists v; auto.
Qed.

(** [unlock] by the holder. *)
Lemma Wt_unlock : forall s t k, Wt s -> owner s = Some t -> at_ (thr s t) = UEntry k ->
  Wt (unlock_turn (set (set_owner s None) t (set_holds (thr s t) false)) t k).
Proof.
  intros s t k W N P. set (s0 := set (set_owner s None) t (set_holds (thr s t) false)).
  assert (AT : alive (thr s t) = true) by (apply (w_alive _ W); auto).
  assert (PT : parked (thr s t) = false).
  { destruct (parked (thr s t)) eqn:Q; auto. pose proof (w_park _ W t Q). rewrite P in H. destruct H. }
  assert (O0 : Own s0) by (apply Own_release; auto; apply W).
  assert (TH : forall u, u <> t -> thr s0 u = thr s u).
  { intros u H. unfold s0. rewrite thr_set. destruct (Nat.eqb_spec u t); [ congruence | auto ]. }
  assert (TT : thr s0 t = set_holds (thr s t) false) by (unfold s0; rewrite thr_set, Nat.eqb_refl; auto).
  assert (WS : waiters s0 = waiters s) by reflexivity.
  assert (ON : owner s0 = None) by reflexivity.
  pose proof (Own_turn s0 t k O0) as OT.
  assert (PA : forall x, at_ x = at_ (thr s t) -> parked x = false -> waiting (goto x (after k)) = false /\ registered (after k) = false)
    by (intros; destruct k; cbn; auto).
  clearbody s0. unfold unlock_turn in *. rewrite WS in *. destruct (waiters s) as [|w r] eqn:EW.
  - destruct W. constructor; auto; cbn [set owner waiters]; rewrite ?ON, ?WS; try discriminate.
    + intros u. rewrite thr_set. destruct (Nat.eqb_spec u t); subst; [ destruct k; discriminate | ].
      rewrite TH by auto. intros H. rewrite EW in w_mem0. auto.
    + intros u [].
    + intros u. rewrite thr_set. destruct (Nat.eqb_spec u t); subst; [ rewrite TT; cbn; congruence | rewrite TH by auto; apply w_out0 ].
    + intros u. rewrite thr_set. destruct (Nat.eqb_spec u t); subst; [ rewrite TT; cbn; congruence | rewrite TH by auto; apply w_park0 ].
    + intros u. rewrite thr_set. destruct (Nat.eqb_spec u t); subst; [ destruct k; cbn; auto | rewrite TH by auto; apply w_pcs0 ].
    + intros _ (u & H). rewrite thr_set in H. exfalso. destruct (Nat.eqb_spec u t); subst; [ destruct k; discriminate | ].
      rewrite TH in H by auto. specialize (w_mem0 u H). rewrite EW in w_mem0. auto.
  - rewrite thr_wait in *.
    assert (RW : registered (at_ (thr s w)) = true) by (apply (w_reg _ W); rewrite EW; left; auto).
    assert (WT : w <> t) by (intros ->; rewrite P in RW; discriminate).
    assert (AW : alive (thr s0 w) = true) by (rewrite TH by auto; apply registered_alive; auto).
    rewrite AW in *. set (s1 := set_waiters s0 r) in *.
    assert (T1 : forall u, thr s1 u = thr s0 u) by reflexivity.
    assert (CW : committed (thr (wakeup s1 w true) w) = true /\ waiting (thr (wakeup s1 w true) w) = false).
    { unfold wakeup. rewrite T1, AW. destruct (parked (thr s0 w)) eqn:PW.
      - rewrite thr_set, Nat.eqb_refl. pose proof (w_park _ W w) as Q. rewrite <- TH in Q by auto. specialize (Q PW).
        rewrite TH in * by auto. unfold committed, waiting; cbn. destruct (at_ (thr s w)); try discriminate; try contradiction; auto.
      - rewrite TH in * by auto.
        destruct (at_ (thr s w)) eqn:AQ; try discriminate; rewrite thr_set, Nat.eqb_refl;
          unfold committed, waiting; cbn; rewrite AQ; cbn; rewrite ?PW; auto. }
    destruct CW as (CW & NW).
    set (s2 := wakeup s1 w true) in *.
    assert (T2 : forall u, u <> w -> thr s2 u = thr s0 u).
    { intros u H. destruct (wakeup_thr s1 w true u) as (_ & _ & _ & Q & _). unfold s2; rewrite Q by auto. auto. }
    assert (A2 : forall u, at_ (thr s2 u) = at_ (thr s0 u) /\ alive (thr s2 u) = alive (thr s0 u) /\ (parked (thr s2 u) = true -> parked (thr s0 u) = true)).
    { intros u. destruct (wakeup_thr s1 w true u) as (X1 & X2 & _ & _ & X3 & _). rewrite T1 in *. auto. }
    assert (O2 : owner s2 = None) by (unfold s2; rewrite wakeup_owner; auto).
    assert (W2 : waiters s2 = r) by (unfold s2; rewrite wakeup_waiters; auto).
    clearbody s2. clear s1 T1.
    assert (AS : forall u, u <> t -> at_ (thr s0 u) = at_ (thr s u) /\ alive (thr s0 u) = alive (thr s u) /\ parked (thr s0 u) = parked (thr s u))
      by (intros; rewrite TH; auto).
    destruct W. constructor; auto; cbn [set owner waiters]; rewrite ?O2, ?W2; try discriminate.
    + intros u. rewrite thr_set. destruct (Nat.eqb_spec u t); [ subst; destruct k; discriminate | ].
      destruct (Nat.eq_dec u w); [ subst; congruence | ]. rewrite T2, TH by auto. intros H.
      specialize (w_mem0 u H). rewrite EW in w_mem0. destruct w_mem0; [ congruence | auto ].
    + intros u H. rewrite thr_set. assert (In u (waiters s)) by (rewrite EW; right; auto). specialize (w_reg0 u H0).
      destruct (Nat.eqb_spec u t); [ subst; rewrite P in w_reg0; discriminate | ].
      destruct (A2 u) as (-> & _). rewrite TH by auto. auto.
    + intros u. rewrite thr_set. destruct (A2 u) as (X1 & X2 & _). destruct (Nat.eqb_spec u t).
      * subst. cbn. rewrite X2, TT. cbn. congruence.
      * rewrite X1, X2, TH by auto; apply w_out0.
    + intros u. rewrite thr_set. destruct (A2 u) as (X1 & _ & X3). destruct (Nat.eqb_spec u t).
      * subst. cbn. intros H. apply X3 in H. rewrite TT in H. cbn in H. congruence.
      * rewrite X1, TH by auto. intros H. apply X3 in H. rewrite TH in H by auto. apply w_park0; auto.
    + intros u. rewrite thr_set. destruct (A2 u) as (X1 & _). destruct (Nat.eqb_spec u t); [ subst; destruct k; cbn; auto | ].
      rewrite X1, TH by auto. apply w_pcs0.
    + intros _ _. exists w. rewrite thr_set. destruct (Nat.eqb_spec w t); [ congruence | auto ].
Qed.

Lemma plain_pc : forall s t, Wt s -> match at_ (thr s t) with LPark _ | SPark => False | _ => True end -> parked (thr s t) = false.
Proof.
  intros s t W H. destruct (parked (thr s t)) eqn:E; auto. pose proof (w_park _ W t E). destruct (at_ (thr s t)); contradiction.
Qed.

Ltac inv_some E s' := match type of E with Some ?y = _ => assert (s' = y) as -> by congruence end.

Lemma step_Wt : forall s l s', Wt s -> orderly s l -> step false s l = Some s' -> Wt s'.
Proof.
  intros s l s' W OK E. pose proof (step_Own s l s' (w_own _ W) E) as O'.
  destruct l; cbn [step] in E.
  - (* lock *)
    destruct (alive (thr s t)) eqn:A; [ | discriminate ]. destruct (at_ (thr s t)) eqn:P; try discriminate.
    cbn [andb is_out] in E.
    destruct (match owner s with Some o => _ | None => _ end); [ assert (s' = s) as -> by congruence; auto | ].
    inv_some E s'.
    apply Wt_set_plain; auto; cbn; rewrite ?P; auto; try discriminate; try congruence.
    rewrite (plain_pc s t) by (auto; rewrite P; auto). discriminate.
  - (* try_lock *)
    destruct (alive (thr s t)) eqn:A; [ | discriminate ]. destruct (at_ (thr s t)) eqn:P; try discriminate.
    destruct (owner s) eqn:Q; [ assert (s' = s) as -> by (cbn in E; congruence); auto | ].
    cbn [andb is_out] in E. inv_some E s'. apply Wt_take; auto; [ apply plain_pc; auto; rewrite P; auto | rewrite P; auto ].
  - (* unlock *)
    destruct (alive (thr s t)) eqn:A; [ | discriminate ]. destruct (at_ (thr s t)) eqn:P; try discriminate.
    cbn [andb is_out] in E. inv_some E s'.
    apply Wt_set_plain; auto; cbn; rewrite ?P; auto; try discriminate; try congruence.
    + rewrite (plain_pc s t) by (auto; rewrite P; auto). discriminate.
    + unfold committed; rewrite P; discriminate.
  - (* Mutex#sleep *)
    destruct (alive (thr s t)) eqn:A; [ | discriminate ]. destruct (at_ (thr s t)) eqn:P; try discriminate.
    cbn [andb is_out] in E.
    destruct (match owner s with Some o => _ | None => _ end); [ | assert (s' = s) as -> by congruence; auto ].
    inv_some E s'.
    apply Wt_set_plain; auto; cbn; rewrite ?P; auto; try discriminate; try congruence.
    + rewrite (plain_pc s t) by (auto; rewrite P; auto). discriminate.
    + unfold committed; rewrite P; discriminate.
  - (* run *)
    destruct (alive (thr s t)) eqn:A; [ | discriminate ]. unfold run in E.
    destruct (at_ (thr s t)) as [|un|un|un|un|un|k|k| |] eqn:P; try discriminate.
    + assert (PP : parked (thr s t) = false) by (apply plain_pc; auto; rewrite P; auto).
      destruct (owner s) as [o|] eqn:Q.
      * assert (D : alive (thr s o) = true) by (apply (w_alive _ W); auto). rewrite D in E. inv_some E s'.
        destruct W. constructor; auto; cbn [set set_waiters owner waiters]; rewrite ?Q; try discriminate.
        -- intros o' H. rewrite thr_set. destruct (Nat.eqb_spec o' t); subst; auto. apply w_alive0; congruence.
        -- intros u. rewrite thr_set. destruct (Nat.eqb_spec u t); subst; intros H; apply in_app_iff; [ right; left; auto | left; apply w_mem0; auto ].
        -- intros u H. rewrite thr_set. destruct (Nat.eqb_spec u t); subst; auto. apply in_app_iff in H as [H|[H|[]]]; [ apply w_reg0; auto | congruence ].
        -- intros u. rewrite thr_set. destruct (Nat.eqb_spec u t); subst; [ cbn; congruence | apply w_out0 ].
        -- intros u. rewrite thr_set. destruct (Nat.eqb_spec u t); subst; [ cbn; congruence | apply w_park0 ].
        -- intros u. rewrite thr_set. destruct (Nat.eqb_spec u t); subst; [ cbn; auto | apply w_pcs0 ].
      * inv_some E s'. apply Wt_take; auto; rewrite P; auto.
    + assert (PP : parked (thr s t) = false) by (apply plain_pc; auto; rewrite P; auto).
      destruct (permit (thr s t)) eqn:PM; inv_some E s'.
      * apply (Wt_retry s t _ un); auto; rewrite ?P; auto.
      * (* parks *)
        assert (IN : In t (waiters s)) by (apply (w_mem _ W); unfold waiting; rewrite P, PM; auto).
        assert (NC : committed (thr s t) = false) by (unfold committed; rewrite P; auto).
        assert (WA : waiting (thr s t) = true) by (unfold waiting; rewrite P, PM; auto).
        destruct W. constructor; auto.
        -- intros o' H. rewrite thr_set. destruct (Nat.eqb_spec o' t); subst; auto.
        -- intros u. rewrite thr_set. destruct (Nat.eqb_spec u t); subst; auto.
        -- intros u H. rewrite thr_set. destruct (Nat.eqb_spec u t); subst; auto.
        -- intros u. rewrite thr_set. destruct (Nat.eqb_spec u t); subst; [ cbn; congruence | apply w_out0 ].
        -- intros u. rewrite thr_set. destruct (Nat.eqb_spec u t); subst; [ cbn; auto | apply w_park0 ].
        -- intros u. rewrite thr_set. destruct (Nat.eqb_spec u t); subst; [ cbn; auto | apply w_pcs0 ].
        -- intros N _. destruct (w_next0 N) as (v & V); eauto. exists v. rewrite thr_set.
           destruct (Nat.eqb_spec v t); [ subst; congruence | auto ].
    + pose proof (w_pcs _ W t) as C. rewrite P in C; destruct C.
    + destruct (parked (thr s t)) eqn:PP; [ discriminate | ]. inv_some E s'.
      apply (Wt_retry s t _ un); auto; rewrite ?P; auto.
    + destruct (owner s) as [o|] eqn:Q; [ destruct (Nat.eqb_spec o t) | ]; inv_some E s'.
      * subst o. apply Wt_unlock; auto.
      * apply Wt_set_plain; auto; cbn; rewrite ?P; auto; try discriminate; try congruence.
        -- rewrite (plain_pc s t) by (auto; rewrite P; auto). discriminate.
        -- unfold committed; rewrite P; discriminate.
      * apply Wt_set_plain; auto; cbn; rewrite ?P; auto; try discriminate; try congruence.
        -- rewrite (plain_pc s t) by (auto; rewrite P; auto). discriminate.
        -- unfold committed; rewrite P; discriminate.
    + pose proof (w_pcs _ W t) as C. rewrite P in C; destruct C.
    + destruct (permit (thr s t)); inv_some E s'; apply Wt_set_plain; auto; cbn; rewrite ?P; auto; try discriminate; try congruence;
        try (rewrite (plain_pc s t) by (auto; rewrite P; auto); discriminate); unfold committed; rewrite P; discriminate.
    + destruct (parked (thr s t)) eqn:PP; [ discriminate | ]. inv_some E s'.
      apply Wt_set_plain; auto; cbn; rewrite ?P; auto; try discriminate; try congruence.
  - destruct OK.
  - assert (s' = wakeup s t p) as -> by congruence. apply Wt_wakeup; auto.
  - (* consume *)
    destruct (at_ (thr s t)) eqn:P; try discriminate. cbn [is_out] in E. inv_some E s'.
    apply Wt_set_plain; auto; cbn; rewrite ?P; auto; try discriminate; try congruence.
    + apply (w_alive _ W).
    + rewrite (plain_pc s t) by (auto; rewrite P; auto). discriminate.
    + unfold committed; rewrite P; discriminate.
  - (* unwind *)
    destruct (alive (thr s t)) eqn:A; [ | discriminate ]. unfold unwind in E. cbn [at_ set_parked] in E.
    destruct OK as (OK1 & OK2).
    destruct (at_ (thr s t)) as [|[]|[]|[]|[]|[]|k|k| |] eqn:P; try discriminate; inv_some E s'; auto;
      apply Wt_set_plain; auto; cbn; rewrite ?P; auto; try discriminate; try congruence;
      unfold committed; rewrite ?P; discriminate.
  - (* die *)
    destruct (alive (thr s t)) eqn:A; [ | discriminate ]. destruct (at_ (thr s t)) eqn:P; try discriminate.
    cbn [andb is_out] in E. inv_some E s'. cbn in OK.
    apply Wt_set_plain; auto; cbn; rewrite ?P; auto; try discriminate; try congruence.
    + intros H. destruct (w_own _ W) as (_ & X). rewrite (X t H A) in OK. discriminate.
    + unfold committed; rewrite P; discriminate.
  - destruct OK.
Qed.

Lemma history_Wt : forall s, history false orderly s -> Wt s.
Proof.
  intros s H. induction H; [ | eapply step_Wt; eauto ].
  constructor; cbn; auto; try discriminate; try (intros; contradiction).
  - split; cbn; intros; discriminate.
Qed.

Lemma taker : forall s, history false orderly s -> taker_ready s.
Proof.
  intros s H. pose proof (history_Wt s H) as W. intros F t (A & L & P).
  assert (N : owner s = None).
  { unfold free in F. destruct (owner s) eqn:Q; auto. rewrite (w_alive _ W _ Q) in F. discriminate. }
  destruct (w_next _ W N) as (u & U).
  { exists t. unfold waiting. pose proof (w_park _ W t P). destruct (at_ (thr s t)); try discriminate; try contradiction; auto. }
  exists u. unfold runnable_waiter.
  assert (R : in_lock (at_ (thr s u)) = true) by (unfold committed in U; destruct (at_ (thr s u)); auto; discriminate).
  split; [ | split; auto ].
  - destruct (alive (thr s u)) eqn:AU; auto. rewrite (w_out _ W u AU) in R. discriminate.
  - destruct (parked (thr s u)) eqn:PU; auto. pose proof (w_park _ W u PU) as Q. unfold committed in U.
    destruct (at_ (thr s u)); try discriminate; try contradiction. rewrite PU in U; discriminate.
Qed.

(** ** Refutations *)
Lemma steps_history : forall poll ls s s', history poll anything s -> steps poll s ls = Some s' -> history poll anything s'.
Proof.
  induction ls as [|l ls IH]; intros s s' H E; cbn in E; [ congruence | ].
  destruct (step poll s l) eqn:F; [ | discriminate ]. eapply IH; [ | eauto ]. econstructor; eauto. exact I.
Qed.

Definition bad_take (r : option state) (t : nat) (us : list nat) : bool :=
  match r with
  | Some s =>
      match owner s with None => true | Some o => negb (alive (thr s o)) end &&
      alive (thr s t) && in_lock (at_ (thr s t)) && parked (thr s t) &&
      forallb (fun u => negb (alive (thr s u) && in_lock (at_ (thr s u)) && negb (parked (thr s u)))) us
  | None => false
  end.

(** Threads outside [us] are untouched by a history that never names them. *)
Definition names (l : label) : nat :=
  match l with
  | Lock t | TryLock t | Unlock t | Sleep t | Run t | Report t | Wakeup t _ | Consume t | Unwind t | Die t | Fork t => t
  end.
Definition idle (x : th) : Prop := at_ x = Out.

Lemma set_idle : forall s t x u, u <> t -> idle (thr s u) -> idle (thr (set s t x) u).
Proof. intros s t x u H I. rewrite thr_set. destruct (Nat.eqb_spec u t); [ congruence | auto ]. Qed.
Lemma wakeup_idle : forall s t p u, idle (thr s u) -> idle (thr (wakeup s t p) u).
Proof. intros s t p u I. unfold idle. destruct (wakeup_thr s t p u) as (-> & _). auto. Qed.
Lemma turn_idle : forall s t k u, u <> t -> idle (thr s u) -> idle (thr (unlock_turn s t k) u).
Proof.
  intros s t k u H I. unfold unlock_turn. destruct (waiters s); [ apply set_idle; auto | ].
  destruct (alive _); apply set_idle; auto. apply wakeup_idle; auto.
Qed.
Lemma step_idle : forall poll s l s' u, names l <> u -> idle (thr s u) -> step poll s l = Some s' -> idle (thr s' u).
Proof.
  intros poll s l s' u N I E. assert (N' : u <> names l) by congruence. destruct l; cbn [names step] in *.
  - destruct (_ && _); [ | discriminate ]. destruct (match owner s with Some o => _ | None => _ end);
      inv_some E s'; auto. apply set_idle; auto.
  - destruct (_ && _); [ | discriminate ]. destruct (owner s); inv_some E s'; auto. apply set_idle; auto.
  - destruct (_ && _); [ | discriminate ]. inv_some E s'. apply set_idle; auto.
  - destruct (_ && _); [ | discriminate ]. destruct (match owner s with Some o => _ | None => _ end);
      inv_some E s'; auto. apply set_idle; auto.
  - destruct (alive _); [ | discriminate ]. unfold run in E.
    destruct (at_ (thr s t)); try discriminate;
      repeat match type of E with
      | match ?x with Some _ => _ | None => _ end = _ => destruct x
      | (if ?b then _ else _) = _ => destruct b
      | None = _ => discriminate E
      end; inv_some E s'; try (apply set_idle; auto); auto; try (apply turn_idle; auto). apply set_idle; auto.
  - destruct (at_ (thr s t)); try discriminate. destruct (alive _); [ | discriminate ]. inv_some E s'. apply set_idle; auto.
  - inv_some E s'. apply wakeup_idle; auto.
  - destruct (is_out _); [ | discriminate ]. inv_some E s'. apply set_idle; auto.
  - destruct (alive _); [ | discriminate ]. unfold unwind in E. cbn [at_ set_parked] in E.
    destruct (at_ (thr s t)) as [|[]|[]|[]|[]|[]|k|k| |]; try discriminate; inv_some E s'; auto; apply set_idle; auto.
  - destruct (_ && _); [ | discriminate ]. inv_some E s'. apply set_idle; auto.
  - destruct (alive _); [ | discriminate ]. inv_some E s'. cbn [thr]. destruct (Nat.eqb u t); [ auto | reflexivity ].
Qed.
Lemma steps_idle : forall poll us ls s s', (forall u, ~ In u us -> idle (thr s u)) ->
  forallb (fun l => existsb (Nat.eqb (names l)) us) ls = true -> steps poll s ls = Some s' ->
  forall u, ~ In u us -> idle (thr s' u).
Proof.
  induction ls as [|l ls IH]; intros s s' I F E; cbn in *; [ assert (s = s') by congruence; subst; auto | ].
  apply andb_true_iff in F as (F1 & F2). destruct (step poll s l) as [s1|] eqn:E1; [ | discriminate ].
  eapply IH; [ | | eauto ]; auto. intros u U. eapply step_idle; [ | | eauto ]; auto.
  intros Q. apply existsb_exists in F1 as (v & V & W). apply Nat.eqb_eq in W. apply U. congruence.
Qed.

Lemma bad_take_ok : forall poll ls t us, forallb (fun l => existsb (Nat.eqb (names l)) us) ls = true ->
  bad_take (steps poll init ls) t us = true ->
  exists s, history poll anything s /\ free s /\ stuck_waiter s t /\ forall u, ~ runnable_waiter s u.
Proof.
  intros poll ls t us F B. destruct (steps poll init ls) as [s|] eqn:E; [ | discriminate ].
  exists s. split; [ eapply steps_history; [ constructor | eauto ] | ].
  cbn in B. rewrite !andb_true_iff in B. destruct B as ((((B1 & B2) & B3) & B4) & B5).
  split; [ unfold free; destruct (owner s); auto; destruct (alive (thr s n)); auto; discriminate | ].
  split; [ repeat split; auto | ]. intros u (U1 & U2 & U3). destruct (in_dec Nat.eq_dec u us) as [Hu|Hu].
  - rewrite forallb_forall in B5. specialize (B5 u Hu). rewrite U1, U2, U3 in B5. discriminate.
  - assert (I : idle (thr s u)).
    { eapply (steps_idle poll us ls init s); eauto. intros; reflexivity. }
    rewrite I in U2. discriminate.
Qed.

(** 1 holds, 2 and 3 wait; 2 is woken by unlock and raised into before it runs. *)
Definition killed_waiter : list label :=
  [ Lock 1; Run 1; Lock 2; Run 2; Run 2; Lock 3; Run 3; Run 3; Unlock 1; Run 1; Unwind 2 ].
Lemma killed_waiter_bad : bad_take (steps false init killed_waiter) 3 [1; 2; 3] = true.
Proof. vm_compute; reflexivity. Qed.
(** 1 holds and ends without unlocking; 2 stays parked. *)
Definition owner_dies : list label := [ Lock 1; Run 1; Lock 2; Run 2; Run 2; Die 1 ].
Lemma owner_dies_bad : bad_take (steps false init owner_dies) 2 [1; 2] = true.
Proof. vm_compute; reflexivity. Qed.
(** 2 is writing a report between registering and parking when 1 unlocks. *)
Definition report_race : list label :=
  [ Lock 1; Run 1; Lock 2; Run 2; Report 2; Unlock 1; Run 1; Run 2; Run 2 ].
Lemma report_race_bad : bad_take (steps false init report_race) 2 [1; 2] = true.
Proof. vm_compute; reflexivity. Qed.

(** If [alive?] can switch threads, two threads hold the lock: 0 dies holding it,
    1 and 2 both see that, 1 takes it, 2 clears it and takes it. *)
Definition two_holders : list label :=
  [ Lock 0; Run 0; Die 0; Lock 1; Lock 2; Run 1; Run 2; Run 1; Run 1; Run 2; Run 2 ].
Definition both_hold (r : option state) : bool :=
  match r with
  | Some s => alive (thr s 1) && holds (thr s 1) && alive (thr s 2) && holds (thr s 2)
  | None => false
  end.
Lemma two_holders_bad : exists s, history true anything s /\ holder s 1 /\ holder s 2.
Proof.
  assert (B : both_hold (steps true init two_holders) = true) by (vm_compute; reflexivity).
  destruct (steps true init two_holders) as [s|] eqn:E; [ | discriminate ]. exists s.
  split; [ eapply steps_history; [ constructor | eauto ] | ].
  cbn in B. rewrite !andb_true_iff in B. unfold holder. tauto.
Qed.

(** ** Release (C51) and re-acquisition (C52) *)
Lemma unlock_releases : forall s t k s', history false anything s -> holder s t -> at_ (thr s t) = UEntry k ->
  step false s (Run t) = Some s' -> owner s' = None /\ forall u, ~ holder s' u.
Proof.
  intros s t k s' H HO P E. destruct (exclusion s H) as (_ & X). destruct (proj1 (X t) HO) as (N & A).
  assert (O' : Own s') by (eapply step_Own; [ eapply history_Own; eauto | eauto ]).
  cbn [step] in E. rewrite A in E. unfold run in E. rewrite P, N, Nat.eqb_refl in E.
  assert (Q : owner s' = None).
  { inv_some E s'. unfold unlock_turn. cbn [set set_owner waiters]. destruct (waiters s); auto.
    match goal with |- owner (if ?b then _ else _) = _ => destruct b end; [ | reflexivity ].
    cbn [set owner]. rewrite wakeup_owner. reflexivity. }
  split; auto. intros u (_ & U). destruct O' as (O1 & _). destruct (O1 u U). congruence.
Qed.

Definition held_after (r : option state) : bool :=
  match r with Some s => is_out (at_ (thr s 1)) && alive (thr s 1) && holds (thr s 1) | None => false end.
Lemma unlock_interrupted : exists s s', history false anything s /\ at_ (thr s 1) = UEntry KReturn /\
  step false s (Unwind 1) = Some s' /\ at_ (thr s' 1) = Out /\ holder s' 1.
Proof.
  assert (B : held_after (steps false init [Lock 1; Run 1; Unlock 1; Unwind 1]) = true) by (vm_compute; reflexivity).
  destruct (steps false init [Lock 1; Run 1; Unlock 1]) as [s|] eqn:E; [ | discriminate ].
  exists s. assert (P : at_ (thr s 1) = UEntry KReturn) by (cbn in E; inv_some E s; reflexivity).
  assert (A : alive (thr s 1) = true) by (cbn in E; inv_some E s; reflexivity).
  assert (HS : holds (thr s 1) = true) by (cbn in E; inv_some E s; reflexivity).
  exists (set s 1 (goto (set_parked (thr s 1) false) Out)).
  split; [ eapply steps_history; [ constructor | eauto ] | ].
  split; auto. split; [ cbn [step]; rewrite A; unfold unwind; cbn [at_ set_parked]; rewrite P; reflexivity | ].
  unfold holder. rewrite thr_set, Nat.eqb_refl. cbn. auto.
Qed.


Lemma wakeup_at : forall s t p u, at_ (thr (wakeup s t p) u) = at_ (thr s u).
Proof. intros. apply wakeup_thr. Qed.

Lemma turn_at : forall s t k u, u <> t -> at_ (thr (unlock_turn s t k) u) = at_ (thr s u).
Proof.
  intros s t k u H. unfold unlock_turn. destruct (waiters s) as [|w r].
  - rewrite thr_set. destruct (Nat.eqb_spec u t); [ congruence | auto ].
  - destruct (alive _); rewrite thr_set; (destruct (Nat.eqb_spec u t); [ congruence | ]); auto. rewrite wakeup_at; auto.
Qed.

Lemma set_at : forall s t x u, u <> t -> at_ (thr (set s t x) u) = at_ (thr s u).
Proof. intros s t x u H. rewrite thr_set. destruct (Nat.eqb_spec u t); [ congruence | auto ]. Qed.

Lemma sleep_reacquires : forall s l s' t, step false s l = Some s' -> in_sleep (at_ (thr s t)) = true ->
  alive (thr s t) = true ->
  in_sleep (at_ (thr s' t)) = true \/ holder s' t /\ at_ (thr s' t) = Out \/ exists u, l = Fork u /\ u <> t.
Proof.
  intros s l s' t E IS A. destruct (Nat.eq_dec (names l) t) as [N|N].
  - destruct l; cbn [names step] in *; subst.
    + rewrite A in E. destruct (at_ (thr s t)); discriminate.
    + rewrite A in E. destruct (at_ (thr s t)); discriminate.
    + rewrite A in E. destruct (at_ (thr s t)); discriminate.
    + rewrite A in E. destruct (at_ (thr s t)); discriminate.
    + rewrite A in E. unfold run in E. destruct (at_ (thr s t)) as [|[]|[]|[]|[]|[]|k|k| |] eqn:P; try discriminate.
      * destruct (owner s); [ destruct (alive (thr s n)) | ]; inv_some E s'.
        -- left. rewrite thr_set, Nat.eqb_refl; auto.
        -- left. cbn. rewrite P; auto.
        -- right; left. unfold holder. rewrite thr_set, Nat.eqb_refl. cbn. auto.
      * destruct (permit _); inv_some E s'; left; rewrite thr_set, Nat.eqb_refl; auto.
      * inv_some E s'; left; rewrite thr_set, Nat.eqb_refl; auto.
      * destruct (parked _); [ discriminate | ]. inv_some E s'; left; rewrite thr_set, Nat.eqb_refl; auto.
      * destruct (permit _); inv_some E s'; left; rewrite thr_set, Nat.eqb_refl; auto.
      * destruct (parked _); [ discriminate | ]. inv_some E s'; left; rewrite thr_set, Nat.eqb_refl; auto.
    + destruct (at_ (thr s t)) as [|[]|[]|[]|[]|[]|k|k| |] eqn:P; try discriminate. rewrite A in E. inv_some E s'.
      left; rewrite thr_set, Nat.eqb_refl; auto.
    + inv_some E s'. left. rewrite wakeup_at; auto.
    + destruct (at_ (thr s t)); discriminate.
    + rewrite A in E. unfold unwind in E. cbn [at_ set_parked] in E.
      destruct (at_ (thr s t)) as [|[]|[]|[]|[]|[]|k|k| |] eqn:P; try discriminate; inv_some E s';
        left; rewrite thr_set, Nat.eqb_refl; auto.
    + rewrite A in E. destruct (at_ (thr s t)); discriminate.
    + rewrite A in E. inv_some E s'. left. cbn. rewrite Nat.eqb_refl; auto.
  - assert (N' : t <> names l) by congruence.
    destruct l; cbn [names step] in *.
    + destruct (_ && _); [ | discriminate ]. destruct (match owner s with Some o => _ | None => _ end);
        inv_some E s'; left; rewrite ?set_at; auto.
    + destruct (_ && _); [ | discriminate ]. destruct (owner s); inv_some E s'; left; rewrite ?set_at; auto.
    + destruct (_ && _); [ | discriminate ]. inv_some E s'; left; rewrite ?set_at; auto.
    + destruct (_ && _); [ | discriminate ]. destruct (match owner s with Some o => _ | None => _ end);
        inv_some E s'; left; rewrite ?set_at; auto.
    + destruct (alive (thr s t0)); [ | discriminate ]. unfold run in E.
      destruct (at_ (thr s t0)); try discriminate;
        repeat match type of E with
        | match ?x with Some _ => _ | None => _ end = _ => destruct x
        | (if ?b then _ else _) = _ => destruct b
        | None = _ => discriminate E
        end; inv_some E s'; left; rewrite ?turn_at, ?set_at; auto.
    + destruct (at_ (thr s t0)); try discriminate. destruct (alive (thr s t0)); [ | discriminate ]. inv_some E s'. left; rewrite set_at; auto.
    + inv_some E s'. left. rewrite wakeup_at; auto.
    + destruct (is_out _); [ | discriminate ]. inv_some E s'. left; rewrite set_at; auto.
    + destruct (alive (thr s t0)); [ | discriminate ]. unfold unwind in E. cbn [at_ set_parked] in E.
      destruct (at_ (thr s t0)) as [|[]|[]|[]|[]|[]|k|k| |]; try discriminate; inv_some E s'; left; rewrite ?set_at; auto.
    + destruct (_ && _); [ | discriminate ]. inv_some E s'. left; rewrite set_at; auto.
    + destruct (alive (thr s t0)); [ | discriminate ]. right; right. eauto.
Qed.

(** ** Whom unlock wakes *)
Lemma wakeup_woken : forall s w, alive (thr s w) = true -> woken s (wakeup s w true) w.
Proof.
  intros s w A. unfold woken, wakeup. rewrite A. destruct (parked (thr s w)) eqn:P.
  - rewrite thr_set, Nat.eqb_refl. cbn. split; auto. discriminate.
  - destruct (at_ (thr s w)) eqn:L; rewrite ?thr_set, ?Nat.eqb_refl; cbn; auto.
    split; auto. intros _ N. destruct (N un); auto.
Qed.

Lemma find_alive_ext : forall (s s1 : state) l, (forall u, alive (thr s1 u) = alive (thr s u)) ->
  find (fun w => alive (thr s1 w)) l = find (fun w => alive (thr s w)) l.
Proof. intros s s1 l H. induction l as [|v l IH]; auto. cbn [find]. rewrite H, IH. auto. Qed.

Lemma turn_wakes : forall ws s t k, waiters s = ws -> alive (thr s t) = true -> first_alive s <> Some t ->
  exists n s', steps false (unlock_turn s t k) (repeat (Run t) n) = Some s' /\ at_ (thr s' t) = after k /\
    match first_alive s with Some w => woken s s' w | None => waiters s' = [] end.
Proof.
  induction ws as [|w r IH]; intros s t k W A N; unfold unlock_turn; unfold first_alive in N |- *; rewrite W in N |- *;
    cbn [find] in N |- *.
  - exists 0%nat. eexists; split; [ reflexivity | ]. rewrite thr_set, Nat.eqb_refl. auto.
  - cbn [set_waiters thr] in *. destruct (alive (thr s w)) eqn:AW.
    + exists 0%nat. eexists; split; [ reflexivity | ]. rewrite !thr_set, Nat.eqb_refl.
      split; [ reflexivity | ]. assert (w <> t) by congruence.
      assert (B : woken (set_waiters s r) (wakeup (set_waiters s r) w true) w) by (apply wakeup_woken; auto).
      unfold woken in *. rewrite thr_set. destruct (Nat.eqb_spec w t); [ contradiction | ]. exact B.
    + set (s1 := set (set_waiters s r) t (goto (thr s t) (ULoop k))).
      assert (T1 : thr s1 t = goto (thr s t) (ULoop k)) by (unfold s1; rewrite thr_set, Nat.eqb_refl; auto).
      assert (T2 : forall u, u <> t -> thr s1 u = thr s u).
      { intros u U. unfold s1. rewrite thr_set. destruct (Nat.eqb_spec u t); [ congruence | auto ]. }
      assert (T3 : forall u, alive (thr s1 u) = alive (thr s u)).
      { intros u. destruct (Nat.eq_dec u t) as [->|U]; [ rewrite T1; auto | rewrite T2; auto ]. }
      assert (W1 : waiters s1 = r) by reflexivity.
      assert (FA : first_alive s1 = find (fun w => alive (thr s w)) r).
      { unfold first_alive. rewrite W1. apply find_alive_ext; auto. }
      destruct (IH s1 t k) as (n & s' & E & Q & R); auto.
      { rewrite T3; auto. } { rewrite FA; auto. }
      exists (S n), s'. split.
      { cbn [repeat steps step]. rewrite T3, A. unfold run. rewrite T1. cbn [goto at_]. exact E. }
      split; auto. rewrite FA in R. destruct (find _ r) as [v|] eqn:F; auto.
      assert (v <> t) by congruence. unfold woken in *. rewrite !T2 in R; auto.
Qed.

Lemma unlock_wakes : forall s t k, owner s = Some t -> alive (thr s t) = true ->
  at_ (thr s t) = UEntry k -> ~ In t (waiters s) ->
  exists n s', steps false s (repeat (Run t) n) = Some s' /\ at_ (thr s' t) = after k /\
    match first_alive s with Some w => woken s s' w | None => waiters s' = [] end.
Proof.
  intros s t k O A P N.
  set (s0 := set (set_owner s None) t (set_holds (thr s t) false)).
  assert (T1 : thr s0 t = set_holds (thr s t) false) by (unfold s0; rewrite thr_set, Nat.eqb_refl; auto).
  assert (T2 : forall u, u <> t -> thr s0 u = thr s u).
  { intros u U. unfold s0. rewrite thr_set. destruct (Nat.eqb_spec u t); [ congruence | auto ]. }
  assert (T3 : forall u, alive (thr s0 u) = alive (thr s u)).
  { intros u. destruct (Nat.eq_dec u t) as [->|U]; [ rewrite T1; auto | rewrite T2; auto ]. }
  assert (FA : first_alive s0 = first_alive s).
  { apply find_alive_ext; auto. }
  assert (NF : first_alive s <> Some t).
  { intros F. apply find_some in F as (F & _). auto. }
  destruct (turn_wakes (waiters s0) s0 t k) as (n & s' & E & Q & R); auto.
  { rewrite T3; auto. } { rewrite FA; auto. }
  exists (S n), s'. split.
  { cbn [repeat steps step]. rewrite A. unfold run. rewrite P, O, Nat.eqb_refl. exact E. }
  split; auto. rewrite FA in R. destruct (first_alive s) as [v|]; auto.
  assert (v <> t) by congruence. unfold woken in *. rewrite T2 in R; auto.
Qed.

(** ** Only threads blocked in lock are registered *)
Definition Rg (s : state) : Prop := forall t, alive (thr s t) = true -> In t (waiters s) -> enrolled (at_ (thr s t)) = true.

Lemma Rg_set : forall s t x, Rg s -> (In t (waiters s) -> alive x = true -> enrolled (at_ x) = true) -> Rg (set s t x).
Proof.
  intros s t x R H u A I. rewrite thr_set in *. cbn [set waiters] in I.
  destruct (Nat.eqb_spec u t) as [Q|Q]; [ subst; auto | apply R; auto ].
Qed.
Lemma Rg_own : forall s o, Rg s -> Rg (set_owner s o).
Proof. intros s o R; exact R. Qed.
Lemma Rg_del : forall s t x, Rg s -> Rg (set (set_waiters s (delete t (waiters s))) t x).
Proof.
  intros s t x R u A I. cbn [set set_waiters waiters] in I. apply in_delete in I as (I & N).
  rewrite thr_set in *. destruct (Nat.eqb_spec u t) as [Q|Q]; [ contradiction | ]. apply R; auto.
Qed.
Lemma Rg_wakeup : forall s t p, Rg s -> Rg (wakeup s t p).
Proof.
  intros s t p R u A I. rewrite wakeup_waiters in I. destruct (wakeup_thr s t p u) as (Q & L & _).
  rewrite Q. rewrite L in A. apply R; auto.
Qed.
Lemma Rg_out : forall s t, Rg s -> alive (thr s t) = true -> enrolled (at_ (thr s t)) = false -> ~ In t (waiters s).
Proof. intros s t R A E I. rewrite (R t A I) in E. discriminate. Qed.

Lemma Rg_turn : forall s t k, Rg s -> ~ In t (waiters s) -> Rg (unlock_turn s t k).
Proof.
  intros s t k R N. unfold unlock_turn. destruct (waiters s) as [|w r] eqn:W.
  - apply Rg_set; auto. rewrite W. intros [].
  - assert (R1 : Rg (set_waiters s r)).
    { intros u A I. apply R; auto. rewrite W. right; auto. }
    destruct (alive _); apply Rg_set; auto.
    + apply Rg_wakeup; auto.
    + rewrite wakeup_waiters. intros I. destruct N. right; auto.
    + intros I. destruct N. right; auto.
Qed.

Lemma step_Rg : forall poll s l s', Rg s -> step poll s l = Some s' -> Rg s'.
Proof.
  intros poll s l s' R E. pose proof (Rg_out s) as O. destruct l; cbn [step] in E.
  - destruct (alive (thr s t)) eqn:A; [ | discriminate ]. destruct (at_ (thr s t)) eqn:P; try discriminate. cbn [andb is_out] in E.
    assert (N : ~ In t (waiters s)) by (apply O; auto; rewrite P; auto).
    destruct (match owner s with Some o => _ | None => _ end); inv_some E s'; auto. apply Rg_set; auto; tauto.
  - destruct (alive (thr s t)) eqn:A; [ | discriminate ]. destruct (at_ (thr s t)) eqn:P; try discriminate. cbn [andb is_out] in E.
    assert (N : ~ In t (waiters s)) by (apply O; auto; rewrite P; auto).
    destruct (owner s); inv_some E s'; auto. apply Rg_set; auto; cbn [set_owner waiters]; tauto.
  - destruct (alive (thr s t)) eqn:A; [ | discriminate ]. destruct (at_ (thr s t)) eqn:P; try discriminate. cbn [andb is_out] in E.
    assert (N : ~ In t (waiters s)) by (apply O; auto; rewrite P; auto).
    inv_some E s'; auto. apply Rg_set; auto; tauto.
  - destruct (alive (thr s t)) eqn:A; [ | discriminate ]. destruct (at_ (thr s t)) eqn:P; try discriminate. cbn [andb is_out] in E.
    assert (N : ~ In t (waiters s)) by (apply O; auto; rewrite P; auto).
    destruct (match owner s with Some o => _ | None => _ end); inv_some E s'; auto. apply Rg_set; auto; tauto.
  - destruct (alive (thr s t)) eqn:A; [ | discriminate ]. unfold run in E.
    assert (N : enrolled (at_ (thr s t)) = false -> ~ In t (waiters s)) by (apply O; auto).
    destruct (at_ (thr s t)) eqn:P; try discriminate; cbn [enrolled] in N;
      try specialize (N eq_refl).
    + destruct (owner s); [ destruct (alive (thr s n)); [ | destruct poll ] | ]; inv_some E s'.
      * intros u Au I. cbn [set set_waiters waiters] in I. rewrite thr_set in *.
        destruct (Nat.eqb_spec u t) as [Q|Q]; [ auto | ]. apply R; auto. apply in_app_or in I as [I|[I|[]]]; auto. congruence.
      * apply Rg_set; auto; tauto.
      * apply Rg_own; auto.
      * apply Rg_set; [ apply Rg_own; auto | cbn; tauto ].
    + destruct poll; [ | discriminate ]. inv_some E s'. apply Rg_set; [ apply Rg_own; auto | cbn; tauto ].
    + destruct (permit _); inv_some E s'; [ apply Rg_del; auto | apply Rg_set; auto ].
    + inv_some E s'. apply Rg_set; auto.
    + destruct (MutexModel.parked _); [ discriminate | ]. inv_some E s'. apply Rg_del; auto.
    + destruct (owner s); [ destruct (Nat.eqb n t) | ]; inv_some E s'.
      * apply Rg_turn; [ apply Rg_set; [ apply Rg_own; auto | cbn; tauto ] | cbn; tauto ].
      * apply Rg_set; auto; tauto.
      * apply Rg_set; auto; tauto.
    + inv_some E s'. apply Rg_turn; auto.
    + destruct (permit _); inv_some E s'; apply Rg_set; auto; tauto.
    + destruct (MutexModel.parked _); [ discriminate | ]. inv_some E s'. apply Rg_set; auto; tauto.
  - destruct (at_ (thr s t)) eqn:P; try discriminate. destruct (alive _); [ | discriminate ]. inv_some E s'. apply Rg_set; auto.
  - inv_some E s'. apply Rg_wakeup; auto.
  - destruct (at_ (thr s t)) eqn:P; try discriminate. cbn [is_out] in E. inv_some E s'. apply Rg_set; auto. intros I A.
    cbn in A. specialize (R t A I). rewrite P in R. discriminate.
  - destruct (alive (thr s t)) eqn:A; [ | discriminate ]. unfold unwind in E. cbn [at_ set_parked] in E.
    assert (N : enrolled (at_ (thr s t)) = false -> ~ In t (waiters s)) by (apply O; auto).
    destruct (at_ (thr s t)) as [|[]|[]|[]|[]|[]|k|k| |] eqn:P; try discriminate; inv_some E s'; auto; cbn [enrolled] in N;
      try specialize (N eq_refl); try (apply Rg_del; auto); apply Rg_set; auto; tauto.
  - destruct (_ && _); [ | discriminate ]. inv_some E s'. apply Rg_set; auto.
  - destruct (alive _); [ | discriminate ]. inv_some E s'. intros u A I. cbn [thr waiters] in *.
    destruct (Nat.eqb u t); [ apply R; auto | discriminate A ].
Qed.

Lemma registered_only : forall poll s t, history poll anything s -> alive (thr s t) = true -> In t (waiters s) ->
  enrolled (at_ (thr s t)) = true.
Proof.
  intros poll s t H. revert t. change (Rg s). induction H; [ intros t _ [] | eapply step_Rg; eauto ].
Qed.

Lemma unlock_wakes_first : forall s t k, owner s = Some t -> alive (thr s t) = true -> at_ (thr s t) = UEntry k ->
  history false anything s ->
  exists n s', steps false s (repeat (Run t) n) = Some s' /\ at_ (thr s' t) = after k /\
    match first_alive s with Some w => woken s s' w | None => waiters s' = [] end.
Proof.
  intros s t k O A P H. apply unlock_wakes; auto. intros I.
  pose proof (registered_only false s t H A I) as E. rewrite P in E. discriminate.
Qed.
