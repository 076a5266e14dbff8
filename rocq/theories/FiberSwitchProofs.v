(** Transfers between suspended fibers, yields, ends. *)
From Coq Require Import List Bool Arith ZArith Lia.
From Verif Require Import FiberModel FiberSpec FiberProofs FiberStepProofs.
Import ListNotations.

Lemma target_ext : forall m m1 f, count m1 = count m -> cur m1 = cur m ->
  (forall x, par (fib m1 x) = par (fib m x) /\ resu (fib m1 x) = resu (fib m x) /\ troot (fib m1 x) = troot (fib m x)) -> return_target m1 f = return_target m f.
Proof.
  intros m m1 f C1 C2 P. unfold return_target, root_of. rewrite (proj1 (P f)), C1, C2, (proj2 (proj2 (P (cur m)))).
  assert (forall n g, chain_end m1 n g = chain_end m n g) as Q. { intros n. induction n as [|n IH]; intros g; [reflexivity|]. cbn. rewrite (proj1 (proj2 (P g))). destruct (resu (fib m g)); [apply IH|reflexivity]. }
  rewrite Q. reflexivity.
Qed.
Lemma inmost_ext : forall s s1 f, scount s1 = scount s -> (forall x, waits (sfib s1 x) = waits (sfib s x)) -> inmost s1 f = inmost s f.
Proof.
  intros s s1 f C W. unfold inmost. rewrite C. generalize (scount s) as n. intros n. revert f. induction n as [|n IH]; intros f; [reflexivity|].
  cbn. rewrite W. destruct (waits (sfib s f)); [apply IH|reflexivity].
Qed.
(** What arrives at a suspended fiber inside a call. *)
Definition shown (s : sstate) (f : nat) (kf : bool) (raw : option val) (eo : option exn) (r : res) : Prop :=
  match raw with
  | Some v => eo = None /\ kf = false /\ r = RVal v
  | None => exists e, eo = Some e /\ r = RErr e /\ (kf = true -> e = EKill) /\ (e = EKill -> killed (sfib s (fst (call (sfib s f)))) = false)
  end.
Lemma arrive_call : forall m s f g k kf raw eo r, cur m = cur m -> st (fib m f) = Live -> top (fib m f) = WCall g k -> g <> f ->
  (st (fib m g) = Live -> par (fib m g) <> Some f) -> resu (fib m f) = None -> err (fib m f) = eo -> g = fst (call (sfib s f)) -> kld (fib m g) = killed (sfib s g) ->
  shown s f kf raw eo r ->
  exists m', arrive m f raw = (m', match r with RVal v => if k then RVal VNil else RVal v | _ => r end) /\ count m' = count m /\ cur m' = f
    /\ (forall x, fib m' x = if x =? f then set_err None (fib m f) else fib m x).
Proof.
  intros m s f g k kf raw eo r _ S T N P W X G K Sh. unfold arrive. cbn [go fib cur]. rewrite S, T. destruct raw as [v|]; cbn [shown] in Sh.
  - destruct Sh as (-> & -> & ->). rewrite receive_val by (try exact N; exact P). unfold as_kill. cbn [snd fst].
    exists (on (go m f) f (set_resu None)). split; [destruct k; reflexivity|]. split; [reflexivity|]. split; [reflexivity|].
    intros x. un. ev. destruct (x =? f); [|reflexivity]. destruct (fib m f); cbn in *; congruence.
  - destruct Sh as (e & -> & -> & Q & Z). rewrite (receive_err (go m f) f g e) by (try exact N; try exact P; exact X). cbn [fib go].
    exists (on (on (go m f) f (set_resu None)) f (set_err None)). split.
    + unfold as_kill. destruct e; cbn [snd fst]; try reflexivity. rewrite K, G, (Z eq_refl). reflexivity.
    + split; [reflexivity|]. split; [reflexivity|]. intros x. un. ev. destruct (x =? f); [|reflexivity]. destruct (fib m f); cbn in *; congruence.
Qed.
Lemma cross_gen : forall m s L o f m1 s1 kf eo raw r k clear,
  Inv m s L o -> direct s = true -> f < scount s -> f <> scur s -> sst (sfib s f) = Live -> yielding (sfib s f) = false -> waits (sfib s f) = None ->
  killed (sfib s (scur s)) = false ->
  count m1 = count m -> cur m1 = cur m -> (forall x, fib m1 x = if x =? f then set_err eo (set_kld kf (fib m f)) else fib m x) ->
  scount s1 = scount s -> scur s1 = scur s -> transfers s1 = true -> inners s1 = inners s -> (forall x, sfib s1 x = if x =? f then s_killed kf (sfib s f) else sfib s x) ->
  shown s f kf raw eo r ->
  good (cross m1 f raw k clear) (stransfer s1 f r k).
Proof.
  intros m s L o f m1 s1 kf eo raw r k clear H D Hn Nfc Hl Hy Hw Hk C1 C2 Hm C3 C4 C5 C6 Hs Sh.
  destruct (direct_ok _ _ _ _ H D) as [Hi Ho].
  destruct (cur_in _ _ _ _ H) as [Hc [t Et]]. pose proof (i_cur _ _ _ _ H) as Ec.
  assert ((f =? scur s) = false) as E1 by (apply Nat.eqb_neq; exact Nfc).
  assert ((scur s =? f) = false) as E2 by (apply Nat.eqb_neq; exact (not_eq_sym Nfc)).
  destruct (i_rel _ _ _ _ H f) as [R1 R2 R3 R4 R5 R6 R7 R8 R9 R10 R11 R12]. specialize (R9 Hl Nfc). rewrite Hy in R9. destruct R9 as [R9 R9n]. rewrite Hl in R1.
  specialize (R5 ltac:(congruence)).
  set (g := fst (call (sfib s f))) in *. set (kk := snd (call (sfib s f))) in *.
  assert ((g =? f) = false) as E3 by (apply Nat.eqb_neq; exact R9n).
  assert (return_target m1 f = return_target m f) as RT.
  { apply target_ext; [exact C1|exact C2|]. intros x. rewrite Hm. destruct (Nat.eqb_spec x f) as [->|]; repeat split; reflexivity. }
  unfold cross. rewrite RT, C2, Ec. set (bk := return_target m f).
  set (m3 := on (on m1 (scur s) (set_top (WCall f k))) f (fun x => set_ret (Some bk) (if clear then set_yld false x else x))).
  assert (forall x, fib m3 x = if x =? f then mkF Live (par (fib m f)) None (Some bk) false (trf (fib m f)) kf eo (troot (fib m f)) (internal (fib m f)) (WCall g kk)
                              else if x =? scur s then set_top (WCall f k) (fib m x) else fib m x) as P3.
  { intros x. unfold m3. un. ev. destruct (Nat.eqb_spec x f) as [->|E].
    - rewrite ?E1, !Hm, ?Nat.eqb_refl. un. cbn. destruct clear; cbn; f_equal; congruence.
    - destruct (Nat.eqb_spec x (scur s)) as [->|]; rewrite Hm; [rewrite E2|rewrite (proj2 (Nat.eqb_neq _ _) E)]; reflexivity. }
  destruct (arrive_call m3 s f g kk kf raw eo r eq_refl) as (m' & A1 & A2 & A3 & A4); try (rewrite P3, Nat.eqb_refl; reflexivity); try exact R9n; try reflexivity; try exact Sh.
  { rewrite P3, E3. pose proof (not_mine _ _ _ _ f g H Hw) as Q. destruct (g =? scur s); exact Q. }
  { rewrite P3, E3. pose proof (r_kld _ _ _ (i_rel _ _ _ _ H g)) as Q. destruct (g =? scur s); exact Q. }
  rewrite A1. unfold good, stransfer, to_fiber, land. rewrite C4. un. ev. rewrite Hs, Nat.eqb_refl. cbn [sst]. rewrite Hl. ev. cbn [yielding call killed]. rewrite Hy. fold kk.
  assert (exists s', (let '(s', r') := (if kf then (sgo (son s1 (scur s) (s_call (f, k))) f, RErr EKill)
            else match r with RVal v => if kk && negb false then (sgo (son s1 (scur s) (s_call (f, k))) f, RVal VNil) else (sgo (son s1 (scur s) (s_call (f, k))) f, RVal v) | _ => (sgo (son s1 (scur s) (s_call (f, k))) f, r) end)
            in (son s' f (s_yielding false), r')) = (s', match r with RVal v => if kk then RVal VNil else RVal v | _ => r end) /\ scount s' = scount s /\ scur s' = f /\ transfers s' = true /\ inners s' = inners s
            /\ (forall x, sfib s' x = if x =? f then mkG Live (prev (sfib s f)) None false kf (call (sfib s f)) (aimed (sfib s f)) (inner (sfib s f))
                                     else if x =? scur s then s_call (f, k) (sfib s x) else sfib s x)) as (s' & B1 & B2 & B3 & B4 & B5 & B6).
  { exists (son (sgo (son s1 (scur s) (s_call (f, k))) f) f (s_yielding false)). split.
    - destruct raw as [v|]; cbn [shown] in Sh; [destruct Sh as (_ & -> & ->); destruct kk; reflexivity|].
      destruct Sh as (e & _ & -> & Q & _). destruct kf; [rewrite (Q eq_refl); reflexivity|reflexivity].
    - split; [exact C3|]. split; [reflexivity|]. split; [exact C5|]. split; [exact C6|]. intros x. un. ev. destruct (Nat.eqb_spec x f) as [->|E].
      + rewrite ?E1, !Hs, ?Nat.eqb_refl. un. cbn. f_equal; congruence.
      + destruct (Nat.eqb_spec x (scur s)) as [->|]; rewrite Hs; [rewrite E2|rewrite (proj2 (Nat.eqb_neq _ _) E)]; reflexivity. }
  unfold sgo, son, upd in B1. un. cbn [scount scur sfib transfers inners sst prev waits yielding killed call aimed inner] in B1. cbn [scount scur sfib transfers inners sst prev waits yielding killed call aimed inner].
  match goal with |- (_ = snd ?Y) /\ _ => replace Y with (s', match r with RVal v => if kk then RVal VNil else RVal v | _ => r end) end.
  cbn [fst snd]. split; [reflexivity|]. split.
  { destruct raw as [v|]; cbn [shown] in Sh; [destruct Sh as (_ & _ & ->); destruct kk; discriminate|destruct Sh as (e & _ & -> & _); discriminate]. }
  destruct (where_idle _ _ _ _ f H Nfc Hw) as [Hf|(A & -> & Hf)].
  - exists [f], (Some (rstack L o)). destruct (i_out _ _ _ _ H f Hf) as [O1 O2].
    assert (bk = hd 0 (rstack L o)) as Eb by (unfold bk; apply (target_off _ _ _ _ _ H Hi Hf); congruence).
    eapply (cross_ok m s L o f m' s' k kf (WCall g kk) H Ho Hf Hn Hi (i_aim _ _ _ _ H f Hf Hl Hy)); try assumption.
    + rewrite A2. exact C1.
    + intros x. rewrite A4, !P3, Ec, Nat.eqb_refl. un. cbn. destruct (Nat.eqb_spec x f) as [->|E]; [f_equal; congruence|].
      destruct (x =? scur s); [|reflexivity]. destruct (fib m x); reflexivity.
    + intros x. rewrite B6. un. destruct (x =? f); [rewrite O2; reflexivity|]. destruct (x =? scur s); reflexivity.
  - exists A, None. destruct Ho as [Ho|Ho]; [discriminate|]. rewrite Ho in H.
    pose proof (i_rel _ _ _ _ H (scur s)) as RC. pose proof (i_in _ _ _ _ H (scur s) (or_introl eq_refl)) as (IC1 & IC2 & IC3).
    pose proof (i_wait _ _ _ _ H) as WC. pose proof (i_prev _ _ _ _ H) as PC. cbn [hd last] in WC, PC.
    eapply (back_ok m s (scur s) A m' s' Live None (WCall f k) (f, k) (Some bk) kf H); try assumption.
    + rewrite A2. exact C1.
    + rewrite A3. exact Hf.
    + rewrite B3. exact Hf.
    + left. repeat (split; [reflexivity|]). split; [exact Hf|exact Hk].
    + rewrite <- Hf. intros q Q. unfold bk. f_equal. apply (target_linked _ _ _ _ _ _ H); [congruence|exact Q].
    + intros x. rewrite A4, !P3, Nat.eqb_refl. un. cbn. rewrite <- Hf. destruct (Nat.eqb_spec x f) as [->|E].
      * rewrite E1. cbn. rewrite <- R9, <- R1. f_equal; congruence.
      * destruct (Nat.eqb_spec x (scur s)) as [->|]; [|reflexivity]. rewrite (r_st _ _ _ RC), IC2, (r_resu _ _ _ RC), WC, (r_yld _ _ _ RC), IC3, (r_err _ _ _ RC), (r_par _ _ _ RC), PC by congruence. reflexivity.
    + intros x. rewrite B6. un. rewrite <- Hf. destruct (Nat.eqb_spec x f) as [->|E].
      * rewrite E1. f_equal; congruence.
      * destruct (Nat.eqb_spec x (scur s)) as [->|]; [|reflexivity]. rewrite IC2, PC, WC, IC3. reflexivity.
Qed.

Lemma arrive_end : forall m t g k raw eo, st (fib m t) = Live -> top (fib m t) = WCall g k -> g <> t ->
  (st (fib m g) = Live -> par (fib m g) <> Some t) -> err (fib m t) = eo -> (raw = None -> eo <> None) -> (raw <> None -> eo = None) ->
  exists m', arrive m t raw = (m', match raw, eo with
                                   | Some v, _ => if k then RVal VNil else RVal v
                                   | None, Some EKill => if kld (fib m g) then RVal VNil else RErr EKill
                                   | None, Some e => RErr e
                                   | None, None => Crash end)
    /\ count m' = count m /\ cur m' = t /\ (forall x, fib m' x = if x =? t then set_err None (set_resu None (fib m t)) else fib m x).
Proof.
  intros m t g k raw eo S T N P X Q1 Q2. unfold arrive. cbn [go fib cur]. rewrite S, T. destruct raw as [v|].
  - rewrite receive_val by (try exact N; exact P). unfold as_kill. cbn [snd fst].
    exists (on (go m t) t (set_resu None)). split; [destruct k; reflexivity|]. split; [reflexivity|]. split; [reflexivity|].
    intros x. un. ev. destruct (x =? t); [|reflexivity]. rewrite (Q2 ltac:(discriminate)) in X. destruct (fib m t); cbn in *; congruence.
  - destruct eo as [e|]; [|contradiction (Q1 eq_refl eq_refl)]. rewrite (receive_err (go m t) t g e) by (try exact N; try exact P; exact X). cbn [fib go].
    exists (on (on (go m t) t (set_resu None)) t (set_err None)). split.
    + unfold as_kill. destruct e; cbn [snd fst]; try reflexivity. destruct (kld (fib m g)), k; reflexivity.
    + split; [reflexivity|]. split; [reflexivity|]. intros x. un. ev. destruct (x =? t); reflexivity.
Qed.

Lemma yield_ok : forall m s L o v, Inv m s L o -> killed (sfib s (scur s)) = false -> good (yield m v) (sstep s (OYield v)).
Proof.
  intros m s L o v H Hk. destruct (cur_in _ _ _ _ H) as [Hc [t Et]]. pose proof (i_cur _ _ _ _ H) as Ec.
  pose proof (i_rel _ _ _ _ H (scur s)) as RC. pose proof (i_in _ _ _ _ H (scur s) (in_or_app _ _ _ (or_introl Hc))) as (IC1 & IC2 & IC3).
  unfold yield, sstep. cbn [named]. rewrite Ec, (r_par _ _ _ RC) by congruence.
  assert (0 <? scount s = true) as -> by (apply Nat.ltb_lt; lia).
  destruct (prev (sfib s (scur s))) as [p|] eqn:Ep; [|split; [reflexivity|split; [discriminate|exists L, o; exact H]]].
  assert (exists t', t = p :: t') as [t' Et'].
  { destruct t as [|y t']; [rewrite Et in H; pose proof (i_prev _ _ _ _ H) as Q; cbn in Q; congruence|].
    pose proof (i_lk _ _ _ _ H) as Lk. rewrite Et in Lk. destruct Lk as (_ & B & _). exists t'. congruence. }
  subst t. rewrite Et in H. pose proof (i_lk _ _ _ _ H) as (K1 & _ & K3 & K4 & K5).
  pose proof (i_nd _ _ _ _ H) as Nd. cbn [app] in Nd. apply NoDup_cons_iff in Nd. destruct Nd as [Nc Nd].
  assert (p <> scur s) as Npc by (intros ->; apply Nc; left; reflexivity).
  assert ((p =? scur s) = false) as E1 by (apply Nat.eqb_neq; exact Npc).
  assert ((scur s =? p) = false) as E2 by (apply Nat.eqb_neq; exact (not_eq_sym Npc)).
  pose proof (i_rel _ _ _ _ H p) as RP. pose proof (i_in _ _ _ _ H p (or_intror (or_introl eq_refl))) as (IP1 & IP2 & IP3).
  pose proof (r_top _ _ _ RP IP2 Npc) as TP. rewrite IP3 in TP. destruct TP as [TP _]. rewrite K4 in TP.
  assert (killed (sfib s p) = false) as Kp.
  { destruct (killed (sfib s p)) eqn:Q; [|reflexivity]. contradiction Npc. exact (i_kill _ _ _ _ H p Q IP2). }
  pose proof (r_st _ _ _ RC) as SC. rewrite IC2 in SC. pose proof (r_st _ _ _ RP) as SP. rewrite IP2 in SP.
  pose proof (r_par _ _ _ RC ltac:(congruence)) as PC. rewrite Ep in PC.
  unfold good, arrive, receive, as_kill, leave, land. un. ev. rewrite SP, TP. ev. rewrite SC, PC. ev. rewrite Ep. ev. rewrite Kp, IP3. cbn [negb]. rewrite andb_true_r.
  set (kk := snd (call (sfib s p))).
  split; [destruct kk; reflexivity|]. split; [destruct kk; discriminate|]. exists (p :: t'), o.
  pose proof (r_resu _ _ _ RC) as WC. pose proof (i_wait _ _ _ _ H) as WC'. cbn [hd] in WC'. rewrite WC' in WC.
  pose proof (r_err _ _ _ RC) as XC. pose proof (r_yld _ _ _ RC) as YC.
  destruct kk; cbn [fst snd]; (eapply (pop_ok m s (scur s) p t' o _ _ Live None WYield H); try reflexivity;
    [left; repeat (split; [reflexivity|]); exact Hk|pts; try reflexivity; f_equal; congruence|pts; try reflexivity; f_equal; congruence]).
Qed.

(** How a fiber ends, and what the next one sees. *)
Definition ends (s : sstate) (raw : option val) (eo : option exn) (r : res) : Prop :=
  match raw with
  | Some v => eo = None /\ r = RVal v
  | None => exists e, eo = Some e /\ match e with
                                     | EKill => r = RVal VNil /\ killed (sfib s (scur s)) = true
                                                /\ (prev (sfib s (scur s)) <> None \/ fst (call (sfib s (inmost s 0))) = scur s)
                                     | _ => r = RErr e
                                     end
  end.
Lemma term_ok : forall m s L o m1 raw eo r, Inv m s L o -> scur s <> 0 ->
  count m1 = count m -> cur m1 = cur m -> (forall x, fib m1 x = if x =? cur m then set_err eo (fib m x) else fib m x) ->
  ends s raw eo r -> good (terminate m1 raw) (send s r).
Proof.
  intros m s L o m1 raw eo r H N0 C1 C2 Hm En. destruct (cur_in _ _ _ _ H) as [Hc [t Et]]. pose proof (i_cur _ _ _ _ H) as Ec. rewrite Ec in Hm, C2.
  pose proof (i_rel _ _ _ _ H (scur s)) as RC. pose proof (i_in _ _ _ _ H (scur s) (in_or_app _ _ _ (or_introl Hc))) as (IC1 & IC2 & IC3).
  pose proof (i_wait _ _ _ _ H) as WC'. rewrite <- (i_top _ _ _ _ H) in WC'.
  pose proof (r_resu _ _ _ RC) as WC. rewrite WC' in WC. pose proof (r_err _ _ _ RC) as XC. pose proof (r_yld _ _ _ RC) as YC. rewrite IC3 in YC.
  (* where it goes *)
  assert (exists p, ret (fib m (scur s)) = Some p /\ p <> scur s /\ sst (sfib s p) = Live /\ yielding (sfib s p) = false
     /\ (prev (sfib s (scur s)) = Some p /\ (exists t', L = scur s :: p :: t') /\ fst (call (sfib s p)) = scur s
         \/ prev (sfib s (scur s)) = None /\ p = inmost s 0 /\ L = [scur s] /\ exists A, o = Some A /\ p = hd 0 A)) as (p & Rp & Npc & Lp & Yp & Wh).
  { destruct t as [|p t'].
    - pose proof (i_base _ _ _ _ H) as B. pose proof (inmost_zero _ _ _ _ H) as Z. rewrite Et in B. cbn [last] in B. destruct o as [A|]; [|contradiction N0].
      destruct B as (B1 & B2 & B3 & B4 & B5). cbn [rstack] in Z. exists (hd 0 A). split; [exact B5|].
      assert (In (hd 0 A) A) as Hh by (destruct A; [contradiction B1; reflexivity|left; reflexivity]).
      pose proof (i_nd _ _ _ _ H) as Nd. rewrite Et in Nd. cbn [app opt] in Nd. apply NoDup_cons_iff in Nd.
      split; [intros Q; rewrite Q in Hh; exact (proj1 Nd Hh)|]. destruct (i_in _ _ _ _ H (hd 0 A) (in_or_app _ _ _ (or_intror Hh))) as (_ & I1 & I2).
      split; [exact I1|]. split; [exact I2|]. right. pose proof (i_prev _ _ _ _ H) as P. rewrite Et in P. cbn [last] in P. split; [exact P|]. split; [congruence|]. split; [exact Et|].
      exists A. split; reflexivity.
    - pose proof (i_lk _ _ _ _ H) as Lk. rewrite Et in Lk. destruct Lk as (K1 & K2 & K3 & K4 & K5). exists p. split; [exact K3|].
      pose proof (i_nd _ _ _ _ H) as Nd. rewrite Et in Nd. cbn [app] in Nd. apply NoDup_cons_iff in Nd.
      split; [intros ->; apply (proj1 Nd); left; reflexivity|].
      destruct (i_in _ _ _ _ H p ltac:(rewrite Et; right; left; reflexivity)) as (_ & I1 & I2). split; [exact I1|]. split; [exact I2|].
      left. split; [exact K2|]. split; [exists t'; exact Et|exact K4]. }
  assert ((p =? scur s) = false) as E1 by (apply Nat.eqb_neq; exact Npc).
  assert ((scur s =? p) = false) as E2 by (apply Nat.eqb_neq; exact (not_eq_sym Npc)).
  pose proof (i_rel _ _ _ _ H p) as RP. pose proof (r_st _ _ _ RP) as SP. rewrite Lp in SP.
  pose proof (r_top _ _ _ RP Lp Npc) as TP. rewrite Yp in TP. destruct TP as [TP Ng]. set (g := fst (call (sfib s p))) in *. set (kk := snd (call (sfib s p))) in *.
  assert (killed (sfib s p) = false) as Kp.
  { destruct (killed (sfib s p)) eqn:Q; [|reflexivity]. contradiction Npc. exact (i_kill _ _ _ _ H p Q Lp). }
  unfold terminate. rewrite C2. set (m2 := on m1 (scur s) (fun x => set_top WNone (set_st Done x))).
  assert (ret (fib m2 (scur s)) = Some p) as -> by (unfold m2; un; ev; rewrite Hm, Nat.eqb_refl; exact Rp).
  assert (err (fib m2 (scur s)) = eo) as -> by (unfold m2; un; ev; rewrite Hm, Nat.eqb_refl; reflexivity).
  set (m3 := match eo with Some e => on (on m2 (scur s) (set_err None)) p (set_err (Some e)) | None => m2 end).
  assert (forall x, fib m3 x = if x =? scur s then mkF Done (par (fib m x)) None (ret (fib m x)) false (trf (fib m x)) (kld (fib m x)) None (troot (fib m x)) (internal (fib m x)) WNone
                              else if x =? p then set_err eo (fib m x) else fib m x) as P3.
  { intros x. unfold m3, m2. pose proof (r_err _ _ _ RP) as XP. destruct eo as [e|]; un; ev; rewrite !Hm, ?Nat.eqb_refl; un; ev; destruct (Nat.eqb_spec x (scur s)) as [->|E]; rewrite ?E2, ?E1, ?Nat.eqb_refl; cbn.
    - f_equal; congruence.
    - destruct (Nat.eqb_spec x p) as [->|]; reflexivity.
    - f_equal; congruence.
    - destruct (Nat.eqb_spec x p) as [->|]; [|reflexivity]. rewrite <- XP. destruct (fib m p); reflexivity. }
  assert (count m3 = count m) as C3 by (unfold m3, m2; destruct eo; exact C1).
  destruct (arrive_end m3 p g kk raw eo) as (m' & A1 & A2 & A3 & A4); try (rewrite P3, E1, Nat.eqb_refl; un; cbn; try exact SP; try exact TP; reflexivity).
  { exact Ng. }
  { rewrite P3. destruct (Nat.eqb_spec g (scur s)) as [Eg|Eg]; [discriminate|]. rewrite (proj2 (Nat.eqb_neq _ _) Ng).
    apply (not_mine _ _ _ _ p g H). destruct Wh as [(W1 & (t' & W2) & W3)|(W1 & W2 & W3 & A & W4 & W5)]; [contradiction|].
    rewrite W4 in H. pose proof (i_base _ _ _ _ H) as (_ & _ & B3 & _). rewrite W5. exact B3. }
  { intros ->. destruct En as (e & -> & _). discriminate. }
  { intros Q. destruct raw as [v|]; [exact (proj1 En)|contradiction Q; reflexivity]. }
  rewrite A1. clear A1.
  (* what is seen *)
  assert (match raw, eo with Some v, _ => if kk then RVal VNil else RVal v | None, Some EKill => if kld (fib m3 g) then RVal VNil else RErr EKill | None, Some e => RErr e | None, None => Crash end
          = match r with RVal v => if kk then RVal VNil else RVal v | _ => r end /\ r <> Crash) as [Es Ncr].
  { destruct raw as [v|]; cbn [ends] in En.
    - destruct En as [-> ->]. split; [reflexivity|discriminate].
    - destruct En as (e & -> & En). destruct e as [z|z|]; [rewrite En; split; [reflexivity|discriminate]|rewrite En; split; [reflexivity|discriminate]|].
      destruct En as (-> & Kc & W). split; [|discriminate].
      assert (g = scur s) as Eg.
      { destruct Wh as [(W1 & W2 & W3)|(W1 & W2 & W3 & A & W4 & W5)]; [exact W3|]. destruct W as [W|W]; [contradiction (W W1)|]. unfold g. rewrite W2. exact W. }
      rewrite P3, Eg, Nat.eqb_refl. cbn [kld]. rewrite (r_kld _ _ _ RC), Kc. destruct kk; reflexivity. }
  rewrite Es. clear Es.
  assert (exists s', send s r = (s', match r with RVal v => if kk then RVal VNil else RVal v | _ => r end) /\ scount s' = scount s /\ scur s' = p /\ transfers s' = transfers s /\ inners s' = inners s
     /\ (forall x, sfib s' x = if x =? scur s then mkG Done None None false (killed (sfib s x)) (call (sfib s x)) (aimed (sfib s x)) (inner (sfib s x))
                              else if x =? p then s_waits None (sfib s x) else sfib s x)) as (s' & -> & B1 & B2 & B3 & B4 & B5).
  { unfold send, leave. un. ev. destruct Wh as [(W1 & W2 & W3)|(W1 & W2 & W3 & A & W4 & W5)]; rewrite W1.
    - unfold land. un. ev. rewrite Kp, Yp. fold kk. cbn [negb]. rewrite andb_true_r. eexists. split; [destruct r as [v|e|]; [destruct kk; reflexivity|reflexivity|reflexivity]|].
      cbn [scount scur transfers inners sfib]. repeat (split; [reflexivity|]). intros x. destruct (Nat.eqb_spec x (scur s)) as [->|E]; [ev; rewrite WC', IC3; reflexivity|].
      destruct (Nat.eqb_spec x p) as [->|]; ev; [reflexivity|]. rewrite (proj2 (Nat.eqb_neq _ _) E), (proj2 (Nat.eqb_neq _ _) n). reflexivity.
    - match goal with |- context [inmost ?X 0] => replace (inmost X 0) with p end.
      2: { rewrite W2. symmetry. apply inmost_ext; [reflexivity|]. intros x. ev. destruct (Nat.eqb_spec x (scur s)) as [->|]; reflexivity. }
      unfold land. un. ev. rewrite Kp, Yp. fold kk. cbn [negb]. rewrite andb_true_r. eexists. split; [destruct r as [v|e|]; [destruct kk; reflexivity|reflexivity|reflexivity]|].
      cbn [scount scur transfers inners sfib]. repeat (split; [reflexivity|]). intros x. destruct (Nat.eqb_spec x (scur s)) as [->|E]; [ev; rewrite WC', IC3, W1; reflexivity|].
      destruct (Nat.eqb_spec x p) as [->|]; ev; [|rewrite (proj2 (Nat.eqb_neq _ _) E); reflexivity]. rewrite W4 in H. pose proof (i_base _ _ _ _ H) as (_ & _ & B3 & _). rewrite <- W5 in B3. destruct (sfib s p); cbn in *. congruence. }
  unfold good. cbn [fst snd]. split; [reflexivity|]. split; [destruct r as [v|e|]; [destruct kk; discriminate|discriminate|contradiction Ncr; reflexivity]|].
  destruct Wh as [(W1 & (t' & W2) & W3)|(W1 & W2 & W3 & A & W4 & W5)].
  - exists (p :: t'), o. rewrite W2 in H.
    eapply (pop_ok m s (scur s) p t' o m' s' Done (par (fib m (scur s))) WNone H); try assumption.
    + rewrite A2. exact C3.
    + right. reflexivity.
    + intros x. rewrite A4, !P3, E1, Nat.eqb_refl. un. cbn. destruct (Nat.eqb_spec x p) as [->|E]; [rewrite E1; rewrite (r_err _ _ _ RP); reflexivity|].
      destruct (Nat.eqb_spec x (scur s)) as [->|]; reflexivity.
    + intros x. rewrite B5. un. destruct (Nat.eqb_spec x (scur s)) as [->|]; [reflexivity|]. destruct (x =? p); reflexivity.
  - exists A, None. rewrite W3, W4 in H.
    assert (waits (sfib s p) = None) as Wp by (pose proof (i_base _ _ _ _ H) as (_ & _ & B & _); rewrite W5; exact B).
    assert (transfers s = true) as Tr. { destruct (transfers s) eqn:Q; [reflexivity|]. destruct (i_tr _ _ _ _ H Q) as [Z _]. discriminate. }
    eapply (back_ok m s (scur s) A m' s' Done (par (fib m (scur s))) WNone (call (sfib s (scur s))) (ret (fib m p)) (kld (fib m p)) H); try assumption.
    + rewrite A2. exact C3.
    + rewrite A3. exact W5.
    + rewrite B2. exact W5.
    + rewrite B3. exact Tr.
    + destruct (inners s) eqn:Q; [|reflexivity]. rewrite (i_inn _ _ _ _ H Q) in Tr. discriminate.
    + right. reflexivity.
    + rewrite <- W5. intros q Q. pose proof (i_base _ _ _ _ H) as (Ne & Lk & _ & La & _). destruct A as [|h [|y u]]; cbn [hd] in W5.
      * contradiction Ne. reflexivity.
      * cbn in La. rewrite W5, La, (i_prev0 _ _ _ _ H) in Q. discriminate.
      * destruct Lk as (_ & P & R & _). rewrite W5 in *. congruence.
    + intros x. rewrite A4, !P3, E1, Nat.eqb_refl, <- W5. un. cbn. destruct (Nat.eqb_spec x p) as [->|E]; [rewrite E1; rewrite (r_err _ _ _ RP), (r_resu _ _ _ RP), Wp; reflexivity|].
      destruct (Nat.eqb_spec x (scur s)) as [->|]; reflexivity.
    + intros x. rewrite B5, <- W5. un. destruct (Nat.eqb_spec x (scur s)) as [->|]; [reflexivity|]. destruct (Nat.eqb_spec x p) as [->|]; [|reflexivity].
      rewrite (r_kld _ _ _ RP), Wp. reflexivity.
Qed.
