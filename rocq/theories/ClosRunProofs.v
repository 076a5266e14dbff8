(** Stores, calls, returns; whole runs. *)
From Coq Require Import List Bool Arith ZArith Lia.
From Verif Require Import ClosModel ClosSpec ClosProofs ClosStepProofs.
Import ListNotations.

(* ---- stores ---- *)

Lemma frame_set : forall s a b f, frame_at (set_at s a f) b = if addr_eqb b a then f else frame_at s b.
Proof. intros s [m|m] [n|n] f; cbn; try reflexivity. Qed.
Lemma addr_eqb_spec : forall a b, reflect (a = b) (addr_eqb a b).
Proof.
  intros [m|m] [n|n]; cbn; try (constructor; discriminate); destruct (Nat.eqb_spec m n) as [->|N]; constructor; try reflexivity; intro E; injection E as E; exact (N E).
Qed.
Lemma store_ext : forall s a x v, let s' := store s a x v in
  sp s' = sp s /\ lfps s' = lfps s /\ hp s' = hp s /\ np s' = np s /\ procs s' = procs s /\ r14 s' = r14 s /\ born s' = born s
  /\ (forall b, outer (frame_at s' b) = outer (frame_at s b) /\ blk (frame_at s' b) = blk (frame_at s b) /\ cache (frame_at s' b) = cache (frame_at s b)
               /\ heaped (frame_at s' b) = heaped (frame_at s b) /\ inval (frame_at s' b) = inval (frame_at s b)).
Proof.
  intros s a x v s'. unfold s', store. split; [destruct a; reflexivity|]. split; [destruct a; reflexivity|]. split; [destruct a; reflexivity|].
  split; [destruct a; reflexivity|]. split; [destruct a; reflexivity|]. split; [destruct a; reflexivity|]. split; [destruct a; reflexivity|].
  intro b. rewrite frame_set. destruct (addr_eqb_spec b a) as [->|N]; cbn; auto.
Qed.
Lemma vrel_w : forall s w w' loc v u, nq w <= nq w' -> (forall q, q < nq w -> clos w' q = clos w q) -> vrel s w loc v u -> vrel s w' loc v u.
Proof.
  intros s w w' loc [|z|p] [|z'|q] A B H; cbn in *; try exact H. destruct H as (H1 & H2 & H3). rewrite B by exact H2. split; [exact H1|]. split; [lia|exact H3].
Qed.

Lemma store_good : forall s w loc i a x v u, Good s w loc -> loc i = Some a -> vrel s w loc v u -> Good (store s a x v) (wset w i x u) loc.
Proof.
  intros s w loc i a x v u G Hi Hv. pose proof (store_ext s a x v) as (A1 & A2 & A3 & A4 & A5 & A6 & A7 & A8). set (s' := store s a x v) in *.
  set (w' := wset w i x u). pose proof (g_lax _ _ _ G) as L.
  assert (As : forall n, outer (slots s' n) = outer (slots s n) /\ blk (slots s' n) = blk (slots s n) /\ heaped (slots s' n) = heaped (slots s n) /\ inval (slots s' n) = inval (slots s n)).
  { intro n. destruct (A8 (Stk n)) as (B1 & B2 & _ & B3 & B4). cbn in *. auto. }
  assert (Ah : forall n, outer (heap s' n) = outer (heap s n) /\ blk (heap s' n) = blk (heap s n) /\ heaped (heap s' n) = heaped (heap s n) /\ inval (heap s' n) = inval (heap s n)).
  { intro n. destruct (A8 (Heap n)) as (B1 & B2 & _ & B3 & B4). cbn in *. auto. }
  assert (Ee : forall k, eouter (envs w' k) = eouter (envs w k) /\ eblk (envs w' k) = eblk (envs w k) /\ enative (envs w' k) = enative (envs w k)).
  { intro k. cbn. unfold upd. destruct (Nat.eqb_spec k i) as [->|N]; cbn; auto. }
  assert (Ex : forall n m, exposed s' n m -> exposed s n m).
  { intros n m (B1 & B2 & B3). rewrite A1 in B1. rewrite A2 in B2. destruct (As n) as [Q _]. rewrite Q in B3. repeat split; assumption. }
  constructor.
  - constructor; rewrite ?A1, ?A2, ?A3, ?A7; try apply L.
    + intros n Hn. destruct (As n) as (_ & _ & Q & _). rewrite Q. apply L. exact Hn.
    + intros n Hn. destruct (As n) as (_ & _ & _ & Q). rewrite Q. apply L. exact Hn.
    + intros j h Hj. destruct (Ah h) as (_ & _ & Q1 & Q2). rewrite Q1, Q2. apply (l_locH _ _ _ L j h Hj).
    + intros j b Hj. pose proof (l_rel _ _ _ L j b Hj) as [F1 F2 F3]. destruct (A8 b) as (B1 & B2 & _). destruct (Ee j) as (E1 & E2 & _).
      apply (frel_mono s s' w' loc loc); auto; [lia|intros p _; rewrite A5; reflexivity|].
      constructor; [|rewrite B1, E1; exact F2|rewrite B2, E2; exact F3].
      intro y. unfold s', store. rewrite frame_set. cbn [w' wset envs]. destruct (addr_eqb_spec b a) as [->|N].
      * assert (j = i) by (apply (l_inj _ _ _ L j i a Hj Hi)). subst j. rewrite upd_same. cbn. unfold upd. destruct (y =? x); [exact Hv|apply F1].
      * rewrite upd_other; [apply F1|]. intro. subst j. congruence.
    + intros n Hn. destruct (A8 (lfps s n)) as (_ & _ & B & _). rewrite B. destruct (Ee (act w n)) as (E1 & E2 & E3).
      change (act w' n) with (act w n). unfold kept. rewrite E2, E3. apply (crel_mono s s' w loc loc); auto. apply (l_cache _ _ _ L n Hn).
  - intros h m. rewrite A3. destruct (Ah h) as [Q _]. rewrite Q. apply G.
  - intros h f d. rewrite A3. destruct (Ah h) as (_ & Q & _). rewrite Q. apply G.
  - intros n m E. rewrite A2. apply (g_out _ _ _ G n m). apply Ex. exact E.
  - intros n m f d E. destruct (As n) as (_ & Q & _). rewrite Q. apply (g_blk _ _ _ G n m). apply Ex. exact E.
  - intros n m k j E Hk (B1 & B2 & B3 & B4). apply (g_dom _ _ _ G n m k j (Ex n m E) Hk). rewrite A1 in B1. rewrite A2 in B2, B3.
    destruct (As k) as (Q1 & Q2 & _). rewrite Q1, Q2 in B4. repeat split; assumption.
  - intros k Hk. destruct (Ee k) as (E1 & _ & E3). rewrite E1, E3. apply G. exact Hk.
Qed.
Lemma store_cur : forall s a x v, cur_ok s -> cur_ok (store s a x v).
Proof. intros s a x v C. pose proof (store_ext s a x v) as (A1 & A2 & _ & _ & _ & A6 & _). unfold cur_ok, top in *. rewrite A1, A2, A6. exact C. Qed.
Lemma wclo_good : forall s w loc i f, Good s w loc -> Good s (fst (wclo w i f)) loc.
Proof.
  intros s w loc i f [L B C D E F H]. constructor; auto. destruct L as [b1 b2 b3 b4 b5 b6 b7 b8 b9 b10 b11 b12 b13]. constructor; auto.
  intros k a Hk. destruct (b12 k a Hk) as [F1 F2 F3]. constructor; [|exact F2|exact F3]. intro x. apply (vrel_w s w); [cbn; lia|intros q Hq; cbn; apply upd_other; lia|apply F1].
Qed.
Lemma wclo_vrel : forall s w loc p i f, is_proc s w loc p i f -> vrel s (fst (wclo w i f)) loc (VProc p) (VProc (nq w)).
Proof. intros s w loc p i f (A & h & B & C). cbn. rewrite upd_same, B. cbn. split; [exact A|]. split; [lia|]. split; [reflexivity|]. exists h. auto. Qed.
Lemma reload_good : forall s w loc, Good s w loc -> Good (reload s) w loc /\ cur_ok (reload s).
Proof.
  intros s w loc [L B C D E F H]. split; [|reflexivity]. constructor; auto. destruct L as [b1 b2 b3 b4 b5 b6 b7 b8 b9 b10 b11 b12 b13]. constructor; auto.
  intros i a Hi. apply (frel_mono s (reload s) w loc loc); auto. apply b12. exact Hi.
Qed.

(* ---- calls ---- *)

Lemma push_good : forall s w loc f e, Good s w loc -> heaped f = false -> inval f = false ->
  (forall x, vrel s w loc (vars f x) (evars e x)) ->
  match outer f, eouter e with None, None => True | Some o, Some j => loc j = Some o | _, _ => False end ->
  match blk f with
  | HProxy g d => 1 <= d /\ d <= sp s /\ eblk e = Some (act w (sp s - d), g) /\ (forall m, outer f <> Some (Stk m))
  | b => brel s w loc 0 b (eblk e)
  end ->
  crel s w loc (sp s) (cache f) (kept e) -> (enative e = true -> eouter e = None) ->
  (forall n m j, exposed s n m -> j < sp s -> lfps s j = Stk j -> outer f = Some (Stk j) \/ (exists g d, blk f = HProxy g d /\ j = sp s - d) -> n <= j \/ j < m) ->
  Good (push s f) (wpush w e) (upd loc (ne w) (Some (Stk (sp s)))) /\ cur_ok (push s f).
Proof.
  intros s w loc f e G Hh Hv Fv Fo Fb Fc Fn Fd. pose proof (g_lax _ _ _ G) as L. set (s' := push s f). set (w' := wpush w e). set (loc' := upd loc (ne w) (Some (Stk (sp s)))).
  split; [|unfold cur_ok; cbn; rewrite upd_same; reflexivity].
  assert (Ln : loc (ne w) = None). { destruct (loc (ne w)) as [a|] eqn:Q; [|reflexivity]. pose proof (l_dom _ _ _ L _ _ Q). lia. }
  assert (Lo : forall i a, loc i = Some a -> loc' i = Some a). { intros i a H. unfold loc'. rewrite upd_other; [exact H|]. intro. subst i. congruence. }
  assert (Ac : forall n, n < sp s -> act w' n = act w n). { intros n H. cbn. apply upd_other. rewrite <- (l_sp _ _ _ L). lia. }
  assert (At : act w' (sp s) = ne w). { cbn. rewrite <- (l_sp _ _ _ L). apply upd_same. }
  assert (Lf : forall n, n < sp s -> lfps s' n = lfps s n) by (intros n H; cbn; apply upd_other; lia).
  assert (Sl : forall n, n < sp s -> slots s' n = slots s n) by (intros n H; cbn; apply upd_other; lia).
  assert (Lt : lfps s' (sp s) = Stk (sp s)) by (cbn; apply upd_same).
  assert (St : slots s' (sp s) = f) by (cbn; apply upd_same).
  assert (Fr : forall i a, loc i = Some a -> frame_at s' a = frame_at s a).
  { intros i [n|h] H; cbn [frame_at]; [|reflexivity]. apply Sl. apply (l_locS _ _ _ L i n H). }
  assert (En : forall i, i < ne w -> envs w' i = envs w i) by (intros i H; cbn; apply upd_other; lia).
  assert (Et : envs w' (ne w) = e) by (cbn; apply upd_same).
  assert (Or : forall o j, oref s w loc o j -> oref s' w' loc' o j).
  { intros [m|h] j H; cbn [oref] in *; [|apply Lo; exact H]. destruct H as [H1 H2]. split; [cbn; lia|]. rewrite Ac by exact H1. exact H2. }
  assert (Vr : forall v u, vrel s w loc v u -> vrel s' w' loc' v u).
  { intros [|z|p] [|z'|q] H; cbn [vrel] in *; try exact H. destruct H as (H1 & H2 & H3 & h & H4 & H5). split; [exact H1|]. split; [exact H2|]. split; [exact H3|]. exists h. auto. }
  assert (Cr : forall n c e, crel s w loc n c e -> crel s' w' loc' n c e).
  { intros n [[a g]|] [[j g']|] H; cbn [crel] in *; try exact H. destruct H as (H1 & H2 & H3). auto. }
  assert (Br : forall i p e, brel s w loc i (HProc p) e -> forall i', brel s' w' loc' i' (HProc p) e).
  { intros i p e0 H i'. cbn [brel] in *. destruct H as (H1 & j & h & g & H2 & H3 & H4). split; [exact H1|]. exists j, h, g. auto. }
  assert (Cases : forall n, n < sp s' -> n < sp s \/ n = sp s) by (intros n H; cbn in H; lia).
  assert (Ex : forall n m, exposed s' n m -> (n < sp s /\ exposed s n m) \/ (n = sp s /\ outer f = Some (Stk m))).
  { intros n m (B1 & B2 & B3). destruct (Cases n B1) as [H|H].
    - left. rewrite Lf in B2 by exact H. rewrite Sl in B3 by exact H. split; [exact H|]. repeat split; assumption.
    - right. subst n. rewrite St in B3. auto. }
  constructor.
  - constructor.
    + cbn. f_equal. apply L.
    + cbn. lia.
    + cbn. f_equal. apply L.
    + intros n H. destruct (Cases n H) as [Q|Q].
      * rewrite Ac, Lf by exact Q. apply Lo. apply L. exact Q.
      * subst n. rewrite At, Lt. unfold loc'. apply upd_same.
    + intros n H. destruct (Cases n H) as [Q|Q]; [rewrite Sl by exact Q; apply L; exact Q|subst n; rewrite St; exact Hh].
    + intros n H. destruct (Cases n H) as [Q|Q]; [rewrite Sl, Lf by exact Q; apply L; exact Q|subst n; rewrite St, Lt; auto].
    + intros m n H1 H2. destruct (Cases n H2) as [Q|Q].
      * rewrite !Ac by lia. apply L; assumption.
      * subst n. rewrite At, Ac by exact H1. apply (l_dom _ _ _ L _ _ (l_act _ _ _ L m H1)).
    + intros i j a H1 H2. unfold loc', upd in H1, H2. destruct (Nat.eqb_spec i (ne w)) as [->|Ni], (Nat.eqb_spec j (ne w)) as [->|Nj]; auto.
      * injection H1 as <-. destruct (l_locS _ _ _ L j _ H2). lia.
      * injection H2 as <-. destruct (l_locS _ _ _ L i _ H1). lia.
      * apply (l_inj _ _ _ L i j a H1 H2).
    + intros i n H. unfold loc', upd in H. destruct (Nat.eqb_spec i (ne w)).
      * injection H as <-. subst i. split; [cbn; lia|exact At].
      * destruct (l_locS _ _ _ L i n H) as [A B]. split; [cbn; lia|]. rewrite Ac by exact A. exact B.
    + intros i h H. unfold loc', upd in H. destruct (Nat.eqb_spec i (ne w)); [discriminate H|]. apply (l_locH _ _ _ L i h H).
    + intros i a H. unfold loc', upd in H. destruct (Nat.eqb_spec i (ne w)); [cbn; lia|]. pose proof (l_dom _ _ _ L i a H). cbn. lia.
    + intros i a H. unfold loc', upd in H. destruct (Nat.eqb_spec i (ne w)) as [->|N].
      * injection H as <-. cbn [frame_at]. rewrite St, Et. constructor.
        -- intro x. apply Vr. apply Fv.
        -- unfold orel. destruct (outer f) as [o|], (eouter e) as [j|]; try exact Fo. split; [apply (l_dom _ _ _ L j o Fo)|].
           destruct o as [m|h]; [|cbn; apply Lo; exact Fo]. destruct (l_locS _ _ _ L j m Fo) as [A B]. cbn. split; [lia|]. change (act w' m = j). rewrite Ac by exact A. exact B.
        -- destruct (blk f) as [|g d|p]; [exact Fb| |apply (Br 0); exact Fb]. destruct Fb as (B1 & B2 & B3 & B4). cbn [brel]. exists (sp s). split; [cbn; lia|].
           split; [exact At|]. split; [exact B1|]. split; [exact B2|]. rewrite Ac by lia. exact B3.
      * rewrite (Fr i a H). rewrite En by (apply (l_dom _ _ _ L i a H)). destruct (l_rel _ _ _ L i a H) as [F1 F2 F3]. constructor.
        -- intro x. apply Vr. apply F1.
        -- unfold orel in *. destruct (outer (frame_at s a)) as [o|], (eouter (envs w i)) as [j|]; try exact F2. destruct F2 as [F2 F4]. split; [exact F2|]. apply Or. exact F4.
        -- destruct (blk (frame_at s a)) as [|g d|p]; [exact F3| |apply (Br i); exact F3]. cbn [brel] in *. destruct F3 as (n & N1 & N2 & N3 & N4 & N5).
           exists n. split; [cbn; lia|]. rewrite !Ac by lia. auto.
    + intros n H. destruct (Cases n H) as [Q|Q].
      * rewrite Lf, Ac by exact Q. rewrite (Fr (act w n)) by (apply L; exact Q). rewrite En by (apply (l_dom _ _ _ L _ _ (l_act _ _ _ L n Q))). apply Cr. apply L. exact Q.
      * subst n. rewrite Lt, At, Et. cbn [frame_at]. rewrite St. apply Cr. exact Fc.
  - apply G.
  - apply G.
  - intros n m E. destruct (Ex n m E) as [[H1 H2]|[H1 H2]].
    + rewrite Lf; [apply (g_out _ _ _ G n m H2)|]. pose proof (exposed_down s w loc n m G H2). lia.
    + rewrite H2 in Fo. destruct (eouter e) as [j|]; [|contradiction]. destruct (stk_pos s w loc j m G Fo) as (A & _ & B). rewrite Lf by exact A. exact B.
  - intros n m g d E. destruct (Ex n m E) as [[H1 H2]|[H1 H2]]; [rewrite Sl by exact H1; apply (g_blk _ _ _ G n m g d H2)|].
    subst n. rewrite St. intro B. rewrite B in Fb. destruct Fb as (_ & _ & _ & B4). apply (B4 m H2).
  - intros n m k j E Hk (B1 & B2 & B3 & B4). destruct (Ex n m E) as [[H1 H2]|[H1 H2]]; [|subst n; destruct (Cases k B1); lia].
    destruct (Cases k B1) as [Q|Q].
    + apply (g_dom _ _ _ G n m k j H2 Hk). rewrite Lf in B2 by exact Q. rewrite Sl in B4 by exact Q.
      assert (Hj : j < sp s).
      { destruct B4 as [B4|(g & d & _ & B5 & B6)]; [|lia].
        pose proof (l_rel _ _ _ L (act w k) (Stk k)) as R. rewrite (l_act _ _ _ L k Q), B2 in R. destruct (R eq_refl) as [_ R2 _]. cbn in R2. rewrite B4 in R2.
        unfold orel in R2. destruct (eouter (envs w (act w k))); [|contradiction]. destruct R2 as (_ & R2 & _). exact R2. }
      rewrite Lf in B3 by exact Hj. repeat split; assumption.
    + subst k. rewrite St in B4. assert (Hj : j < sp s).
      { destruct B4 as [B4|(g & d & B4 & B5 & B6)].
        - rewrite B4 in Fo. destruct (eouter e) as [i|]; [|contradiction]. apply (stk_pos s w loc i j G Fo).
        - rewrite B4 in Fb. destruct Fb as (F1 & F2 & _). lia. }
      rewrite Lf in B3 by exact Hj. apply (Fd n m j H2 Hj B3). destruct B4 as [B4|(g & d & B4 & B5 & B6)]; [auto|]. right. exists g, d. auto.
  - intros i Hi. cbn in Hi. destruct (Nat.eq_dec i (ne w)) as [->|N]; [rewrite Et; exact Fn|]. rewrite En by lia. apply G. lia.
Qed.

Definition blk_ok (s : st) (w : wst) (loc : place) (h : handler) (e : option (nat * fid)) : Prop :=
  match h with HProxy g d => 1 <= d /\ d <= sp s /\ e = Some (act w (sp s - d), g) | b => brel s w loc 0 b e end
  /\ forall n m g d, exposed s n m -> h = HProxy g d -> lfps s (sp s - d) = Stk (sp s - d) -> n <= sp s - d \/ sp s - d < m.
Lemma handler_ok : forall s w loc b, Good s w loc -> cur_ok s -> blk_ok s w loc (handler_of s b) (wblock w b).
Proof.
  intros s w loc b G C. pose proof (g_lax _ _ _ G) as L. pose proof (cur_loc s w loc G C) as Hc. pose proof (l_pos _ _ _ L) as Hp. pose proof (l_rel _ _ _ L _ _ Hc) as [F1 F2 F3].
  destruct b as [|f| |x]; cbn [handler_of wblock].
  - split; [reflexivity|]. intros. discriminate.
  - split; [split; [lia|]; split; [lia|]; unfold now; rewrite <- (l_sp _ _ _ L), Nat.sub_1_r; reflexivity|].
    intros n m g d (E & _) H _. injection H as <- <-. left. lia.
  - fold (cur s) in F3. fold (here w) in F3. destruct (blk (cur s)) as [|g d|p] eqn:Eb.
    + split; [exact F3|]. intros. discriminate.
    + cbn [brel] in F3. destruct F3 as (n & N1 & N2 & N3 & N4 & N5).
      assert (n = top s). { apply (act_inj s w loc n (top s) L N1); [unfold top; lia|]. rewrite N2. unfold now, top. rewrite (l_sp _ _ _ L). reflexivity. }
      subst n. unfold top in *. split; [split; [lia|]; split; [lia|]; replace (sp s - S d) with (pred (sp s) - d) by lia; exact N5|].
      intros n m g' d' E H Z. injection H as <- <-. replace (sp s - S d) with (pred (sp s) - d) in * by lia.
      unfold cur in Eb. destruct (r14 s) as [t|h] eqn:Er; [|exfalso; destruct (l_locH _ _ _ L _ _ Hc) as [A _]; apply (g_nopx _ _ _ G h g d A Eb)].
      destruct (stk_pos s w loc _ t G Hc) as (T1 & T2 & T3). assert (t = pred (sp s)). { apply (act_inj s w loc t (pred (sp s)) L T1); [lia|]. congruence. }
      subst t. apply (proxy_pos s w loc n m 0 (pred (sp s)) g d G C E); auto. rewrite Er. reflexivity.
    + split; [exact F3|]. intros. discriminate.
  - specialize (F1 x). fold (cur s) in F1. fold (here w) in F1. destruct (vars (cur s) x) as [|z|p] eqn:Ev, (evars (here w) x) as [|z'|q]; cbn [vrel] in F1; try contradiction;
      try (split; [reflexivity|intros; discriminate]).
    split; [|intros; discriminate]. destruct F1 as (A & B & D & h & E & F). cbn [brel]. split; [exact A|]. exists (fst (clos w q)), h, (snd (clos w q)).
    split; [rewrite <- D, <- E; apply surjective_pairing|]. split; [f_equal; apply surjective_pairing|exact F].
Qed.
Lemma new_vars_ok : forall s w loc a b c d, vrel s w loc a c -> vrel s w loc b d -> forall x, vrel s w loc (new_vars a b x) (new_vars c d x).
Proof. intros s w loc a b c d A B [|[|x]]; cbn; [exact A|exact B|exact I]. Qed.

Definition rel (s : st) (w : wst) : Prop := exists loc, Good s w loc /\ cur_ok s.
Lemma block_rel : forall s w loc a f j v u h e, Good s w loc -> cur_ok s -> oref s w loc a j -> vrel s w loc v u -> blk_ok s w loc h e ->
  (forall g d, h = HProxy g d -> exists k, a = Heap k) ->
  (forall n m p, exposed s n m -> p < sp s -> resolve s a = Stk p -> n <= p \/ p < m) ->
  rel (push_block s (a, f) v h) (wenter w (j, f) u e).
Proof.
  intros s w loc a f j v u h e G C O V [B1 B2] Bh Bd. pose proof (g_lax _ _ _ G) as L. pose proof (oref_loc s w loc a j L O) as Hj.
  eexists. unfold push_block, wenter. cbn [fst]. apply push_good with (loc := loc); auto; cbn [vars outer blk cache evars eouter eblk].
  - apply new_vars_ok; [|exact V]. apply (l_rel _ _ _ L _ _ Hj).
  - destruct h as [|g d|p]; [exact B1| |exact B1]. destruct B1 as (X1 & X2 & X3). repeat (split; [assumption|]). intros m Hm. destruct (Bh g d eq_refl) as [k ->]. discriminate Hm.
  - exact I.
  - intro Q. discriminate Q.
  - intros n m p E Hp Lp [Q|(g & d & Q & ->)]; [injection Q as Q; apply (Bd n m p E Hp Q)|apply (B2 n m g d E Q Lp)].
Qed.

(* ---- returns ---- *)

Lemma pop_good : forall s w loc n, Good s w loc -> sp s = S (S n) ->
  exists loc', Good (mkS (S n) (slots s) (lfps s) (hp s) (heap s) (np s) (procs s) (lfps s n) (born s)) (mkW (S n) (act w) (ne w) (envs w) (nq w) (clos w)) loc'
    /\ (forall i h, loc i = Some (Heap h) -> loc' i = Some (Heap h)).
Proof.
  intros s w loc n G Sp. pose proof (g_lax _ _ _ G) as L. set (s' := mkS _ _ _ _ _ _ _ _ _). set (w' := mkW _ _ _ _ _ _).
  set (loc' := fun i => match loc i with Some (Stk m) => if m =? S n then None else Some (Stk m) | x => x end).
  assert (Hl : forall i h, loc i = Some (Heap h) -> loc' i = Some (Heap h)) by (intros i h H; unfold loc'; rewrite H; reflexivity).
  assert (Hs : forall i m, loc i = Some (Stk m) -> m <> S n -> loc' i = Some (Stk m)) by (intros i m H N; unfold loc'; rewrite H; apply Nat.eqb_neq in N; rewrite N; reflexivity).
  assert (Hr : forall i a, loc' i = Some a -> loc i = Some a /\ a <> Stk (S n)).
  { intros i a H. unfold loc' in H. destruct (loc i) as [[m|h]|]; [|injection H as <-; split; [reflexivity|discriminate]|discriminate H].
    destruct (Nat.eqb_spec m (S n)); [discriminate H|]. injection H as <-. split; [reflexivity|]. intro Q. injection Q as Q. contradiction. }
  exists loc'. split; [|exact Hl].
  assert (Ex : forall a b, exposed s' a b -> exposed s a b) by (intros a b (A & B & C); cbn in A; repeat split; auto; lia).
  constructor; [constructor|apply G|apply G| | | |apply G].
  - reflexivity.
  - cbn. lia.
  - apply L.
  - intros k H. cbn in H |- *. pose proof (l_act _ _ _ L k) as A. destruct (lfps s k) as [m|h] eqn:E.
    + apply Hs; [apply A; lia|]. apply (lfps_stk s w loc k m L) in E; lia.
    + apply Hl. apply A. lia.
  - intros k H. cbn in H. apply L. lia.
  - intros k H. cbn in H. apply L. lia.
  - intros m k H1 H2. cbn in H2. apply L; lia.
  - intros i j a H1 H2. apply (l_inj _ _ _ L i j a); [apply (Hr i a H1)|apply (Hr j a H2)].
  - intros i m H. destruct (Hr _ _ H) as [A B]. destruct (l_locS _ _ _ L i m A) as [A1 A2]. split; [|exact A2]. cbn. assert (m <> S n) by congruence. lia.
  - intros i h H. destruct (Hr _ _ H) as [A _]. apply (l_locH _ _ _ L i h A).
  - intros i a H. destruct (Hr _ _ H) as [A _]. apply (l_dom _ _ _ L i a A).
  - intros i a H. destruct (Hr _ _ H) as [A B]. destruct (l_rel _ _ _ L i a A) as [F1 F2 F3]. change (frame_at s' a) with (frame_at s a). constructor.
    + intro x. specialize (F1 x). change (envs w' i) with (envs w i). destruct (vars (frame_at s a) x) as [|z|p], (evars (envs w i) x) as [|z'|q]; cbn [vrel] in *; try exact F1. destruct F1 as (P1 & P2 & P3 & h & P4 & P5). split; [exact P1|]. split; [exact P2|]. split; [exact P3|]. exists h. auto.
    + pose proof (out_ok s w loc i a G A) as O. change (envs w' i) with (envs w i). unfold orel. destruct (outer (frame_at s a)) as [o|] eqn:Eo, (eouter (envs w i)) as [j|]; try exact O.
      destruct O as [O1 O2]. split; [exact O1|]. destruct o as [m|h]; cbn; [|apply Hl; exact O2]. destruct (l_locS _ _ _ L j m O2) as [M1 M2]. split; [|exact M2].
      destruct a as [k|h]; [|exfalso; destruct (l_locH _ _ _ L i h A) as [K _]; apply (g_dir _ _ _ G h m K Eo)].
      destruct (l_locS _ _ _ L i k A) as [K1 K2]. assert (k <> S n) by congruence. destruct (le_lt_dec m n) as [Q|Q]; [lia|].
      assert (k <= m) by lia. destruct (Nat.eq_dec k m) as [->|N]; [lia|]. pose proof (l_mono _ _ _ L k m). lia.
    + destruct (blk (frame_at s a)) as [|f d|p] eqn:Eb; [exact F3| |].
      2:{ cbn [brel] in F3 |- *. destruct F3 as (P1 & j & h & f & P2 & P3 & P4). split; [exact P1|]. exists j, h, f. auto. }
      * cbn [brel] in F3 |- *. destruct F3 as (k & K1 & K2 & K3 & K4 & K5). exists k. split; [|auto]. cbn.
        destruct a as [k2|h]; [|exfalso; destruct (l_locH _ _ _ L i h A) as [K _]; apply (g_nopx _ _ _ G h f d K Eb)].
        destruct (l_locS _ _ _ L i k2 A) as [M1 M2]. assert (k = k2) by (apply (act_inj s w loc k k2 L K1 M1); congruence). subst k2. assert (k <> S n) by congruence. lia.
  - intros k H. cbn in H. pose proof (l_cache _ _ _ L k) as Q. change (frame_at s' (lfps s' k)) with (frame_at s (lfps s k)). change (envs w' (act w' k)) with (envs w (act w k)).
    unfold crel in *. destruct (cache (frame_at s (lfps s k))) as [[a f]|], (kept (envs w (act w k))) as [[j g]|]; try (apply Q; lia).
    destruct Q as (Q1 & Q2 & Q3); [lia|]. split; [exact Q1|]. split; [|exact Q3]. destruct a as [m|h]; cbn in Q2 |- *; [|apply Hl; exact Q2].
    specialize (Q3 m eq_refl). split; [lia|apply Q2].
  - intros a b E. apply (g_out _ _ _ G a b). apply Ex. exact E.
  - intros a b f d E. apply (g_blk _ _ _ G a b f d). apply Ex. exact E.
  - intros a b k j E Hk (B1 & B2 & B3). apply (g_dom _ _ _ G a b k j (Ex a b E) Hk). cbn in B1. split; [lia|]. split; assumption.
Qed.

(* ---- whole steps ---- *)

Lemma see_ok : forall s w loc v u, vrel s w loc v u -> see s v = wsee w u.
Proof. intros s w loc [|z|p] [|z'|q] H; cbn in *; try contradiction; [reflexivity|congruence|]. destruct H as (_ & _ & H & _). rewrite H. reflexivity. Qed.
Lemma find_ok : forall s w loc i a k, Good s w loc -> loc i = Some a -> k <= sp s -> find s a k = wfind w i k.
Proof.
  intros s w loc i a k G Hi. pose proof (g_lax _ _ _ G) as L. induction k as [|k IH]; intro Hk; [reflexivity|]. cbn.
  pose proof (l_act _ _ _ L k) as A. destruct (addr_eqb_spec (lfps s k) a) as [E|N], (Nat.eqb_spec (act w k) i) as [E2|N2]; try reflexivity.
  - exfalso. apply N2. apply (l_inj _ _ _ L _ _ a); [rewrite A by lia; congruence|exact Hi].
  - exfalso. apply N. rewrite E2, Hi in A. specialize (A ltac:(lia)). congruence.
  - apply IH. lia.
Qed.
Lemma none_ok : forall s w loc, blk_ok s w loc HNone None.
Proof. intros. split; [reflexivity|]. intros. discriminate. Qed.
Lemma resolve_lfps : forall s w loc n p, Lax s w loc -> n < sp s -> resolve s (lfps s n) = Stk p -> p = n /\ lfps s n = Stk n.
Proof.
  intros s w loc n p L H E. destruct (l_stk _ _ _ L n H) as [[A B]|[h [A B]]]; rewrite A in E; cbn in E; [|discriminate E]. rewrite B in E. injection E as <-. auto.
Qed.
Lemma lfps_oref : forall s w loc n, Lax s w loc -> n < sp s -> oref s w loc (lfps s n) (act w n).
Proof.
  intros s w loc n L H. pose proof (l_act _ _ _ L n H) as A. destruct (lfps s n) as [m|h] eqn:E; cbn; [|exact A]. apply (lfps_stk s w loc n m L H) in E. subst m. auto.
Qed.
(** The block for yield. *)
Lemma yield_ok : forall s w loc, Good s w loc -> cur_ok s -> exists j,
  whome (S (ne w)) w (now w) = Some j /\
  match yield_data s, eblk (envs w j) with
  | None, None => True
  | Some (a, f), Some (k, g) => f = g /\ oref s w loc a k /\ (forall n m p, exposed s n m -> p < sp s -> resolve s a = Stk p -> n <= p \/ p < m)
  | _, _ => False
  end.
Proof.
  intros s w loc G C. pose proof (g_lax _ _ _ G) as L. pose proof (cur_loc s w loc G C) as Hc. pose proof (l_dom _ _ _ L _ _ Hc) as Hd.
  destruct (home_ok s w loc (S (ne w)) (now w) (r14 s) G Hc) as (a & j & d & A & B & D & U); [lia|]. exists j. split; [exact B|].
  unfold yield_data. rewrite (l_born _ _ _ L), A. pose proof (l_rel _ _ _ L j a D) as [_ _ F].
  destruct (blk (frame_at s a)) as [|f e|p] eqn:Eb; cbn [brel target] in *.
  - rewrite F. exact I.
  - destruct a as [c|h]; [|exfalso; destruct (l_locH _ _ _ L j h D) as [Q _]; apply (g_nopx _ _ _ G h f e Q Eb)].
    destruct (stk_pos s w loc j c G D) as (Q1 & Q2 & Q3). rewrite (find_spec s w loc c (Stk c) (sp s) L Q1 (le_n _) Q3).
    destruct F as (n & N1 & N2 & N3 & N4 & N5). rewrite <- Q2 in N2. apply (act_inj s w loc n c L N1 Q1) in N2. subst n.
    assert (Ht : c <= top s) by (unfold top; lia). cbn [target].
    replace (e + (top s - c) <=? top s) with true by (symmetry; apply Nat.leb_le; lia). replace (top s - (e + (top s - c))) with (c - e) by lia.
    rewrite N5. split; [reflexivity|]. split; [apply lfps_oref; [exact L|lia]|].
    intros n m p E Hp R. apply (resolve_lfps s w loc (c - e) p L) in R; [|lia]. destruct R as [-> R]. apply (proxy_pos s w loc n m d c f e); auto.
  - destruct F as (P1 & k & h & f & P2 & P3 & P4). rewrite P2, P3. split; [reflexivity|]. split; [exact P4|]. intros n m q _ _ R. discriminate R.
Qed.

Theorem step_ok : forall s w o, rel s w -> fair s o -> snd (step s o) = snd (wstep w o) /\ rel (fst (step s o)) (fst (wstep w o)).
Proof.
  intros s w o [loc [G C]] Fa. pose proof (g_lax _ _ _ G) as L. pose proof (cur_loc s w loc G C) as Hc. pose proof (l_dom _ _ _ L _ _ Hc) as Hd.
  pose proof (l_rel _ _ _ L _ _ Hc) as Fc. fold (cur s) in Fc. fold (here w) in Fc.
  assert (Same : rel s w) by (exists loc; auto).
  assert (St : forall i a x v u, loc i = Some a -> vrel s w loc v u -> rel (store s a x v) (wset w i x u)).
  { intros i a x v u H1 H2. exists loc. split; [apply store_good; assumption|apply store_cur; exact C]. }
  destruct o as [d x|d x z|d x d' x'|y x b|y b|x|x|x y b|x f|d x|x| | |x y]; cbn [step wstep].
  - pose proof (up_ok s w loc d (now w) (r14 s) G Hc) as U. destruct (up s (r14 s) d) as [a|], (wup w (now w) d) as [i|]; try contradiction; cbn [fst snd]; [|auto].
    split; [|exact Same]. rewrite (see_ok s w loc _ (evars (envs w i) x)); [reflexivity|]. apply (l_rel _ _ _ L i a U).
  - pose proof (up_ok s w loc d (now w) (r14 s) G Hc) as U. destruct (up s (r14 s) d) as [a|], (wup w (now w) d) as [i|]; try contradiction; cbn [fst snd]; [|auto].
    split; [reflexivity|]. apply St; [exact U|reflexivity].
  - pose proof (up_ok s w loc d (now w) (r14 s) G Hc) as U. pose proof (up_ok s w loc d' (now w) (r14 s) G Hc) as U'.
    destruct (up s (r14 s) d) as [a|], (wup w (now w) d) as [i|]; try contradiction; cbn [fst snd]; [|auto].
    destruct (up s (r14 s) d') as [a'|], (wup w (now w) d') as [i'|]; try contradiction; cbn [fst snd]; [|auto].
    split; [reflexivity|]. apply St; [exact U|]. apply (l_rel _ _ _ L i' a' U').
  - split; [reflexivity|]. destruct (handler_ok s w loc b G C) as [B1 B2]. eexists. unfold push_method. apply push_good with (loc := loc); auto; cbn [vars outer blk cache evars eouter eblk].
    + apply new_vars_ok; apply Fc.
    + destruct (handler_of s b) as [|g d|p]; [exact B1| |exact B1]. destruct B1 as (X1 & X2 & X3). repeat (split; [assumption|]). discriminate.
    + intros n m j E Hj Lj [Q|(g & d & Q & ->)]; [discriminate Q|]. apply (B2 n m g d E Q Lj).
  - split; [reflexivity|]. destruct (handler_ok s w loc b G C) as [B1 B2]. eexists. apply push_good with (loc := loc); auto; cbn [vars outer blk cache evars eouter eblk].
    + apply new_vars_ok; [apply Fc|exact I].
    + destruct (handler_of s b) as [|g d|p]; [exact B1| |exact B1]. destruct B1 as (X1 & X2 & X3). repeat (split; [assumption|]). discriminate.
    + unfold kept. cbn [enative eblk]. destruct (handler_of s b) as [|g d|p] eqn:Eh; cbn [target].
      * cbn in B1. rewrite B1. exact I.
      * destruct B1 as (X1 & X2 & X3). cbn [push_method push top sp pred lfps]. replace (d <=? sp s) with true by (symmetry; apply Nat.leb_le; exact X2).
        rewrite upd_other by lia. rewrite X3. cbn [crel]. split; [reflexivity|]. split; [apply lfps_oref; [exact L|lia]|].
        intros m E. apply (lfps_stk s w loc _ m L) in E; lia.
      * cbn [brel] in B1. destruct B1 as (P1 & j & h & f & P2 & P3 & P4). cbn [push_method push procs]. rewrite P2, P3. cbn [crel oref]. split; [reflexivity|]. split; [exact P4|discriminate].
    + intros n m j E Hj Lj [Q|(g & d & Q & ->)]; [discriminate Q|]. apply (B2 n m g d E Q Lj).
  - destruct (yield_ok s w loc G C) as (j & W & Y). rewrite W. destruct (yield_data s) as [[a f]|], (eblk (envs w j)) as [[k g]|]; try contradiction; cbn [fst snd]; [|auto].
    destruct Y as (<- & Y1 & Y2). split; [reflexivity|]. apply (block_rel s w loc); auto; [apply Fc|apply none_ok|discriminate].
  - pose proof (l_cache _ _ _ L (top s)) as Q. assert (Ht : top s < sp s) by (unfold top; pose proof (l_pos _ _ _ L); lia). specialize (Q Ht).
    assert (Ea : act w (top s) = now w) by (unfold top, now; rewrite (l_sp _ _ _ L); reflexivity). rewrite Ea, <- C in Q. fold (cur s) in Q. fold (here w) in Q. unfold kept in Q.
    destruct (cache (cur s)) as [[a f]|] eqn:Ec.
    + destruct (enative (here w)) eqn:En; [|contradiction]. destruct (eblk (here w)) as [[k g]|] eqn:Ee; [|contradiction]. cbn [fst snd]. destruct Q as (<- & Q1 & Q2).
      split; [reflexivity|]. apply (block_rel s w loc); auto; [apply Fc|apply none_ok|discriminate|].
      intros n m p E Hp R. pose proof (oref_loc s w loc a k L Q1) as Lk. rewrite R in Lk.
      pose proof (g_nat _ _ _ G (now w) Hd En) as No. destruct Fc as [_ F2 F3]. fold (here w) in No. rewrite Ee in F3.
      destruct (blk (cur s)) as [|g d|p'] eqn:Eb; cbn [brel] in F3; [discriminate F3| |destruct F3 as (_ & j' & h & f' & _ & F4 & F5); injection F4 as <- _; congruence].
      destruct F3 as (t & T1 & T2 & T3 & T4 & T5). rewrite <- Ea in T2. apply (act_inj s w loc t (top s) L T1 Ht) in T2. subst t. injection T5 as Tk _.
      destruct (stk_pos s w loc k p G Lk) as (P1 & P2 & P3). assert (p = top s - d) by (apply (act_inj s w loc p (top s - d) L P1); [lia|congruence]). subst p.
      unfold cur in Eb. destruct (r14 s) as [t|h] eqn:Er; [|exfalso; destruct (l_locH _ _ _ L _ _ Hc) as [X _]; apply (g_nopx _ _ _ G h g d X Eb)].
      destruct (stk_pos s w loc _ t G Hc) as (X1 & X2 & X3). assert (t = top s) by (apply (act_inj s w loc t (top s) L X1 Ht); congruence). subst t.
      apply (proxy_pos s w loc n m 0 (top s) g d G C E); auto. rewrite Er. reflexivity.
    + destruct (enative (here w)); [|cbn; auto]. destruct (eblk (here w)) as [[k g]|]; [contradiction|]. cbn. auto.
  - pose proof (f_vars _ _ _ _ _ _ Fc x) as V. destruct (vars (cur s) x) as [|z|p], (evars (here w) x) as [|z'|q]; cbn [vrel] in V; try contradiction; cbn [fst snd]; auto.
    destruct V as (V1 & V2 & V3 & h & V4 & V5). rewrite V3. split; [reflexivity|]. destruct (procs s p) as [a f]. destruct (clos w q) as [k g]. cbn [fst snd] in *. subst a g.
    apply (block_rel s w loc); auto; [apply Fc|apply handler_ok; assumption|intros g d _; exists h; reflexivity|intros n m r _ _ R; discriminate R].
  - destruct (lambda_good s w loc f G) as (s' & p & loc' & M & G' & Sp & P). rewrite M. cbn [wclo fst snd]. split; [reflexivity|].
    destruct (reload_good s' w loc' G') as [G2 C2]. exists loc'. pose proof (cur_loc (reload s') w loc' G2 C2) as Hc2. split; [|apply store_cur; exact C2].
    apply (store_good (reload s') (fst (wclo w (now w) f)) loc'); [apply wclo_good; exact G2|exact Hc2|]. apply (wclo_vrel s' w loc' p (now w) f P).
  - unfold block_arg. pose proof (up_ok s w loc d (now w) (r14 s) G Hc) as U. destruct (up s (r14 s) d) as [a|] eqn:Eu, (wup w (now w) d) as [i|]; try contradiction; cbn [fst snd]; [|auto].
    pose proof (l_rel _ _ _ L i a U) as [_ _ F]. destruct (blk (frame_at s a)) as [|g e|p] eqn:Eb; cbn [brel] in F.
    + rewrite F. cbn [fst snd]. split; [reflexivity|]. apply St; [exact Hc|exact I].
    + assert (Fi : exists c, find s a (sp s) = Some c).
      { destruct a as [n|h]; [|exfalso; destruct (l_locH _ _ _ L i h U) as [Q _]; apply (g_nopx _ _ _ G h g e Q Eb)].
        destruct (stk_pos s w loc i n G U) as (Q1 & _ & Q3). exists n. apply (find_spec s w loc n (Stk n) (sp s) L Q1 (le_n _) Q3). }
      destruct Fi as [c Fi]. rewrite Fi. destruct (block_good s w loc i a d c g e G C U Eu Eb Fi) as (s' & p & loc' & j & M & G' & C' & Sp & Ej & P).
      rewrite M, Ej. cbn [wclo fst snd]. split; [reflexivity|]. exists loc'. pose proof (cur_loc s' w loc' G' C') as Hc2. split; [|apply store_cur; exact C'].
      apply (store_good s' (fst (wclo w j g)) loc'); [apply wclo_good; exact G'|exact Hc2|]. apply (wclo_vrel s' w loc' p j g P).
    + destruct F as (P1 & j & h & f & P2 & P3 & P4). rewrite P3. cbn [wclo fst snd]. split; [reflexivity|]. exists loc. split; [|apply store_cur; exact C].
      apply (store_good s (fst (wclo w j f)) loc); [apply wclo_good; exact G|exact Hc|]. apply (wclo_vrel s w loc p j f). split; [exact P1|]. exists h. auto.
  - destruct (binding_good s w loc G C Fa) as (s' & p & loc' & M & G' & Sp & P). rewrite M. cbn [wclo fst snd]. split; [reflexivity|].
    destruct (reload_good s' w loc' G') as [G2 C2]. exists loc'. pose proof (cur_loc (reload s') w loc' G2 C2) as Hc2. split; [|apply store_cur; exact C2].
    apply (store_good (reload s') (fst (wclo w (now w) 0)) loc'); [apply wclo_good; exact G2|exact Hc2|]. apply (wclo_vrel s' w loc' p (now w) 0 P).
  - destruct (home_ok s w loc (S (ne w)) (now w) (r14 s) G Hc) as (a & j & d & A & B & D & U); [lia|]. rewrite (l_born _ _ _ L), A, B. cbn [fst snd]. split; [|exact Same].
    pose proof (l_rel _ _ _ L j a D) as [_ _ F]. destruct (blk (frame_at s a)); cbn [brel] in F; [rewrite F; reflexivity| |].
    + destruct F as (n & _ & _ & _ & _ & F). rewrite F. reflexivity.
    + destruct F as (_ & k & h & f & _ & F & _). rewrite F. reflexivity.
  - destruct (home_ok s w loc (S (ne w)) (now w) (r14 s) G Hc) as (a & j & d & A & B & D & U); [lia|]. rewrite (l_born _ _ _ L), A, B. cbn [fst snd]. split; [|exact Same].
    rewrite (find_ok s w loc j a (sp s) G D (le_n _)), (l_sp _ _ _ L). reflexivity.
  - rewrite <- (l_sp _ _ _ L). destruct (sp s) as [|[|n]] eqn:Sp; cbn [fst snd]; auto. split; [reflexivity|].
    destruct (pop_good s w loc n G Sp) as (loc' & G' & Hl). set (s' := mkS _ _ _ _ _ _ _ _ _) in *. set (w' := mkW _ _ _ _ _ _) in *.
    assert (C' : cur_ok s') by reflexivity. exists loc'. split; [|apply store_cur; exact C']. apply store_good; [exact G'|apply cur_loc; assumption|].
    pose proof (f_vars _ _ _ _ _ _ Fc x) as V. destruct (vars (cur s) x) as [|z|p], (evars (here w) x) as [|z'|q]; cbn [vrel] in *; try exact V.
    destruct V as (V1 & V2 & V3 & h & V4 & V5). split; [exact V1|]. split; [exact V2|]. split; [exact V3|]. exists h. auto.
Qed.

Lemma start_rel : rel start wstart.
Proof.
  exists (fun i => match i with 0 => Some (Stk 0) | _ => None end). split; [|reflexivity]. constructor.
  - constructor; cbn; try lia; auto.
    + intros n H. assert (n = 0) by lia. subst n. reflexivity.
    + intros i j a H1 H2. destruct i, j; try discriminate; reflexivity.
    + intros [|i] n H; [injection H as <-; auto|discriminate H].
    + intros [|i] h H; discriminate H.
    + intros [|i] a H; [lia|discriminate H].
    + intros [|i] a H; [injection H as <-|discriminate H]. constructor; cbn; auto.
  - intros h m H. cbn in H. lia.
  - intros h f d H. cbn in H. lia.
  - intros n m (_ & _ & E). discriminate E.
  - intros n m f d (_ & _ & E). discriminate E.
  - intros n m k j (_ & _ & E). discriminate E.
  - intros i _ H. discriminate H.
Qed.
Theorem run_ok : forall l s w, rel s w -> fair_all s l -> snd (run s l) = wrun w l.
Proof.
  induction l as [|o l IH]; intros s w R F; [reflexivity|]. cbn in F |- *. destruct F as [F1 F2]. destruct (step_ok s w o R F1) as [A B].
  destruct (step s o) as [s1 x]. destruct (wstep w o) as [w1 y]. cbn [fst snd] in *. specialize (IH s1 w1 B F2). destruct (run s1 l) as [s2 xs]. cbn in *. congruence.
Qed.

Definition plain (o : op) : bool := match o with OBinding _ => false | _ => true end.
Lemma plain_fair : forall l s, forallb plain l = true -> fair_all s l.
Proof. induction l as [|o l IH]; intros s H; cbn in *; [exact I|]. apply andb_prop in H. destruct H as [A B]. split; [destruct o; try exact I; discriminate A|apply IH; exact B]. Qed.
Lemma run_rel : forall l s w, rel s w -> fair_all s l -> exists w', rel (fst (run s l)) w'.
Proof.
  induction l as [|o l IH]; intros s w R F; [exists w; exact R|]. cbn in F |- *. destruct F as [F1 F2]. destruct (step_ok s w o R F1) as [A B].
  destruct (step s o) as [s1 x]. cbn [fst snd] in *. destruct (IH s1 _ B F2) as [w' R']. destruct (run s1 l) as [s2 xs]. exists w'. exact R'.
Qed.
(** What needs no frame around can always be done. *)
Definition basic (o : op) : Prop := match o with OLambda _ _ | OBlockArg 0 _ | OGiven | OHome | OCall _ _ _ | ONative _ _ | ORet _ _ | ORead 0 _ | OSet 0 _ _ => True | _ => False end.
Lemma basic_ok : forall s w o, rel s w -> basic o -> snd (step s o) <> Stuck.
Proof.
  intros s w o R B. assert (F : fair s o) by (destruct o; try exact I; destruct B). destruct (step_ok s w o R F) as [E _]. rewrite E.
  destruct R as [loc [G C]]. pose proof (cur_loc s w loc G C) as Hc. pose proof (l_dom _ _ _ (g_lax _ _ _ G) _ _ Hc) as Hd.
  destruct (home_ok s w loc (S (ne w)) (now w) (r14 s) G Hc) as (a & j & d & _ & Hw & _); [lia|].
  destruct o as [[|d0] x|[|d0] x z| | | | | | | |[|d0] x| | | |]; try destruct B; cbn [wstep wup]; rewrite ?Hw; cbn; try discriminate.
  - destruct (eblk (envs w (now w))) as [[k g]|]; discriminate.
  - destruct (depth w) as [|[|n]]; cbn; discriminate.
Qed.
