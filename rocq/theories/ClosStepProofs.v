(** Every step keeps the frames and the environments together. *)
From Coq Require Import List Bool Arith ZArith Lia.
From Verif Require Import ClosModel ClosSpec ClosProofs.
Import ListNotations.

(** A block frame in the stack whose outer frame is in the stack too. *)
Definition exposed (s : st) (n m : nat) : Prop := n < sp s /\ lfps s n = Stk n /\ outer (slots s n) = Some (Stk m).
Record Good (s : st) (w : wst) (loc : place) : Prop := mkGood {
  g_lax : Lax s w loc;
  g_dir : direct s;
  g_nopx : forall h f d, h < hp s -> blk (heap s h) <> HProxy f d;
  g_out : forall n m, exposed s n m -> lfps s m = Stk m;
  g_blk : forall n m f d, exposed s n m -> blk (slots s n) <> HProxy f d;
  g_dom : forall n m k j, exposed s n m -> n < k -> edge s k j -> n <= j \/ j < m;
  g_nat : forall i, i < ne w -> enative (envs w i) = true -> eouter (envs w i) = None }.
Definition cur_ok (s : st) : Prop := r14 s = lfps s (top s).

Lemma exposed_edge : forall s w loc n m, Good s w loc -> exposed s n m -> edge s n m.
Proof. intros s w loc n m G X. pose proof (g_out _ _ _ G n m X). destruct X as (A & B & C). repeat (split; [assumption|]). left. exact C. Qed.
Lemma exposed_down : forall s w loc n m, Good s w loc -> exposed s n m -> m < n.
Proof. intros s w loc n m G X. apply (edge_down s w loc n m (g_lax _ _ _ G)). apply (exposed_edge s w loc); assumption. Qed.
Lemma stk_pos : forall s w loc i k, Good s w loc -> loc i = Some (Stk k) -> k < sp s /\ act w k = i /\ lfps s k = Stk k.
Proof.
  intros s w loc i k G H. destruct (l_locS _ _ _ (g_lax _ _ _ G) i k H) as [A B]. split; [exact A|]. split; [exact B|].
  pose proof (l_act _ _ _ (g_lax _ _ _ G) k A) as Q. rewrite B, H in Q. congruence.
Qed.

(* ---- going outwards ---- *)

Lemma out_ok : forall s w loc i a, Good s w loc -> loc i = Some a ->
  match outer (frame_at s a), eouter (envs w i) with
  | None, None => True
  | Some o, Some j => j < i /\ loc j = Some o
  | _, _ => False
  end.
Proof.
  intros s w loc i a G H. pose proof (g_lax _ _ _ G) as L. pose proof (l_rel _ _ _ L i a H) as [_ F _]. unfold orel in F.
  destruct (outer (frame_at s a)) as [o|] eqn:Eo, (eouter (envs w i)) as [j|]; try exact F. destruct F as [F1 F2]. split; [exact F1|].
  destruct o as [m|h]; [|exact F2]. destruct F2 as [F2 F3]. destruct a as [n|h].
  - destruct (stk_pos s w loc i n G H) as (A & B & C). cbn in Eo. rewrite <- F3, (l_act _ _ _ L m F2). f_equal. apply (g_out _ _ _ G n m). repeat split; assumption.
  - exfalso. destruct (l_locH _ _ _ L i h H) as [A _]. apply (g_dir _ _ _ G h m A). exact Eo.
Qed.
Lemma up_ok : forall s w loc d i a, Good s w loc -> loc i = Some a ->
  match up s a d, wup w i d with Some b, Some j => loc j = Some b | None, None => True | _, _ => False end.
Proof.
  intros s w loc d. induction d as [|d IH]; intros i a G H; cbn; [exact H|].
  pose proof (out_ok s w loc i a G H) as O. destruct (outer (frame_at s a)) as [o|], (eouter (envs w i)) as [j|]; try contradiction; [|exact I].
  apply IH; [exact G|apply O].
Qed.
Lemma home_ok : forall s w loc n i a, Good s w loc -> loc i = Some a -> i < n ->
  exists b j d, home n s a = Some b /\ whome n w i = Some j /\ loc j = Some b /\ up s a d = Some b.
Proof.
  intros s w loc n. induction n as [|n IH]; intros i a G H Hn; [lia|]. cbn.
  pose proof (out_ok s w loc i a G H) as O. destruct (outer (frame_at s a)) as [o|] eqn:Eo, (eouter (envs w i)) as [j|]; try contradiction.
  - destruct O as [O1 O2]. destruct (IH j o G O2) as (b & k & d & A & B & C & D); [lia|].
    exists b, k, (S d). cbn. rewrite Eo. auto.
  - exists a, i, 0. auto.
Qed.
(** Positions met on the way out. *)
Lemma up_pos : forall s w loc (P : nat -> Prop), Good s w loc ->
  (forall k j, P k -> edge s k j -> outer (slots s k) = Some (Stk j) -> P j) ->
  forall d i a k, loc i = Some a -> (forall t, a = Stk t -> P t) -> up s a d = Some (Stk k) -> P k.
Proof.
  intros s w loc P G HP d. induction d as [|d IH]; intros i a k H Ha U; cbn in U; [injection U as ->; apply Ha; reflexivity|].
  pose proof (out_ok s w loc i a G H) as O. destruct (outer (frame_at s a)) as [o|] eqn:Eo; [|discriminate U].
  destruct (eouter (envs w i)) as [j|]; [|contradiction]. destruct O as [_ O]. apply (IH j o k O); [|exact U].
  intros t ->. destruct a as [n|h].
  - destruct (stk_pos s w loc i n G H) as (A & B & C). destruct (stk_pos s w loc j t G O) as (_ & _ & D). cbn in Eo.
    apply (HP n t (Ha n eq_refl)); [|exact Eo]. repeat (split; [assumption|]). left. exact Eo.
  - exfalso. destruct (l_locH _ _ _ (g_lax _ _ _ G) i h H) as [A _]. apply (g_dir _ _ _ G h t A). exact Eo.
Qed.
Lemma cur_loc : forall s w loc, Good s w loc -> cur_ok s -> loc (now w) = Some (r14 s).
Proof.
  intros s w loc G C. pose proof (g_lax _ _ _ G) as L. unfold now. rewrite <- (l_sp _ _ _ L). rewrite C. apply (l_act _ _ _ L).
  pose proof (l_pos _ _ _ L). unfold top. lia.
Qed.
(** From the running frame outwards: at or over the exposed frame, or at or below its outer frame. *)
Lemma chain_pos : forall s w loc n m d k, Good s w loc -> cur_ok s -> exposed s n m -> up s (r14 s) d = Some (Stk k) -> n <= k \/ k <= m.
Proof.
  intros s w loc n m d k G C X U.
  apply (up_pos s w loc (fun k => n <= k \/ k <= m) G) with (d := d) (i := now w) (a := r14 s); [|apply cur_loc; assumption| |exact U].
  - intros a b [A|A] E O.
    + destruct (Nat.eq_dec n a) as [<-|N].
      * destruct X as (_ & _ & X). rewrite X in O. injection O as <-. auto.
      * destruct (g_dom _ _ _ G n m a b X) as [Q|Q]; [lia|exact E|auto|right; lia].
    + pose proof (edge_down _ _ _ _ _ (g_lax _ _ _ G) E). right. lia.
  - intros t E. left. rewrite C in E. apply (lfps_stk s w loc (top s) t (g_lax _ _ _ G)) in E; [|unfold top; pose proof (l_pos _ _ _ (g_lax _ _ _ G)); lia].
    destruct X as [X _]. unfold top in E. lia.
Qed.
(** The home of a block found outwards keeps clear of the exposed frames. *)
Lemma proxy_pos : forall s w loc n m d c f e, Good s w loc -> cur_ok s -> exposed s n m -> up s (r14 s) d = Some (Stk c) -> lfps s c = Stk c -> c < sp s ->
  blk (slots s c) = HProxy f e -> e <= c -> 1 <= e -> lfps s (c - e) = Stk (c - e) -> n <= c - e \/ c - e < m.
Proof.
  intros s w loc n m d c f e G C X U Lc Hc B E1 E2 Lz. destruct (chain_pos s w loc n m d c G C X U) as [Q|Q]; [|right; lia].
  destruct (Nat.eq_dec n c) as [->|N]; [exfalso; apply (g_blk _ _ _ G c m f e X B)|].
  apply (g_dom _ _ _ G n m c (c - e) X); [lia|]. repeat (split; [assumption|]). right. exists f, e. auto.
Qed.

(* ---- promotions ---- *)

Inductive reach (s : st) (r : nat) : nat -> Prop :=
| re_refl : reach s r r
| re_step : forall k j, reach s r k -> edge s k j -> reach s r j.
Lemma reach_down : forall s w loc r k, Lax s w loc -> reach s r k -> k <= r.
Proof. intros s w loc r k L H. induction H as [|k j H IH E]; [lia|]. pose proof (edge_down _ _ _ _ _ L E). lia. Qed.
Lemma reach_dom : forall s w loc n m r k, Good s w loc -> exposed s n m -> n <= r -> reach s r k -> n < k \/ k < m \/ reach s r n.
Proof.
  intros s w loc n m r k G X Hr H. induction H as [|k j H IH E].
  - destruct (Nat.eq_dec n r) as [->|N]; [right; right; constructor|left; lia].
  - pose proof (edge_down _ _ _ _ _ (g_lax _ _ _ G) E) as D. destruct IH as [A|[A|A]]; [|right; left; lia|auto].
    destruct (g_dom _ _ _ G n m k j X A E) as [Q|Q]; [|auto].
    destruct (Nat.eq_dec n j) as [->|N]; [right; right; apply (re_step s r k); assumption|left; lia].
Qed.
Lemma edge_follows : forall s s' w loc loc' k j, Good s w loc -> Lax s' w loc' -> direct s' -> (forall h f d, h < hp s' -> blk (heap s' h) <> HProxy f d) ->
  sp s' = sp s -> edge s k j -> lfps s' k <> Stk k -> lfps s' j <> Stk j.
Proof.
  intros s s' w loc loc' k j G L' D' P' Sp E N. pose proof (g_lax _ _ _ G) as L. pose proof (edge_down _ _ _ _ _ L E) as Dn. destruct E as (A & B & C & E).
  assert (Hk : loc (act w k) = Some (Stk k)) by (rewrite (l_act _ _ _ L k A), B; reflexivity).
  assert (Hj : loc' (act w j) = Some (lfps s' j)) by (apply (l_act _ _ _ L'); lia).
  pose proof (l_rel _ _ _ L _ _ Hk) as [_ F1 F2]. cbn [frame_at] in F1, F2.
  destruct (l_stk _ _ _ L' k) as [[Q _]|[h [Q _]]]; [lia|contradiction|].
  assert (Hk' : loc' (act w k) = Some (Heap h)) by (rewrite (l_act _ _ _ L' k), Q; [reflexivity|lia]).
  pose proof (l_rel _ _ _ L' _ _ Hk') as [_ G1 G2]. cbn [frame_at] in G1, G2. destruct (l_locH _ _ _ L' _ _ Hk') as [Hh _].
  destruct E as [E|(f & d & E & E2 & ->)].
  - rewrite E in F1. unfold orel in F1, G1. destruct (eouter (envs w (act w k))) as [e|]; [|contradiction]. destruct F1 as (_ & _ & F1). subst e.
    destruct (outer (heap s' h)) as [[m|h2]|] eqn:O; [exfalso; apply (D' h m Hh O)| |contradiction]. destruct G1 as [_ G1]. cbn in G1. congruence.
  - rewrite E in F2. destruct F2 as (n & N1 & N2 & N3 & N4 & N5). apply (act_inj s w loc n k L N1 A) in N2. subst n. rewrite N5 in G2.
    destruct (blk (heap s' h)) as [|f' d'|p] eqn:Bk; cbn in G2; [discriminate G2|exfalso; apply (P' h f' d' Hh Bk)|].
    destruct G2 as (_ & j & h2 & f2 & _ & G3 & G4). injection G3 as <- _. congruence.
Qed.
Lemma reach_follows : forall s s' w loc loc' r k, Good s w loc -> Lax s' w loc' -> direct s' -> (forall h f d, h < hp s' -> blk (heap s' h) <> HProxy f d) ->
  sp s' = sp s -> lfps s' r <> Stk r -> reach s r k -> lfps s' k <> Stk k.
Proof. intros s s' w loc loc' r k G L' D' P' Sp Hr H. induction H as [|k j H IH E]; [exact Hr|]. apply (edge_follows s s' w loc loc' k j); assumption. Qed.

Lemma promoted_good : forall s s' w loc loc' (R : nat -> Prop), Good s w loc -> Lax s' w loc' -> direct s' -> Ext s s' loc loc' -> within s s' R ->
  (forall h f d, h < hp s' -> blk (heap s' h) <> HProxy f d) ->
  (forall n m, exposed s n m -> R m -> lfps s' m <> Stk m -> lfps s' n <> Stk n) -> Good s' w loc'.
Proof.
  intros s s' w loc loc' R G L' D' X W P' HR. pose proof (g_lax _ _ _ G) as L.
  assert (XX : forall n m, exposed s' n m -> exposed s n m).
  { intros n m (A & B & C). rewrite (e_sp _ _ _ _ X) in A. destruct (e_slot _ _ _ _ X n) as [Q _]. rewrite Q in C.
    repeat split; auto. destruct (e_lfp _ _ _ _ X n A) as [E|[E _]]; congruence. }
  constructor; auto.
  - intros n m E. pose proof (XX n m E) as E'. destruct E as (A & B & C). pose proof (g_out _ _ _ G n m E') as O. pose proof (exposed_down s w loc n m G E') as Dn.
    destruct E' as [Hn E']. assert (Hm : m < sp s) by lia. destruct (e_lfp _ _ _ _ X m Hm) as [Q|[Q (h & Q2 & _)]]; [congruence|].
    exfalso. assert (N : lfps s' m <> Stk m) by congruence. apply (HR n m (conj Hn E') (W m Hm O N) N). exact B.
  - intros n m f d E. destruct (e_slot _ _ _ _ X n) as [_ Q]. rewrite Q. apply (g_blk _ _ _ G n m). apply XX. exact E.
  - intros n m k j E Hk Ek. apply (g_dom _ _ _ G n m k j (XX n m E) Hk). pose proof (edge_down _ _ _ _ _ L' Ek).
    apply (edge_ext s s' loc loc' w); auto. destruct Ek as [Ek _]. rewrite (e_sp _ _ _ _ X) in Ek. lia.
  - apply G.
Qed.
Lemma new_proc_good : forall s w loc a f, Good s w loc -> Good (fst (new_proc s a f)) w loc.
Proof. intros s w loc a f [A B C D E F H]. constructor; auto. apply new_proc_lax. exact A. Qed.

Lemma homes_none : forall s R, (forall h f d, h < hp s -> blk (heap s h) <> HProxy f d) -> homes s R.
Proof. intros s R H h f d n A B. exfalso. apply (H h f d A B). Qed.
Lemma fewer_none : forall s s', (forall h f d, h < hp s -> blk (heap s h) <> HProxy f d) -> fewer s s' -> forall h f d, h < hp s' -> blk (heap s' h) <> HProxy f d.
Proof. intros s s' H F h f d A B. destruct (F h f d A B) as [A' B']. apply (H h f d A' B'). Qed.
Lemma heap_pos : forall s w loc n h, Lax s w loc -> n < sp s -> loc (act w n) = Some (Heap h) -> lfps s n = Heap h.
Proof. intros s w loc n h L H E. rewrite (l_act _ _ _ L n H) in E. congruence. Qed.

Definition is_proc (s : st) (w : wst) (loc : place) (p i : nat) (f : fid) : Prop := p < np s /\ exists h, procs s p = (Heap h, f) /\ loc i = Some (Heap h).
Lemma lambda_good : forall s w loc f, Good s w loc -> exists s' p loc', gen_lambda s f = Some (s', p) /\ Good s' w loc' /\ sp s' = sp s /\ is_proc s' w loc' p (now w) f.
Proof.
  intros s w loc f G. pose proof (g_lax _ _ _ G) as L. pose proof (l_pos _ _ _ L) as Hp. set (t := top s).
  assert (Ht : t < sp s) by (unfold t, top; lia).
  assert (Ha : act w t = now w) by (unfold t, top, now; rewrite (l_sp _ _ _ L); reflexivity).
  assert (Hb : act w t < born s) by (rewrite (l_born _ _ _ L); apply (l_dom _ _ _ L _ _ (l_act _ _ _ L t Ht))).
  destruct (capture (fuel s) s w loc t (reach s t) (proj2 (gen_mat (fuel s))) L (g_dir _ _ _ G) Ht) as (s1 & h & s2 & loc2 & M & M2 & L2 & D2 & X & W & F & Lz & O).
  - unfold fuel. lia.
  - intros k j A B. apply (re_step s t k); assumption.
  - intros _. constructor.
  - apply homes_none. apply G.
  - unfold gen_lambda. fold t. rewrite M, M2. pose proof (fewer_none s s2 (g_nopx _ _ _ G) F) as P2.
    pose proof (heap_pos s2 w loc2 t h L2) as Hh. rewrite (e_sp _ _ _ _ X) in Hh. specialize (Hh Ht Lz).
    assert (G2 : Good s2 w loc2).
    { apply (promoted_good s s2 w loc loc2 (reach s t)); auto. intros n m E Rm Nm. apply (reach_follows s s2 w loc loc2 t n); auto.
      - apply (e_sp _ _ _ _ X).
      - congruence.
      - pose proof (exposed_down s w loc n m G E). destruct (reach_dom s w loc n m t m G E) as [Q|[Q|Q]]; auto; [|lia|lia].
        destruct E as [E _]. unfold t, top. lia. }
    exists (fst (new_proc s2 (Heap h) f)), (np s2), loc2. split; [reflexivity|]. split; [apply new_proc_good; exact G2|]. split; [apply (e_sp _ _ _ _ X)|].
    split; [cbn; lia|]. exists h. rewrite <- Ha. split; [cbn; apply upd_same|exact Lz].
Qed.
Lemma block_good : forall s w loc i a d c f e, Good s w loc -> cur_ok s -> loc i = Some a -> up s (r14 s) d = Some a -> blk (frame_at s a) = HProxy f e ->
  find s a (sp s) = Some c ->
  exists s' p loc' j, gen_proc (fuel s) s c (HProxy f e) = Some (s', p) /\ Good s' w loc' /\ cur_ok s' /\ sp s' = sp s
    /\ eblk (envs w i) = Some (j, f) /\ is_proc s' w loc' p j f.
Proof.
  intros s w loc i a d c f e G C Hi U B Fc. pose proof (g_lax _ _ _ G) as L.
  destruct a as [n|h]; [|exfalso; destruct (l_locH _ _ _ L i h Hi) as [A _]; apply (g_nopx _ _ _ G h f e A B)].
  destruct (stk_pos s w loc i n G Hi) as (Hn & Hi2 & Ln). rewrite (find_spec s w loc n (Stk n) (sp s) L Hn (le_n _) Ln) in Fc. injection Fc as <-.
  cbn in B. pose proof (l_rel _ _ _ L i _ Hi) as [_ _ Fb]. cbn in Fb. rewrite B in Fb. destruct Fb as (n' & N1 & N2 & N3 & N4 & N5).
  rewrite <- Hi2 in N2. apply (act_inj s w loc n' n L N1 Hn) in N2. subst n'. set (z := n - e) in *.
  assert (Hz : z < sp s) by (unfold z; lia).
  set (R := fun k => lfps s z = Stk z /\ reach s z k).
  assert (Hb : act w n < born s) by (rewrite (l_born _ _ _ L), Hi2; apply (l_dom _ _ _ L _ _ Hi)).
  destruct (proj1 (gen_mat (fuel s)) s w loc n f e R L (g_dir _ _ _ G) Hn N3 N4) as (s2 & p & loc2 & h & M & L2 & D2 & X & W & F & P1 & P2 & P3 & O).
  - unfold fuel. lia.
  - intros k j [A1 A2] E. split; [exact A1|]. apply (re_step s z k); assumption.
  - intro E. split; [exact E|constructor].
  - apply homes_none. apply G.
  - pose proof (fewer_none s s2 (g_nopx _ _ _ G) F) as Q2. fold z in P3.
    pose proof (heap_pos s2 w loc2 z h L2) as Hh. rewrite (e_sp _ _ _ _ X) in Hh. specialize (Hh Hz P3).
    exists s2, p, loc2, (act w z). split; [exact M|]. split; [|split; [|split; [apply (e_sp _ _ _ _ X)|split; [exact N5|split; [exact P1|exists h; auto]]]]].
    + apply (promoted_good s s2 w loc loc2 R); auto. intros k m E [Zs Rm] Nm. pose proof (reach_down s w loc z m L Rm) as Dm. pose proof (exposed_down s w loc k m G E) as Dk.
      destruct (proxy_pos s w loc k m d n f e G C E U Ln Hn B N4 N3 Zs) as [Q|Q]; fold z in Q; [|lia].
      apply (reach_follows s s2 w loc loc2 z k); auto; [apply (e_sp _ _ _ _ X)|congruence|].
      destruct (reach_dom s w loc k m z m G E Q Rm) as [T|[T|T]]; [lia|lia|exact T].
    + unfold cur_ok, top. rewrite (e_r14 _ _ _ _ X), (e_sp _ _ _ _ X). fold (top s). rewrite C.
      assert (Ht : top s < sp s) by (unfold top; lia). destruct (e_lfp _ _ _ _ X (top s) Ht) as [T|[T (h2 & T2 & _)]]; [auto|].
      exfalso. destruct (W (top s) Ht T) as [_ Rt]; [congruence|]. apply (reach_down s w loc z (top s) L) in Rt. unfold z, top in Rt. lia.
Qed.
Lemma no_proxy_up : forall s w loc n i a d b, Good s w loc -> loc i = Some a -> i < n -> no_proxy n s a = true -> up s a d = Some b -> forall f e, blk (frame_at s b) <> HProxy f e.
Proof.
  intros s w loc n. induction n as [|n IH]; intros i a d b G Hi Hn N U f e B; [lia|]. cbn in N.
  destruct d as [|d]; cbn in U; [injection U as <-; rewrite B in N; discriminate N|].
  pose proof (out_ok s w loc i a G Hi) as O. destruct (outer (frame_at s a)) as [o|]; [|discriminate U]. destruct (eouter (envs w i)) as [j|]; [|contradiction].
  destruct O as [O1 O2]. apply (IH j o d b G O2) with (f := f) (e := e); [lia| |exact U|exact B]. destruct (blk (frame_at s a)); [exact N|discriminate N|exact N].
Qed.
Lemma binding_good : forall s w loc, Good s w loc -> cur_ok s -> no_proxy (S (born s)) s (r14 s) = true ->
  exists s' p loc', gen_binding s = Some (s', p) /\ Good s' w loc' /\ sp s' = sp s /\ is_proc s' w loc' p (now w) 0.
Proof.
  intros s w loc G C Np. pose proof (g_lax _ _ _ G) as L. pose proof (l_pos _ _ _ L) as Hp. set (t := top s).
  assert (Ht : t < sp s) by (unfold t, top; lia). pose proof (cur_loc s w loc G C) as Hc.
  assert (Hb : now w < born s) by (rewrite (l_born _ _ _ L); apply (l_dom _ _ _ L _ _ Hc)).
  set (R := fun k => lfps s k = Stk k /\ exists d, up s (r14 s) d = Some (Stk k)).
  assert (Rp : forall k, R k -> forall f e, blk (slots s k) <> HProxy f e).
  { intros k [_ [d U]] f e. apply (no_proxy_up s w loc (S (born s)) (now w) (r14 s) d (Stk k) G Hc) with (f := f) (e := e); [lia|exact Np|exact U]. }
  assert (Rc : closed s R).
  { intros k j Rk E. pose proof Rk as [_ [d U]]. destruct E as (E1 & E2 & E3 & [E4|(f & e & E4 & _)]); [|exfalso; apply (Rp k Rk f e E4)].
    split; [exact E3|]. exists (S d). revert U. clear - E4. revert d. generalize (r14 s). intros a d. revert a. induction d as [|d IH]; intros a U.
    - cbn in U. injection U as ->. cbn. rewrite E4. reflexivity.
    - cbn in U. change (up s a (S (S d))) with (match outer (frame_at s a) with Some o => up s o (S d) | None => None end).
      destruct (outer (frame_at s a)) as [o|]; [|discriminate U]. apply IH. exact U. }
  destruct (move_ok (S (born s)) s w loc (lfps s t) (now w) R L) as (s2 & h & loc2 & M & L2 & X & Lz & W & P & Q).
  - assert (Hr : lfps s t = r14 s) by (rewrite C; reflexivity). rewrite Hr. destruct (r14 s) as [n|k]; cbn; [|exact Hc].
    destruct (stk_pos s w loc (now w) n G Hc) as (A & B & _). auto.
  - lia.
  - exact Rc.
  - intros m E Lm. split; [exact Lm|]. exists 0. cbn. rewrite C. f_equal. exact E.
  - unfold gen_binding. fold t. rewrite M.
    assert (D2 : direct s2). { intros h' m A. destruct (le_lt_dec (hp s) h') as [H|H]; [apply Q; auto|rewrite P by exact H; apply (g_dir _ _ _ G); exact H]. }
    assert (P2 : forall h' f d, h' < hp s2 -> blk (heap s2 h') <> HProxy f d).
    { intros h' f d A. destruct (le_lt_dec (hp s) h') as [H|H]; [|rewrite P by exact H; apply (g_nopx _ _ _ G); exact H].
      destruct (Q h' H A) as [_ (k & K1 & K2 & K3 & K4 & _)]. rewrite K3. apply Rp. exact K4. }
    assert (Ha : act w t = now w) by (unfold t, top, now; rewrite (l_sp _ _ _ L); reflexivity).
    pose proof (heap_pos s2 w loc2 t h L2) as Hh. rewrite (e_sp _ _ _ _ X), Ha in Hh. specialize (Hh Ht Lz).
    assert (G2 : Good s2 w loc2).
    { apply (promoted_good s s2 w loc loc2 R); auto. intros n m E [Lm [d U]] Nm. pose proof (exposed_down s w loc n m G E) as Dm.
      assert (Rt : forall k, k = m -> reach s t k).
      { intros k ->. apply (up_pos s w loc (reach s t) G) with (d := d) (i := now w) (a := r14 s); auto.
        - intros k j K1 K2 _. apply (re_step s t k); assumption.
        - intros k K. rewrite C in K. fold t in K. apply (lfps_stk s w loc t k L Ht) in K. subst k. constructor. }
      specialize (Rt m eq_refl). apply (reach_follows s s2 w loc loc2 t n); auto; [apply (e_sp _ _ _ _ X)|congruence|].
      destruct (reach_dom s w loc n m t m G E) as [T|[T|T]]; auto; [|lia|lia]. destruct E as [E _]. unfold t, top. lia. }
    exists (fst (new_proc s2 (Heap h) 0)), (np s2), loc2. split; [reflexivity|]. split; [apply new_proc_good; exact G2|]. split; [apply (e_sp _ _ _ _ X)|].
    split; [cbn; lia|]. exists h. split; [cbn; apply upd_same|exact Lz].
Qed.
