(** Frames moved to the heap stay the environments they were. *)
From Coq Require Import List Bool Arith ZArith Lia.
From Verif Require Import ClosModel ClosSpec.
Import ListNotations.

Definition place := nat -> option addr.
Definition oref (s : st) (w : wst) (loc : place) (o : addr) (j : nat) : Prop :=
  match o with Heap h => loc j = Some (Heap h) | Stk m => m < sp s /\ act w m = j end.
Definition vrel (s : st) (w : wst) (loc : place) (v u : value) : Prop :=
  match v, u with
  | VNil, VNil => True
  | VInt a, VInt b => a = b
  | VProc p, VProc q => p < np s /\ q < nq w /\ snd (procs s p) = snd (clos w q)
                        /\ exists h, fst (procs s p) = Heap h /\ loc (fst (clos w q)) = Some (Heap h)
  | _, _ => False
  end.
Definition brel (s : st) (w : wst) (loc : place) (i : nat) (b : handler) (e : option (nat * fid)) : Prop :=
  match b with
  | HNone => e = None
  | HProc p => p < np s /\ exists j h f, procs s p = (Heap h, f) /\ e = Some (j, f) /\ loc j = Some (Heap h)
  | HProxy f d => exists n, n < sp s /\ act w n = i /\ 1 <= d /\ d <= n /\ e = Some (act w (n - d), f)
  end.
Definition orel (s : st) (w : wst) (loc : place) (i : nat) (o : option addr) (e : option nat) : Prop :=
  match o, e with None, None => True | Some o, Some j => j < i /\ oref s w loc o j | _, _ => False end.
Definition crel (s : st) (w : wst) (loc : place) (n : nat) (c : option (addr * fid)) (e : option (nat * fid)) : Prop :=
  match c, e with None, None => True | Some (a, f), Some (j, g) => f = g /\ oref s w loc a j /\ (forall m, a = Stk m -> m < n) | _, _ => False end.
Record frel (s : st) (w : wst) (loc : place) (i : nat) (f : frame) (e : env) : Prop := mkFR {
  f_vars : forall x, vrel s w loc (vars f x) (evars e x);
  f_outer : orel s w loc i (outer f) (eouter e);
  f_blk : brel s w loc i (blk f) (eblk e) }.
Definition kept (e : env) : option (nat * fid) := if enative e then eblk e else None.

Record Lax (s : st) (w : wst) (loc : place) : Prop := mkLax {
  l_sp : sp s = depth w;
  l_pos : 0 < sp s;
  l_born : born s = ne w;
  l_act : forall n, n < sp s -> loc (act w n) = Some (lfps s n);
  l_slot : forall n, n < sp s -> heaped (slots s n) = false;
  l_stk : forall n, n < sp s -> (lfps s n = Stk n /\ inval (slots s n) = false) \/ (exists h, lfps s n = Heap h /\ inval (slots s n) = true);
  l_mono : forall m n, m < n -> n < sp s -> act w m < act w n;
  l_inj : forall i j a, loc i = Some a -> loc j = Some a -> i = j;
  l_locS : forall i n, loc i = Some (Stk n) -> n < sp s /\ act w n = i;
  l_locH : forall i h, loc i = Some (Heap h) -> h < hp s /\ heaped (heap s h) = true /\ inval (heap s h) = false;
  l_dom : forall i a, loc i = Some a -> i < ne w;
  l_rel : forall i a, loc i = Some a -> frel s w loc i (frame_at s a) (envs w i);
  l_cache : forall n, n < sp s -> crel s w loc n (cache (frame_at s (lfps s n))) (kept (envs w (act w n))) }.

(** What promotions leave as it was. *)
Record Ext (s s' : st) (loc loc' : place) : Prop := mkExt {
  e_sp : sp s' = sp s;
  e_r14 : r14 s' = r14 s;
  e_born : born s' = born s;
  e_np : np s <= np s';
  e_procs : forall p, p < np s -> procs s' p = procs s p;
  e_hp : hp s <= hp s';
  e_slot : forall n, outer (slots s' n) = outer (slots s n) /\ blk (slots s' n) = blk (slots s n);
  e_lfp : forall n, n < sp s -> lfps s' n = lfps s n \/ (lfps s n = Stk n /\ exists h, lfps s' n = Heap h /\ hp s <= h);
  e_loc : forall i h, loc i = Some (Heap h) -> loc' i = Some (Heap h) }.
Lemma ext_refl : forall s loc, Ext s s loc loc.
Proof. intros s loc. constructor; try reflexivity; auto. Qed.
Lemma ext_trans : forall s1 s2 s3 l1 l2 l3, Ext s1 s2 l1 l2 -> Ext s2 s3 l2 l3 -> Ext s1 s3 l1 l3.
Proof.
  intros s1 s2 s3 l1 l2 l3 A B. constructor.
  - rewrite (e_sp _ _ _ _ B). apply A.
  - rewrite (e_r14 _ _ _ _ B). apply A.
  - rewrite (e_born _ _ _ _ B). apply A.
  - pose proof (e_np _ _ _ _ A). pose proof (e_np _ _ _ _ B). lia.
  - intros p H. rewrite (e_procs _ _ _ _ B); [apply A; exact H|]. pose proof (e_np _ _ _ _ A). lia.
  - pose proof (e_hp _ _ _ _ A). pose proof (e_hp _ _ _ _ B). lia.
  - intro n. destruct (e_slot _ _ _ _ A n) as [a b]. destruct (e_slot _ _ _ _ B n) as [c d]. rewrite c, d. auto.
  - intros n H. assert (H2 : n < sp s2) by (rewrite (e_sp _ _ _ _ A); exact H).
    destruct (e_lfp _ _ _ _ A n H) as [E|[E [h [E2 L]]]].
    + destruct (e_lfp _ _ _ _ B n H2) as [F|[F [h [F2 L]]]]; [left; congruence|].
      right. split; [congruence|]. exists h. split; [exact F2|]. pose proof (e_hp _ _ _ _ A). lia.
    + destruct (e_lfp _ _ _ _ B n H2) as [F|[F _]]; [|congruence].
      right. split; [exact E|]. exists h. split; [congruence|exact L].
  - intros i h H. apply (e_loc _ _ _ _ B). apply (e_loc _ _ _ _ A). exact H.
Qed.

Section Mono.
  Variables (s s' : st) (w : wst) (loc loc' : place).
  Hypothesis Hsp : sp s' = sp s.
  Hypothesis Hnp : np s <= np s'.
  Hypothesis Hpr : forall p, p < np s -> procs s' p = procs s p.
  Hypothesis Hloc : forall i h, loc i = Some (Heap h) -> loc' i = Some (Heap h).
  Lemma oref_mono : forall o j, oref s w loc o j -> oref s' w loc' o j.
  Proof. intros [m|h] j H; cbn in *; [rewrite Hsp; exact H|apply Hloc; exact H]. Qed.
  Lemma vrel_mono : forall v u, vrel s w loc v u -> vrel s' w loc' v u.
  Proof.
    intros [|z|p] [|z'|q] H; cbn in *; try exact H. destruct H as (A & B & C & h & D & E).
    rewrite Hpr by exact A. split; [lia|]. split; [exact B|]. split; [exact C|]. exists h. auto.
  Qed.
  Lemma brel_mono : forall i b e, brel s w loc i b e -> brel s' w loc' i b e.
  Proof.
    intros i [|f d|p] e H; cbn in *; [exact H| |].
    - rewrite Hsp. exact H.
    - destruct H as (A & j & h & f & B & C & D). split; [lia|]. exists j, h, f. rewrite Hpr by exact A. auto.
  Qed.
  Lemma orel_mono : forall i o e, orel s w loc i o e -> orel s' w loc' i o e.
  Proof. intros i [o|] [e|] H; cbn in *; try exact H. destruct H as [A B]. split; [exact A|]. apply oref_mono. exact B. Qed.
  Lemma crel_mono : forall n c e, crel s w loc n c e -> crel s' w loc' n c e.
  Proof. intros n [[a f]|] [[j g]|] H; cbn in *; try exact H. destruct H as (A & B & C). split; [exact A|]. split; [apply oref_mono; exact B|exact C]. Qed.
  Lemma frel_mono : forall i f e, frel s w loc i f e -> frel s' w loc' i f e.
  Proof. intros i f e [A B C]. constructor; [intro x; apply vrel_mono; apply A|apply orel_mono; exact B|apply brel_mono; exact C]. Qed.
End Mono.

Lemma upd_same : forall A (f : nat -> A) n v, upd f n v n = v.
Proof. intros A f n v. unfold upd. rewrite Nat.eqb_refl. reflexivity. Qed.
Lemma upd_other : forall A (f : nat -> A) n v m, m <> n -> upd f n v m = f m.
Proof. intros A f n v m H. unfold upd. apply Nat.eqb_neq in H. rewrite H. reflexivity. Qed.

Lemma act_inj : forall s w loc m n, Lax s w loc -> m < sp s -> n < sp s -> act w m = act w n -> m = n.
Proof.
  intros s w loc m n L Hm Hn E. destruct (lt_eq_lt_dec m n) as [[H|H]|H]; [|exact H|].
  - pose proof (l_mono _ _ _ L m n H Hn). lia.
  - pose proof (l_mono _ _ _ L n m H Hm). lia.
Qed.
Lemma lfps_stk : forall s w loc n m, Lax s w loc -> n < sp s -> lfps s n = Stk m -> m = n.
Proof. intros s w loc n m L Hn E. destruct (l_stk _ _ _ L n Hn) as [[H _]|[h [H _]]]; congruence. Qed.

(** Where an environment is, from a reference to it. *)
Lemma oref_loc : forall s w loc o j, Lax s w loc -> oref s w loc o j -> loc j = Some (resolve s o).
Proof.
  intros s w loc [m|h] j L H; cbn in *; [|exact H]. destruct H as [Hm <-].
  rewrite (l_act _ _ _ L m Hm). destruct (l_stk _ _ _ L m Hm) as [[E I]|[h [E I]]]; rewrite I; congruence.
Qed.

(** One frame moves. *)
Lemma promote_ok : forall s w loc i, Lax s w loc -> i < sp s -> lfps s i = Stk i ->
  Lax (promote s i) w (upd loc (act w i) (Some (Heap (hp s)))) /\ Ext s (promote s i) loc (upd loc (act w i) (Some (Heap (hp s)))).
Proof.
  intros s w loc i L Hi E. set (loc' := upd loc (act w i) (Some (Heap (hp s)))).
  assert (Li : loc (act w i) = Some (Stk i)) by (rewrite (l_act _ _ _ L i Hi), E; reflexivity).
  assert (Iv : inval (slots s i) = false) by (destruct (l_stk _ _ _ L i Hi) as [[_ I]|[h [I _]]]; [exact I|congruence]).
  assert (Hl : forall j h, loc j = Some (Heap h) -> loc' j = Some (Heap h)).
  { intros j h H. unfold loc'. rewrite upd_other; [exact H|]. intro. subst j. congruence. }
  assert (Old : forall j a, j <> act w i -> loc j = Some a -> frame_at (promote s i) a = frame_at s a).
  { intros j [n|h] Nj H; cbn.
    - rewrite upd_other; [reflexivity|]. intro. subst n. destruct (l_locS _ _ _ L j i H). congruence.
    - rewrite upd_other; [reflexivity|]. destruct (l_locH _ _ _ L j h H). lia. }
  split.
  - constructor; cbn [promote sp born hp np].
    + apply L.
    + apply L.
    + apply L.
    + intros n Hn. cbn. unfold loc'. destruct (Nat.eq_dec n i) as [->|N]; [rewrite !upd_same; reflexivity|].
      rewrite !upd_other; [apply L; exact Hn|exact N|]. intro Q. apply N. apply (act_inj s w loc n i L Hn Hi Q).
    + intros n Hn. cbn. destruct (Nat.eq_dec n i) as [->|N]; [rewrite upd_same; cbn; apply L; exact Hi|rewrite upd_other by exact N; apply L; exact Hn].
    + intros n Hn. cbn. destruct (Nat.eq_dec n i) as [->|N]; [rewrite !upd_same; right; exists (hp s); auto|].
      rewrite !upd_other by exact N. apply L. exact Hn.
    + apply L.
    + intros j k a H1 H2. unfold loc', upd in H1, H2. destruct (Nat.eqb_spec j (act w i)), (Nat.eqb_spec k (act w i)); subst; auto.
      * injection H1 as <-. destruct (l_locH _ _ _ L k (hp s) H2). lia.
      * injection H2 as <-. destruct (l_locH _ _ _ L j (hp s) H1). lia.
      * apply (l_inj _ _ _ L j k a H1 H2).
    + intros j n H. unfold loc', upd in H. destruct (Nat.eqb_spec j (act w i)); [discriminate H|]. apply (l_locS _ _ _ L j n H).
    + intros j h H. unfold loc', upd in H. destruct (Nat.eqb_spec j (act w i)).
      * injection H as <-. cbn. rewrite upd_same. cbn. auto.
      * destruct (l_locH _ _ _ L j h H) as (A & B & C). cbn. rewrite upd_other by lia. auto.
    + intros j a H. unfold loc', upd in H. destruct (Nat.eqb_spec j (act w i)) as [->|_]; [|apply (l_dom _ _ _ L j a H)].
      apply (l_dom _ _ _ L _ _ Li).
    + intros j a H. pose proof H as H0. unfold loc', upd in H. destruct (Nat.eqb_spec j (act w i)) as [->|N].
      * injection H as <-. pose proof (l_rel _ _ _ L _ _ Li) as F. apply (frel_mono s (promote s i) w loc loc') in F; try reflexivity; auto.
        cbn in *. rewrite upd_same. destruct F as [A B C]. constructor; cbn; assumption.
      * rewrite (Old j a N H). apply (frel_mono s (promote s i) w loc loc'); try reflexivity; auto. apply L. exact H.
    + intros n Hn. apply (crel_mono s (promote s i) w loc loc'); try reflexivity; auto.
      pose proof (l_cache _ _ _ L n Hn) as Q.
      replace (cache (frame_at (promote s i) (lfps (promote s i) n))) with (cache (frame_at s (lfps s n))); [exact Q|].
      cbn [promote lfps]. destruct (Nat.eq_dec n i) as [->|N].
      * rewrite upd_same. cbn. rewrite upd_same. rewrite E. reflexivity.
      * rewrite upd_other by exact N. rewrite (Old (act w n) (lfps s n)); [reflexivity| |apply L; exact Hn].
        intro X. apply N. apply (act_inj s w loc n i L Hn Hi X).
  - constructor; try reflexivity; cbn; auto.
    + intro n. destruct (Nat.eq_dec n i) as [->|N]; [rewrite upd_same; auto|rewrite upd_other by exact N; auto].
    + intros n Hn. destruct (Nat.eq_dec n i) as [->|N]; [rewrite upd_same; right; split; [exact E|]; exists (hp s); auto|rewrite upd_other by exact N; auto].
Qed.

(** A heap frame is changed in place. *)
Lemma set_heap_ok : forall s w loc i h f, Lax s w loc -> loc i = Some (Heap h) -> heaped f = true -> inval f = false ->
  cache f = cache (heap s h) -> frel s w loc i f (envs w i) -> Lax (set_at s (Heap h) f) w loc.
Proof.
  intros s w loc i h f L Hi Hh Hv Hc Hf.
  assert (M : forall j g e, frel s w loc j g e -> frel (set_at s (Heap h) f) w loc j g e) by (intros j g e; apply frel_mono; auto; reflexivity).
  constructor; cbn [set_at sp born hp np slots lfps]; try apply L.
  - intros j k H. destruct (l_locH _ _ _ L j k H) as (A & B & C). cbn. split; [exact A|].
    destruct (Nat.eq_dec k h) as [->|N]; [rewrite upd_same; auto|rewrite upd_other by exact N; auto].
  - intros j [n|k] H; cbn; [apply M; apply (l_rel _ _ _ L j (Stk n) H)|].
    destruct (Nat.eq_dec k h) as [->|N].
    + rewrite upd_same. apply M. replace j with i; [exact Hf|]. apply (l_inj _ _ _ L i j (Heap h) Hi H).
    + rewrite upd_other by exact N. apply M. apply (l_rel _ _ _ L j (Heap k) H).
  - intros n Hn. apply (crel_mono s (set_at s (Heap h) f) w loc loc); auto.
    pose proof (l_cache _ _ _ L n Hn) as Q. destruct (lfps s n) as [m|k]; cbn in *; [exact Q|].
    destruct (Nat.eq_dec k h) as [->|N]; [rewrite upd_same, Hc; exact Q|rewrite upd_other by exact N; exact Q].
Qed.

(** Edges between the frames that are still in the stack. *)
Definition edge (s : st) (k j : nat) : Prop :=
  k < sp s /\ lfps s k = Stk k /\ lfps s j = Stk j
  /\ (outer (slots s k) = Some (Stk j) \/ exists f d, blk (slots s k) = HProxy f d /\ d <= k /\ j = k - d).
Lemma edge_ext : forall s s' loc loc' w k j, Lax s w loc -> Ext s s' loc loc' -> j < sp s -> edge s' k j -> edge s k j.
Proof.
  intros s s' loc loc' w k j L X Hj (A & B & C & D). rewrite (e_sp _ _ _ _ X) in A.
  destruct (e_slot _ _ _ _ X k) as [E F]. rewrite E, F in D.
  split; [exact A|]. split; [|split; [|exact D]].
  - destruct (e_lfp _ _ _ _ X k A) as [Q|[Q _]]; congruence.
  - destruct (e_lfp _ _ _ _ X j Hj) as [Q|[Q _]]; congruence.
Qed.
(** The part of the stack below. *)
Lemma edge_down : forall s w loc k j, Lax s w loc -> edge s k j -> j < k.
Proof.
  intros s w loc k j L (A & B & C & D).
  assert (Q : loc (act w k) = Some (Stk k)) by (rewrite (l_act _ _ _ L k A), B; reflexivity).
  pose proof (l_rel _ _ _ L _ _ Q) as [_ O P]. cbn in O, P. destruct D as [D|(f & d & D & E & ->)].
  - rewrite D in O. destruct (eouter (envs w (act w k))) as [e|]; [|contradiction]. cbn in O. destruct O as (O1 & O2 & O3). subst e.
    destruct (lt_eq_lt_dec j k) as [[H|H]|H]; [exact H|subst; lia|]. pose proof (l_mono _ _ _ L k j H O2). lia.
  - rewrite D in P. destruct P as (n & N1 & N2 & N3 & N4 & _). apply (act_inj s w loc n k L N1 A) in N2. lia.
Qed.
Definition closed (s : st) (R : nat -> Prop) : Prop := forall k j, R k -> edge s k j -> R j.
Lemma closed_ext : forall s s' loc loc' w R, Lax s w loc -> Lax s' w loc' -> Ext s s' loc loc' -> closed s R -> closed s' R.
Proof.
  intros s s' loc loc' w R L L' X H k j Rk E. apply (H k j Rk). apply (edge_ext s s' loc loc' w); auto.
  pose proof (edge_down _ _ _ _ _ L' E). destruct E as [E _]. rewrite (e_sp _ _ _ _ X) in E. lia.
Qed.

(** j is i or an environment around it. *)
Inductive anc (w : wst) : nat -> nat -> Prop :=
| an_refl : forall i, anc w i i
| an_step : forall i j k, eouter (envs w i) = Some j -> anc w j k -> anc w i k.

Lemma move_ok : forall n s w loc a i (R : nat -> Prop), Lax s w loc -> oref s w loc a i -> i < n -> closed s R ->
  (forall m, a = Stk m -> lfps s m = Stk m -> R m) ->
  exists s' h loc', move n s a = Some (s', Heap h) /\ Lax s' w loc' /\ Ext s s' loc loc' /\ loc' i = Some (Heap h)
    /\ (forall k, k < sp s -> lfps s k = Stk k -> lfps s' k <> Stk k -> R k)
    /\ (forall h', h' < hp s -> heap s' h' = heap s h')
    /\ (forall h', hp s <= h' -> h' < hp s' ->
          (forall m, outer (heap s' h') <> Some (Stk m))
          /\ exists k, k < sp s /\ lfps s k = Stk k /\ blk (heap s' h') = blk (slots s k) /\ R k /\ loc' (act w k) = Some (Heap h') /\ anc w i (act w k)).
Proof.
  induction n as [|n IH]; intros s w loc a i R L Ho Hn HR HRm; [lia|].
  destruct a as [m|h]; cbn [oref] in Ho; cbn [move].
  2:{ destruct (l_locH _ _ _ L i h Ho) as (A & B & C). cbn [frame_at]. rewrite B.
      exists s, h, loc. split; [reflexivity|]. split; [exact L|]. split; [apply ext_refl|]. split; [exact Ho|].
      split; [intros k _ E1 E2; contradiction|]. split; [reflexivity|]. intros. lia. }
  destruct Ho as [Hm Hi]. cbn [frame_at]. rewrite (l_slot _ _ _ L m Hm).
  destruct (l_stk _ _ _ L m Hm) as [[E Iv]|[h [E Iv]]]; rewrite Iv.
  2:{ rewrite E. exists s, h, loc. split; [reflexivity|]. split; [exact L|]. split; [apply ext_refl|].
      split; [rewrite <- Hi, (l_act _ _ _ L m Hm), E; reflexivity|].
      split; [intros k _ E1 E2; contradiction|]. split; [reflexivity|]. intros. lia. }
  destruct (promote_ok s w loc m L Hm E) as [L1 X1]. set (s1 := promote s m) in *. rewrite Hi in L1, X1. set (loc1 := upd loc i (Some (Heap (hp s)))) in *.
  assert (Li : loc1 i = Some (Heap (hp s))) by (unfold loc1; apply upd_same).
  assert (Rm : R m) by (apply HRm; auto).
  assert (Lo : loc i = Some (Stk m)) by (rewrite <- Hi, (l_act _ _ _ L m Hm), E; reflexivity).
  assert (Hheap : forall h', h' < hp s -> heap s1 h' = heap s h') by (intros h' H; cbn; apply upd_other; lia).
  assert (Hlf : forall k, k <> m -> lfps s1 k = lfps s k) by (intros k H; cbn; apply upd_other; exact H).
  assert (Hh : heap s1 (hp s) = mkF (vars (slots s m)) (outer (slots s m)) (blk (slots s m)) true (inval (slots s m)) (cache (slots s m))) by (cbn; apply upd_same).
  assert (Hhp : hp s1 = S (hp s)) by reflexivity.
  change (heap s1 (hp s)) with (frame_at s1 (Heap (hp s))) in Hh. cbn [frame_at] in Hh.
  cbn [frame_at]. rewrite Hh. cbn [outer].
  pose proof (l_rel _ _ _ L i _ Lo) as F. cbn [frame_at] in F.
  destruct (outer (slots s m)) as [o|] eqn:Eo.
  2:{ exists s1, (hp s), loc1. split; [reflexivity|]. split; [exact L1|]. split; [exact X1|]. split; [exact Li|].
      split. { intros k Hk E1 E2. destruct (Nat.eq_dec k m) as [->|N]; [exact Rm|]. rewrite Hlf in E2 by exact N. contradiction. }
      split; [exact Hheap|]. intros h' H1 H2. assert (h' = hp s) by lia. subst h'. rewrite Hh. split; [intro; discriminate|].
      exists m. cbn. rewrite Hi. repeat (split; [auto|]). constructor. }
  destruct F as [_ Fo _]. unfold orel in Fo. rewrite Eo in Fo. destruct (eouter (envs w i)) as [j|] eqn:Ej; [|contradiction]. destruct Fo as [Hj Ho].
  assert (Ho1 : oref s1 w loc1 o j). { apply (oref_mono s s1 w loc loc1); auto. apply (e_loc _ _ _ _ X1). }
  destruct (IH s1 w loc1 o j R L1 Ho1) as (s2 & h2 & loc2 & M2 & L2 & X2 & Lj & N2 & P2 & Q2); [lia| | |].
  { apply (closed_ext s s1 loc loc1 w); auto. }
  { intros m' -> E'. apply (HR m m' Rm). cbn [oref] in Ho. destruct Ho as [Ho _]. split; [exact Hm|]. split; [exact E|]. split; [|left; exact Eo].
    destruct (e_lfp _ _ _ _ X1 m' Ho) as [Q|[Q _]]; congruence. }
  rewrite M2. set (s3 := set_at s2 (Heap (hp s)) (with_outer (heap s2 (hp s)) (Some (Heap h2)))).
  assert (Li2 : loc2 i = Some (Heap (hp s))) by (apply (e_loc _ _ _ _ X2); exact Li).
  pose proof (l_rel _ _ _ L2 _ _ Li2) as F2. cbn [frame_at] in F2. destruct (l_locH _ _ _ L2 _ _ Li2) as (G1 & G2 & G3).
  assert (L3 : Lax s3 w loc2).
  { apply (set_heap_ok s2 w loc2 i); auto. destruct F2 as [A B C]. constructor; auto. cbn. rewrite Ej. auto. }
  assert (X3 : Ext s s3 loc loc2).
  { pose proof (ext_trans _ _ _ _ _ _ X1 X2) as [a b c d e f g k l]. constructor; auto. }
  assert (K : heap s2 (hp s) = heap s1 (hp s)) by (apply P2; rewrite Hhp; lia).
  exists s3, (hp s), loc2. split; [reflexivity|]. split; [exact L3|]. split; [exact X3|]. split; [exact Li2|].
  split. { intros k Hk E1 E2. destruct (Nat.eq_dec k m) as [->|N]; [exact Rm|]. apply (N2 k Hk); [rewrite Hlf by exact N; exact E1|exact E2]. }
  split. { intros h' H. cbn. rewrite upd_other by lia. rewrite P2 by (rewrite Hhp; lia). apply Hheap. exact H. }
  intros h' H1 H2. destruct (Nat.eq_dec h' (hp s)) as [->|N].
  - cbn. rewrite upd_same. split; [intros m'; cbn; discriminate|]. exists m. cbn. rewrite K, Hh, Hi. cbn. repeat (split; [auto|]). constructor.
  - cbn in H2 |- *. rewrite upd_other by exact N. destruct (Q2 h') as [Q3 (k & Q4 & Q5 & Q6 & Q7 & Q8 & Q9)]; [rewrite Hhp; lia|exact H2|].
    split; [exact Q3|]. exists k. change (sp s1) with (sp s) in Q4. split; [exact Q4|].
    assert (Nk : k <> m). { intro. subst k. cbn in Q5. rewrite upd_same in Q5. discriminate Q5. }
    rewrite Hlf in Q5 by exact Nk. split; [exact Q5|]. destruct (e_slot _ _ _ _ X1 k) as [_ Q]. rewrite Q in Q6. split; [exact Q6|]. split; [exact Q7|].
    split; [exact Q8|]. apply (an_step w i j); assumption.
Qed.

(** Between promotions. *)
Definition direct (s : st) : Prop := forall h m, h < hp s -> outer (heap s h) <> Some (Stk m).
Definition homes (s : st) (R : nat -> Prop) : Prop :=
  forall h f d n, h < hp s -> blk (heap s h) = HProxy f d -> n < sp s -> lfps s n = Heap h -> lfps s (n - d) = Stk (n - d) -> R (n - d).
Definition fewer (s s' : st) : Prop := forall h f d, h < hp s' -> blk (heap s' h) = HProxy f d -> h < hp s /\ blk (heap s h) = HProxy f d.
Definition within (s s' : st) (R : nat -> Prop) : Prop := forall k, k < sp s -> lfps s k = Stk k -> lfps s' k <> Stk k -> R k.

Lemma find_spec : forall s w loc n a k, Lax s w loc -> n < k -> k <= sp s -> lfps s n = a -> find s a k = Some n.
Proof.
  intros s w loc n a k L. induction k as [|k IH]; intros H1 H2 E; [lia|]. cbn.
  assert (Eq : forall x, addr_eqb x a = true -> x = a).
  { intros [p|p] H; destruct a as [q|q]; cbn in H; try discriminate H; apply Nat.eqb_eq in H; congruence. }
  destruct (addr_eqb (lfps s k) a) eqn:Q.
  - apply Eq in Q. f_equal. apply (act_inj s w loc k n L); [lia|lia|].
    apply (l_inj _ _ _ L _ _ a); rewrite (l_act _ _ _ L); [congruence|lia|congruence|lia].
  - destruct (Nat.eq_dec n k) as [->|N]; [|apply IH; [lia|lia|exact E]].
    exfalso. rewrite E in Q. destruct a as [q|q]; cbn in Q; rewrite Nat.eqb_refl in Q; discriminate Q.
Qed.

Definition gen_ok (n : nat) : Prop := forall s w loc c f d (R : nat -> Prop), Lax s w loc -> direct s -> c < sp s -> 1 <= d -> d <= c -> 2 * act w c <= n ->
  closed s R -> (lfps s (c - d) = Stk (c - d) -> R (c - d)) -> homes s R ->
  exists s' p loc' h, gen_proc n s c (HProxy f d) = Some (s', p) /\ Lax s' w loc' /\ direct s' /\ Ext s s' loc loc' /\ within s s' R /\ fewer s s'
    /\ p < np s' /\ procs s' p = (Heap h, f) /\ loc' (act w (c - d)) = Some (Heap h) /\ (forall h', h' < hp s -> outer (heap s' h') = outer (heap s h')).
Definition mat_ok (n : nat) : Prop := forall s w loc i h (R : nat -> Prop), Lax s w loc -> direct s -> loc i = Some (Heap h) -> 2 * i + 1 <= n ->
  closed s R -> homes s R ->
  exists s' loc', materialize n s (Heap h) = Some s' /\ Lax s' w loc' /\ direct s' /\ Ext s s' loc loc' /\ within s s' R /\ fewer s s'
    /\ (forall j h', anc w i j -> loc' j = Some (Heap h') -> forall f d, blk (heap s' h') <> HProxy f d)
    /\ (forall h', h' < hp s -> outer (heap s' h') = outer (heap s h')).

Lemma homes_ext : forall s s' loc loc' R, Ext s s' loc loc' -> homes s R -> fewer s s' -> homes s' R.
Proof.
  intros s s' loc loc' R X H F h f d n A B C D E. rewrite (e_sp _ _ _ _ X) in C. destruct (F h f d A B) as [A' B'].
  apply (H h f d n A' B' C).
  - destruct (e_lfp _ _ _ _ X n C) as [Q|[Q (h2 & Q2 & Q3)]]; [congruence|]. rewrite D in Q2. injection Q2 as <-. lia.
  - destruct (e_lfp _ _ _ _ X (n - d)) as [Q|[Q _]]; [lia|congruence|congruence].
Qed.
Lemma fewer_trans : forall a b c, fewer a b -> fewer b c -> fewer a c.
Proof. intros a b c H1 H2 h f d A B. destruct (H2 h f d A B) as [A' B']. apply (H1 h f d A' B'). Qed.
Lemma within_trans : forall a b c la lb R, Ext a b la lb -> within a b R -> within b c R -> within a c R.
Proof.
  intros a b c la lb R X H1 H2 k K E N. destruct (e_lfp _ _ _ _ X k K) as [Q|[Q (h & Q2 & _)]].
  - apply (H2 k); [rewrite (e_sp _ _ _ _ X); exact K|congruence|exact N].
  - apply (H1 k K E). congruence.
Qed.

Lemma new_proc_lax : forall s w loc a f, Lax s w loc -> Lax (fst (new_proc s a f)) w loc.
Proof.
  intros s w loc a f [b1 b2 b3 b4 b5 b6 b7 b8 b9 b10 b11 b12 b13].
  assert (Pr : forall p, p < np s -> procs (fst (new_proc s a f)) p = procs s p) by (intros p Hp; cbn; apply upd_other; lia).
  constructor; auto. intros i x Hi. apply (frel_mono s _ w loc loc); auto; [cbn; lia|]. apply b12. exact Hi.
Qed.
(** The frame of control frame [z] and all it needs go to the heap. *)
Lemma capture : forall n s w loc z (R : nat -> Prop), mat_ok n -> Lax s w loc -> direct s -> z < sp s -> 2 * act w z + 1 <= n ->
  closed s R -> (lfps s z = Stk z -> R z) -> homes s R ->
  exists s1 h s2 loc2, move (S (born s)) s (lfps s z) = Some (s1, Heap h) /\ materialize n s1 (Heap h) = Some s2
    /\ Lax s2 w loc2 /\ direct s2 /\ Ext s s2 loc loc2 /\ within s s2 R /\ fewer s s2 /\ loc2 (act w z) = Some (Heap h)
    /\ (forall h', h' < hp s -> outer (heap s2 h') = outer (heap s h')).
Proof.
    intros n s w loc z R Hm L D Hz Hn HR HRc HH.
    destruct (move_ok (S (born s)) s w loc (lfps s z) (act w z) R L) as (s1 & h1 & loc1 & M & L1 & X1 & Lz1 & N1 & P1 & Q1).
    + pose proof (l_act _ _ _ L z Hz) as A. destruct (lfps s z) as [m|h] eqn:E; cbn; [|exact A].
      apply (lfps_stk s w loc z m L Hz) in E. subst m. auto.
    + rewrite (l_born _ _ _ L). pose proof (l_dom _ _ _ L _ _ (l_act _ _ _ L z Hz)). lia.
    + exact HR.
    + intros m E E2. pose proof (lfps_stk s w loc z m L Hz E). subst m. apply HRc. exact E.
    +       assert (D' : direct s1). { intros h' m A. destruct (le_lt_dec (hp s) h') as [G|G]; [apply Q1; auto|rewrite P1 by exact G; apply D; exact G]. }
      assert (H1 : homes s1 R).
      { intros h' f' d' n' A B C E1 E2. rewrite (e_sp _ _ _ _ X1) in C. destruct (le_lt_dec (hp s) h') as [G|G].
        - destruct (Q1 h' G A) as [_ (k & K1 & K2 & K3 & K4 & K5 & _)].
          assert (k = n'). { apply (act_inj s w loc); auto. apply (l_inj _ _ _ L1 _ _ (Heap h') K5). rewrite <- E1. apply (l_act _ _ _ L1). rewrite (e_sp _ _ _ _ X1). exact C. }
          subst k. apply (HR n' (n' - d') K4). split; [exact C|]. split; [exact K2|]. split.
          + destruct (e_lfp _ _ _ _ X1 (n' - d')) as [Q|[Q _]]; [lia|congruence|exact Q].
          + right. exists f', d'. rewrite <- K3. split; [exact B|]. split; [|reflexivity].
            pose proof (l_rel _ _ _ L (act w n') (Stk n')) as F. rewrite (l_act _ _ _ L n' C), K2 in F. destruct (F eq_refl) as [_ _ F3]. cbn in F3.
            rewrite <- K3, B in F3. destruct F3 as (n2 & F4 & F5 & F6 & F7 & _). apply (act_inj s w loc) in F5; auto. subst n2. exact F7.
        - rewrite P1 in B by exact G. apply (HH h' f' d' n' G B C).
          + destruct (e_lfp _ _ _ _ X1 n' C) as [Q|[Q (h2 & Q2 & Q3)]]; [congruence|]. rewrite E1 in Q2. injection Q2 as <-. lia.
          + destruct (e_lfp _ _ _ _ X1 (n' - d')) as [Q|[Q _]]; [lia|congruence|congruence]. }
      destruct (Hm s1 w loc1 (act w z) h1 R L1 D' Lz1) as (s2 & loc2 & M2 & L2 & D2' & X2 & N2 & F2 & A2 & O2); [lia|apply (closed_ext s s1 loc loc1 w); auto|exact H1|].
      exists s1, h1, s2, loc2. split; [exact M|]. split; [exact M2|]. split; [exact L2|]. split; [exact D2'|]. split; [apply (ext_trans _ s1 _ _ loc1); auto|].
      split. { apply (within_trans s s1 s2 loc loc1 R X1); [exact N1|exact N2]. }
      split. { intros h' f' d' A B. destruct (F2 h' f' d' A B) as [A' B']. destruct (le_lt_dec (hp s) h') as [G|G].
        - exfalso. destruct (Q1 h' G A') as [_ (k & K1 & K2 & K3 & K4 & K5 & K6)].
          apply (A2 (act w k) h' K6 (e_loc _ _ _ _ X2 _ _ K5) f' d' B).
        - split; [exact G|]. rewrite <- P1 by exact G. exact B'. }
      split; [apply (e_loc _ _ _ _ X2); exact Lz1|].
      intros h' G. rewrite O2 by (pose proof (e_hp _ _ _ _ X1); lia). rewrite P1 by exact G. reflexivity.
Qed.
Lemma gen_mat : forall n, gen_ok n /\ mat_ok n.
Proof.
  induction n as [|n [IHg IHm]]; (split; [intros s w loc c f d R L D Hc D1 D2 Hn HR HRc HH | intros s w loc i h R L D Hi Hn HR HH]).
  - exfalso. pose proof (l_mono _ _ _ L (c - d) c). lia.
  - lia.
  - cbn [gen_proc]. replace (d <=? c) with true by (symmetry; apply Nat.leb_le; exact D2).
    assert (Hz : c - d < sp s) by lia. set (z := c - d) in *.
    assert (Lz : act w z < act w c) by (apply (l_mono _ _ _ L); unfold z; lia).
    destruct (capture n s w loc z R IHm L D Hz) as (s1 & h1 & s2 & loc2 & M & M2 & L2 & D' & X & N & F & Lz2 & O); [lia|exact HR|exact HRc|exact HH|].
    rewrite M, M2. exists (fst (new_proc s2 (Heap h1) f)), (np s2), loc2, h1. split; [reflexivity|]. split; [apply new_proc_lax; exact L2|]. split; [exact D'|].
    split. { destruct X as [a1 a2 a3 a4 a5 a6 a7 a8 a9]. constructor; auto; cbn; [lia|]. intros p Hp. rewrite upd_other by lia. apply a5. exact Hp. }
    split; [exact N|]. split; [exact F|]. split; [cbn; lia|]. split; [cbn; apply upd_same|]. split; [exact Lz2|exact O].
  - cbn [materialize]. destruct (l_locH _ _ _ L i h Hi) as (A & B & C). pose proof (l_rel _ _ _ L i _ Hi) as F. cbn [frame_at] in F |- *.
    (* the handler of this frame *)
    assert (T : exists s1 loc1, match blk (heap s h) with
                | HProxy f d => match find s (Heap h) (sp s) with
                                | Some c => match gen_proc n s c (HProxy f d) with
                                            | Some (s1, p) => Some (set_at s1 (Heap h) (with_blk (heap s1 h) (HProc p)))
                                            | None => None
                                            end
                                | None => Some s
                                end
                | _ => Some s
                end = Some s1 /\ Lax s1 w loc1 /\ direct s1 /\ Ext s s1 loc loc1 /\ within s s1 R /\ fewer s s1
                /\ (forall f d, blk (heap s1 h) <> HProxy f d) /\ (forall h', h' < hp s -> outer (heap s1 h') = outer (heap s h'))).
    { destruct (blk (heap s h)) as [|f d|p] eqn:Eb.
      - exists s, loc. split; [reflexivity|]. split; [exact L|]. split; [exact D|]. split; [apply ext_refl|]. split; [intros k _ E1 E2; contradiction|].
        split; [intros h' f d H1 H2; auto|]. split; [intros f d; rewrite Eb; discriminate|reflexivity].
      - destruct F as [_ _ F]. rewrite Eb in F. destruct F as (c & Hc & Ec & Hd1 & Hd2 & Ee).
        assert (Lc : lfps s c = Heap h). { pose proof (l_act _ _ _ L c Hc) as Q. rewrite Ec, Hi in Q. congruence. }
        rewrite (find_spec s w loc c (Heap h) (sp s) L); [|exact Hc|lia|exact Lc].
        destruct (IHg s w loc c f d R L D Hc Hd1 Hd2) as (s1 & p & loc1 & h1 & G & L1 & D1 & X1 & N1 & F1 & P1 & P2 & P3 & O1); [lia|exact HR|apply (HH h f d c A Eb Hc Lc)|exact HH|].
        rewrite G. cbn [frame_at]. assert (Hi1 : loc1 i = Some (Heap h)) by (apply (e_loc _ _ _ _ X1); exact Hi).
        destruct (l_locH _ _ _ L1 i h Hi1) as (A1 & B1 & C1). pose proof (l_rel _ _ _ L1 i _ Hi1) as [V1 V2 V3].
        exists (set_at s1 (Heap h) (with_blk (heap s1 h) (HProc p))), loc1. split; [reflexivity|].
        split. { apply (set_heap_ok s1 w loc1 i); auto. constructor; auto. cbn. split; [exact P1|]. exists (act w (c - d)), h1, f. auto. }
        split. { intros h' m H. cbn in *. destruct (Nat.eq_dec h' h) as [->|N]; [rewrite upd_same; cbn; apply D1; exact H|rewrite upd_other by exact N; apply D1; exact H]. }
        split. { destruct X1 as [a1 a2 a3 a4 a5 a6 a7 a8 a9]. constructor; auto. }
        split; [exact N1|].
        split. { intros h' f' d' H1 H2. cbn in H1, H2. destruct (Nat.eq_dec h' h) as [->|N]; [rewrite upd_same in H2; discriminate H2|].
                 rewrite upd_other in H2 by exact N. apply (F1 h' f' d' H1 H2). }
        split; [intros f' d'; cbn; rewrite upd_same; discriminate|].
        intros h' H. cbn. destruct (Nat.eq_dec h' h) as [->|N]; [rewrite upd_same; cbn; apply O1; exact H|rewrite upd_other by exact N; apply O1; exact H].
      - exists s, loc. split; [reflexivity|]. split; [exact L|]. split; [exact D|]. split; [apply ext_refl|]. split; [intros k _ E1 E2; contradiction|].
        split; [intros h' f d H1 H2; auto|]. split; [intros f d; rewrite Eb; discriminate|reflexivity]. }
    destruct T as (s1 & loc1 & T & L1 & D1 & X1 & N1 & F1 & B1 & O1). rewrite T. clear T.
    assert (Hi1 : loc1 i = Some (Heap h)) by (apply (e_loc _ _ _ _ X1); exact Hi).
    pose proof (l_rel _ _ _ L1 i _ Hi1) as [_ V2 _]. cbn [frame_at] in V2. destruct (outer (heap s1 h)) as [o|] eqn:Eo.
    + unfold orel in V2. destruct (eouter (envs w i)) as [j|] eqn:Ej; [|contradiction]. destruct V2 as [V3 V4].
      destruct o as [m|h2]; [exfalso; apply (D1 h m); [destruct (l_locH _ _ _ L1 i h Hi1); assumption|exact Eo]|]. cbn in V4.
      destruct (IHm s1 w loc1 j h2 R L1 D1 V4) as (s2 & loc2 & M2 & L2 & D2 & X2 & N2 & F2 & A2 & O2); [lia|apply (closed_ext s s1 loc loc1 w); auto|apply (homes_ext s s1 loc loc1); auto|].
      exists s2, loc2. split; [exact M2|]. split; [exact L2|]. split; [exact D2|]. split; [apply (ext_trans _ s1 _ _ loc1); auto|].
      split; [apply (within_trans s s1 s2 loc loc1); auto|]. split; [apply (fewer_trans s s1 s2); auto|].
      split. { intros k h' K Lk f d Q. inversion K as [i' Ei|i' j' k' Ei' Kj]; subst.
        - assert (h' = h) by (pose proof (e_loc _ _ _ _ X2 _ _ Hi1); congruence). subst h'.
          destruct (l_locH _ _ _ L2 k h) as [Hh _]; [exact Lk|]. destruct (F2 h f d Hh Q) as [_ Q2]. apply (B1 f d Q2).
        - assert (j' = j) by congruence. subst j'. apply (A2 k h' Kj Lk f d Q). }
      intros h' H. rewrite O2 by (pose proof (e_hp _ _ _ _ X1); lia). apply O1. exact H.
    + exists s1, loc1. split; [reflexivity|]. split; [exact L1|]. split; [exact D1|]. split; [exact X1|]. split; [exact N1|]. split; [exact F1|].
      split; [|exact O1]. unfold orel in V2. destruct (eouter (envs w i)) as [j|] eqn:Ej; [contradiction|].
      intros k h' K Lk f d Q. inversion K as [i' Ei|i' j' k' Ei' Kj]; subst; [|congruence].
      assert (h' = h) by congruence. subst h'. apply (B1 f d Q).
Qed.
