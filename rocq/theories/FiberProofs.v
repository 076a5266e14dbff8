(** The invariant: the running fiber is on top of a stack of fibers linked by resume; that stack starts at the root, or at a fiber
    that was transferred to and ends where the root's stack ends. *)
From Coq Require Import List Bool Arith ZArith Lia.
From Verif Require Import FiberModel FiberSpec.
Import ListNotations.

(** Top first. *)
Fixpoint linked (m : state) (s : sstate) (l : list nat) : Prop :=
  match l with
  | x :: ((y :: _) as t) => waits (sfib s y) = Some x /\ prev (sfib s x) = Some y /\ ret (fib m x) = Some y /\ fst (call (sfib s y)) = x /\ linked m s t
  | _ => True
  end.
Definition opt (o : option (list nat)) : list nat := match o with Some A => A | None => [] end.
Record rel (m : state) (s : sstate) (x : nat) : Prop := {
  r_st : st (fib m x) = sst (sfib s x);
  r_resu : resu (fib m x) = waits (sfib s x);
  r_yld : yld (fib m x) = yielding (sfib s x);
  r_kld : kld (fib m x) = killed (sfib s x);
  r_par : sst (sfib s x) <> Done -> par (fib m x) = prev (sfib s x);
  r_int : internal (fib m x) = inner (sfib s x);
  r_trf : trf (fib m x) = aimed (sfib s x);
  r_err : err (fib m x) = None;
  r_top : sst (sfib s x) = Live -> x <> scur s ->
          if yielding (sfib s x) then top (fib m x) = WYield
          else top (fib m x) = WCall (fst (call (sfib s x))) (snd (call (sfib s x))) /\ fst (call (sfib s x)) <> x;
  r_root : inners s = false -> x < scount s -> troot (fib m x) = if x =? 0 then None else Some 0;
  r_cr : sst (sfib s x) <> Live -> yielding (sfib s x) = false;
  r_ck : sst (sfib s x) = Created -> killed (sfib s x) = false
}.
Record Inv (m : state) (s : sstate) (L : list nat) (o : option (list nat)) : Prop := {
  i_cnt : count m = scount s;
  i_cur : cur m = scur s;
  i_top : scur s = hd 0 L;
  i_ne : L <> [];
  i_lk : linked m s L;
  i_wait : waits (sfib s (hd 0 L)) = None;
  i_base : match o with
           | None => last L 0 = 0
           | Some A => A <> [] /\ linked m s A /\ waits (sfib s (hd 0 A)) = None /\ last A 0 = 0 /\ ret (fib m (last L 0)) = Some (hd 0 A)
           end;
  i_prev0 : prev (sfib s 0) = None;
  i_prev : prev (sfib s (last L 0)) = None;
  i_nd : NoDup (L ++ opt o);
  i_in : forall x, In x (L ++ opt o) -> x < scount s /\ sst (sfib s x) = Live /\ yielding (sfib s x) = false;
  i_out : forall x, ~ In x (L ++ opt o) -> waits (sfib s x) = None /\ prev (sfib s x) = None;
  i_kill : forall x, killed (sfib s x) = true -> sst (sfib s x) = Live -> x = scur s;
  i_rel : forall x, rel m s x;
  i_tr : transfers s = false -> o = None /\ (forall x, sst (sfib s x) = Live -> yielding (sfib s x) = true \/ In x L);
  i_inn : inners s = true -> transfers s = false;
  i_int : forall x, x < scount s -> inner (sfib s x) = true -> inners s = true;
  i_aim : forall x, ~ In x (L ++ opt o) -> sst (sfib s x) = Live -> yielding (sfib s x) = false -> aimed (sfib s x) = true;
  i_low : o <> None -> aimed (sfib s (last L 0)) = true;
  i_zero : inner (sfib s 0) = false
}.

Lemma linked_ext : forall m s m' s' l,
  (forall x, In x l -> ret (fib m' x) = ret (fib m x) /\ prev (sfib s' x) = prev (sfib s x)) ->
  (forall x, In x (tl l) -> waits (sfib s' x) = waits (sfib s x) /\ call (sfib s' x) = call (sfib s x)) ->
  linked m s l -> linked m' s' l.
Proof.
  intros m s m' s' l. induction l as [|x [|y t] IH]; intros H1 H2 H; [exact I|exact I|].
  destruct H as (A & B & C & D & E). destruct (H1 x (or_introl eq_refl)) as [Hr Hp].
  destruct (H2 y (or_introl eq_refl)) as [Hw Hc]. cbn [linked].
  split; [rewrite Hw; exact A|]. split; [rewrite Hp; exact B|]. split; [rewrite Hr; exact C|]. split; [rewrite Hc; exact D|].
  apply IH; [intros z Hz; apply H1; right; exact Hz|intros z Hz; apply H2; right; exact Hz|exact E].
Qed.
(** Also when the lowest fiber's way back changes. *)
Lemma linked_ext_low : forall m s m' s' l,
  (forall x, In x l -> x <> last l 0 -> ret (fib m' x) = ret (fib m x) /\ prev (sfib s' x) = prev (sfib s x)) ->
  (forall x, In x (tl l) -> waits (sfib s' x) = waits (sfib s x) /\ call (sfib s' x) = call (sfib s x)) ->
  NoDup l -> linked m s l -> linked m' s' l.
Proof.
  intros m s m' s' l. induction l as [|x [|y t] IH]; intros H1 H2 N H; [exact I|exact I|].
  destruct H as (A & B & C & D & E). apply NoDup_cons_iff in N. destruct N as [Nx Nt].
  assert (x <> last (x :: y :: t) 0) as Hl.
  { intros Q. apply Nx. change (last (x :: y :: t) 0) with (last (y :: t) 0) in Q. rewrite Q.
    destruct (@exists_last _ (y :: t) ltac:(discriminate)) as (l' & a & ->). rewrite last_last. apply in_or_app. right. left. reflexivity. }
  destruct (H1 x (or_introl eq_refl) Hl) as [Hr Hp].
  destruct (H2 y (or_introl eq_refl)) as [Hw Hc]. cbn [linked].
  split; [rewrite Hw; exact A|]. split; [rewrite Hp; exact B|]. split; [rewrite Hr; exact C|]. split; [rewrite Hc; exact D|].
  apply IH; [intros z Hz Hn; apply H1; [right; exact Hz|exact Hn]|intros z Hz; apply H2; right; exact Hz|exact Nt|exact E].
Qed.
(** Walking up. *)
Lemma innermost_up : forall m s l n x, linked m s l -> waits (sfib s (hd 0 l)) = None -> In x l -> length l <= S n -> innermost s n x = hd 0 l.
Proof.
  intros m s l. assert (forall k t, linked m s (k ++ t) -> waits (sfib s (hd 0 (k ++ t))) = None -> t <> [] -> forall n, length k <= n -> innermost s n (hd 0 t) = hd 0 (k ++ t)) as G.
  { intros k. induction k as [|a k IH] using rev_ind; intros t H W Nt n Hn.
    - cbn [app] in *. destruct n; [reflexivity|]. cbn [innermost]. rewrite W. reflexivity.
    - rewrite <- app_assoc in *. cbn [app] in *. destruct t as [|b t]; [contradiction|].
      rewrite app_length in Hn. cbn [length] in Hn. destruct n as [|n]; [lia|]. cbn [innermost hd].
      assert (waits (sfib s b) = Some a) as Q.
      { clear - H. revert H. induction k as [|c k IHk]; intros H; [cbn [app linked] in H; exact (proj1 H)|].
        apply IHk. destruct k; cbn [app linked] in H |- *; tauto. }
      rewrite Q. apply (IH (a :: b :: t)); [exact H|exact W|discriminate|lia]. }
  intros n x H W Hx Hn. destruct (in_split x l Hx) as (k & t & ->).
  rewrite app_length in Hn. cbn [length] in Hn. exact (G k (x :: t) H W ltac:(discriminate) n ltac:(lia)).
Qed.
Lemma chain_end_innermost : forall m s, (forall x, resu (fib m x) = waits (sfib s x)) -> forall n f, chain_end m n f = innermost s n f.
Proof. intros m s H n. induction n as [|n IH]; intros f; [reflexivity|]. cbn. rewrite H. destruct (waits (sfib s f)); [apply IH|reflexivity]. Qed.
Lemma nodup_bound : forall (l : list nat) n, NoDup l -> (forall x, In x l -> x < n) -> length l <= n.
Proof.
  intros l n N H. rewrite <- (seq_length n 0). apply NoDup_incl_length; [exact N|]. intros x Hx. apply in_seq. specialize (H x Hx). lia.
Qed.
(** The root's stack, whichever is running. *)
Definition rstack (L : list nat) (o : option (list nat)) : list nat := match o with Some A => A | None => L end.
Lemma rstack_linked : forall m s L o, Inv m s L o -> linked m s (rstack L o) /\ waits (sfib s (hd 0 (rstack L o))) = None /\ In 0 (rstack L o)
  /\ (forall x, In x (rstack L o) -> In x (L ++ opt o)) /\ NoDup (rstack L o).
Proof.
  intros m s L o H. pose proof (i_base _ _ _ _ H) as B. pose proof (i_nd _ _ _ _ H) as N. destruct o as [A|]; cbn [rstack opt] in *.
  - destruct B as (Ne & Lk & W & La & _). split; [exact Lk|]. split; [exact W|]. split.
    + destruct (@exists_last _ A Ne) as (l' & a & ->). rewrite last_last in La. subst a. apply in_or_app. right. left. reflexivity.
    + split; [intros x Hx; apply in_or_app; right; exact Hx|]. clear - N. induction L as [|a L IH]; [exact N|]. inversion N; subst. exact (IH H2).
  - split; [exact (i_lk _ _ _ _ H)|]. split; [exact (i_wait _ _ _ _ H)|]. rewrite app_nil_r in N. split.
    + destruct (@exists_last _ L (i_ne _ _ _ _ H)) as (l' & a & E). rewrite E in *. rewrite last_last in B. subst a. apply in_or_app. right. left. reflexivity.
    + split; [intros x Hx; rewrite app_nil_r; exact Hx|exact N].
Qed.
Lemma inmost_stack : forall m s L o x, Inv m s L o -> In x (rstack L o) -> inmost s x = hd 0 (rstack L o).
Proof.
  intros m s L o x H Hx. destruct (rstack_linked _ _ _ _ H) as (Lk & W & _ & Inc & N).
  apply (innermost_up m s (rstack L o)); [exact Lk|exact W|exact Hx|].
  pose proof (nodup_bound (rstack L o) (scount s) N (fun y Hy => proj1 (i_in _ _ _ _ H y (Inc y Hy)))). lia.
Qed.
Lemma inmost_zero : forall m s L o, Inv m s L o -> inmost s 0 = hd 0 (rstack L o).
Proof. intros m s L o H. apply (inmost_stack m s L o 0 H). exact (proj1 (proj2 (proj2 (rstack_linked _ _ _ _ H)))). Qed.
Lemma nodup_left : forall (l k : list nat), NoDup (l ++ k) -> NoDup l.
Proof. intros l k H. induction l as [|a l IH]; [constructor|]. inversion H; subst. constructor; [intros Q; apply H2; apply in_or_app; left; exact Q|exact (IH H3)]. Qed.
Lemma inmost_run : forall m s L o x, Inv m s L o -> In x L -> inmost s x = scur s.
Proof.
  intros m s L o x H Hx. rewrite (i_top _ _ _ _ H).
  apply (innermost_up m s L); [exact (i_lk _ _ _ _ H)|exact (i_wait _ _ _ _ H)|exact Hx|].
  pose proof (nodup_bound L (scount s) (nodup_left _ _ (i_nd _ _ _ _ H)) (fun y Hy => proj1 (i_in _ _ _ _ H y (in_or_app _ _ _ (or_introl Hy))))). lia.
Qed.
Lemma inmost_idle : forall s x, waits (sfib s x) = None -> inmost s x = x.
Proof. intros s x H. unfold inmost. destruct (scount s); [reflexivity|]. cbn. rewrite H. reflexivity. Qed.
Lemma cur_in : forall m s L o, Inv m s L o -> In (scur s) L /\ exists t, L = scur s :: t.
Proof. intros m s L o H. rewrite (i_top _ _ _ _ H). destruct L as [|a t]; [destruct (i_ne _ _ _ _ H eq_refl)|]. split; [left; reflexivity|exists t; reflexivity]. Qed.

Lemma linked_intro : forall m s x y t, waits (sfib s y) = Some x -> prev (sfib s x) = Some y -> ret (fib m x) = Some y -> fst (call (sfib s y)) = x ->
  linked m s (y :: t) -> linked m s (x :: y :: t).
Proof. intros. repeat (split; [assumption|]). assumption. Qed.
(** A fiber is pushed by resume. *)
Lemma push_ok : forall m s L o f m' s' k kf tf,
  Inv m s L o -> ~ In f (L ++ opt o) -> f < scount s ->
  count m' = count m -> cur m' = f -> scount s' = scount s -> scur s' = f -> transfers s' = transfers s -> inners s' = inners s ->
  (forall x, fib m' x = if x =? f then mkF Live (Some (cur m)) None (Some (cur m)) false (trf (fib m f)) kf None (troot (fib m f)) (internal (fib m f)) tf
                        else if x =? cur m then mkF (st (fib m x)) (par (fib m x)) (Some f) (ret (fib m x)) (yld (fib m x)) (trf (fib m x)) (kld (fib m x)) (err (fib m x)) (troot (fib m x)) (internal (fib m x)) (WCall f k)
                        else fib m x) ->
  (forall x, sfib s' x = if x =? f then mkG Live (Some (scur s)) None false kf (call (sfib s f)) (aimed (sfib s f)) (inner (sfib s f))
                         else if x =? scur s then mkG (sst (sfib s x)) (prev (sfib s x)) (Some f) (yielding (sfib s x)) (killed (sfib s x)) (f, k) (aimed (sfib s x)) (inner (sfib s x))
                         else sfib s x) ->
  killed (sfib s (scur s)) = false ->
  Inv m' s' (f :: L) o.
Proof.
  intros m s L o f m' s' k kf tf H Hf Hn C1 C2 C3 C4 C5 C6 Hm Hs Hk.
  destruct (cur_in _ _ _ _ H) as [Hc [t Et]]. pose proof (i_cur _ _ _ _ H) as Ec. rewrite Ec in Hm.
  assert (f <> scur s) as Nfc. { intros ->. apply Hf. apply in_or_app. left. exact Hc. }
  assert (forall x, In x (L ++ opt o) -> (x =? f) = false) as Nf. { intros x Hx. apply Nat.eqb_neq. intros ->. exact (Hf Hx). }
  pose proof (i_nd _ _ _ _ H) as Nd.
  assert (forall x, In x t -> (x =? scur s) = false) as Nt.
  { intros x Hx. apply Nat.eqb_neq. intros ->. rewrite Et in Nd. cbn [app] in Nd. apply NoDup_cons_iff in Nd. apply (proj1 Nd). apply in_or_app. left. exact Hx. }
  assert (forall x, In x (opt o) -> (x =? scur s) = false) as No.
  { intros x Hx. apply Nat.eqb_neq. intros ->. rewrite Et in Nd. cbn [app] in Nd. apply NoDup_cons_iff in Nd. apply (proj1 Nd). apply in_or_app. right. exact Hx. }
  assert (forall l, (forall x, In x l -> (x =? f) = false) -> (forall x, In x (tl l) -> (x =? scur s) = false) -> linked m s l -> linked m' s' l) as LE.
  { intros l Q1 Q2 Q. apply (linked_ext m s); [| |exact Q]; intros x Hx.
    - rewrite Hm, Hs, (Q1 x Hx). destruct (x =? scur s) eqn:E; split; reflexivity.
    - assert (In x l) as Hl by (destruct l; [exact Hx|right; exact Hx]). rewrite Hs, (Q1 x Hl), (Q2 x Hx). split; reflexivity. }
  assert (last (f :: L) 0 = last L 0) as La by (rewrite Et; reflexivity).
  assert (In (last L 0) L) as LaI. { destruct (@exists_last _ L (i_ne _ _ _ _ H)) as (l' & a & ->). rewrite last_last. apply in_or_app. right. left. reflexivity. }
  constructor.
  - rewrite C1, C3. exact (i_cnt _ _ _ _ H).
  - rewrite C2, C4. reflexivity.
  - rewrite C4. reflexivity.
  - discriminate.
  - rewrite Et. apply linked_intro; rewrite ?Hs, ?Hm, ?Nat.eqb_refl, ?(proj2 (Nat.eqb_neq _ _) (not_eq_sym Nfc)); try reflexivity.
    rewrite <- Et. apply LE; [intros x Hx; apply Nf; apply in_or_app; left; exact Hx|rewrite Et; exact Nt|exact (i_lk _ _ _ _ H)].
  - cbn [hd]. rewrite Hs, Nat.eqb_refl. reflexivity.
  - rewrite La. pose proof (i_base _ _ _ _ H) as B. destruct o as [A|]; [|exact B]. destruct B as (B1 & B2 & B3 & B4 & B5). cbn [opt] in *.
    assert (In (hd 0 A) A) as Hh by (destruct A; [contradiction|left; reflexivity]).
    split; [exact B1|]. split; [apply LE; [intros x Hx; apply Nf; apply in_or_app; right; exact Hx|intros x Hx; apply No; destruct A; [exact Hx|right; exact Hx]|exact B2]|].
    split; [rewrite Hs, (Nf _ (in_or_app _ _ _ (or_intror Hh))), (No _ Hh); exact B3|]. split; [exact B4|].
    rewrite Hm, (Nf _ (in_or_app _ _ _ (or_introl LaI))). destruct (last L 0 =? scur s); exact B5.
  - rewrite Hs. destruct (0 =? f) eqn:E.
    + apply Nat.eqb_eq in E. exfalso. apply Hf. rewrite <- E. destruct (rstack_linked _ _ _ _ H) as (_ & _ & I0 & Inc & _). exact (Inc 0 I0).
    + destruct (0 =? scur s) eqn:E2; exact (i_prev0 _ _ _ _ H).
  - rewrite La, Hs, (Nf _ (in_or_app _ _ _ (or_introl LaI))). destruct (last L 0 =? scur s) eqn:E; cbn; exact (i_prev _ _ _ _ H).
  - cbn [app]. constructor; [exact Hf|exact Nd].
  - intros x Hx. cbn [app] in Hx. rewrite C3, Hs. destruct (x =? f) eqn:E.
    + apply Nat.eqb_eq in E. subst x. split; [exact Hn|split; reflexivity].
    + destruct Hx as [->|Hx]; [rewrite Nat.eqb_refl in E; discriminate|]. destruct (x =? scur s); exact (i_in _ _ _ _ H x Hx).
  - intros x Hx. cbn [app] in Hx. rewrite Hs. destruct (x =? f) eqn:E.
    + exfalso. apply Hx. left. apply Nat.eqb_eq in E. congruence.
    + destruct (x =? scur s) eqn:E2; [|apply (i_out _ _ _ _ H); intros Q; apply Hx; right; exact Q].
      exfalso. apply Hx. right. apply Nat.eqb_eq in E2. subst x. apply in_or_app. left. exact Hc.
  - intros x. rewrite Hs, C4. destruct (x =? f) eqn:E; [intros _ _; apply Nat.eqb_eq; exact E|]. destruct (x =? scur s) eqn:E2; cbn.
    + apply Nat.eqb_eq in E2. subst x. rewrite Hk. discriminate.
    + intros K S. exfalso. apply (proj1 (Nat.eqb_neq _ _) E2). exact (i_kill _ _ _ _ H x K S).
  - intros x. pose proof (i_rel _ _ _ _ H x) as R. destruct R as [R1 R2 R3 R4 R5 R6 R7 R8 R9 R10 R11 R12].
    destruct (Nat.eqb_spec x f) as [->|E].
    + constructor; rewrite ?Hm, ?Hs, ?Nat.eqb_refl; cbn; try reflexivity; try congruence; try (rewrite C6; exact R10).
      rewrite C6, C3. exact R10.
    + assert ((x =? f) = false) as Ef by (apply Nat.eqb_neq; exact E). destruct (Nat.eqb_spec x (scur s)) as [->|E2].
      * constructor; rewrite ?Hm, ?Hs, ?Ef, ?Nat.eqb_refl; cbn; try assumption; try reflexivity.
        -- intros _ _. destruct (i_in _ _ _ _ H (scur s) (in_or_app _ _ _ (or_introl Hc))) as (_ & _ & ->). split; [reflexivity|exact Nfc].
        -- rewrite C6, C3. exact R10.
      * assert ((x =? scur s) = false) as Es by (apply Nat.eqb_neq; exact E2).
        constructor; rewrite ?Hm, ?Hs, ?Ef, ?Es; try assumption.
        -- intros S _. apply R9; [exact S|exact E2].
        -- rewrite C6, C3. exact R10.
  - rewrite C5. intros T. destruct (i_tr _ _ _ _ H T) as [T1 T2]. split; [exact T1|]. intros x. rewrite Hs. destruct (x =? f) eqn:E.
    + intros _. right. left. apply Nat.eqb_eq in E. congruence.
    + destruct (x =? scur s) eqn:E2; [intros _; right; right; apply Nat.eqb_eq in E2; subst x; exact Hc|].
      intros S. destruct (T2 x S) as [Q|Q]; [left; exact Q|right; right; exact Q].
  - rewrite C5, C6. exact (i_inn _ _ _ _ H).
  - intros x. rewrite C3, C6, Hs. pose proof (i_int _ _ _ _ H) as I. destruct (x =? f) eqn:E; [apply Nat.eqb_eq in E; subst x; apply I|].
    destruct (x =? scur s); apply I.
  - intros x Hx. cbn [app] in Hx. rewrite Hs. destruct (x =? f) eqn:E; [exfalso; apply Hx; left; apply Nat.eqb_eq in E; congruence|].
    assert (~ In x (L ++ opt o)) as Q by (intros Q; apply Hx; right; exact Q). pose proof (i_aim _ _ _ _ H x Q) as Z. destruct (x =? scur s); exact Z.
  - intros Q. rewrite La, Hs, (Nf _ (in_or_app _ _ _ (or_introl LaI))). pose proof (i_low _ _ _ _ H Q) as Z. destruct (last L 0 =? scur s); exact Z.
  - rewrite Hs. pose proof (i_zero _ _ _ _ H) as Z. destruct (Nat.eqb_spec 0 f) as [E|E]; [cbn [inner]; rewrite <- E; exact Z|]. destruct (0 =? scur s); exact Z.
Qed.

(** The running fiber yields to the one below, or ends. *)
Lemma pop_ok : forall m s c p t o m' s' s0 pc tc,
  Inv m s (c :: p :: t) o ->
  count m' = count m -> cur m' = p -> scount s' = scount s -> scur s' = p -> transfers s' = transfers s -> inners s' = inners s ->
  (s0 = Live /\ pc = None /\ tc = WYield /\ killed (sfib s c) = false \/ s0 = Done) ->
  (forall x, fib m' x = if x =? c then mkF s0 pc None (ret (fib m c)) (match s0 with Live => true | _ => false end) (trf (fib m c)) (kld (fib m c)) None (troot (fib m c)) (internal (fib m c)) tc
                        else if x =? p then mkF (st (fib m x)) (par (fib m x)) None (ret (fib m x)) (yld (fib m x)) (trf (fib m x)) (kld (fib m x)) (err (fib m x)) (troot (fib m x)) (internal (fib m x)) (top (fib m x))
                        else fib m x) ->
  (forall x, sfib s' x = if x =? c then mkG s0 None None (match s0 with Live => true | _ => false end) (killed (sfib s c)) (call (sfib s c)) (aimed (sfib s c)) (inner (sfib s c))
                         else if x =? p then mkG (sst (sfib s x)) (prev (sfib s x)) None (yielding (sfib s x)) (killed (sfib s x)) (call (sfib s x)) (aimed (sfib s x)) (inner (sfib s x))
                         else sfib s x) ->
  Inv m' s' (p :: t) o.
Proof.
  intros m s c p t o m' s' s0 pc tc H C1 C2 C3 C4 C5 C6 Hc Hm Hs.
  pose proof (i_nd _ _ _ _ H) as Nd. cbn [app] in Nd. apply NoDup_cons_iff in Nd. destruct Nd as [Nc Nd].
  pose proof (proj1 (proj1 (NoDup_cons_iff _ _) Nd)) as Np.
  pose proof (i_top _ _ _ _ H) as Ec. cbn [hd] in Ec.
  assert (c <> p) as Ncp by (intros ->; apply Nc; left; reflexivity).
  assert (forall x, In x (p :: t ++ opt o) -> (x =? c) = false) as Nx by (intros x Hx; apply Nat.eqb_neq; intros ->; exact (Nc Hx)).
  assert (forall x, In x (t ++ opt o) -> (x =? p) = false) as Npx by (intros x Hx; apply Nat.eqb_neq; intros ->; exact (Np Hx)).
  assert (forall l, (forall x, In x l -> (x =? c) = false) -> (forall x, In x (tl l) -> (x =? p) = false) -> linked m s l -> linked m' s' l) as LE.
  { intros l Q1 Q2 Q. apply (linked_ext m s); [| |exact Q]; intros x Hx.
    - rewrite Hm, Hs, (Q1 x Hx). destruct (x =? p) eqn:E; split; reflexivity.
    - assert (In x l) as Hl by (destruct l; [exact Hx|right; exact Hx]). rewrite Hs, (Q1 x Hl), (Q2 x Hx). split; reflexivity. }
  destruct (i_lk _ _ _ _ H) as (K1 & K2 & K3 & K4 & K5).
  assert (In (last (p :: t) 0) (p :: t)) as LaI. { destruct (@exists_last _ (p :: t) ltac:(discriminate)) as (l' & a & ->). rewrite last_last. apply in_or_app. right. left. reflexivity. }
  assert (last (c :: p :: t) 0 = last (p :: t) 0) as La by reflexivity.
  assert (last (p :: t) 0 =? c = false) as Lc by (apply Nx; apply (in_or_app (p :: t) (opt o)); left; exact LaI).
  constructor.
  - rewrite C1, C3. exact (i_cnt _ _ _ _ H).
  - rewrite C2, C4. reflexivity.
  - rewrite C4. reflexivity.
  - discriminate.
  - apply LE; [|intros x Hx; apply Npx; apply in_or_app; left; exact Hx|exact K5].
    intros x Hx. apply Nx. apply (in_or_app (p :: t) (opt o)). left. exact Hx.
  - cbn [hd]. rewrite Hs, Nat.eqb_refl, (Nx p (or_introl eq_refl)). reflexivity.
  - pose proof (i_base _ _ _ _ H) as B. rewrite La in B. destruct o as [A|]; [|exact B]. destruct B as (B1 & B2 & B3 & B4 & B5). cbn [opt] in *.
    assert (In (hd 0 A) A) as Hh by (destruct A; [contradiction|left; reflexivity]).
    assert (forall x, In x A -> (x =? c) = false) as NA by (intros x Hx; apply Nx; right; apply in_or_app; right; exact Hx).
    assert (forall x, In x A -> (x =? p) = false) as NA2 by (intros x Hx; apply Npx; apply in_or_app; right; exact Hx).
    split; [exact B1|]. split; [apply LE; [exact NA|intros x Hx; apply NA2; destruct A; [exact Hx|right; exact Hx]|exact B2]|].
    split; [rewrite Hs, (NA _ Hh), (NA2 _ Hh); exact B3|]. split; [exact B4|].
    rewrite Hm, Lc. destruct (last (p :: t) 0 =? p); exact B5.
  - rewrite Hs. destruct (0 =? c); [reflexivity|]. destruct (0 =? p); exact (i_prev0 _ _ _ _ H).
  - pose proof (i_prev _ _ _ _ H) as B. rewrite La in B. rewrite Hs, Lc. destruct (last (p :: t) 0 =? p); exact B.
  - exact Nd.
  - intros x Hx. rewrite C3, Hs, (Nx x Hx). pose proof (i_in _ _ _ _ H x (or_intror Hx)) as Q. destruct (x =? p); exact Q.
  - intros x Hx. rewrite Hs. destruct (x =? c) eqn:E; [split; reflexivity|]. destruct (x =? p) eqn:E2.
    + exfalso. apply Hx. left. apply Nat.eqb_eq in E2. congruence.
    + apply (i_out _ _ _ _ H). intros [Q|Q]; [|exact (Hx Q)]. subst x. rewrite Nat.eqb_refl in E. discriminate.
  - intros x. rewrite Hs, C4. destruct (x =? c) eqn:E; cbn.
    + destruct Hc as [(-> & _ & _ & ->)| ->]; discriminate.
    + assert (x <> c) as Nxc by (apply Nat.eqb_neq; exact E).
      destruct (x =? p) eqn:E2; cbn; intros K S; exfalso; apply Nxc; rewrite <- Ec; exact (i_kill _ _ _ _ H x K S).
  - intros x. pose proof (i_rel _ _ _ _ H x) as R. destruct R as [R1 R2 R3 R4 R5 R6 R7 R8 R9 R10 R11 R12].
    destruct (Nat.eqb_spec x c) as [E|E].
    + rewrite E in *. constructor; rewrite ?Hm, ?Hs, ?Nat.eqb_refl; cbn; try reflexivity; try assumption.
      * intros S. destruct Hc as [(_ & -> & _)| ->]; [reflexivity|contradiction S; reflexivity].
      * intros S _. destruct Hc as [(-> & _ & -> & _)| ->]; [reflexivity|discriminate].
      * rewrite C6, C3. exact R10.
      * destruct Hc as [(-> & _)| ->]; [intros Q; contradiction Q; reflexivity|reflexivity].
      * destruct Hc as [(-> & _)| ->]; discriminate.
    + assert ((x =? c) = false) as Ef by (apply Nat.eqb_neq; exact E). destruct (Nat.eqb_spec x p) as [E2|E2].
      * rewrite E2 in *. constructor; rewrite ?Hm, ?Hs, ?Ef, ?Nat.eqb_refl; cbn; try assumption; try reflexivity.
        -- intros _ Q. contradiction Q. symmetry. exact C4.
        -- rewrite C6, C3. exact R10.
      * assert ((x =? p) = false) as Es by (apply Nat.eqb_neq; exact E2).
        constructor; rewrite ?Hm, ?Hs, ?Ef, ?Es; try assumption.
        -- intros S _. apply R9; [exact S|rewrite Ec; exact E].
        -- rewrite C6, C3. exact R10.
  - rewrite C5. intros T. destruct (i_tr _ _ _ _ H T) as [T1 T2]. split; [exact T1|]. intros x. rewrite Hs. destruct (x =? c) eqn:E; cbn.
    + intros ->. left. reflexivity.
    + assert (sst (sfib s x) = Live -> yielding (sfib s x) = true \/ In x (p :: t)) as Q.
      { intros S. destruct (T2 x S) as [Q|[Q|Q]]; [left; exact Q| |right; exact Q]. subst x. rewrite Nat.eqb_refl in E. discriminate. }
      destruct (x =? p); exact Q.
  - rewrite C5, C6. exact (i_inn _ _ _ _ H).
  - intros x. rewrite C3, C6, Hs. pose proof (i_int _ _ _ _ H) as I. destruct (x =? c) eqn:E; [apply Nat.eqb_eq in E; subst x; apply I|].
    destruct (x =? p); apply I.
  - intros x Hx. rewrite Hs. destruct (x =? c) eqn:E; cbn; [intros -> Q; discriminate|].
    assert (~ In x ((c :: p :: t) ++ opt o)) as Q. { intros [Q|Q]; [subst x; rewrite Nat.eqb_refl in E; discriminate|exact (Hx Q)]. }
    pose proof (i_aim _ _ _ _ H x Q) as Z. destruct (x =? p); exact Z.
  - intros Q. pose proof (i_low _ _ _ _ H Q) as Z. rewrite La in Z. rewrite Hs, Lc. destruct (last (p :: t) 0 =? p); exact Z.
  - rewrite Hs. pose proof (i_zero _ _ _ _ H) as Z. destruct (Nat.eqb_spec 0 c) as [E|E]; [cbn [inner]; rewrite <- E; exact Z|]. destruct (0 =? p); exact Z.
Qed.

(** Control is given by transfer to a fiber outside both stacks. *)
Lemma cross_ok : forall m s L o f m' s' k kf tf,
  Inv m s L o -> (o = None \/ L = [scur s]) -> ~ In f (L ++ opt o) -> f < scount s -> inners s = false -> aimed (sfib s f) = true ->
  count m' = count m -> cur m' = f -> scount s' = scount s -> scur s' = f -> transfers s' = true -> inners s' = inners s ->
  (forall x, fib m' x = if x =? f then mkF Live None None (Some (hd 0 (rstack L o))) false (trf (fib m f)) kf None (troot (fib m f)) (internal (fib m f)) tf
                        else if x =? cur m then mkF (st (fib m x)) (par (fib m x)) (resu (fib m x)) (ret (fib m x)) (yld (fib m x)) (trf (fib m x)) (kld (fib m x)) (err (fib m x)) (troot (fib m x)) (internal (fib m x)) (WCall f k)
                        else fib m x) ->
  (forall x, sfib s' x = if x =? f then mkG Live None None false kf (call (sfib s f)) (aimed (sfib s f)) (inner (sfib s f))
                         else if x =? scur s then mkG (sst (sfib s x)) (prev (sfib s x)) (waits (sfib s x)) (yielding (sfib s x)) (killed (sfib s x)) (f, k) (aimed (sfib s x)) (inner (sfib s x))
                         else sfib s x) ->
  killed (sfib s (scur s)) = false ->
  Inv m' s' [f] (Some (rstack L o)).
Proof.
  intros m s L o f m' s' k kf tf H Hd Hf Hn Hi Ha C1 C2 C3 C4 C5 C6 Hm Hs Hk.
  destruct (cur_in _ _ _ _ H) as [Hc [t Et]]. pose proof (i_cur _ _ _ _ H) as Ec. rewrite Ec in Hm.
  destruct (rstack_linked _ _ _ _ H) as (Lk & W & I0 & Inc & N).
  assert (f <> scur s) as Nfc. { intros ->. apply Hf. apply in_or_app. left. exact Hc. }
  assert (forall x, In x (rstack L o) -> (x =? f) = false) as Nf. { intros x Hx. apply Nat.eqb_neq. intros ->. exact (Hf (Inc _ Hx)). }
  pose proof (i_nd _ _ _ _ H) as Nd.
  assert (forall x, In x (tl (rstack L o)) -> (x =? scur s) = false) as Nt.
  { intros x Hx. apply Nat.eqb_neq. intros ->. destruct o as [A|]; cbn [rstack opt] in *.
    - rewrite Et in Nd. cbn [app] in Nd. apply NoDup_cons_iff in Nd. apply (proj1 Nd). apply in_or_app. right. destruct A; [exact Hx|right; exact Hx].
    - rewrite Et in N, Hx. apply NoDup_cons_iff in N. exact (proj1 N Hx). }
  assert (In (hd 0 (rstack L o)) (rstack L o)) as Hh by (destruct (rstack L o); [destruct I0|left; reflexivity]).
  assert (last (rstack L o) 0 = 0) as La by (pose proof (i_base _ _ _ _ H) as B; destruct o as [A|]; [exact (proj1 (proj2 (proj2 (proj2 B))))|exact B]).
  constructor.
  - rewrite C1, C3. exact (i_cnt _ _ _ _ H).
  - rewrite C2, C4. reflexivity.
  - rewrite C4. reflexivity.
  - discriminate.
  - exact I.
  - cbn [hd]. rewrite Hs, Nat.eqb_refl. reflexivity.
  - split; [intros Q; rewrite Q in I0; exact I0|]. split.
    + apply (linked_ext m s); [| |exact Lk]; intros x Hx.
      * rewrite Hm, Hs, (Nf x Hx). destruct (x =? scur s) eqn:E; split; reflexivity.
      * assert (In x (rstack L o)) as Hl by (destruct (rstack L o); [exact Hx|right; exact Hx]). rewrite Hs, (Nf x Hl), (Nt x Hx). split; reflexivity.
    + split; [rewrite Hs, (Nf _ Hh); destruct (hd 0 (rstack L o) =? scur s); exact W|]. split; [exact La|].
      cbn [last]. rewrite Hm, Nat.eqb_refl. reflexivity.
  - rewrite Hs, (Nf 0 I0). destruct (0 =? scur s) eqn:E2; exact (i_prev0 _ _ _ _ H).
  - cbn [last]. rewrite Hs, Nat.eqb_refl. reflexivity.
  - cbn [app opt]. constructor; [intros Q; exact (Hf (Inc _ Q))|exact N].
  - intros x Hx. cbn [app opt] in Hx. rewrite C3, Hs. destruct (x =? f) eqn:E.
    + apply Nat.eqb_eq in E. subst x. split; [exact Hn|split; reflexivity].
    + destruct Hx as [->|Hx]; [rewrite Nat.eqb_refl in E; discriminate|]. destruct (x =? scur s); exact (i_in _ _ _ _ H x (Inc x Hx)).
  - intros x Hx. cbn [app opt] in Hx. rewrite Hs. destruct (x =? f) eqn:E.
    + exfalso. apply Hx. left. apply Nat.eqb_eq in E. congruence.
    + assert (waits (sfib s x) = None /\ prev (sfib s x) = None) as Q; [|destruct (x =? scur s); exact Q].
      destruct o as [A|]; cbn [rstack] in *.
      * destruct Hd as [Q|Q]; [discriminate|]. pose proof (i_wait _ _ _ _ H) as Ww. pose proof (i_prev _ _ _ _ H) as Wp. rewrite Q in Ww, Wp. cbn in Ww, Wp.
        destruct (Nat.eqb_spec x (scur s)) as [->|E2]; [split; assumption|].
        apply (i_out _ _ _ _ H). rewrite Q. intros [R|R]; [apply E2; congruence|]. apply Hx. right. exact R.
      * apply (i_out _ _ _ _ H). rewrite app_nil_r. intros R. apply Hx. right. exact R.
  - intros x. rewrite Hs, C4. destruct (x =? f) eqn:E; [intros _ _; apply Nat.eqb_eq; exact E|]. destruct (x =? scur s) eqn:E2; cbn.
    + apply Nat.eqb_eq in E2. subst x. rewrite Hk. discriminate.
    + intros K S. exfalso. apply (proj1 (Nat.eqb_neq _ _) E2). exact (i_kill _ _ _ _ H x K S).
  - intros x. pose proof (i_rel _ _ _ _ H x) as R. destruct R as [R1 R2 R3 R4 R5 R6 R7 R8 R9 R10 R11 R12].
    destruct (Nat.eqb_spec x f) as [->|E].
    + constructor; rewrite ?Hm, ?Hs, ?Nat.eqb_refl; cbn; try reflexivity; try congruence.
      rewrite C6, C3. exact R10.
    + assert ((x =? f) = false) as Ef by (apply Nat.eqb_neq; exact E). destruct (Nat.eqb_spec x (scur s)) as [->|E2].
      * constructor; rewrite ?Hm, ?Hs, ?Ef, ?Nat.eqb_refl; cbn; try assumption; try reflexivity.
        -- intros _ _. destruct (i_in _ _ _ _ H (scur s) (in_or_app _ _ _ (or_introl Hc))) as (_ & _ & ->). split; [reflexivity|exact Nfc].
        -- rewrite C6, C3. exact R10.
      * assert ((x =? scur s) = false) as Es by (apply Nat.eqb_neq; exact E2).
        constructor; rewrite ?Hm, ?Hs, ?Ef, ?Es; try assumption.
        -- intros S _. apply R9; [exact S|exact E2].
        -- rewrite C6, C3. exact R10.
  - rewrite C5. discriminate.
  - rewrite C6, Hi. discriminate.
  - intros x. rewrite C3, C6, Hs. pose proof (i_int _ _ _ _ H) as I. destruct (x =? f) eqn:E; [apply Nat.eqb_eq in E; subst x; apply I|].
    destruct (x =? scur s); apply I.
  - intros x Hx. cbn [app opt] in Hx. rewrite Hs. destruct (x =? f) eqn:E; [exfalso; apply Hx; left; apply Nat.eqb_eq in E; congruence|].
    assert (sst (sfib s x) = Live -> yielding (sfib s x) = false -> aimed (sfib s x) = true) as Z; [|destruct (x =? scur s); exact Z].
    destruct o as [A|]; cbn [rstack] in *.
    + destruct Hd as [Q|Q]; [discriminate|]. destruct (Nat.eqb_spec x (scur s)) as [->|E2].
      * intros _ _. pose proof (i_low _ _ _ _ H ltac:(discriminate)) as Z. rewrite Q in Z. exact Z.
      * apply (i_aim _ _ _ _ H). rewrite Q. intros [R|R]; [apply E2; congruence|]. apply Hx. right. exact R.
    + apply (i_aim _ _ _ _ H). cbn [opt]. rewrite app_nil_r. intros R. apply Hx. right. exact R.
  - intros _. cbn [last]. rewrite Hs, Nat.eqb_refl. exact Ha.
  - rewrite Hs. pose proof (i_zero _ _ _ _ H) as Z. destruct (Nat.eqb_spec 0 f) as [E|E]; [cbn [inner]; rewrite <- E; exact Z|]. destruct (0 =? scur s); exact Z.
Qed.

(** Control goes back to the root's stack, by transfer or by the end of the fiber. *)
Lemma back_ok : forall m s c A m' s' s0 pc tc cl rt kf,
  Inv m s [c] (Some A) ->
  count m' = count m -> cur m' = hd 0 A -> scount s' = scount s -> scur s' = hd 0 A -> transfers s' = true -> inners s' = inners s -> inners s = false ->
  (s0 = Live /\ pc = None /\ tc = WCall (fst cl) (snd cl) /\ fst cl = hd 0 A /\ killed (sfib s c) = false \/ s0 = Done) ->
  (forall q, prev (sfib s (hd 0 A)) = Some q -> rt = Some q) ->
  (forall x, fib m' x = if x =? c then mkF s0 pc None (ret (fib m c)) false (trf (fib m c)) (kld (fib m c)) None (troot (fib m c)) (internal (fib m c)) tc
                        else if x =? hd 0 A then mkF (st (fib m x)) (par (fib m x)) (resu (fib m x)) rt (yld (fib m x)) (trf (fib m x)) kf (err (fib m x)) (troot (fib m x)) (internal (fib m x)) (top (fib m x))
                        else fib m x) ->
  (forall x, sfib s' x = if x =? c then mkG s0 None None false (killed (sfib s c)) cl (aimed (sfib s c)) (inner (sfib s c))
                         else if x =? hd 0 A then mkG (sst (sfib s x)) (prev (sfib s x)) (waits (sfib s x)) (yielding (sfib s x)) kf (call (sfib s x)) (aimed (sfib s x)) (inner (sfib s x))
                         else sfib s x) ->
  Inv m' s' A None.
Proof.
  intros m s c A m' s' s0 pc tc cl rt kf H C1 C2 C3 C4 C5 C6 Hi Hc Hrt Hm Hs.
  pose proof (i_nd _ _ _ _ H) as Nd. cbn [app opt] in Nd. apply NoDup_cons_iff in Nd. destruct Nd as [Nc Nd].
  pose proof (i_top _ _ _ _ H) as Ec. cbn [hd] in Ec.
  destruct (i_base _ _ _ _ H) as (B1 & B2 & B3 & B4 & _).
  assert (forall x, In x A -> (x =? c) = false) as Nx by (intros x Hx; apply Nat.eqb_neq; intros ->; exact (Nc Hx)).
  assert (In (hd 0 A) A) as Hh by (destruct A; [contradiction|left; reflexivity]).
  assert (In (last A 0) A) as LaI. { destruct (@exists_last _ A B1) as (l' & a & ->). rewrite last_last. apply in_or_app. right. left. reflexivity. }
  constructor.
  - rewrite C1, C3. exact (i_cnt _ _ _ _ H).
  - rewrite C2, C4. reflexivity.
  - rewrite C4. reflexivity.
  - exact B1.
  - destruct A as [|h [|y t]]; [exact I|exact I|]. cbn [hd] in *. destruct B2 as (D1 & D2 & D3 & D4 & D5).
    pose proof (proj1 (proj1 (NoDup_cons_iff _ _) Nd)) as Nh.
    assert (forall x, In x (y :: t) -> (x =? h) = false) as Nhx by (intros x Hx; apply Nat.eqb_neq; intros ->; exact (Nh Hx)).
    apply linked_intro; rewrite ?Hs, ?Hm, ?Nat.eqb_refl, ?(Nx h (or_introl eq_refl)), ?(Nx y (or_intror (or_introl eq_refl))), ?(Nhx y (or_introl eq_refl)); try assumption.
    + cbn. apply Hrt. exact D2.
    + apply (linked_ext m s); [| |exact D5]; intros x Hx.
      * rewrite Hm, Hs, (Nx x (or_intror Hx)), (Nhx x Hx). split; reflexivity.
      * rewrite Hs, (Nx x (or_intror (or_intror Hx))), (Nhx x (or_intror Hx)). split; reflexivity.
  - rewrite Hs, Nat.eqb_refl, (Nx _ Hh). exact B3.
  - exact B4.
  - rewrite Hs. destruct (0 =? c); [reflexivity|]. destruct (0 =? hd 0 A); exact (i_prev0 _ _ _ _ H).
  - rewrite B4, Hs. rewrite <- B4 at 1. rewrite (Nx _ LaI). destruct (0 =? hd 0 A); exact (i_prev0 _ _ _ _ H).
  - cbn [opt]. rewrite app_nil_r. exact Nd.
  - intros x Hx. cbn [opt] in Hx. rewrite app_nil_r in Hx. rewrite C3, Hs, (Nx x Hx). pose proof (i_in _ _ _ _ H x (or_intror Hx)) as Q. destruct (x =? hd 0 A); exact Q.
  - intros x Hx. cbn [opt] in Hx. rewrite app_nil_r in Hx. rewrite Hs. destruct (x =? c) eqn:E; [split; reflexivity|]. destruct (x =? hd 0 A) eqn:E2.
    + exfalso. apply Hx. apply Nat.eqb_eq in E2. rewrite E2. exact Hh.
    + apply (i_out _ _ _ _ H). intros [Q|Q]; [|exact (Hx Q)]. subst x. rewrite Nat.eqb_refl in E. discriminate.
  - intros x. rewrite Hs, C4. destruct (x =? c) eqn:E; cbn.
    + destruct Hc as [(-> & _ & _ & _ & ->)| ->]; discriminate.
    + assert (x <> c) as Nxc by (apply Nat.eqb_neq; exact E).
      destruct (x =? hd 0 A) eqn:E2; cbn; intros K S; [apply Nat.eqb_eq; exact E2|exfalso; apply Nxc; rewrite <- Ec; exact (i_kill _ _ _ _ H x K S)].
  - intros x. pose proof (i_rel _ _ _ _ H x) as R. destruct R as [R1 R2 R3 R4 R5 R6 R7 R8 R9 R10 R11 R12].
    destruct (Nat.eqb_spec x c) as [E|E].
    + rewrite E in *. constructor; rewrite ?Hm, ?Hs, ?Nat.eqb_refl; cbn; try reflexivity; try assumption.
      * intros S. destruct Hc as [(_ & -> & _)| ->]; [reflexivity|contradiction S; reflexivity].
      * intros S Q. destruct Hc as [(_ & _ & -> & X & _)| ->]; [|discriminate]. split; [reflexivity|]. rewrite X. rewrite C4 in Q. exact (not_eq_sym Q).
      * rewrite C6, C3. exact R10.
      * destruct Hc as [(-> & _)| ->]; discriminate.
    + assert ((x =? c) = false) as Ef by (apply Nat.eqb_neq; exact E). destruct (Nat.eqb_spec x (hd 0 A)) as [E2|E2].
      * rewrite E2 in *. constructor; rewrite ?Hm, ?Hs, ?Ef, ?Nat.eqb_refl; cbn; try assumption; try reflexivity.
        -- intros _ Q. contradiction Q. symmetry. exact C4.
        -- rewrite C6, C3. exact R10.
        -- rewrite (proj1 (proj2 (i_in _ _ _ _ H (hd 0 A) (or_intror Hh)))). discriminate.
      * assert ((x =? hd 0 A) = false) as Es by (apply Nat.eqb_neq; exact E2).
        constructor; rewrite ?Hm, ?Hs, ?Ef, ?Es; try assumption.
        -- intros S _. apply R9; [exact S|rewrite Ec; exact E].
        -- rewrite C6, C3. exact R10.
  - rewrite C5. discriminate.
  - rewrite C6, Hi. discriminate.
  - intros x. rewrite C3, C6, Hs. pose proof (i_int _ _ _ _ H) as I. destruct (x =? c) eqn:E; [apply Nat.eqb_eq in E; subst x; apply I|].
    destruct (x =? hd 0 A); apply I.
  - intros x Hx. cbn [opt] in Hx. rewrite app_nil_r in Hx. rewrite Hs. destruct (x =? c) eqn:E; cbn.
    + intros _ _. exact (i_low _ _ _ _ H ltac:(discriminate)).
    + assert (~ In x ([c] ++ opt (Some A))) as Q. { intros [Q|Q]; [subst x; rewrite Nat.eqb_refl in E; discriminate|exact (Hx Q)]. }
      pose proof (i_aim _ _ _ _ H x Q) as Z. destruct (x =? hd 0 A); exact Z.
  - intros Q. contradiction Q. reflexivity.
  - rewrite Hs. pose proof (i_zero _ _ _ _ H) as Z. destruct (Nat.eqb_spec 0 c) as [E|E]; [cbn [inner]; rewrite <- E; exact Z|]. destruct (0 =? hd 0 A); exact Z.
Qed.
