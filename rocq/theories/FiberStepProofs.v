(** Every operation keeps the invariant and shows the same. *)
From Coq Require Import List Bool Arith ZArith Lia.
From Verif Require Import FiberModel FiberSpec FiberProofs.
Import ListNotations.

Definition good (x : state * res) (y : sstate * res) : Prop :=
  snd x = snd y /\ snd x <> Crash /\ exists L o, Inv (fst x) (fst y) L o.
Ltac un := unfold set_st, set_par, set_resu, set_ret, set_yld, set_trf, set_kld, set_err, set_top,
                  s_st, s_prev, s_waits, s_yielding, s_killed, s_call, s_aimed in *.
Ltac ev := repeat (cbn [fst snd count cur fib st par resu ret yld trf kld err troot internal top
                        scount scur sfib transfers inners sst prev waits yielding killed call aimed inner on son go sgo];
                   unfold upd; rewrite ?Nat.eqb_refl;
                   repeat match goal with H : (?a =? ?b) = _ |- context [?a =? ?b] => rewrite H end).
Ltac pts := intros ?x; ev; repeat match goal with |- context [?x =? ?y] => is_var x; destruct (Nat.eqb_spec x y) as [->|]; ev end.

Lemma enter_val : forall m s L o f v k, Inv m s L o -> ~ In f (L ++ opt o) -> f < scount s ->
  sst (sfib s f) = Live -> yielding (sfib s f) = true -> killed (sfib s (scur s)) = false ->
  good (enter m f (Some v) k) (sresume s f (RVal v) k).
Proof.
  intros m s L o f v k H Hf Hn Hl Hy Hk.
  destruct (cur_in _ _ _ _ H) as [Hc [t Et]]. pose proof (i_cur _ _ _ _ H) as Ec.
  assert (f <> scur s) as Nfc. { intros ->. apply Hf. apply in_or_app. left. exact Hc. }
  assert ((f =? scur s) = false) as E1 by (apply Nat.eqb_neq; exact Nfc).
  assert ((scur s =? f) = false) as E2 by (apply Nat.eqb_neq; exact (not_eq_sym Nfc)).
  destruct (i_rel _ _ _ _ H f) as [R1 R2 R3 R4 R5 R6 R7 R8 R9 R10 R11 R12]. specialize (R9 Hl Nfc). rewrite Hy in R9. rewrite Hl in R1.
  destruct (i_out _ _ _ _ H f Hf) as [O1 O2].
  assert (killed (sfib s f) = false) as Kf.
  { destruct (killed (sfib s f)) eqn:Q; [|reflexivity]. contradiction Nfc. exact (i_kill _ _ _ _ H f Q Hl). }
  unfold good, enter, sresume, arrive, to_fiber, land. rewrite Ec. un. ev. rewrite R1, R9, Hl. ev. rewrite Kf, Hy. ev.
  rewrite andb_false_r. ev.
  split; [reflexivity|]. split; [discriminate|]. exists (f :: L), o.
  eapply (push_ok m s L o f _ _ k false WYield H Hf Hn); try reflexivity; try exact Hk.
  - rewrite Ec. pts; try reflexivity. f_equal; congruence.
  - pts; try reflexivity. f_equal; congruence.
Qed.
Lemma enter_raise : forall m s L o f e k, Inv m s L o -> ~ In f (L ++ opt o) -> f < scount s ->
  sst (sfib s f) = Live -> yielding (sfib s f) = true -> killed (sfib s (scur s)) = false ->
  good (enter (on m f (set_err (Some e))) f None k) (sresume s f (RErr e) k).
Proof.
  intros m s L o f e k H Hf Hn Hl Hy Hk.
  destruct (cur_in _ _ _ _ H) as [Hc [t Et]]. pose proof (i_cur _ _ _ _ H) as Ec.
  assert (f <> scur s) as Nfc. { intros ->. apply Hf. apply in_or_app. left. exact Hc. }
  assert ((f =? scur s) = false) as E1 by (apply Nat.eqb_neq; exact Nfc).
  assert ((scur s =? f) = false) as E2 by (apply Nat.eqb_neq; exact (not_eq_sym Nfc)).
  destruct (i_rel _ _ _ _ H f) as [R1 R2 R3 R4 R5 R6 R7 R8 R9 R10 R11 R12]. specialize (R9 Hl Nfc). rewrite Hy in R9. rewrite Hl in R1.
  destruct (i_out _ _ _ _ H f Hf) as [O1 O2].
  assert (killed (sfib s f) = false) as Kf.
  { destruct (killed (sfib s f)) eqn:Q; [|reflexivity]. contradiction Nfc. exact (i_kill _ _ _ _ H f Q Hl). }
  unfold good, enter, sresume, arrive, to_fiber, land. un. ev. rewrite Ec. ev. rewrite R1, R9, Hl. ev. rewrite Kf. ev.
  split; [reflexivity|]. split; [discriminate|]. exists (f :: L), o.
  eapply (push_ok m s L o f _ _ k false WYield H Hf Hn); try reflexivity; try exact Hk.
  - rewrite Ec. pts; try reflexivity. f_equal; congruence.
  - pts; try reflexivity. f_equal; congruence.
Qed.
Lemma enter_kill : forall m s L o f, Inv m s L o -> ~ In f (L ++ opt o) -> f < scount s ->
  sst (sfib s f) = Live -> yielding (sfib s f) = true -> killed (sfib s (scur s)) = false ->
  good (enter (on (on m f (set_kld true)) f (set_err (Some EKill))) f None true) (sresume (son s f (s_killed true)) f (RErr EKill) true).
Proof.
  intros m s L o f H Hf Hn Hl Hy Hk.
  destruct (cur_in _ _ _ _ H) as [Hc [t Et]]. pose proof (i_cur _ _ _ _ H) as Ec.
  assert (f <> scur s) as Nfc. { intros ->. apply Hf. apply in_or_app. left. exact Hc. }
  assert ((f =? scur s) = false) as E1 by (apply Nat.eqb_neq; exact Nfc).
  assert ((scur s =? f) = false) as E2 by (apply Nat.eqb_neq; exact (not_eq_sym Nfc)).
  destruct (i_rel _ _ _ _ H f) as [R1 R2 R3 R4 R5 R6 R7 R8 R9 R10 R11 R12]. specialize (R9 Hl Nfc). rewrite Hy in R9. rewrite Hl in R1.
  destruct (i_out _ _ _ _ H f Hf) as [O1 O2].
  unfold good, enter, sresume, arrive, to_fiber, land. un. ev. rewrite Ec. ev. rewrite R1, R9, Hl. ev.
  split; [reflexivity|]. split; [discriminate|]. exists (f :: L), o.
  eapply (push_ok m s L o f _ _ true true WYield H Hf Hn); try reflexivity; try exact Hk.
  - rewrite Ec. pts; try reflexivity. f_equal; congruence.
  - pts; try reflexivity. f_equal; congruence.
Qed.
(** First activations. *)
Lemma activate_resume : forall m s L o f v, Inv m s L o -> ~ In f (L ++ opt o) -> f < scount s ->
  sst (sfib s f) = Created -> killed (sfib s (scur s)) = false ->
  good (activate m f v true (cur m)) (sresume s f (RVal v) false).
Proof.
  intros m s L o f v H Hf Hn Hl Hk.
  destruct (cur_in _ _ _ _ H) as [Hc [t Et]]. pose proof (i_cur _ _ _ _ H) as Ec.
  assert (f <> scur s) as Nfc. { intros ->. apply Hf. apply in_or_app. left. exact Hc. }
  assert ((f =? scur s) = false) as E1 by (apply Nat.eqb_neq; exact Nfc).
  assert ((scur s =? f) = false) as E2 by (apply Nat.eqb_neq; exact (not_eq_sym Nfc)).
  destruct (i_rel _ _ _ _ H f) as [R1 R2 R3 R4 R5 R6 R7 R8 R9 R10 R11 R12].
  destruct (i_out _ _ _ _ H f Hf) as [O1 O2]. assert (yielding (sfib s f) = false) as Yf by (apply R11; congruence). pose proof (R12 Hl) as Kf.
  unfold good, activate, sresume, to_fiber. rewrite Ec. un. ev. rewrite Hl. ev.
  split; [reflexivity|]. split; [discriminate|]. exists (f :: L), o.
  eapply (push_ok m s L o f _ _ false false (top (fib m f)) H Hf Hn); try reflexivity; try exact Hk.
  - rewrite Ec. pts; try reflexivity. f_equal; congruence.
  - pts; try reflexivity. f_equal; congruence.
Qed.

(** A link back is a link forth. *)
Lemma linked_prev : forall m s l g p, linked m s l -> In g l -> g <> last l 0 -> prev (sfib s g) = Some p -> waits (sfib s p) = Some g /\ In p l.
Proof.
  intros m s l g p. induction l as [|x [|y t] IH]; intros H Hg Hl Hp; [destruct Hg| |].
  - destruct Hg as [->|[]]. contradiction Hl. reflexivity.
  - destruct H as (A & B & C & D & E). destruct Hg as [->|Hg].
    + rewrite B in Hp. injection Hp as ->. split; [exact A|right; left; reflexivity].
    + destruct (IH E Hg Hl Hp) as [Q1 Q2]. split; [exact Q1|right; exact Q2].
Qed.
Lemma prev_waits : forall m s L o g p, Inv m s L o -> prev (sfib s g) = Some p -> waits (sfib s p) = Some g.
Proof.
  intros m s L o g p H Hp.
  destruct (in_dec Nat.eq_dec g (L ++ opt o)) as [I|I]; [|destruct (i_out _ _ _ _ H g I) as [_ Q]; congruence].
  apply in_app_or in I. destruct I as [I|I].
  - apply (linked_prev m s L g p (i_lk _ _ _ _ H) I); [intros ->; rewrite (i_prev _ _ _ _ H) in Hp; discriminate|exact Hp].
  - destruct o as [A|]; [|destruct I]. destruct (i_base _ _ _ _ H) as (B1 & B2 & B3 & B4 & _).
    apply (linked_prev m s A g p B2 I); [intros ->; rewrite B4, (i_prev0 _ _ _ _ H) in Hp; discriminate|exact Hp].
Qed.
Lemma receive_val : forall m t g v, g <> t -> (st (fib m g) = Live -> par (fib m g) <> Some t) ->
  receive m t g (Some v) = (on m t (set_resu None), RVal v).
Proof.
  intros m t g v N P. assert ((g =? t) = false) as E by (apply Nat.eqb_neq; exact N). unfold receive. ev.
  destruct (st (fib m g)); try reflexivity. destruct (par (fib m g)) as [q|]; [|reflexivity].
  destruct (Nat.eqb_spec q t) as [->|]; [contradiction (P eq_refl eq_refl)|reflexivity].
Qed.
Lemma receive_err : forall m t g e, g <> t -> (st (fib m g) = Live -> par (fib m g) <> Some t) -> err (fib m t) = Some e ->
  receive m t g None = (on (on m t (set_resu None)) t (set_err None), match e with EKill => if kld (fib m g) then RVal VNil else RErr EKill | _ => RErr e end).
Proof.
  intros m t g e N P X. assert ((g =? t) = false) as E by (apply Nat.eqb_neq; exact N). unfold receive. ev.
  assert (match st (fib m g), par (fib m g) with
          | Live, Some p => if p =? t then on (on m t (set_resu None)) g (fun r => set_yld true (set_par None r)) else on m t (set_resu None)
          | _, _ => on m t (set_resu None) end = on m t (set_resu None)) as Q.
  { destruct (st (fib m g)); try reflexivity. destruct (par (fib m g)) as [q|]; [|reflexivity].
    destruct (Nat.eqb_spec q t) as [->|]; [contradiction (P eq_refl eq_refl)|reflexivity]. }
  unfold on, upd in Q |- *. cbn in Q |- *. rewrite Q. cbn. rewrite Nat.eqb_refl. cbn. rewrite X, E. destruct e; try reflexivity. destruct (kld (fib m g)); reflexivity.
Qed.
Lemma linked_wait : forall m s l g, linked m s l -> In g l -> g <> hd 0 l -> waits (sfib s g) <> None.
Proof.
  intros m s l g. induction l as [|x [|y t] IH]; intros H Hg Hl; [destruct Hg| |].
  - destruct Hg as [->|[]]. contradiction Hl. reflexivity.
  - destruct H as (A & B & C & D & E). destruct Hg as [->|Hg]; [contradiction Hl; reflexivity|].
    destruct (Nat.eq_dec g y) as [->|N]; [rewrite A; discriminate|exact (IH E Hg N)].
Qed.
(** A suspended fiber that waits for nobody is outside, or on top of the root's stack. *)
Lemma where_idle : forall m s L o f, Inv m s L o -> f <> scur s -> waits (sfib s f) = None ->
  ~ In f (L ++ opt o) \/ exists A, o = Some A /\ f = hd 0 A.
Proof.
  intros m s L o f H N W. destruct (in_dec Nat.eq_dec f (L ++ opt o)) as [I|I]; [right|left; exact I].
  apply in_app_or in I. destruct I as [I|I].
  - exfalso. apply (linked_wait m s L f (i_lk _ _ _ _ H) I); [rewrite <- (i_top _ _ _ _ H); exact N|exact W].
  - destruct o as [A|]; [|destruct I]. exists A. split; [reflexivity|]. destruct (i_base _ _ _ _ H) as (_ & B2 & _).
    destruct (Nat.eq_dec f (hd 0 A)) as [E|E]; [exact E|]. contradiction (linked_wait m s A f B2 I E W).
Qed.
Lemma direct_ok : forall m s L o, Inv m s L o -> direct s = true -> inners s = false /\ (o = None \/ L = [scur s]).
Proof.
  intros m s L o H D. unfold direct in D. apply andb_prop in D. destruct D as [D1 D2]. apply negb_true_iff in D1. split; [exact D1|].
  destruct (cur_in _ _ _ _ H) as [Hc [t Et]]. apply orb_prop in D2. destruct D2 as [D2|D2].
  - right. destruct t as [|y t]; [exact Et|]. pose proof (i_lk _ _ _ _ H) as Lk. rewrite Et in Lk. destruct Lk as (_ & B & _). rewrite B in D2. discriminate.
  - left. apply Nat.eqb_eq in D2. rewrite (inmost_zero _ _ _ _ H) in D2. destruct o as [A|]; [exfalso|reflexivity]. cbn [rstack] in D2.
    pose proof (i_nd _ _ _ _ H) as N. rewrite Et in N. cbn [app opt] in N. apply NoDup_cons_iff in N. apply (proj1 N). apply in_or_app. right.
    rewrite <- D2. destruct A; [|left; reflexivity]. destruct (i_base _ _ _ _ H) as (B & _). contradiction B. reflexivity.
Qed.
Lemma target_off : forall m s L o f, Inv m s L o -> inners s = false -> ~ In f (L ++ opt o) -> sst (sfib s f) <> Done -> return_target m f = hd 0 (rstack L o).
Proof.
  intros m s L o f H Hi Hf Hd. destruct (i_out _ _ _ _ H f Hf) as [_ O2]. unfold return_target.
  rewrite (r_par _ _ _ (i_rel _ _ _ _ H f) Hd), O2.
  assert (root_of m = 0) as ->.
  { unfold root_of. rewrite (i_cur _ _ _ _ H). destruct (cur_in _ _ _ _ H) as [Hc _].
    rewrite (r_root _ _ _ (i_rel _ _ _ _ H (scur s)) Hi (proj1 (i_in _ _ _ _ H _ (in_or_app _ _ _ (or_introl Hc))))).
    destruct (Nat.eqb_spec (scur s) 0) as [E|E]; [exact E|reflexivity]. }
  rewrite (chain_end_innermost m s (fun x => r_resu _ _ _ (i_rel _ _ _ _ H x))). rewrite (i_cnt _ _ _ _ H).
  exact (inmost_zero _ _ _ _ H).
Qed.
Lemma target_linked : forall m s L o f q, Inv m s L o -> sst (sfib s f) <> Done -> prev (sfib s f) = Some q -> return_target m f = q.
Proof. intros m s L o f q H Hd P. unfold return_target. rewrite (r_par _ _ _ (i_rel _ _ _ _ H f) Hd), P. reflexivity. Qed.
(** The call a suspended fiber is in is not on one it has resumed, unless it waits. *)
Lemma not_mine : forall m s L o f g, Inv m s L o -> waits (sfib s f) = None -> st (fib m g) = Live -> par (fib m g) <> Some f.
Proof.
  intros m s L o f g H W S Q. rewrite (r_st _ _ _ (i_rel _ _ _ _ H g)) in S.
  rewrite (r_par _ _ _ (i_rel _ _ _ _ H g)) in Q by (rewrite S; discriminate). rewrite (prev_waits _ _ _ _ _ _ H Q) in W. discriminate.
Qed.
Lemma aim_ok : forall m s L o f, Inv m s L o -> Inv (on m f (set_trf true)) (son s f (s_aimed true)) L o.
Proof.
  intros m s L o f H.
  assert (forall x, sst (sfib (son s f (s_aimed true)) x) = sst (sfib s x) /\ prev (sfib (son s f (s_aimed true)) x) = prev (sfib s x)
     /\ waits (sfib (son s f (s_aimed true)) x) = waits (sfib s x) /\ yielding (sfib (son s f (s_aimed true)) x) = yielding (sfib s x)
     /\ killed (sfib (son s f (s_aimed true)) x) = killed (sfib s x) /\ call (sfib (son s f (s_aimed true)) x) = call (sfib s x)
     /\ inner (sfib (son s f (s_aimed true)) x) = inner (sfib s x)) as E.
  { intros x. un. ev. destruct (Nat.eqb_spec x f) as [->|]; repeat split. }
  assert (forall x, ret (fib (on m f (set_trf true)) x) = ret (fib m x)) as F.
  { intros x. un. ev. destruct (Nat.eqb_spec x f) as [->|]; reflexivity. }
  destruct H as [H1 H2 H3 H4 H5 H6 H7 H8 H9 H10 H11 H12 H13 H14 H15 H16 H17 H18 H19 H20].
  assert (forall l, linked m s l -> linked (on m f (set_trf true)) (son s f (s_aimed true)) l) as LE.
  { intros l. apply linked_ext; intros x _; destruct (E x) as (E1 & E2 & E3 & E4 & E5 & E6 & E7); rewrite ?F, ?E2, ?E3, ?E6; split; reflexivity. }
  constructor; try assumption.
  - apply LE. exact H5.
  - rewrite (proj1 (proj2 (proj2 (E _)))). exact H6.
  - destruct o as [A|]; [|exact H7]. rewrite F. rewrite (proj1 (proj2 (proj2 (E _)))). destruct H7 as (a & b & c). split; [exact a|]. split; [apply LE; exact b|exact c].
  - rewrite (proj1 (proj2 (E _))). exact H8.
  - rewrite (proj1 (proj2 (E _))). exact H9.
  - intros x. destruct (E x) as (E1 & E2 & E3 & E4 & E5 & E6 & E7). rewrite E1, E4. exact (H11 x).
  - intros x. destruct (E x) as (E1 & E2 & E3 & E4 & E5 & E6 & E7). rewrite E2, E3. exact (H12 x).
  - intros x. destruct (E x) as (E1 & E2 & E3 & E4 & E5 & E6 & E7). rewrite E1, E5. exact (H13 x).
  - intros x. destruct (H14 x) as [R1 R2 R3 R4 R5 R6 R7 R8 R9 R10 R11 R12]. un. constructor; ev; destruct (Nat.eqb_spec x f) as [->|]; ev; try assumption; try reflexivity.
  - intros T. destruct (H15 T) as [a b]. split; [exact a|]. intros x. destruct (E x) as (E1 & E2 & E3 & E4 & E5 & E6 & E7). rewrite E1, E4. exact (b x).
  - intros x. destruct (E x) as (E1 & E2 & E3 & E4 & E5 & E6 & E7). rewrite E7. exact (H17 x).
  - intros x Hx. destruct (E x) as (E1 & E2 & E3 & E4 & E5 & E6 & E7). rewrite E1, E4. intros a b. pose proof (H18 x Hx a b) as Z. un. ev. destruct (x =? f); [reflexivity|exact Z].
  - intros Q. pose proof (H19 Q) as Z. un. ev. destruct (last L 0 =? f); [reflexivity|exact Z].
  - rewrite (proj2 (proj2 (proj2 (proj2 (proj2 (proj2 (E 0))))))). exact H20.
Qed.
Definition moved (s : sstate) : sstate := mkT (scount s) (scur s) (sfib s) true (inners s).
Lemma moved_ok : forall m s L o, Inv m s L o -> inners s = false -> Inv m (moved s) L o.
Proof.
  intros m s L o H Hi. destruct H as [H1 H2 H3 H4 H5 H6 H7 H8 H9 H10 H11 H12 H13 H14 H15 H16 H17 H18 H19 H20].
  assert (forall l, linked m s l -> linked m (moved s) l) as LE by (intros l; apply linked_ext; intros x _; split; reflexivity).
  constructor; try assumption.
  - apply LE. exact H5.
  - destruct o as [A|]; [|exact H7]. destruct H7 as (a & b & c). split; [exact a|]. split; [apply LE; exact b|exact c].
  - intros x. destruct (H14 x) as [R1 R2 R3 R4 R5 R6 R7 R8 R9 R10 R11 R12]. constructor; assumption.
  - discriminate.
  - cbn. rewrite Hi. discriminate.
Qed.
Lemma activate_transfer : forall m s L o f v, Inv m s L o -> transfers s = true -> direct s = true -> ~ In f (L ++ opt o) -> f < scount s ->
  sst (sfib s f) = Created -> aimed (sfib s f) = true -> killed (sfib s (scur s)) = false ->
  good (activate m f v false (return_target m f)) (stransfer s f (RVal v) false).
Proof.
  intros m s L o f v H T D Hf Hn Hl Ha Hk. destruct (direct_ok _ _ _ _ H D) as [Hi Ho].
  destruct (cur_in _ _ _ _ H) as [Hc [t Et]]. pose proof (i_cur _ _ _ _ H) as Ec.
  assert (f <> scur s) as Nfc. { intros ->. apply Hf. apply in_or_app. left. exact Hc. }
  assert ((f =? scur s) = false) as E1 by (apply Nat.eqb_neq; exact Nfc).
  assert ((scur s =? f) = false) as E2 by (apply Nat.eqb_neq; exact (not_eq_sym Nfc)).
  destruct (i_rel _ _ _ _ H f) as [R1 R2 R3 R4 R5 R6 R7 R8 R9 R10 R11 R12].
  destruct (i_out _ _ _ _ H f Hf) as [O1 O2]. assert (yielding (sfib s f) = false) as Yf by (apply R11; congruence). pose proof (R12 Hl) as Kf.
  assert (par (fib m f) = None) as Pf by (rewrite <- O2; apply R5; congruence).
  rewrite (target_off _ _ _ _ _ H Hi Hf) by congruence.
  unfold good, activate, stransfer, to_fiber. rewrite Ec. un. ev. rewrite Hl. ev.
  split; [reflexivity|]. split; [discriminate|]. exists [f], (Some (rstack L o)).
  eapply (cross_ok m s L o f _ _ false false (top (fib m f)) H Ho Hf Hn Hi Ha); try reflexivity; try exact Hk; try exact T.
  - rewrite Ec. pts; try reflexivity. f_equal; congruence.
  - pts; try reflexivity. f_equal; congruence.
Qed.
