(** Every label of the generated code is new and stands once. *)
From Coq Require Import List Bool Arith ZArith Lia.
From Verif Require Import GenModel GenStepProofs.
Import ListNotations.

Section Ind.
Variable P : expr -> Prop.
Definition Plv (t : lval) : Prop := match t with LVar _ => True | LAttr _ e => P e | LIdx b i => P b /\ P i end.
Hypothesis Hlit : forall v, P (ELit v).
Hypothesis Hself : P ESelf.
Hypothesis Hvar : forall x, P (EVar x).
Hypothesis Hbin : forall m a b, P a -> P b -> P (EBin m a b).
Hypothesis Hun : forall m a, P a -> P (EUn m a).
Hypothesis Hand : forall a b, P a -> P b -> P (EAnd a b).
Hypothesis Hor : forall a b, P a -> P b -> P (EOr a b).
Hypothesis Hasgn : forall x e, P e -> P (EAsgn x e).
Hypothesis Hop : forall m x e, P e -> P (EOp m x e).
Hypothesis HorA : forall x e, P e -> P (EOrA x e).
Hypothesis HandA : forall x e, P e -> P (EAndA x e).
Hypothesis Hseq : forall a b, P a -> P b -> P (ESeq a b).
Hypothesis Hif : forall c a b, P c -> P a -> P b -> P (EIf c a b).
Hypothesis Hwhile : forall op c b, P c -> P b -> P (EWhile op c b).
Hypothesis Hbrk : forall e, P e -> P (EBreak e).
Hypothesis Hnxt : forall e, P e -> P (ENext e).
Hypothesis Hret : forall e, P e -> P (EReturn e).
Hypothesis Hcall : forall m r es, P r -> Forall P es -> P (ECall m r es).
Hypothesis Hsafe : forall m r es, P r -> Forall P es -> P (ESafe m r es).
Hypothesis Harr : forall es, Forall P es -> P (EArr es).
Hypothesis Hset : forall t e, Plv t -> P e -> P (ESet t e).
Hypothesis Hmul : forall ts es, Forall Plv ts -> Forall P es -> P (EMul ts es).
Hypothesis Hspl : forall x e, P e -> P (ESplat x e).

Fixpoint expr_all (e : expr) : P e :=
  let lv (t : lval) : Plv t := match t with LVar _ => I | LAttr _ e => expr_all e | LIdx b i => conj (expr_all b) (expr_all i) end in
  let lvs := fix lvs (ts : list lval) : Forall Plv ts := match ts with [] => Forall_nil _ | t :: r => Forall_cons t (lv t) (lvs r) end in
  let all := fix all (es : list expr) : Forall P es := match es with [] => Forall_nil _ | e :: r => Forall_cons e (expr_all e) (all r) end in
  match e with
  | ELit v => Hlit v | ESelf => Hself | EVar x => Hvar x
  | EBin m a b => Hbin m a b (expr_all a) (expr_all b)
  | EUn m a => Hun m a (expr_all a)
  | EAnd a b => Hand a b (expr_all a) (expr_all b)
  | EOr a b => Hor a b (expr_all a) (expr_all b)
  | EAsgn x e => Hasgn x e (expr_all e)
  | EOp m x e => Hop m x e (expr_all e)
  | EOrA x e => HorA x e (expr_all e)
  | EAndA x e => HandA x e (expr_all e)
  | ESeq a b => Hseq a b (expr_all a) (expr_all b)
  | EIf c a b => Hif c a b (expr_all c) (expr_all a) (expr_all b)
  | EWhile op c b => Hwhile op c b (expr_all c) (expr_all b)
  | EBreak e => Hbrk e (expr_all e)
  | ENext e => Hnxt e (expr_all e)
  | EReturn e => Hret e (expr_all e)
  | ECall m r es => Hcall m r es (expr_all r) (all es)
  | ESafe m r es => Hsafe m r es (expr_all r) (all es)
  | EArr es => Harr es (all es)
  | ESet t e => Hset t e (lv t) (expr_all e)
  | EMul ts es => Hmul ts es (lvs ts) (all es)
  | ESplat x e => Hspl x e (expr_all e)
  end.
End Ind.

Definition cnt (l : nat) (c : code) : nat := count_occ Nat.eq_dec (labels c) l.
(** The labels of [c] are among [n], ..., [n' - 1], each at most once. *)
Definition within (n n' : nat) (c : code) : Prop := n <= n' /\ forall l, cnt l c <= 1 /\ (l < n \/ n' <= l -> cnt l c = 0).

Lemma cnt_app : forall l a b, cnt l (a ++ b) = cnt l a + cnt l b.
Proof. intros l a b. unfold cnt. rewrite labels_app, count_occ_app. reflexivity. Qed.
Lemma cnt_none : forall l c, labels c = [] -> cnt l c = 0.
Proof. intros l c H. unfold cnt. rewrite H. reflexivity. Qed.
Definition cnt1 (l : nat) (i : inst) : nat := match i with ILabel n => if l =? n then 1 else 0 | _ => 0 end.
Lemma cnt_label : forall l n, cnt1 l (ILabel n) <= 1 /\ (l <> n -> cnt1 l (ILabel n) = 0).
Proof. intros l n. cbn. destruct (Nat.eqb_spec l n); split; lia. Qed.
Lemma cnt_cons : forall l i c, cnt l (i :: c) = cnt1 l i + cnt l c.
Proof.
  intros l i c. unfold cnt. destruct i; try reflexivity. cbn. destruct (Nat.eq_dec l0 l) as [->|H]; [rewrite Nat.eqb_refl; reflexivity|].
  destruct (Nat.eqb_spec l l0) as [E|_]; [symmetry in E; contradiction|reflexivity].
Qed.
Lemma within_nodup : forall n n' c, within n n' c -> NoDup (labels c).
Proof. intros n n' c (_ & H). apply (NoDup_count_occ Nat.eq_dec). intro l. apply H. Qed.
Lemma within_none : forall n n' c, n <= n' -> labels c = [] -> within n n' c.
Proof. intros n n' c Hn Hl. split; [exact Hn|]. intro l. rewrite (cnt_none l c Hl). split; [lia|reflexivity]. Qed.
Lemma within_app : forall n m n' a b, within n m a -> within m n' b -> within n n' (a ++ b).
Proof.
  intros n m n' a b (H1 & H2) (H4 & H5). split; [lia|]. intro l. rewrite cnt_app. specialize (H2 l). specialize (H5 l). lia.
Qed.

Lemma labels_mov : forall d s, labels (mov d s) = [].
Proof. intros d s. unfold mov. destruct (reg_eqb d s); reflexivity. Qed.
Lemma labels_handle : forall k t s, labels (handle k t s) = [].
Proof. intros [[| |d|]|j l] t s; cbn [handle]; try reflexivity; apply labels_mov. Qed.
Lemma labels_after : forall k t, labels (after k t) = [].
Proof. intros [[| |d|]|j l] t; reflexivity. Qed.
Lemma labels_outer : forall k t, labels (outer k t) = [].
Proof. intros [[| |d|]|j l] t; cbn [outer]; try reflexivity; apply labels_mov. Qed.
Lemma labels_assign : forall s g, labels (assign s g) = [].
Proof. intros s [x|m r|b i]; cbn [assign]; try reflexivity; apply labels_mov. Qed.
Lemma labels_assigns : forall gs i, labels (assigns_code i gs) = [].
Proof. induction gs as [|g gs IH]; intro i; [reflexivity|]. cbn [assigns_code]. rewrite labels_app, labels_assign. apply IH. Qed.

Definition good (e : expr) : Prop := forall k t n L c n', gen k e t n L = (c, n') -> within n n' c.

Lemma good_reg : forall L e t n r c n' t', good e -> gen_reg L e t n = (r, c, n', t') -> within n n' c.
Proof.
  intros L e t n r c n' t' He H. unfold gen_reg in H. destruct (refer e).
  - injection H as <- <- <- <-. apply within_none; [lia|reflexivity].
  - destruct (gen (KM Push) e t n L) as [c1 n1] eqn:E. injection H as <- <- <- <-. exact (He _ _ _ _ _ _ E).
Qed.
Lemma good_gens : forall L es t n c n', Forall good es -> gens L es t n = (c, n') -> within n n' c.
Proof.
  intros L es. induction es as [|e es IH]; intros t n c n' Hes H; cbn in H.
  - injection H as <- <-. apply within_none; [lia|reflexivity].
  - inversion Hes; subst. destruct (gen (KM Push) e t n L) as [c1 n1] eqn:E1. destruct (gens L es (S t) n1) as [c2 n2] eqn:E2. injection H as <- <-.
    apply within_app with n1; [eapply H2; exact E1|eapply IH; [exact H3|exact E2]].
Qed.
Lemma good_args : forall L es t n rs c n', Forall good es -> gen_args L es t n = (rs, c, n') -> within n n' c.
Proof.
  intros L es t n rs c n' Hes H. unfold gen_args in H.
  assert (D : (let '(c, n) := gens L es t n in (temps t (length es), c, n)) = (rs, c, n') -> within n n' c).
  { intro D. destruct (gens L es t n) as [c1 n1] eqn:E. injection D as <- <- <-. eapply good_gens; [exact Hes|exact E]. }
  destruct es as [|[| |x| | | | | | | | | | | | | | | | | | | |] [|e' es]]; try exact (D H). injection H as <- <- <-. apply within_none; [lia|reflexivity].
Qed.
Lemma good_lv : forall L lv t n g c n' t', Plv good lv -> gen_lv L lv t n = (g, c, n', t') -> within n n' c.
Proof.
  intros L [x|m e|b i] t n g c n' t' Hl H; cbn [gen_lv] in H.
  - injection H as <- <- <- <-. apply within_none; [lia|reflexivity].
  - destruct (gen_reg L e t n) as [[[r c1] n1] t1] eqn:E. injection H as <- <- <- <-. eapply good_reg; [exact Hl|exact E].
  - destruct Hl as [Hb Hi].
    assert (B : exists rb cb n1 t1, (match b with ESelf => (RSelf, [], n, t) | _ => let '(c, n) := gen (KM Push) b t n L in (RTmp t, c, n, S t) end) = (rb, cb, n1, t1) /\ within n n1 cb).
    { destruct (gen (KM Push) b t n L) as [cb nb] eqn:E. apply Hb in E.
      destruct b; try (exists (RTmp t), cb, nb, (S t); split; [reflexivity|exact E]).
      exists RSelf, [], n, t. split; [reflexivity|]. apply within_none; [lia|reflexivity]. }
    destruct B as (rb & cb & n1 & t1 & B & Hw). rewrite B in H.
    destruct (gen (KM Push) i t1 n1 L) as [ci n2] eqn:E. injection H as <- <- <- <-. apply within_app with n1; [exact Hw|exact (Hi _ _ _ _ _ _ E)].
Qed.
Lemma good_lvs : forall L ts t n gs c n' t', Forall (Plv good) ts -> gen_lvs L ts t n = (gs, c, n', t') -> within n n' c.
Proof.
  intros L ts. induction ts as [|lv ts IH]; intros t n gs c n' t' Hl H; cbn [gen_lvs] in H.
  - injection H as <- <- <- <-. apply within_none; [lia|reflexivity].
  - inversion Hl; subst. destruct (gen_lv L lv t n) as [[[g c1] n1] t1] eqn:E1. destruct (gen_lvs L ts t1 n1) as [[[gs2 c2] n2] t2] eqn:E2. injection H as <- <- <- <-.
    apply within_app with n1; [eapply good_lv; [exact H2|exact E1]|eapply IH; [exact H3|exact E2]].
Qed.

Ltac pieces := repeat (cbv beta in *; match goal with
  | H : context [gen ?k ?e ?t ?n ?L] |- _ => let E := fresh "E" in destruct (gen k e t n L) as [? ?] eqn:E; revert E
  | H : context [gen_reg ?L ?e ?t ?n] |- _ => let E := fresh "E" in destruct (gen_reg L e t n) as [[[? ?] ?] ?] eqn:E; revert E
  | H : context [gen_args ?L ?e ?t ?n] |- _ => let E := fresh "E" in destruct (gen_args L e t n) as [[? ?] ?] eqn:E; revert E
  | H : context [gens ?L ?e ?t ?n] |- _ => let E := fresh "E" in destruct (gens L e t n) as [? ?] eqn:E; revert E
  | H : context [gen_lv ?L ?e ?t ?n] |- _ => let E := fresh "E" in destruct (gen_lv L e t n) as [[[? ?] ?] ?] eqn:E; revert E
  | H : context [gen_lvs ?L ?e ?t ?n] |- _ => let E := fresh "E" in destruct (gen_lvs L e t n) as [[[? ?] ?] ?] eqn:E; revert E
  | H : (_, _) = (_, _) |- _ => injection H as <- <-
  end); intros.
Ltac know := repeat match goal with
  | Hg : good ?e, E : gen _ ?e _ _ _ = _ |- _ => apply Hg in E
  | Hg : good ?e, E : gen_reg _ ?e _ _ = _ |- _ => apply (good_reg _ _ _ _ _ _ _ _ Hg) in E
  | Hg : Forall good ?e, E : gen_args _ ?e _ _ = _ |- _ => apply (good_args _ _ _ _ _ _ _ Hg) in E
  | Hg : Forall good ?e, E : gens _ ?e _ _ = _ |- _ => apply (good_gens _ _ _ _ _ _ Hg) in E
  | Hg : Plv good ?e, E : gen_lv _ ?e _ _ = _ |- _ => apply (good_lv _ _ _ _ _ _ _ _ Hg) in E
  | Hg : Forall (Plv good) ?e, E : gen_lvs _ ?e _ _ = _ |- _ => apply (good_lvs _ _ _ _ _ _ _ _ Hg) in E
  end.
(** Everything is a sum of the labels of the pieces. *)
Ltac count :=
  repeat match goal with H : within _ _ _ |- _ => destruct H as [? H] end;
  split; [lia|]; let l := fresh "l" in intro l;
  repeat match goal with H : forall l, cnt l _ <= 1 /\ _ |- _ => specialize (H l) end;
  repeat (rewrite ?cnt_app, ?cnt_cons; cbn [app]);
  repeat match goal with
  | |- context [cnt l (handle ?k ?t ?s)] => rewrite (cnt_none l (handle k t s) (labels_handle k t s))
  | |- context [cnt l (mov ?t ?s)] => rewrite (cnt_none l (mov t s) (labels_mov t s))
  | |- context [cnt l (after ?k ?t)] => rewrite (cnt_none l (after k t) (labels_after k t))
  | |- context [cnt l (outer ?k ?t)] => rewrite (cnt_none l (outer k t) (labels_outer k t))
  | |- context [cnt l (assign ?t ?s)] => rewrite (cnt_none l (assign t s) (labels_assign t s))
  | |- context [cnt l (assigns_code ?t ?s)] => rewrite (cnt_none l (assigns_code t s) (labels_assigns s t))
  | |- context [cnt1 l (ILabel ?n)] => let K := fresh "K" in assert (K := cnt_label l n); revert K; generalize (cnt1 l (ILabel n)); intros
  | |- context [cnt1 l ?i] => change (cnt1 l i) with 0
  | |- context [cnt l []] => rewrite (cnt_none l [] eq_refl)
  end; lia.

Theorem gen_good : forall e, good e.
Proof.
  apply expr_all; intros; intros k t0 n L c0 n' H'.
  - cbn in H'. injection H' as <- <-. destruct (used k); count.
  - cbn in H'. injection H' as <- <-. count.
  - cbn in H'. injection H' as <- <-. count.
  - rewrite gen_bin in H'. pieces. know. count.
  - cbn in H'. destruct (refer a); pieces; know; count.
  - cbn in H'. destruct k as [[| |d|]|[|] l0]; pieces; know; count.
  - cbn in H'. destruct k as [[| |d|]|[|] l0]; pieces; know; count.
  - cbn in H'. pieces. know. destruct k; count.
  - rewrite gen_op in H'. pieces. know. destruct k as [[| |d|]|[|] l0]; cbn; count.
  - cbn in H'. pieces. know. destruct k as [[| |d|]|[|] l0]; cbn; count.
  - cbn in H'. pieces. know. destruct k as [[| |d|]|[|] l0]; cbn; count.
  - cbn in H'. destruct k; pieces; know; count.
  - cbn in H'. pieces. know. destruct k as [[| |d|]|[|] l0]; cbn; count.
  - cbn in H'. pieces. know. destruct k as [[| |d|]|[|] l0]; cbn; count.
  - cbn in H'. destruct L as [lp|]; pieces; know; count.
  - cbn in H'. destruct L as [lp|]; pieces; know; count.
  - cbn in H'. pieces. know. destruct k; count.
  - rewrite gen_call in H'. pieces. know. count.
  - rewrite gen_safe in H'. pieces. know. destruct (used k && _); count.
  - rewrite gen_arr in H'. pieces. know. count.
  - rewrite gen_set in H'. destruct k as [[| |d|]|[|] l0]; pieces; know; count.
  - rewrite gen_mul in H'. pieces. know. destruct k as [[| |d|]|[|] l0]; count.
  - rewrite gen_splat in H'. destruct k as [[| |d|]|[|] l0]; pieces; know; count.
Qed.

Theorem compile_labels : forall e, NoDup (labels (compile e)).
Proof.
  intro e. unfold compile. destruct (gen (KM Ret) e 0 0 None) as [c n] eqn:E. cbn. exact (within_nodup _ _ _ (gen_good e _ _ _ _ _ _ E)).
Qed.

(* ---- every jump has its label ---- *)

Definition targets (c : code) : list nat := flat_map (fun i => match i with IBr l | ICond _ _ l | INilBr _ l => [l] | _ => [] end) c.
(** Where the code of a construct may jump besides its own labels. *)
Definition outside (k : kind) (L : option loop) (j : nat) : Prop :=
  match k with KBr _ l => j = l | _ => False end \/ match L with Some lp => j = l_break lp \/ j = l_next lp | None => False end.
Definition lands (Q : nat -> Prop) (c : code) : Prop := forall j, In j (targets c) -> In j (labels c) \/ Q j.
Lemma targets_app : forall x y, targets (x ++ y) = targets x ++ targets y.
Proof. intros. apply flat_map_app. Qed.
Lemma targets_cons : forall i y, targets (i :: y) = targets [i] ++ targets y.
Proof. intros. exact (targets_app [i] y). Qed.
Lemma labels_cons : forall i y, labels (i :: y) = labels [i] ++ labels y.
Proof. intros. exact (labels_app [i] y). Qed.
Lemma targets_mov : forall d s, targets (mov d s) = [].
Proof. intros d s. unfold mov. destruct (reg_eqb d s); reflexivity. Qed.
Lemma targets_assign : forall s g, targets (assign s g) = [].
Proof. intros s [x|m r|b i]; cbn [assign]; try reflexivity; apply targets_mov. Qed.
Lemma targets_assigns : forall gs i, targets (assigns_code i gs) = [].
Proof. induction gs as [|g gs IH]; intro i; [reflexivity|]. cbn [assigns_code]. rewrite targets_app, targets_assign. apply IH. Qed.
Lemma lands_app : forall Q x y, lands Q x -> lands Q y -> lands Q (x ++ y).
Proof.
  intros Q x y Hx Hy j Hj. rewrite targets_app in Hj. rewrite labels_app. apply in_app_iff in Hj. rewrite in_app_iff.
  destruct Hj as [Hj|Hj]; [destruct (Hx j Hj)|destruct (Hy j Hj)]; tauto.
Qed.
Definition fine (e : expr) : Prop := forall k t n L c n', gen k e t n L = (c, n') -> lands (outside k L) c.
Lemma lands_nil : forall Q, lands Q [].
Proof. intros Q j []. Qed.
Lemma lands_push : forall e t n L c n', fine e -> gen (KM Push) e t n L = (c, n') -> lands (outside (KM Push) L) c.
Proof. intros e t n L c n' H. apply H. Qed.
Lemma fine_reg : forall L e t n r c n' t', fine e -> gen_reg L e t n = (r, c, n', t') -> lands (outside (KM Push) L) c.
Proof.
  intros L e t n r c n' t' He H. unfold gen_reg in H. destruct (refer e).
  - injection H as <- <- <- <-. apply lands_nil.
  - destruct (gen (KM Push) e t n L) as [c1 n1] eqn:E. injection H as <- <- <- <-. exact (He _ _ _ _ _ _ E).
Qed.
Lemma fine_gens : forall L es t n c n', Forall fine es -> gens L es t n = (c, n') -> lands (outside (KM Push) L) c.
Proof.
  intros L es. induction es as [|e es IH]; intros t n c n' Hes H; cbn in H.
  - injection H as <- <-. apply lands_nil.
  - inversion Hes; subst. destruct (gen (KM Push) e t n L) as [c1 n1] eqn:E1. destruct (gens L es (S t) n1) as [c2 n2] eqn:E2. injection H as <- <-.
    apply lands_app; [eapply H2; exact E1|eapply IH; [exact H3|exact E2]].
Qed.
Lemma fine_args : forall L es t n rs c n', Forall fine es -> gen_args L es t n = (rs, c, n') -> lands (outside (KM Push) L) c.
Proof.
  intros L es t n rs c n' Hes H. unfold gen_args in H.
  assert (D : (let '(c, n) := gens L es t n in (temps t (length es), c, n)) = (rs, c, n') -> lands (outside (KM Push) L) c).
  { intro D. destruct (gens L es t n) as [c1 n1] eqn:E. injection D as <- <- <-. eapply fine_gens; [exact Hes|exact E]. }
  destruct es as [|[| |x| | | | | | | | | | | | | | | | | | | |] [|e' es]]; try exact (D H). injection H as <- <- <-. apply lands_nil.
Qed.
Lemma fine_lv : forall L lv t n g c n' t', Plv fine lv -> gen_lv L lv t n = (g, c, n', t') -> lands (outside (KM Push) L) c.
Proof.
  intros L [x|m e|b i] t n g c n' t' Hl H; cbn [gen_lv] in H.
  - injection H as <- <- <- <-. apply lands_nil.
  - destruct (gen_reg L e t n) as [[[r c1] n1] t1] eqn:E. injection H as <- <- <- <-. eapply fine_reg; [exact Hl|exact E].
  - destruct Hl as [Hb Hi].
    assert (B : exists rb cb n1 t1, (match b with ESelf => (RSelf, [], n, t) | _ => let '(c, n) := gen (KM Push) b t n L in (RTmp t, c, n, S t) end) = (rb, cb, n1, t1) /\ lands (outside (KM Push) L) cb).
    { destruct (gen (KM Push) b t n L) as [cb nb] eqn:E. apply Hb in E.
      destruct b; try (exists (RTmp t), cb, nb, (S t); split; [reflexivity|exact E]).
      exists RSelf, [], n, t. split; [reflexivity|]. apply lands_nil. }
    destruct B as (rb & cb & n1 & t1 & B & Hw). rewrite B in H.
    destruct (gen (KM Push) i t1 n1 L) as [ci n2] eqn:E. injection H as <- <- <- <-. apply lands_app; [exact Hw|exact (Hi _ _ _ _ _ _ E)].
Qed.
Lemma fine_lvs : forall L ts t n gs c n' t', Forall (Plv fine) ts -> gen_lvs L ts t n = (gs, c, n', t') -> lands (outside (KM Push) L) c.
Proof.
  intros L ts. induction ts as [|lv ts IH]; intros t n gs c n' t' Hl H; cbn [gen_lvs] in H.
  - injection H as <- <- <- <-. apply lands_nil.
  - inversion Hl; subst. destruct (gen_lv L lv t n) as [[[g c1] n1] t1] eqn:E1. destruct (gen_lvs L ts t1 n1) as [[[gs2 c2] n2] t2] eqn:E2. injection H as <- <- <- <-.
    apply lands_app; [eapply fine_lv; [exact H2|exact E1]|eapply IH; [exact H3|exact E2]].
Qed.
Ltac know' := repeat match goal with
  | Hg : fine ?e, E : gen _ ?e _ _ _ = _ |- _ => apply Hg in E
  | Hg : fine ?e, E : gen_reg _ ?e _ _ = _ |- _ => apply (fine_reg _ _ _ _ _ _ _ _ Hg) in E
  | Hg : Forall fine ?e, E : gen_args _ ?e _ _ = _ |- _ => apply (fine_args _ _ _ _ _ _ _ Hg) in E
  | Hg : Forall fine ?e, E : gens _ ?e _ _ = _ |- _ => apply (fine_gens _ _ _ _ _ _ Hg) in E
  | Hg : Plv fine ?e, E : gen_lv _ ?e _ _ = _ |- _ => apply (fine_lv _ _ _ _ _ _ _ _ Hg) in E
  | Hg : Forall (Plv fine) ?e, E : gen_lvs _ ?e _ _ = _ |- _ => apply (fine_lvs _ _ _ _ _ _ _ _ Hg) in E
  end.
Ltac land :=
  let j := fresh "j" in intro j;
  repeat match goal with H : lands _ _ |- _ => specialize (H j) end;
  repeat match goal with k : kind |- _ => destruct k as [[| |?|]|[|] ?] end;
  unfold outside in *; cbn [handle after outer inner used app dest] in *;
  repeat (progress (rewrite ?labels_app, ?targets_app, ?labels_mov, ?targets_mov, ?labels_assign, ?targets_assign, ?labels_assigns, ?targets_assigns;
    repeat match goal with
    | |- context [targets (?i :: ?x)] => lazymatch x with [] => fail | _ => rewrite (targets_cons i x), (labels_cons i x) end
    end; cbn [app]));
  repeat match goal with |- context [targets [?i]] => change (targets [i]) with (match i with IBr l | ICond _ _ l | INilBr _ l => [l] | _ => [] end : list nat); cbn iota beta end;
  repeat match goal with |- context [labels [?i]] => change (labels [i]) with (match i with ILabel l => [l] | _ => [] end : list nat); cbn iota beta end;
  change (targets []) with (@nil nat); change (labels []) with (@nil nat);
  rewrite ?in_app_iff; cbn [In]; cbn [l_break l_next] in *; intuition (subst; auto 20).

Theorem gen_fine : forall e, fine e.
Proof.
  apply expr_all; intros; intros k t0 n L c0 n' H'.
  - cbn in H'. injection H' as <- <-. destruct (used k); land.
  - cbn in H'. injection H' as <- <-. land.
  - cbn in H'. injection H' as <- <-. land.
  - rewrite gen_bin in H'. pieces. know'. land.
  - cbn in H'. destruct (refer a); pieces; know'; land.
  - cbn in H'. destruct k as [[| |d|]|[|] l0]; pieces; know'; land.
  - cbn in H'. destruct k as [[| |d|]|[|] l0]; pieces; know'; land.
  - cbn in H'. pieces. know'. destruct k as [[| |d|]|[|] l0]; land.
  - rewrite gen_op in H'. pieces. know'. destruct k as [[| |d|]|[|] l0]; cbn; land.
  - cbn in H'. pieces. know'. destruct k as [[| |d|]|[|] l0]; cbn; land.
  - cbn in H'. pieces. know'. destruct k as [[| |d|]|[|] l0]; cbn; land.
  - cbn in H'. destruct k as [[| |d|]|[|] l0]; pieces; know'; land.
  - cbn in H'. pieces. know'. destruct k as [[| |d|]|[|] l0]; cbn; land.
  - cbn in H'. pieces. know'. destruct k as [[| |d|]|[|] l0]; cbn; land.
  - cbn in H'. destruct L as [lp|]; pieces; know'; land.
  - cbn in H'. destruct L as [lp|]; pieces; know'; land.
  - cbn in H'. pieces. know'. destruct k as [[| |d|]|[|] l0]; land.
  - rewrite gen_call in H'. pieces. know'. land.
  - rewrite gen_safe in H'. pieces. know'. destruct (used k && _); land.
  - rewrite gen_arr in H'. pieces. know'. land.
  - rewrite gen_set in H'. destruct k as [[| |d|]|[|] l0]; pieces; know'; land.
  - rewrite gen_mul in H'. pieces. know'. destruct k as [[| |d|]|[|] l0]; land.
  - rewrite gen_splat in H'. destruct k as [[| |d|]|[|] l0]; pieces; know'; land.
Qed.
Theorem compile_targets : forall e l, In l (targets (compile e)) -> In l (labels (compile e)).
Proof.
  intros e l. unfold compile. destruct (gen (KM Ret) e 0 0 None) as [c n] eqn:E. cbn [fst]. intro H.
  destruct (gen_fine e _ _ _ _ _ _ E l H) as [H'|[[]|[]]]. exact H'.
Qed.
