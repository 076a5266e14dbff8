(** From the simulation: what a compiled body returns; programs that meet the conditions by their form. *)
From Coq Require Import List Bool Arith ZArith Lia.
From Verif Require Import GenModel GenSpec GenFrameProofs GenStepProofs GenLabelProofs GenSimProofs.
Import ListNotations.

Section Final.
Variable W : Type.
Variable caps : list var.
Variable call : W -> meth -> list value -> list value -> W * list value * (value + nat).
Variable self : value.

(** The registers at the entry. *)
Definition starts (l : env) (r : regs) : Prop := r RSelf = self /\ forall x, r (RLoc x) = l x.
(** The end of a run that agrees with the outcome of the evaluation: value or exception, the world,
    the locals that others can see. *)
Definition agrees (w : W) (l : env) (o : out) (c : conf W) : Prop :=
  match o, c with
  | OVal v, Returned v' r w' | ORet v, Returned v' r w' => v' = v /\ w' = w /\ forall x, In x caps -> r (RLoc x) = l x
  | OExn x, Raised x' r w' => x' = x /\ w' = w /\ forall x, In x caps -> r (RLoc x) = l x
  | _, _ => False
  end.
Theorem compile_right : forall e n w l r w' l' o, ok caps UVal e = true -> stays e = true -> starts l r ->
  eval W caps call self n w l e = Some (w', l', o) ->
  exists f c, exec W caps call (compile e) f (At 0 r w) = Some c /\ agrees w' l' o c.
Proof.
  intros e n w l r w' l' o Ho Hst Hi He. unfold compile. destruct (gen (KM Ret) e 0 0 None) as [C m] eqn:Eg. cbn [fst].
  assert (Hdup : NoDup (labels C)) by (assert (H := compile_labels e); unfold compile in H; rewrite Eg in H; exact H).
  assert (Hc : codeat C 0 C) by (intros i x H; exact H).
  destruct (proj1 (sim W caps call self C Hdup n) e (KM Ret) 0 0 None C m 0 w l r w' l' o Eg Hc Ho I I Hi He) as (c & Hs & Hp).
  assert (St := stays_sound W caps call self n e w l Hst). rewrite He in St.
  assert (Hcap : forall r', capsok caps l' r' -> forall x, In x caps -> r' (RLoc x) = l' x) by (intros r' H x Hx; apply H; apply cap_in; exact Hx).
  destruct o as [v|v| |v|x]; cbn in St; try contradiction; destruct Hp as (r' & -> & Hk).
  - destruct (steps_exec W caps call C _ _ Hs I) as [f Hf]. exists f, (Returned v r' w'). split; [exact Hf|]. exact (conj eq_refl (conj eq_refl (Hcap r' Hk))).
  - destruct (steps_exec W caps call C _ _ Hs I) as [f Hf]. exists f, (Returned v r' w'). split; [exact Hf|]. exact (conj eq_refl (conj eq_refl (Hcap r' Hk))).
  - destruct (steps_exec W caps call C _ _ Hs I) as [f Hf]. exists f, (Raised x r' w'). split; [exact Hf|]. exact (conj eq_refl (conj eq_refl (Hcap r' Hk))).
Qed.

Lemma exec_more : forall C k n c d, exec W caps call C n c = Some d -> exec W caps call C (k + n) c = Some d.
Proof. induction k as [|k IH]; intros n c d H; [exact H|]. cbn. apply exec_mono. apply IH. exact H. Qed.
(** A run has one end. *)
Lemma exec_one : forall C n m c d d', exec W caps call C n c = Some d -> exec W caps call C m c = Some d' -> d = d'.
Proof.
  intros C n m c d d' H H'. apply (exec_more C m) in H. apply (exec_more C n) in H'. rewrite Nat.add_comm in H'. rewrite H in H'. injection H' as <-. reflexivity.
Qed.
Theorem compile_only : forall e n w l r w' l' o f c, ok caps UVal e = true -> stays e = true -> starts l r ->
  eval W caps call self n w l e = Some (w', l', o) ->
  exec W caps call (compile e) f (At 0 r w) = Some c -> agrees w' l' o c.
Proof.
  intros e n w l r w' l' o f c Ho Hst Hi He Hx. destruct (compile_right e n w l r w' l' o Ho Hst Hi He) as (f' & c' & Hx' & Ha).
  rewrite (exec_one _ _ _ _ _ _ Hx Hx'). exact Ha.
Qed.
End Final.

(* ---- programs whose form is enough ---- *)

(** Expressions without assignments and without break and next; statements: assignments of such
    expressions, sequences, branches, loops. [&&] is not the right side of an assignment. *)
Fixpoint calm (e : expr) : bool :=
  match e with
  | ELit _ | ESelf | EVar _ => true
  | EBin _ a b | EAnd a b | EOr a b => calm a && calm b
  | EUn _ a | EReturn a => calm a
  | EIf c a b => calm c && calm a && calm b
  | ECall _ r es | ESafe _ r es => calm r && forallb calm es
  | EArr es => forallb calm es
  | _ => false
  end.
Fixpoint no_and (e : expr) : bool := match e with EAnd _ _ => false | EUn _ a => no_and a | _ => true end.
Definition is_local (e : expr) : bool := match e with EVar _ | ESelf => true | _ => false end.
Definition local_target (t : lval) : bool := match t with LVar _ => true | _ => false end.
Fixpoint plain (e : expr) : bool :=
  match e with
  | ESeq a b => plain a && plain b
  | EIf c a b => calm c && plain a && plain b
  | EWhile _ c b => calm c && plain b
  | EBreak e | ENext e => calm e
  | EAsgn _ e | EAndA _ e => calm e && no_and e
  | EOp _ _ e | EOrA _ e => calm e
  | ESet (LAttr _ r) e => calm r && calm e
  | ESet (LIdx b i) e => calm b && calm i && calm e
  | EMul ts es => forallb local_target ts && forallb calm es && (length ts =? length es)
  | ESplat _ e => calm e && negb (is_local e)
  | _ => calm e
  end.

Lemma existsb_all : forall (A : Type) (f : A -> bool) l, Forall (fun x => f x = false) l -> existsb f l = false.
Proof. intros A f l H. induction H as [|x l Hx _ IH]; cbn; [reflexivity|]. rewrite Hx. exact IH. Qed.
Lemma forallb_imp : forall (A : Type) (f g : A -> bool) l, Forall (fun x => f x = true -> g x = true) l -> forallb f l = true -> forallb g l = true.
Proof.
  intros A f g l H. induction H as [|x l Hx _ IH]; cbn; [reflexivity|]. intro E. apply andb_true_iff in E. destruct E as [E1 E2]. rewrite (Hx E1). exact (IH E2).
Qed.
Ltac ands H := repeat (apply andb_true_iff in H; let H' := fresh H in destruct H as [H H']).

Lemma calm_assigns : forall e y, calm e = true -> assigns [] y e = false.
Proof.
  assert (L : forall es y, Forall (fun e => forall y, calm e = true -> assigns [] y e = false) es -> forallb calm es = true -> existsb (assigns [] y) es = false).
  { intros es y H. induction H as [|x l Hx _ IH]; cbn; [reflexivity|]. intro E. ands E. rewrite (Hx y E). exact (IH E0). }
  apply (expr_all (fun e => forall y, calm e = true -> assigns [] y e = false)); intros; try discriminate; cbn in *; try reflexivity.
  all: repeat match goal with H : _ && _ = true |- _ => ands H end.
  all: repeat match goal with IH : forall y, calm ?e = true -> _, H : calm ?e = true |- _ => rewrite (IH _ H); clear IH end.
  all: try reflexivity; try (apply L; assumption).
Qed.

Lemma calm_lazy : forall a e, calm e = true -> lazy a (fun y => assigns [] y e) = true.
Proof. intros a e H. destruct a; try reflexivity. cbn. rewrite (calm_assigns e x H). reflexivity. Qed.
Lemma calms_assigns : forall es y, forallb calm es = true -> existsb (assigns [] y) es = false.
Proof.
  intros es y H. induction es as [|e es IH]; [reflexivity|]. cbn in H |- *. ands H. rewrite (calm_assigns e y H). exact (IH H0).
Qed.
Lemma calms_lazy : forall a es, forallb calm es = true -> lazy a (fun y => existsb (assigns [] y) es) = true.
Proof. intros a es H. destruct a; try reflexivity. cbn. rewrite (calms_assigns es x H). reflexivity. Qed.
Lemma calm_ok : forall e, calm e = true -> ok [] UVal e = true /\ ok [] UNo e = true /\ (no_and e = true -> forall x, ok [] (ULoc x) e = true).
Proof.
  assert (L : forall es, Forall (fun e => calm e = true -> ok [] UVal e = true /\ ok [] UNo e = true /\ (no_and e = true -> forall x, ok [] (ULoc x) e = true)) es -> forallb calm es = true -> forallb (fun e => ok [] UVal e) es = true).
  { intros es H. apply forallb_imp. eapply Forall_impl; [|exact H]. intros a Ha Hc. exact (proj1 (Ha Hc)). }
  apply (expr_all (fun e => calm e = true -> ok [] UVal e = true /\ ok [] UNo e = true /\ (no_and e = true -> forall x, ok [] (ULoc x) e = true)));
    intros; try discriminate; cbn in * |-; try (repeat split; reflexivity).
  all: repeat match goal with H : _ && _ = true |- _ => ands H end.
  all: repeat match goal with IH : calm ?e = true -> _, H : calm ?e = true |- _ => destruct (IH H) as (? & ? & ?); clear IH end.
  - cbn. rewrite (calm_lazy a b) by assumption. repeat match goal with E : ok _ _ _ = true |- _ => rewrite E; clear E end. repeat split; reflexivity.
  - cbn. split; [assumption|]. split; [assumption|]. intros Hn x. auto.
  - cbn. repeat match goal with E : ok _ _ _ = true |- _ => rewrite E; clear E end. split; [reflexivity|]. split; [reflexivity|discriminate].
  - cbn. repeat match goal with E : ok _ _ _ = true |- _ => rewrite E; clear E end. repeat split; reflexivity.
  - cbn. repeat match goal with E : ok _ _ _ = true |- _ => rewrite E; clear E end. repeat split; reflexivity.
  - cbn. repeat split; intros; assumption.
  - cbn. rewrite (calms_lazy r es), (L es) by assumption. repeat match goal with E : ok _ _ _ = true |- _ => rewrite E; clear E end. repeat split; reflexivity.
  - cbn. rewrite (calms_lazy r es), (L es) by assumption. repeat match goal with E : ok _ _ _ = true |- _ => rewrite E; clear E end. repeat split; reflexivity.
  - cbn. rewrite (L es) by assumption. repeat split; reflexivity.
Qed.
Lemma calm_stays : forall e, calm e = true -> stays e = true.
Proof.
  assert (L : forall es, Forall (fun e => calm e = true -> stays e = true) es -> forallb calm es = true -> forallb stays es = true) by (intros es H; apply forallb_imp; exact H).
  apply (expr_all (fun e => calm e = true -> stays e = true)); intros; try discriminate; cbn in *; try reflexivity.
  all: repeat match goal with H : _ && _ = true |- _ => ands H end.
  all: repeat match goal with IH : calm ?e = true -> _, H : calm ?e = true |- _ => rewrite (IH H); clear IH end.
  all: try reflexivity; apply L; assumption.
Qed.
Lemma locals_lazy : forall ts before es, forallb local_target ts = true -> lazy_lvs [] before ts es = true.
Proof. induction ts as [|t ts IH]; intros before es H; [reflexivity|]. cbn in H |- *. ands H. destruct t; try discriminate H. cbn. apply IH. exact H0. Qed.

Ltac calm_all :=
  repeat match goal with H : calm ?e = true |- _ => let S := fresh "S" in assert (S := calm_stays e H); let A := fresh "A" in let B := fresh "B" in let D := fresh "D" in assert (A := calm_ok e H); destruct A as (A & B & D); revert H end; intros.
Ltac rew := repeat match goal with E : ok _ _ _ = true |- _ => rewrite E; clear E end; repeat match goal with E : stays _ = true |- _ => rewrite E; clear E end.
Lemma plain_ok : forall e, plain e = true -> ok [] UNo e = true /\ ok [] UVal e = true.
Proof.
  assert (Q : forall e, calm e = true -> ok [] UNo e = true /\ ok [] UVal e = true) by (intros e H; destruct (calm_ok e H) as (A & B & _); split; assumption).
  apply (expr_all (fun e => plain e = true -> ok [] UNo e = true /\ ok [] UVal e = true)); intros; try (apply Q; assumption).
  - (* EAsgn *) cbn in H0. ands H0. destruct (calm_ok e H0) as (A & B & D). cbn. rewrite (D H1). split; reflexivity.
  - (* EOp *) cbn in H0. destruct (calm_ok e H0) as (A & B & D). cbn. rewrite A, (calm_assigns e x H0). split; reflexivity.
  - cbn in H0. destruct (calm_ok e H0) as (A & B & D). cbn. rewrite A. split; reflexivity.
  - cbn in H0. ands H0. destruct (calm_ok e H0) as (A & B & D). cbn. rewrite (D H1). split; reflexivity.
  - (* ESeq *) cbn in H1. ands H1. destruct (H H1) as [A1 A2]. destruct (H0 H2) as [B1 B2]. cbn. rewrite A1, B1, B2. split; reflexivity.
  - (* EIf *) cbn in H2. ands H2. destruct (calm_ok c H2) as (A & _). destruct (H0 H4) as [A1 A2]. destruct (H1 H3) as [B1 B2]. cbn. rewrite A, A1, A2, B1, B2. split; reflexivity.
  - (* EWhile *) cbn in H1. ands H1. destruct (calm_ok c H1) as (A & _). destruct (H0 H2) as [B1 B2]. cbn. rewrite A, B1. split; reflexivity.
  - (* EBreak *) cbn in H0. destruct (calm_ok e H0) as (A & B & D). cbn. rewrite A, B, (calm_stays e H0). split; reflexivity.
  - cbn in H0. destruct (calm_ok e H0) as (A & B & D). cbn. rewrite B. split; reflexivity.
  - (* ESet *) destruct t as [x|m r|b i]; [discriminate H1| |]; cbn in H1; ands H1.
    + destruct (calm_ok r H1) as (A & _). destruct (calm_ok e H2) as (B & _). cbn. rewrite A, B, (calm_lazy r e H2). split; [reflexivity|]. destruct e; reflexivity.
    + destruct (calm_ok b H1) as (A & _). destruct (calm_ok i H3) as (B & _). destruct (calm_ok e H2) as (D & _). cbn. rewrite A, B, D. split; [reflexivity|]. destruct e; reflexivity.
  - (* EMul *) cbn in H1. ands H1. cbn. rewrite (locals_lazy ts [] es H1), H2.
    assert (A : forallb (fun e => ok [] UVal e) es = true) by (revert H3; apply forallb_imp; apply Forall_forall; intros a _ Ha; exact (proj1 (calm_ok a Ha))). rewrite A.
    assert (B : forallb (fun t => match t with LVar _ => true | LAttr _ e => ok [] UVal e | LIdx b i => ok [] UVal b && ok [] UVal i end) ts = true)
      by (revert H1; apply forallb_imp; apply Forall_forall; intros [x|m e|b i] _ Ha; [reflexivity|discriminate Ha|discriminate Ha]). rewrite B. split; reflexivity.
  - (* ESplat *) cbn in H0. ands H0. destruct (calm_ok e H0) as (A & B & D). cbn. rewrite A. split; [|reflexivity]. destruct e; try reflexivity; discriminate H1.
Qed.
Theorem plain_right : forall W call self e n w l r w' l' o f c, plain e = true -> stays e = true -> starts self l r ->
  eval W [] call self n w l e = Some (w', l', o) ->
  (exists f c, exec W [] call (compile e) f (At 0 r w) = Some c) /\
  (exec W [] call (compile e) f (At 0 r w) = Some c -> agrees W [] w' l' o c).
Proof.
  intros W call self e n w l r w' l' o f c Hp Hst Hi He. destruct (plain_ok e Hp) as [_ Ho]. split.
  - destruct (compile_right W [] call self e n w l r w' l' o Ho Hst Hi He) as (f' & c' & Hx & _). exists f', c'. exact Hx.
  - exact (compile_only W [] call self e n w l r w' l' o f c Ho Hst Hi He).
Qed.
