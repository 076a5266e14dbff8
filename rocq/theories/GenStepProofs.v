(** The parts of the generator under names; codes, positions and steps. *)
From Coq Require Import List Bool Arith ZArith Lia.
From Verif Require Import GenModel.
Import ListNotations.

Section Parts.
Variable L : option loop.
Definition gen_reg (e : expr) (t n : nat) : reg * code * nat * nat :=
  match refer e with
  | Some r => (r, [], n, t)
  | None => let '(c, n) := gen (KM Push) e t n L in (RTmp t, c, n, S t)
  end.
Fixpoint gens (es : list expr) (t n : nat) : code * nat :=
  match es with
  | [] => ([], n)
  | e :: r => let '(c, n) := gen (KM Push) e t n L in let '(c', n) := gens r (S t) n in (c ++ c', n)
  end.
Definition gen_lv (lv : lval) (t n : nat) : target * code * nat * nat :=
  match lv with
  | LVar x => (TVar x, [], n, t)
  | LAttr m recv => let '(r, c, n, t) := gen_reg recv t n in (TAttr m r, c, n, t)
  | LIdx b i =>
      let '(rb, cb, n, t) := match b with
                             | ESelf => (RSelf, [], n, t)
                             | _ => let '(c, n) := gen (KM Push) b t n L in (RTmp t, c, n, S t)
                             end in
      let '(ci, n) := gen (KM Push) i t n L in
      (TIdx rb (RTmp t), cb ++ ci, n, S (S t))
  end.
Fixpoint gen_lvs (ls : list lval) (t n : nat) : list target * code * nat * nat :=
  match ls with
  | [] => ([], [], n, t)
  | lv :: r => let '(g, c, n, t) := gen_lv lv t n in
               let '(gs, c', n, t) := gen_lvs r t n in (g :: gs, c ++ c', n, t)
  end.
Definition gen_args (es : list expr) (t n : nat) : list reg * code * nat :=
  match es with
  | [EVar x] => ([RLoc x], [], n)
  | _ => let '(c, n) := gens es t n in (temps t (length es), c, n)
  end.
End Parts.
Definition base1 (k : kind) (t : nat) : nat := match k with KM (Store _) => t | _ => S t end.
Definition dst (k : kind) (t : nat) : option reg := if used k then Some (dest k t) else None.

Lemma gen_bin : forall k m a b t n L, gen k (EBin m a b) t n L =
  let '(ra, ca, n, t1) := gen_reg L a t n in
  let '(rb, cb, n, _) := gen_reg L b t1 n in
  (ca ++ cb ++ [ICall (dst k t) m [ra; rb]] ++ after k t, n).
Proof. reflexivity. Qed.
Lemma gen_op : forall k m x e t n L, gen k (EOp m x e) t n L =
  let '(r, c, n, _) := gen_reg L e t n in
  (c ++ [ICall (Some (RLoc x)) m [RLoc x; r]] ++ handle (KM (inner k)) t (RLoc x) ++ outer k t, n).
Proof. reflexivity. Qed.
Lemma gen_call : forall k m recv args t n L, gen k (ECall m recv args) t n L =
  let '(r, c, n, t1) := gen_reg L recv t n in
  let '(rs, ca, n) := gen_args L args t1 n in
  (c ++ ca ++ [ICall (dst k t) m (r :: rs)] ++ after k t, n).
Proof. reflexivity. Qed.
Lemma gen_safe : forall k m recv args t n L, gen k (ESafe m recv args) t n L =
  let '(r, c, n1, t1) := gen_reg L recv t (S (S n)) in
  let '(rs, ca, n1) := gen_args L args t1 n1 in
  (c ++ [INilBr r n] ++ ca ++ [ICall (dst k t) m (r :: rs)]
   ++ (if used k && negb (reg_eqb (dest k t) r) then [IBr (S n); ILabel n; IConst (dest k t) Nil; ILabel (S n)] else [ILabel n]) ++ after k t, n1).
Proof. reflexivity. Qed.
Lemma gen_arr : forall k es t n L, gen k (EArr es) t n L =
  let '(c, n) := gens L es (base1 k t) n in
  (c ++ [ICall (Some (dest k t)) MKARRAY (temps (base1 k t) (length es))] ++ after k t, n).
Proof. reflexivity. Qed.
Lemma gen_set : forall k lv e t n L, gen k (ESet lv e) t n L =
  let '(g, c, n, t1) := gen_lv L lv t n in
  match k with
  | KM (Store d) => let '(ce, n) := gen (KM (Store d)) e t1 n L in (c ++ ce ++ assign d g, n)
  | _ => let '(src, ce, n, _) := gen_reg L e t1 n in
         (c ++ ce ++ assign src g
          ++ match k with KBr j l => mov (RTmp t) src ++ [ICond (RTmp t) j l] | _ => handle k t src end, n)
  end.
Proof. reflexivity. Qed.
Lemma gen_mul : forall k ls es t n L, gen k (EMul ls es) t n L =
  let '(gs, c, n, t1) := gen_lvs L ls t n in
  let '(ce, n) := gens L es t1 n in
  (c ++ ce ++ assigns_code t1 gs ++ [ICall (Some (RTmp t)) MKARRAY (temps t1 (length es))]
   ++ match k with KM Ret => [IRet (RTmp t)] | _ => outer k t end, n).
Proof. reflexivity. Qed.
Lemma gen_splat : forall k x e t n L, gen k (ESplat x e) t n L =
  match k with
  | KM (Store d) => let '(c, n) := gen (KM (Store d)) e t n L in
                    (c ++ mov (RTmp t) d ++ [ICall (Some (RTmp t)) SPLAT [RTmp t]] ++ mov (RLoc x) (RTmp t), n)
  | KM NotUse => let '(src, c, n, _) := gen_reg L e t n in
                 (c ++ [ICall (Some src) SPLAT [src]] ++ mov (RLoc x) src, n)
  | _ => let '(c, n) := gen (KM Push) e t n L in
         (c ++ [IMov (RTmp (S t)) (RTmp t)] ++ [ICall (Some (RTmp (S t))) SPLAT [RTmp (S t)]] ++ mov (RLoc x) (RTmp (S t)) ++ after k t, n)
  end.
Proof. reflexivity. Qed.

(* ---- positions ---- *)

Definition labels (C : code) : list nat := flat_map (fun i => match i with ILabel l => [l] | _ => [] end) C.
(** The code [c] stands at [pc]. *)
Definition codeat (C : code) (pc : nat) (c : code) : Prop := forall i x, nth_error c i = Some x -> nth_error C (pc + i) = Some x.

Lemma codeat_app : forall C pc a b, codeat C pc (a ++ b) -> codeat C pc a /\ codeat C (pc + length a) b.
Proof.
  intros C pc a b H. split; intros i x Hi.
  - apply H. rewrite nth_error_app1; [exact Hi|]. apply nth_error_Some. rewrite Hi. discriminate.
  - rewrite <- Nat.add_assoc. apply H. rewrite nth_error_app2 by lia. replace (length a + i - length a) with i by lia. exact Hi.
Qed.
Lemma codeat_cons : forall C pc x c, codeat C pc (x :: c) -> nth_error C pc = Some x /\ codeat C (S pc) c.
Proof.
  intros C pc x c H. split.
  - specialize (H 0 x eq_refl). rewrite Nat.add_0_r in H. exact H.
  - intros i y Hi. replace (S pc + i) with (pc + S i) by lia. apply H. exact Hi.
Qed.
Lemma labels_app : forall a b, labels (a ++ b) = labels a ++ labels b.
Proof. intros a b. unfold labels. apply flat_map_app. Qed.
Lemma labels_at : forall C pc l, nth_error C pc = Some (ILabel l) -> In l (labels C).
Proof. intros C pc l H. apply nth_error_In in H. unfold labels. apply in_flat_map. exists (ILabel l). split; [exact H|left; reflexivity]. Qed.
Lemma pos_at : forall C pc l, NoDup (labels C) -> nth_error C pc = Some (ILabel l) -> pos C l = pc.
Proof.
  induction C as [|i C IH]; intros pc l Hn H; [destruct pc; discriminate H|].
  destruct pc as [|pc]; cbn in H.
  - injection H as ->. cbn. rewrite Nat.eqb_refl. reflexivity.
  - assert (Hr : NoDup (labels C)) by (destruct i; cbn in Hn; try exact Hn; inversion Hn; assumption).
    specialize (IH pc l Hr H). destruct i as [m| | | | | | |]; cbn; try (rewrite IH; reflexivity).
    destruct (Nat.eqb_spec m l) as [->|_]; [|rewrite IH; reflexivity].
    cbn in Hn. inversion Hn as [|? ? Hin _]. contradiction Hin. apply (labels_at C pc l H).
Qed.

Lemma reg_eqb_spec : forall a b, reflect (a = b) (reg_eqb a b).
Proof.
  intros [|x|i] [|y|j]; cbn; try (constructor; discriminate); [constructor; reflexivity| |].
  - destruct (Nat.eqb_spec x y) as [->|H]; constructor; [reflexivity|]. intro E. injection E as E. exact (H E).
  - destruct (Nat.eqb_spec i j) as [->|H]; constructor; [reflexivity|]. intro E. injection E as E. exact (H E).
Qed.
Lemma set_same : forall r d v, set r d v d = v.
Proof. intros r d v. unfold set. destruct (reg_eqb_spec d d) as [_|H]; [reflexivity|contradiction H; reflexivity]. Qed.
Lemma set_other : forall r d v x, x <> d -> set r d v x = r x.
Proof. intros r d v x H. unfold set. destruct (reg_eqb_spec x d) as [E|_]; [contradiction|reflexivity]. Qed.

(* ---- steps ---- *)

Section Steps.
Variable W : Type.
Variable caps : list var.
Variable call : W -> meth -> list value -> list value -> W * list value * (value + nat).
Variable C : code.
Notation conf := (conf W).
Notation step := (step W caps call C).

Inductive steps : conf -> conf -> Prop :=
| s_refl : forall c, steps c c
| s_step : forall pc r w c c', step pc r w = Some c -> steps c c' -> steps (At pc r w) c'.
Lemma steps_trans : forall a b c, steps a b -> steps b c -> steps a c.
Proof. intros a b c H. revert c. induction H; intros d Hd; [exact Hd|]. eapply s_step; [exact H|]. apply IHsteps. exact Hd. Qed.
Lemma steps_one : forall pc r w c, step pc r w = Some c -> steps (At pc r w) c.
Proof. intros pc r w c H. eapply s_step; [exact H|constructor]. Qed.
Lemma exec_mono : forall n c d, exec W caps call C n c = Some d -> exec W caps call C (S n) c = Some d.
Proof.
  induction n as [|n IH]; intros c d H; destruct c as [pc r w|v r w|x r w]; try exact H; [discriminate H|].
  cbn [exec] in H |- *. destruct (step pc r w) as [c'|]; [|discriminate H]. exact (IH c' d H).
Qed.
Definition ended (c : conf) : Prop := match c with At _ _ _ => False | _ => True end.
Lemma steps_exec : forall a b, steps a b -> ended b -> exists n, exec W caps call C n a = Some b.
Proof.
  intros a b H. induction H as [c|pc r w c c' H1 H2 IH]; intro He.
  - exists 0. destruct c; [destruct He|reflexivity|reflexivity].
  - destruct (IH He) as [n Hn]. exists (S n). cbn. rewrite H1. exact Hn.
Qed.
End Steps.
Arguments s_refl {W caps call C}.
