(** What [assigns], [reads] and [stays] say about the evaluation. *)
From Coq Require Import List Bool Arith ZArith Lia.
From Verif Require Import GenModel GenSpec.
Import ListNotations.

Section Frame.
Variable W : Type.
Variable caps : list var.
Variable call : W -> meth -> list value -> list value -> W * list value * (value + nat).
Variable self : value.
Notation eval := (eval W caps call self).
Notation do_call := (do_call W caps call).
Notation evals := (evals W).
Notation ev_lv := (ev_lv W).
Notation ev_lvs := (ev_lvs W).
Notation store := (store W caps call).
Notation stores := (stores W caps call).
Notation bind := (bind W).
Notation cap := (cap caps).
Notation assigns := (assigns caps).
Notation reads := (reads caps).
Notation res := (res W).

Lemma lookup_cap : forall cs vs x v, lookup cs vs x = Some v -> existsb (Nat.eqb x) cs = true.
Proof.
  induction cs as [|c cs IH]; intros vs x v H; [discriminate H|]. destruct vs as [|u vs]; [discriminate H|]. cbn in *.
  destruct (x =? c); [reflexivity|]. exact (IH vs x v H).
Qed.
Lemma put_cap : forall l vs x, cap x = false -> put_env caps l vs x = l x.
Proof. intros l vs x H. unfold put_env. destruct (lookup caps vs x) eqn:E; [|reflexivity]. apply lookup_cap in E. unfold GenSpec.cap in H. rewrite E in H. discriminate. Qed.
Lemma cap_in : forall x, cap x = true <-> In x caps.
Proof. intro x. unfold GenSpec.cap. rewrite existsb_exists. split; [intros (y & Hy & E); apply Nat.eqb_eq in E; subst; exact Hy|intro H; exists x; split; [exact H|apply Nat.eqb_refl]]. Qed.

Ltac split_hyps := repeat match goal with
  | H : _ || _ = false |- _ => apply orb_false_iff in H; destruct H
  | H : _ && _ = true |- _ => apply andb_true_iff in H; destruct H
  end.

(* ---- assigns ---- *)

Section Assigns.
Variable y : var.
Variable c : value.
Definition keeps (r : res) : Prop := match r with Some (_, l, _) => l y = c | None => True end.
Definition lvA (t : lval) : bool := match t with LVar x => x =? y | LAttr _ e => cap y || assigns y e | LIdx b i => cap y || assigns y b || assigns y i end.

Lemma keeps_bind : forall x f, keeps x -> (forall w l v, l y = c -> keeps (f w l v)) -> keeps (bind x f).
Proof. intros [[[w l] o]|] f Hx Hf; [|exact I]. destruct o; cbn in *; try exact Hx. apply Hf. exact Hx. Qed.
Lemma keeps_call : forall w l m args, cap y = false -> l y = c -> keeps (do_call w l m args).
Proof. intros w l m args Hc Hl. unfold GenSpec.do_call. destruct (call w m args (map l caps)) as [[w' vs] x]. cbn. rewrite put_cap by exact Hc. exact Hl. Qed.
Lemma keeps_upd : forall l x v, (x =? y) = false -> l y = c -> upd l x v y = c.
Proof. intros l x v Hx Hl. unfold upd. rewrite Nat.eqb_sym, Hx. exact Hl. Qed.

Variable ev : W -> env -> expr -> res.
Hypothesis IH : forall e w l, assigns y e = false -> l y = c -> keeps (ev w l e).
Lemma keeps_evals : forall es w l f, existsb (assigns y) es = false -> l y = c ->
  (forall w l vs, l y = c -> keeps (f w l vs)) -> keeps (evals ev w l es f).
Proof.
  induction es as [|e es IHes]; intros w l f He Hl Hf; cbn in *; [apply Hf; exact Hl|].
  split_hyps. apply keeps_bind; [apply IH; assumption|]. intros w1 l1 v H1. apply IHes; [assumption|exact H1|]. intros. apply Hf. assumption.
Qed.
Lemma keeps_lv : forall t w l f, lvA t = false -> l y = c -> (forall w l g, l y = c -> keeps (f w l g)) -> keeps (ev_lv ev w l t f).
Proof.
  intros [x|m e|b i] w l f Ht Hl Hf; cbn in *; [apply Hf; exact Hl| |]; split_hyps.
  - apply keeps_bind; [apply IH; assumption|]. intros. apply Hf. assumption.
  - apply keeps_bind; [apply IH; assumption|]. intros. apply keeps_bind; [apply IH; assumption|]. intros. apply Hf. assumption.
Qed.
Lemma keeps_lvs : forall ts w l f, existsb lvA ts = false -> l y = c -> (forall w l g, l y = c -> keeps (f w l g)) -> keeps (ev_lvs ev w l ts f).
Proof.
  induction ts as [|t ts IHt]; intros w l f Ht Hl Hf; cbn in *; [apply Hf; exact Hl|]. split_hyps.
  apply keeps_lv; [assumption|exact Hl|]. intros. apply IHt; [assumption|assumption|]. intros. apply Hf. assumption.
Qed.
End Assigns.

Definition hit_by (y : var) (g : starget) : bool := match g with SVar x => x =? y | _ => cap y end.
Definition s_of (t : lval) (g : starget) : Prop :=
  match t, g with LVar x, SVar x' => x = x' | LAttr m _, SAttr m' _ => m = m' | LIdx _ _, SIdx _ _ => True | _, _ => False end.
Lemma s_hits : forall y t g, s_of t g -> hit_by y g = hits caps y t.
Proof. intros y [x|m e|b i] [x'|m' v|vb vi] H; cbn in *; try contradiction; try reflexivity. subst. reflexivity. Qed.
Lemma keeps_store : forall y c w l g v f, hit_by y g = false -> l y = c -> (forall w l, l y = c -> keeps y c (f w l)) -> keeps y c (store w l g v f).
Proof.
  intros y c w l [x|m r|b i] v f Hg Hl Hf; cbn in *.
  - apply Hf. apply keeps_upd; assumption.
  - apply keeps_bind; [apply keeps_call; assumption|]. intros. apply Hf. assumption.
  - apply keeps_bind; [apply keeps_call; assumption|]. intros. apply Hf. assumption.
Qed.
Lemma keeps_stores : forall y c gs vs w l f, existsb (hit_by y) gs = false -> l y = c -> (forall w l, l y = c -> keeps y c (f w l)) ->
  keeps y c (stores w l gs vs f).
Proof.
  induction gs as [|g gs IHg]; intros [|v vs] w l f Hg Hl Hf; cbn in *; try (apply Hf; exact Hl). split_hyps.
  apply keeps_store; [assumption|exact Hl|]. intros. apply IHg; assumption.
Qed.
Lemma lvA_hits : forall y t, lvA y t = false -> hits caps y t = false.
Proof. intros y [x|m e|b i] H; cbn in *; split_hyps; assumption. Qed.

Theorem assigns_sound : forall n y c e w l, assigns y e = false -> l y = c -> keeps y c (eval n w l e).
Proof.
  induction n as [|n IH]; intros y c e w l He Hl; [exact I|].
  assert (IH' : forall e w l, assigns y e = false -> l y = c -> keeps y c (eval n w l e)) by (intros; apply IH; assumption).
  destruct e; cbn -[GenSpec.bind GenSpec.do_call keeps] in He |- *; split_hyps;
    repeat match goal with
    | |- keeps _ _ (if ?b then _ else _) => destruct b
    | |- keeps _ _ (bind _ _) => apply keeps_bind
    | |- keeps _ _ (eval _ _ _ _) => apply IH'; assumption
    | |- keeps _ _ (do_call _ _ _ _) => apply keeps_call; assumption
    | |- keeps _ _ (Some (_, upd _ _ _, _)) => apply keeps_upd; assumption
    | |- keeps _ _ (Some _) => cbn; first [assumption|apply keeps_upd; assumption]
    | |- keeps _ _ (evals _ _ _ _ _) => apply keeps_evals; [exact IH'|assumption|assumption|]
    | |- forall _, _ => intro
    end.
  - (* while *)
    match goal with |- keeps _ _ (match ?x with _ => _ end) => assert (K : keeps y c x) end.
    { apply keeps_bind; [apply IH'; assumption|]. intros. destruct (eqb _ _); [|assumption]. apply keeps_bind; [apply IH'; assumption|]. intros. assumption. }
    match goal with |- keeps _ _ (match ?x with _ => _ end) => destruct x as [[[w1 l1] o]|]; [|exact I] end.
    destruct o; cbn in K |- *; try exact K. apply IH'; [|exact K]. cbn. rewrite H, H0. reflexivity.
  - (* set *)
    assert (Hh : hits caps y t = false) by (apply lvA_hits; exact H).
    destruct t as [x|m r|b i]; cbn -[GenSpec.bind GenSpec.do_call keeps] in *; split_hyps.
    + apply keeps_bind; [apply IH'; assumption|]. intros. apply keeps_upd; assumption.
    + repeat (apply keeps_bind; [first [apply IH'; assumption|apply keeps_call; assumption]|intros]). assumption.
    + repeat (apply keeps_bind; [first [apply IH'; assumption|apply keeps_call; assumption]|intros]). assumption.
  - (* mul *)
    enough (G : forall ts w l f, existsb (lvA y) ts = false -> l y = c ->
              (forall w l gs, l y = c -> existsb (hit_by y) gs = false -> keeps y c (f w l gs)) -> keeps y c (ev_lvs (eval n) w l ts f)).
    { apply (G ts w l); [assumption|assumption|]. intros w1 l1 gs H3 H4.
      apply keeps_evals; [exact IH'|assumption|exact H3|]. intros. apply keeps_stores; [exact H4|assumption|]. intros. apply keeps_call; assumption. }
    clear - IH'. induction ts as [|t ts IHt]; intros w l f Ht Hl Hf; cbn in *; [apply Hf; [exact Hl|reflexivity]|]. split_hyps.
    assert (Hh : hits caps y t = false) by (apply lvA_hits; assumption).
    destruct t as [x|m r|b i]; cbn -[GenSpec.bind GenSpec.do_call keeps] in *; split_hyps.
    + apply IHt; [assumption|assumption|]. intros. apply Hf; [assumption|]. cbn. rewrite Hh. assumption.
    + apply keeps_bind; [apply IH'; assumption|]. intros. apply IHt; [assumption|assumption|]. intros. apply Hf; [assumption|]. cbn. rewrite Hh. assumption.
    + repeat (apply keeps_bind; [apply IH'; assumption|intros]). apply IHt; [assumption|assumption|]. intros. apply Hf; [assumption|]. cbn. rewrite Hh. assumption.
Qed.

(* ---- stays ---- *)

Definition settled (r : res) : Prop := match r with Some (_, _, OBrk _) | Some (_, _, ONxt) => False | _ => True end.
Lemma settled_bind : forall x f, settled x -> (forall w l v, settled (f w l v)) -> settled (bind x f).
Proof. intros [[[w l] o]|] f Hx Hf; [|exact I]. destruct o; cbn in *; try exact Hx. apply Hf. Qed.
Lemma settled_call : forall w l m args, settled (do_call w l m args).
Proof. intros w l m args. unfold GenSpec.do_call. destruct (call w m args (map l caps)) as [[w' vs] [v|x]]; exact I. Qed.
Lemma settled_evals : forall ev es w l f, (forall e w l, stays e = true -> settled (ev w l e)) -> forallb stays es = true ->
  (forall w l vs, settled (f w l vs)) -> settled (evals ev w l es f).
Proof.
  intros ev es w l f IH. revert w l f. induction es as [|e es IHes]; intros w l f He Hf; cbn in *; [apply Hf|]. split_hyps.
  apply settled_bind; [apply IH; assumption|]. intros. apply IHes; [assumption|]. intros. apply Hf.
Qed.
Definition lvS (t : lval) : bool := match t with LVar _ => true | LAttr _ e => stays e | LIdx b i => stays b && stays i end.
Lemma settled_lv : forall ev t w l f, (forall e w l, stays e = true -> settled (ev w l e)) -> lvS t = true ->
  (forall w l g, settled (f w l g)) -> settled (ev_lv ev w l t f).
Proof.
  intros ev [x|m e|b i] w l f IH Ht Hf; cbn in *; [apply Hf| |]; split_hyps; repeat (apply settled_bind; [apply IH; assumption|intros]); apply Hf.
Qed.
Lemma settled_lvs : forall ev ts w l f, (forall e w l, stays e = true -> settled (ev w l e)) -> forallb lvS ts = true ->
  (forall w l gs, settled (f w l gs)) -> settled (ev_lvs ev w l ts f).
Proof.
  intros ev ts w l f IH. revert w l f. induction ts as [|t ts IHt]; intros w l f Ht Hf; cbn in *; [apply Hf|]. split_hyps.
  apply settled_lv; [exact IH|assumption|]. intros. apply IHt; [assumption|]. intros. apply Hf.
Qed.
Lemma settled_store : forall w l g v f, (forall w l, settled (f w l)) -> settled (store w l g v f).
Proof. intros w l [x|m r|b i] v f Hf; cbn; [apply Hf| |]; (apply settled_bind; [apply settled_call|intros; apply Hf]). Qed.
Lemma settled_stores : forall gs vs w l f, (forall w l, settled (f w l)) -> settled (stores w l gs vs f).
Proof. induction gs as [|g gs IHg]; intros [|v vs] w l f Hf; cbn; try apply Hf. apply settled_store. intros. apply IHg. exact Hf. Qed.

Theorem stays_sound : forall n e w l, stays e = true -> settled (eval n w l e).
Proof.
  induction n as [|n IH]; intros e w l He; [exact I|].
  destruct e; cbn -[GenSpec.bind GenSpec.do_call settled] in He |- *; split_hyps; try discriminate He;
    repeat match goal with
    | |- settled (if ?b then _ else _) => destruct b
    | |- settled (bind _ _) => apply settled_bind
    | |- settled (eval _ _ _ _) => apply IH; assumption
    | |- settled (do_call _ _ _ _) => apply settled_call
    | |- settled (Some _) => exact I
    | |- settled (evals _ _ _ _ _) => apply settled_evals; [exact IH|assumption|]
    | |- settled (ev_lv _ _ _ _ _) => apply settled_lv; [exact IH|assumption|]
    | |- settled (ev_lvs _ _ _ _ _) => apply settled_lvs; [exact IH|assumption|]
    | |- settled (store _ _ _ _ _) => apply settled_store
    | |- settled (stores _ _ _ _ _) => apply settled_stores
    | |- forall _, _ => intro
    end.
  revert w l. assert (G : forall m w l, settled (eval m w l (EWhile op e1 e2))).
  { induction m as [|m IHm]; intros w l; [exact I|]. cbn -[GenSpec.bind settled].
    match goal with |- settled (match ?x with _ => _ end) => destruct x as [[[w1 l1] o]|]; [|exact I] end. destruct o; try exact I. apply IHm. }
  intros w l. exact (G (S n) w l).
Qed.

(* ---- reads ---- *)

Section Reads.
Variable x : var.
Definition same (l1 l2 : env) : Prop := forall y, y <> x -> l1 y = l2 y.
Definition quiet (o : out) : Prop := match o with ORet _ | OExn _ => cap x = false | _ => True end.
Definition rel (r1 r2 : res) : Prop :=
  match r1, r2 with
  | Some (w1, l1, o1), Some (w2, l2, o2) => w1 = w2 /\ o1 = o2 /\ same l1 l2 /\ quiet o1
  | None, None => True
  | _, _ => False
  end.
Definition relf {A} (f g : W -> env -> A -> res) : Prop := forall w l1 l2 a, same l1 l2 -> rel (f w l1 a) (g w l2 a).

Lemma rel_bind : forall r1 r2 f g, rel r1 r2 -> relf f g -> rel (bind r1 f) (bind r2 g).
Proof.
  intros [[[w1 l1] o1]|] [[[w2 l2] o2]|] f g H Hf; cbn in *; try contradiction; [|exact I].
  destruct H as (<- & <- & Hs & Hq). destruct o1; cbn; try (repeat split; assumption). apply Hf. exact Hs.
Qed.
Lemma rel_call : forall w l1 l2 m args, cap x = false -> same l1 l2 -> rel (do_call w l1 m args) (do_call w l2 m args).
Proof.
  intros w l1 l2 m args Hc Hs. unfold GenSpec.do_call.
  assert (E : map l1 caps = map l2 caps).
  { apply map_ext_in. intros y Hy. apply Hs. intros ->. apply cap_in in Hy. rewrite Hy in Hc. discriminate. }
  rewrite E. destruct (call w m args (map l2 caps)) as [[w' vs] r]. cbn. split; [reflexivity|]. split; [reflexivity|]. split.
  - intros y Hy. unfold put_env. destruct (lookup caps vs y); [reflexivity|]. apply Hs. exact Hy.
  - destruct r; cbn; [exact I|exact Hc].
Qed.
Lemma same_upd : forall l1 l2 y v, same l1 l2 -> same (upd l1 y v) (upd l2 y v).
Proof. intros l1 l2 y v H z Hz. unfold upd. destruct (z =? y); [reflexivity|]. apply H. exact Hz. Qed.

Variable ev : W -> env -> expr -> res.
Hypothesis IH : forall e w l1 l2, reads x e = false -> same l1 l2 -> rel (ev w l1 e) (ev w l2 e).
Lemma rel_evals : forall es w l1 l2 f g, existsb (reads x) es = false -> same l1 l2 -> relf f g -> rel (evals ev w l1 es f) (evals ev w l2 es g).
Proof.
  induction es as [|e es IHes]; intros w l1 l2 f g He Hs Hf; cbn in *; [apply Hf; exact Hs|]. split_hyps.
  apply rel_bind; [apply IH; assumption|]. intros w' k1 k2 v Hk. apply IHes; [assumption|exact Hk|]. intros w2 m1 m2 vs Hm. apply Hf. exact Hm.
Qed.
Definition lvR (t : lval) : bool := match t with LVar _ => false | LAttr _ e => cap x || reads x e | LIdx b i => cap x || reads x b || reads x i end.
Lemma rel_lv : forall t w l1 l2 f g, lvR t = false -> same l1 l2 -> relf f g -> rel (ev_lv ev w l1 t f) (ev_lv ev w l2 t g).
Proof.
  intros [y|m e|b i] w l1 l2 f g Ht Hs Hf; cbn in *; [apply Hf; exact Hs| |]; split_hyps.
  - apply rel_bind; [apply IH; assumption|]. intros w' k1 k2 v Hk. apply Hf. exact Hk.
  - apply rel_bind; [apply IH; assumption|]. intros w' k1 k2 v Hk. apply rel_bind; [apply IH; assumption|]. intros w2 m1 m2 v2 Hm. apply Hf. exact Hm.
Qed.
Lemma rel_lvs : forall ts w l1 l2 f g, existsb lvR ts = false -> same l1 l2 -> relf f g -> rel (ev_lvs ev w l1 ts f) (ev_lvs ev w l2 ts g).
Proof.
  induction ts as [|t ts IHt]; intros w l1 l2 f g Ht Hs Hf; cbn in *; [apply Hf; exact Hs|]. split_hyps.
  apply rel_lv; [assumption|exact Hs|]. intros w' k1 k2 v Hk. apply IHt; [assumption|exact Hk|]. intros w2 m1 m2 vs Hm. apply Hf. exact Hm.
Qed.
Definition loud (g : starget) : bool := match g with SVar _ => false | _ => cap x end.
Lemma rel_store : forall g w l1 l2 v f1 f2, loud g = false -> same l1 l2 ->
  (forall w l1 l2, same l1 l2 -> rel (f1 w l1) (f2 w l2)) -> rel (store w l1 g v f1) (store w l2 g v f2).
Proof.
  intros [y|m r|b i] w l1 l2 v f1 f2 Hg Hs Hf; cbn in *; [apply Hf; apply same_upd; exact Hs| |];
    (apply rel_bind; [apply rel_call; assumption|intros w' k1 k2 a Hk; apply Hf; exact Hk]).
Qed.
Lemma rel_stores : forall gs vs w l1 l2 f1 f2, cap x = false -> same l1 l2 ->
  (forall w l1 l2, same l1 l2 -> rel (f1 w l1) (f2 w l2)) -> rel (stores w l1 gs vs f1) (stores w l2 gs vs f2).
Proof.
  induction gs as [|g gs IHg]; intros [|v vs] w l1 l2 f1 f2 Hc Hs Hf; cbn; try (apply Hf; exact Hs).
  apply rel_store; [destruct g; [reflexivity|exact Hc|exact Hc]|exact Hs|]. intros. apply IHg; assumption.
Qed.
End Reads.

Lemma same_at : forall x l1 l2 y, same x l1 l2 -> (y =? x) = false -> l1 y = l2 y.
Proof. intros x l1 l2 y H E. apply H. apply Nat.eqb_neq. exact E. Qed.

Theorem reads_sound : forall n x e w l1 l2, reads x e = false -> same x l1 l2 -> rel x (eval n w l1 e) (eval n w l2 e).
Proof.
  induction n as [|n IH0]; intros x e w l1 l2 He Hs; [exact I|].
  assert (IH : forall e w l1 l2, reads x e = false -> same x l1 l2 -> rel x (eval n w l1 e) (eval n w l2 e)) by (intros; apply IH0; assumption).
  destruct e; cbn -[GenSpec.bind GenSpec.do_call rel] in He |- *; split_hyps;
    repeat match goal with
    | |- context [l1 ?z] => match goal with E : (z =? x) = false |- _ => rewrite (same_at x l1 l2 z Hs E) end
    end;
    repeat match goal with
    | |- rel _ (if ?b then _ else _) (if ?b then _ else _) => destruct b
    | |- rel _ (bind _ _) (bind _ _) => apply rel_bind
    | |- relf _ _ _ => intros ? ? ? ? ?; cbn beta
    | |- rel _ (eval _ _ _ _) (eval _ _ _ _) => apply IH; assumption
    | |- rel _ (do_call _ _ _ _) (do_call _ _ _ _) => apply rel_call; assumption
    | |- rel _ (Some _) (Some _) => split; [reflexivity|split; [reflexivity|split; [first [assumption|apply same_upd; assumption]|first [exact I|assumption]]]]
    | |- rel _ (evals _ _ _ _ _) (evals _ _ _ _ _) => apply rel_evals; [exact IH|assumption|assumption|]
    | |- rel _ (ev_lvs _ _ _ _ _) (ev_lvs _ _ _ _ _) => apply rel_lvs; [exact IH|assumption|assumption|]
    | |- rel _ (stores _ _ _ _ _) (stores _ _ _ _ _) => apply rel_stores; [assumption|assumption|]
    | |- forall _, _ => intro
    end.
  - (* while *)
    match goal with |- rel _ (match ?a with _ => _ end) (match ?b with _ => _ end) => assert (K : rel x a b); [|destruct a as [[[w1 k1] o1]|]; destruct b as [[[w2 k2] o2]|]; cbn in K; try contradiction; [|exact I]] end.
    { apply rel_bind; [apply IH; assumption|]. intros w' k1 k2 v Hk. destruct (eqb _ _); [|split; [reflexivity|split; [reflexivity|split; [exact Hk|exact I]]]].
      apply rel_bind; [apply IH; assumption|]. intros w2 m1 m2 v2 Hm. split; [reflexivity|split; [reflexivity|split; [exact Hm|exact I]]]. }
    destruct K as (<- & <- & K1 & K2). destruct o1; try (split; [reflexivity|split; [reflexivity|split; [exact K1|first [exact I|exact K2]]]]).
    apply IH; [cbn; rewrite H, H0; reflexivity|exact K1].
  - (* set *)
    destruct t as [y|m r|b i]; cbn -[GenSpec.bind GenSpec.do_call rel] in *; split_hyps;
      repeat (apply rel_bind; [first [apply IH; assumption|apply rel_call; assumption]|intros ? ? ? ? ?; cbn beta]);
      (split; [reflexivity|split; [reflexivity|split; [first [assumption|apply same_upd; assumption]|exact I]]]).
Qed.
End Frame.
