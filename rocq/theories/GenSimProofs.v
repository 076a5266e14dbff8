(** The generated code and the evaluation: the parts of the simulation. *)
From Coq Require Import List Bool Arith ZArith Lia.
From Verif Require Import GenModel GenSpec GenFrameProofs GenStepProofs GenLabelProofs.
Import ListNotations.

Section Sim.
Variable W : Type.
Variable caps : list var.
Variable call : W -> meth -> list value -> list value -> W * list value * (value + nat).
Variable self : value.
Variable C : code.
Hypothesis Hdup : NoDup (labels C).
Notation eval := (eval W caps call self).
Notation do_call := (do_call W caps call).
Notation evals := (evals W).
Notation ev_lv := (ev_lv W).
Notation ev_lvs := (ev_lvs W).
Notation store := (store W caps call).
Notation stores := (stores W caps call).
Notation bind := (bind W).
Notation cap := (cap caps).
Notation assigns := (assigns caps).
Notation reads := (reads caps).
Notation res := (res W).
Notation conf := (conf W).
Notation steps := (steps W caps call C).
Notation codeat := (codeat C).
Notation ok := (ok caps).

Definition inv (l : env) (r : regs) : Prop := r RSelf = self /\ forall x, r (RLoc x) = l x.
Definition capsok (l : env) (r : regs) : Prop := forall x, cap x = true -> r (RLoc x) = l x.
(** The temporaries below [t] but for [d] stay. *)
Definition keep (t : nat) (d : option reg) (r r' : regs) : Prop := forall i, i < t -> d <> Some (RTmp i) -> r' (RTmp i) = r (RTmp i).
Definition keepx (t : nat) (d d2 : option reg) (r r' : regs) : Prop :=
  forall i, i < t -> d <> Some (RTmp i) -> d2 <> Some (RTmp i) -> r' (RTmp i) = r (RTmp i).
Definition kd (k : kind) : option reg := match k with KM (Store d) => Some d | _ => None end.
Definition lputd (d : reg) (l : env) (v : value) : env := match d with RLoc x => upd l x v | _ => l end.
Definition lput (k : kind) (l : env) (v : value) : env := match k with KM (Store d) => lputd d l v | _ => l end.
Definition use_of (k : kind) : use := match k with KM NotUse => UNo | KM (Store (RLoc x)) => ULoc x | _ => UVal end.
Definition wfk (k : kind) (t : nat) : Prop := match k with KM (Store (RTmp i)) => i < t | KM (Store RSelf) => False | _ => True end.
Definition wfL (L : option loop) (t : nat) : Prop :=
  match L with Some lp => match l_ret lp with Some (RTmp i) => i < t | Some _ => False | None => True end | None => True end.

Definition valpost (k : kind) (t pe : nat) (r : regs) (w : W) (l : env) (v : value) (c : conf) : Prop :=
  match k with
  | KM Ret => exists r', c = Returned v r' w /\ capsok l r'
  | _ => exists r', c = At (match k with KBr j lb => if eqb (truthy v) j then pos C lb else pe | _ => pe end) r' w
                    /\ inv (lput k l v) r' /\ keep t (kd k) r r'
                    /\ match k with KM Push => r' (RTmp t) = v | KM (Store d) => r' d = v | _ => True end
  end.
Definition abort (L : option loop) (t : nat) (d : option reg) (r : regs) (w : W) (l : env) (o : out) (c : conf) : Prop :=
  match o with
  | OVal _ => False
  | OBrk v => match L with
              | None => True
              | Some lp => exists r', c = At (pos C (l_break lp)) r' w /\ inv l r' /\ keepx t d (l_ret lp) r r' /\ forall q, l_ret lp = Some q -> r' q = v
              end
  | ONxt => match L with None => True | Some lp => exists r', c = At (pos C (l_next lp)) r' w /\ inv l r' /\ keep t d r r' end
  | ORet v => exists r', c = Returned v r' w /\ capsok l r'
  | OExn x => exists r', c = Raised x r' w /\ capsok l r'
  end.
Definition post (k : kind) (L : option loop) (t pe : nat) (r : regs) (w : W) (l : env) (o : out) (c : conf) : Prop :=
  match o with OVal v => valpost k t pe r w l v c | _ => abort L t (kd k) r w l o c end.
(** From [pc], [r], [w] the code reaches what the outcome asks for. *)
Definition G (k : kind) (L : option loop) (t pe pc : nat) (r : regs) (w : W) (w' : W) (l' : env) (o : out) : Prop :=
  exists c, steps (At pc r w) c /\ post k L t pe r w' l' o c.

Definition Sim (n : nat) : Prop := forall e k t m L c m' pc w l r w' l' o,
  gen k e t m L = (c, m') -> codeat pc c -> ok (use_of k) e = true -> wfk k t -> wfL L t -> inv l r ->
  eval n w l e = Some (w', l', o) -> G k L t (pc + length c) pc r w w' l' o.

(* ---- composing ---- *)

Lemma keep_refl : forall t d r, keep t d r r.
Proof. intros t d r i _ _. reflexivity. Qed.
Lemma keep_trans : forall t d r1 r2 r3, keep t d r1 r2 -> keep t d r2 r3 -> keep t d r1 r3.
Proof. intros t d r1 r2 r3 H1 H2 i Hi Hd. rewrite (H2 i Hi Hd). apply H1; assumption. Qed.
Definition leq_d (t : nat) (d d' : option reg) : Prop := forall i, i < t -> d <> Some (RTmp i) -> d' <> Some (RTmp i).
Lemma keep_weak : forall t t' d d' r r', keep t' d' r r' -> t <= t' -> leq_d t d d' -> keep t d r r'.
Proof. intros t t' d d' r r' H Ht Hd i Hi Hn. apply H; [lia|apply Hd; assumption]. Qed.
Lemma leq_none : forall t d, leq_d t d None.
Proof. intros t d i _ _. discriminate. Qed.
Lemma leq_refl : forall t d, leq_d t d d.
Proof. intros t d i _ H. exact H. Qed.
Lemma leq_high : forall t d j, t <= j -> leq_d t d (Some (RTmp j)).
Proof. intros t d j H i Hi _ E. injection E as E. lia. Qed.
Lemma leq_loc : forall t d x, leq_d t d (Some (RLoc x)).
Proof. intros t d x i _ _ E. discriminate E. Qed.

Lemma abort_weak : forall L t t' d d' r0 r w l o c, abort L t' d' r w l o c -> t <= t' -> leq_d t d d' -> keep t d r0 r -> abort L t d r0 w l o c.
Proof.
  intros L t t' d d' r0 r w l o c H Ht Hd Hk. destruct o as [v|v| |v|x]; cbn in *; try exact H.
  - destruct L as [lp|]; [|exact I]. destruct H as (r' & -> & H2 & H3 & H4). exists r'. split; [reflexivity|]. split; [exact H2|]. split; [|exact H4].
    intros i Hi N1 N2. rewrite (H3 i); [apply Hk; assumption|lia|apply Hd; assumption|exact N2].
  - destruct L as [lp|]; [|exact I]. destruct H as (r' & -> & H2 & H3). exists r'. split; [reflexivity|]. split; [exact H2|].
    intros i Hi N1. rewrite (H3 i); [apply Hk; assumption|lia|apply Hd; assumption].
Qed.
Lemma G_abort : forall k L t t' d' pe pc r w w' l' o c, steps (At pc r w) c -> abort L t' d' r w' l' o c -> t <= t' -> leq_d t (kd k) d' ->
  G k L t pe pc r w w' l' o.
Proof.
  intros k L t t' d' pe pc r w w' l' o c Hs Ha Ht Hd. exists c. split; [exact Hs|].
  destruct o; [destruct Ha| | | |]; exact (abort_weak L t t' (kd k) d' r r w' l' _ c Ha Ht Hd (keep_refl _ _ _)).
Qed.
Lemma G_steps : forall k L t pe pc pc1 r r1 w w1 w' l' o, steps (At pc r w) (At pc1 r1 w1) -> keep t (kd k) r r1 ->
  G k L t pe pc1 r1 w1 w' l' o -> G k L t pe pc r w w' l' o.
Proof.
  intros k L t pe pc pc1 r r1 w w1 w' l' o Hs Hk (c & H1 & H2). exists c. split; [exact (steps_trans _ _ _ _ _ _ _ Hs H1)|].
  destruct o as [v| | | |].
  - cbn in *. destruct k as [[| |d|]|j lb]; cbn in *; try exact H2;
      destruct H2 as (r' & E & A & B & D); exists r'; (split; [exact E|]; split; [exact A|]; split; [exact (keep_trans _ _ _ _ _ Hk B)|exact D]).
  - exact (abort_weak L t t (kd k) (kd k) r r1 w' l' _ c H2 (le_n t) (leq_refl t (kd k)) Hk).
  - exact (abort_weak L t t (kd k) (kd k) r r1 w' l' _ c H2 (le_n t) (leq_refl t (kd k)) Hk).
  - exact H2.
  - exact H2.
Qed.

(* ---- registers ---- *)

Lemma inv_put : forall l r vs, inv l r -> inv (put_env caps l vs) (put_caps caps r vs).
Proof. intros l r vs (Hs & Hl). split; [exact Hs|]. intro x. unfold put_caps, put_env. destruct (lookup caps vs x); [reflexivity|apply Hl]. Qed.
Lemma inv_tmp : forall l r i v, inv l r -> inv l (set r (RTmp i) v).
Proof. intros l r i v (Hs & Hl). split; [rewrite set_other by discriminate; exact Hs|]. intro x. rewrite set_other by discriminate. apply Hl. Qed.
Lemma inv_loc : forall l r x v, inv l r -> inv (upd l x v) (set r (RLoc x) v).
Proof.
  intros l r x v (Hs & Hl). split; [rewrite set_other by discriminate; exact Hs|]. intro y. unfold upd.
  destruct (Nat.eqb_spec y x) as [->|Hy]; [apply set_same|]. rewrite set_other by (intro E; injection E as E; contradiction). apply Hl.
Qed.
Lemma inv_ext : forall l1 l2 r, inv l1 r -> (forall x, l1 x = l2 x) -> inv l2 r.
Proof. intros l1 l2 r (Hs & Hl) He. split; [exact Hs|]. intro x. rewrite <- He. apply Hl. Qed.
Lemma inv_caps : forall l r, inv l r -> capsok l r.
Proof. intros l r (_ & H) x _. apply H. Qed.
Lemma inv_set : forall l r d v, d <> RSelf -> inv l r -> inv (lputd d l v) (set r d v).
Proof. intros l r [|x|i] v Hd H; [contradiction Hd; reflexivity|apply inv_loc; exact H|apply inv_tmp; exact H]. Qed.
Lemma upd_same : forall l x v, upd l x v x = v.
Proof. intros l x v. unfold upd. rewrite Nat.eqb_refl. reflexivity. Qed.
Lemma put_tmp : forall r vs i, put_caps caps r vs (RTmp i) = r (RTmp i).
Proof. reflexivity. Qed.

(** A move of a value to a register. *)
Lemma use_mov : forall d s pc r w, codeat pc (mov d s) -> d <> RSelf ->
  exists r', steps (At pc r w) (At (pc + length (mov d s)) r' w) /\ (forall q, r' q = if reg_eqb q d then r s else r q).
Proof.
  intros d s pc r w Hc Hd. unfold mov in *. destruct (reg_eqb_spec d s) as [->|Hn].
  - exists r. cbn. rewrite Nat.add_0_r. split; [constructor|]. intro q. destruct (reg_eqb_spec q s) as [->|]; reflexivity.
  - apply codeat_cons in Hc. destruct Hc as [Hc _]. exists (set r d (r s)). split; [|intro q; reflexivity].
    cbn. rewrite Nat.add_1_r. apply steps_one. unfold step. rewrite Hc. reflexivity.
Qed.
Lemma inv_mov : forall l r r' d v, inv l r -> (forall q, r' q = if reg_eqb q d then v else r q) -> d <> RSelf -> inv (lputd d l v) r'.
Proof.
  intros l r r' d v Hi Hr Hd. destruct (inv_set l r d v Hd Hi) as [H1 H2]. split; [rewrite Hr; exact H1|]. intro x. rewrite Hr. apply H2.
Qed.

(* ---- ends ---- *)

Lemma fin_handle : forall k L t pe pc r w l v src, codeat pc (handle k t src) -> pe = pc + length (handle k t src) -> inv l r -> r src = v -> wfk k t ->
  G k L t pe pc r w w l (OVal v).
Proof.
  intros k L t pe pc r w l v src Hc -> Hi Hv Hk. destruct k as [[| |d|]|j lb]; cbn [handle] in *.
  - exists (At pc r w). split; [constructor|]. exists r. cbn. rewrite Nat.add_0_r. split; [reflexivity|]. split; [exact Hi|]. split; [apply keep_refl|exact I].
  - destruct (use_mov (RTmp t) src pc r w Hc ltac:(discriminate)) as (r' & Hs & Hr). exists (At (pc + length (mov (RTmp t) src)) r' w). split; [exact Hs|].
    exists r'. split; [reflexivity|]. split; [exact (inv_mov l r r' (RTmp t) _ Hi Hr ltac:(discriminate))|]. split.
    + intros i Hl _. rewrite Hr. destruct (reg_eqb_spec (RTmp i) (RTmp t)) as [E|_]; [injection E as E; lia|reflexivity].
    + rewrite Hr. destruct (reg_eqb_spec (RTmp t) (RTmp t)) as [_|E]; [exact Hv|contradiction E; reflexivity].
  - assert (Hd : d <> RSelf) by (intros ->; exact Hk).
    destruct (use_mov d src pc r w Hc Hd) as (r' & Hs & Hr). exists (At (pc + length (mov d src)) r' w). split; [exact Hs|].
    exists r'. split; [reflexivity|]. split; [cbn; rewrite <- Hv; exact (inv_mov l r r' d _ Hi Hr Hd)|]. split.
    + intros i Hl Hn. rewrite Hr. destruct (reg_eqb_spec (RTmp i) d) as [E|_]; [subst d; contradiction Hn; reflexivity|reflexivity].
    + rewrite Hr. destruct (reg_eqb_spec d d) as [_|E]; [exact Hv|contradiction E; reflexivity].
  - apply codeat_cons in Hc. destruct Hc as [Hc _]. exists (Returned v r w). split.
    + apply steps_one. unfold step. rewrite Hc, Hv. reflexivity.
    + exists r. split; [reflexivity|exact (inv_caps l r Hi)].
  - apply codeat_cons in Hc. destruct Hc as [Hc _]. exists (At (if eqb (truthy v) j then pos C lb else pc + 1) r w). split.
    + apply steps_one. unfold step. rewrite Hc, Hv, Nat.add_1_r. reflexivity.
    + exists r. split; [reflexivity|]. split; [exact Hi|]. split; [apply keep_refl|exact I].
Qed.
(** The value is where it belongs, [after] remains. *)
Lemma fin_after : forall k L t pe pc r w l v, codeat pc (after k t) -> pe = pc + length (after k t) -> inv (lput k l v) r ->
  (used k = true -> r (dest k t) = v) -> G k L t pe pc r w w l (OVal v).
Proof.
  intros k L t pe pc r w l v Hc -> Hi Hv. destruct k as [[| |d|]|j lb]; cbn [after] in *.
  - exists (At pc r w). split; [constructor|]. exists r. cbn. rewrite Nat.add_0_r. split; [reflexivity|]. split; [exact Hi|]. split; [apply keep_refl|exact I].
  - exists (At pc r w). split; [constructor|]. exists r. cbn. rewrite Nat.add_0_r. split; [reflexivity|]. split; [exact Hi|]. split; [apply keep_refl|apply Hv; reflexivity].
  - exists (At pc r w). split; [constructor|]. exists r. cbn. rewrite Nat.add_0_r. split; [reflexivity|]. split; [exact Hi|]. split; [apply keep_refl|apply Hv; reflexivity].
  - apply (fin_handle (KM Ret) L t _ pc r w l v (RTmp t) Hc eq_refl Hi (Hv eq_refl) I).
  - apply (fin_handle (KBr j lb) L t _ pc r w l v (RTmp t) Hc eq_refl Hi (Hv eq_refl) I).
Qed.
(** After a value was made for [inner k], [outer] remains. *)
Lemma G_outer : forall k L t pe pe1 pe2 pc r w w' l' o, wfk k t -> G (KM (inner k)) L t pe1 pc r w w' l' o ->
  (forall r1, steps (At pe1 r1 w') (At pe2 r1 w')) -> codeat pe2 (outer k t) -> pe = pe2 + length (outer k t) ->
  G k L t pe pc r w w' l' o.
Proof.
  intros k L t pe pe1 pe2 pc r w w' l' o Hk (c & Hs & Hp) Hj Hc ->.
  destruct k as [[| |d|]|j lb]; cbn [inner outer] in *.
  - exists (match o with OVal _ => match c with At _ r1 w1 => At pe2 r1 w1 | _ => c end | _ => c end). cbn. rewrite Nat.add_0_r.
    destruct o; try (split; [exact Hs|exact Hp]). destruct Hp as (r' & -> & A & B & D). split; [exact (steps_trans _ _ _ _ _ _ _ Hs (Hj r'))|].
    exists r'. split; [reflexivity|]. split; [exact A|]. split; [exact B|exact D].
  - exists (match o with OVal _ => match c with At _ r1 w1 => At pe2 r1 w1 | _ => c end | _ => c end). cbn. rewrite Nat.add_0_r.
    destruct o; try (split; [exact Hs|exact Hp]). destruct Hp as (r' & -> & A & B & D). split; [exact (steps_trans _ _ _ _ _ _ _ Hs (Hj r'))|].
    exists r'. split; [reflexivity|]. split; [exact A|]. split; [exact B|exact D].
  - destruct o as [v| | | |]; try exact (G_abort (KM (Store d)) L t t None _ pc r w w' l' _ c Hs Hp (le_n t) (leq_none t _)).
    destruct Hp as (r' & -> & A & B & D). apply (G_steps _ L t _ pc pe2 r r' w w'); [exact (steps_trans _ _ _ _ _ _ _ Hs (Hj r'))|exact (keep_weak _ _ _ _ _ _ B (le_n t) (leq_none t _))|].
    apply (fin_handle (KM (Store d)) L t _ pe2 r' w' l' v (RTmp t)); [exact Hc|reflexivity|exact A|exact D|exact Hk].
  - exists c. split; [exact Hs|]. destruct o; exact Hp.
  - destruct o as [v| | | |]; try exact (G_abort (KBr j lb) L t t None _ pc r w w' l' _ c Hs Hp (le_n t) (leq_none t _)).
    destruct Hp as (r' & -> & A & B & D). apply (G_steps _ L t _ pc pe2 r r' w w'); [exact (steps_trans _ _ _ _ _ _ _ Hs (Hj r'))|exact B|].
    apply (fin_handle (KBr j lb) L t _ pe2 r' w' l' v (RTmp t)); [exact Hc|reflexivity|exact A|exact D|exact I].
Qed.

(* ---- instructions ---- *)

Lemma at_label : forall pc r w l, nth_error C pc = Some (ILabel l) -> steps (At pc r w) (At (S pc) r w).
Proof. intros pc r w l H. apply steps_one. unfold step. rewrite H. reflexivity. Qed.
Lemma at_br : forall pc r w l, nth_error C pc = Some (IBr l) -> steps (At pc r w) (At (pos C l) r w).
Proof. intros pc r w l H. apply steps_one. unfold step. rewrite H. reflexivity. Qed.
Lemma at_cond : forall pc r w q j l, nth_error C pc = Some (ICond q j l) -> steps (At pc r w) (At (if eqb (truthy (r q)) j then pos C l else S pc) r w).
Proof. intros pc r w q j l H. apply steps_one. unfold step. rewrite H. reflexivity. Qed.
Lemma at_nil : forall pc r w q l, nth_error C pc = Some (INilBr q l) -> steps (At pc r w) (At (if is_nil (r q) then pos C l else S pc) r w).
Proof. intros pc r w q l H. apply steps_one. unfold step. rewrite H. reflexivity. Qed.
Lemma at_const : forall pc r w d v, nth_error C pc = Some (IConst d v) -> steps (At pc r w) (At (S pc) (set r d v) w).
Proof. intros pc r w d v H. apply steps_one. unfold step. rewrite H. reflexivity. Qed.

Definition dset (d : option reg) (r : regs) (v : value) : regs := match d with Some d => set r d v | None => r end.
Lemma use_call : forall (Q : Prop) d m rs args f pc r w l w' l' o,
  nth_error C pc = Some (ICall d m rs) -> map r rs = args -> capsok l r ->
  bind (do_call w l m args) f = Some (w', l', o) ->
  (forall w1 vs v, steps (At pc r w) (At (S pc) (dset d (put_caps caps r vs) v) w1) -> f w1 (put_env caps l vs) v = Some (w', l', o) -> Q) ->
  (forall r1 x, o = OExn x -> steps (At pc r w) (Raised x r1 w') -> capsok l' r1 -> Q) -> Q.
Proof.
  intros Q d m rs args f pc r w l w' l' o Hc <- Hk He K1 K2. unfold GenSpec.do_call in He.
  assert (E : map (fun x => r (RLoc x)) caps = map l caps).
  { apply map_ext_in. intros x Hx. apply Hk. apply cap_in. exact Hx. }
  destruct (call w m (map r rs) (map l caps)) as [[w1 vs] [v|x]] eqn:Ec; cbn in He.
  - apply (K1 w1 vs v); [|exact He]. apply steps_one. unfold step. rewrite Hc, E, Ec. reflexivity.
  - injection He as <- <- <-. apply (K2 (put_caps caps r vs) x eq_refl).
    + apply steps_one. unfold step. rewrite Hc, E, Ec. reflexivity.
    + intros y Hy. unfold put_caps, put_env. destruct (lookup caps vs y); [reflexivity|]. apply Hk. exact Hy.
Qed.
Lemma bind_ret : forall x : res, bind x (fun w l v => Some (w, l, OVal v)) = x.
Proof. intros [[[w l] []]|]; reflexivity. Qed.
Lemma G_raise : forall k L t pe pc r w w' l' o r1 x, o = OExn x -> steps (At pc r w) (Raised x r1 w') -> capsok l' r1 -> G k L t pe pc r w w' l' o.
Proof. intros k L t pe pc r w w' l' o r1 x -> Hs Hc. exists (Raised x r1 w'). split; [exact Hs|]. exists r1. split; [reflexivity|exact Hc]. Qed.

(* ---- subexpressions ---- *)

Section Sub.
Variable n : nat.
Hypothesis IH : Sim n.

Lemma kept : forall e w l w1 l1 o y, eval n w l e = Some (w1, l1, o) -> assigns y e = false -> l1 y = l y.
Proof. intros e w l w1 l1 o y He Ha. assert (H := assigns_sound W caps call self n y (l y) e w l Ha eq_refl). rewrite He in H. exact H. Qed.

Lemma use_gen : forall (Q : Prop) k e t m L c m' pc w l r f w' l' o,
  gen k e t m L = (c, m') -> codeat pc c -> ok (use_of k) e = true -> wfk k t -> wfL L t -> inv l r ->
  bind (eval n w l e) f = Some (w', l', o) ->
  (forall w1 l1 v cf, steps (At pc r w) cf -> valpost k t (pc + length c) r w1 l1 v cf -> (forall y, assigns y e = false -> l1 y = l y) ->
     eval n w l e = Some (w1, l1, OVal v) -> f w1 l1 v = Some (w', l', o) -> Q) ->
  (forall cf, steps (At pc r w) cf -> abort L t (kd k) r w' l' o cf -> (stays e = true -> match o with OBrk _ | ONxt => False | _ => True end) -> Q) -> Q.
Proof.
  intros Q k e t m L c m' pc w l r f w' l' o Hg Hc Ho Hk HL Hi He K1 K2.
  destruct (eval n w l e) as [[[w1 l1] o1]|] eqn:E; [|discriminate He].
  destruct (IH e k t m L c m' pc w l r w1 l1 o1 Hg Hc Ho Hk HL Hi E) as (cf & Hs & Hp).
  assert (St := stays_sound W caps call self n e w l). rewrite E in St.
  destruct o1 as [v|v| |v|x]; cbn in He.
  - apply (K1 w1 l1 v cf Hs Hp); [intros y Hy; exact (kept e w l w1 l1 _ y E Hy)|reflexivity|exact He].
  - injection He as <- <- <-. apply (K2 cf Hs Hp). intro H. exact (St H).
  - injection He as <- <- <-. apply (K2 cf Hs Hp). intro H. exact (St H).
  - injection He as <- <- <-. apply (K2 cf Hs Hp). intro H. exact I.
  - injection He as <- <- <-. apply (K2 cf Hs Hp). intro H. exact I.
Qed.

(** For [Push]. *)
Lemma use_push : forall (Q : Prop) e t m L c m' pc w l r f w' l' o,
  gen (KM Push) e t m L = (c, m') -> codeat pc c -> ok UVal e = true -> wfL L t -> inv l r ->
  bind (eval n w l e) f = Some (w', l', o) ->
  (forall w1 l1 v r1, steps (At pc r w) (At (pc + length c) r1 w1) -> inv l1 r1 -> keep t None r r1 -> r1 (RTmp t) = v ->
     (forall y, assigns y e = false -> l1 y = l y) -> f w1 l1 v = Some (w', l', o) -> Q) ->
  (forall cf, steps (At pc r w) cf -> abort L t None r w' l' o cf -> Q) -> Q.
Proof.
  intros Q e t m L c m' pc w l r f w' l' o Hg Hc Ho HL Hi He K1 K2.
  apply (use_gen Q (KM Push) e t m L c m' pc w l r f w' l' o Hg Hc Ho I HL Hi He).
  - intros w1 l1 v cf Hs Hp Ha _ Hf. destruct Hp as (r1 & -> & A & B & D). exact (K1 w1 l1 v r1 Hs A B D Ha Hf).
  - intros cf Hs Ha _. exact (K2 cf Hs Ha).
Qed.

(** For [gen_reg]. *)
Definition rinfo (e : expr) (t t' : nat) (q : reg) : Prop :=
  match e with ESelf => q = RSelf /\ t' = t | EVar y => q = RLoc y /\ t' = t | _ => q = RTmp t /\ t' = S t end.
Lemma reg_info : forall L e t m q c m' t', gen_reg L e t m = (q, c, m', t') -> rinfo e t t' q.
Proof.
  intros L e t m q c m' t' H. unfold gen_reg in H.
  destruct e; cbn [refer] in H; try (injection H as <- <- <- <-; split; reflexivity);
    match type of H with context [gen ?a ?b ?c ?d ?e] => destruct (gen a b c d e) as [c1 n1] end; injection H as <- <- <- <-; split; reflexivity.
Qed.
Lemma use_reg : forall (Q : Prop) e t m L q c m' t' pc w l r f w' l' o,
  gen_reg L e t m = (q, c, m', t') -> codeat pc c -> ok UVal e = true -> wfL L t -> inv l r ->
  bind (eval n w l e) f = Some (w', l', o) ->
  (forall w1 l1 v r1, steps (At pc r w) (At (pc + length c) r1 w1) -> inv l1 r1 -> keep t None r r1 -> r1 q = v ->
     (forall y, assigns y e = false -> l1 y = l y) -> f w1 l1 v = Some (w', l', o) -> Q) ->
  (forall cf, steps (At pc r w) cf -> abort L t None r w' l' o cf -> Q) -> Q.
Proof.
  intros Q e t m L q c m' t' pc w l r f w' l' o Hg Hc Ho HL Hi He K1 K2. unfold gen_reg in Hg.
  destruct (refer e) as [q0|] eqn:Er.
  - injection Hg as <- <- <- <-. destruct n as [|n0]; [destruct e; discriminate He|].
    apply (K1 w l (r q0) r); [cbn; rewrite Nat.add_0_r; apply s_refl|exact Hi|apply keep_refl|reflexivity|reflexivity|].
    destruct Hi as [Hs Hl]. destruct e; try discriminate Er; injection Er as <-; cbn in He; [rewrite Hs|rewrite Hl]; exact He.
  - destruct (gen (KM Push) e t m L) as [c1 n1] eqn:Eg. injection Hg as <- <- <- <-.
    exact (use_push Q e t m L c1 n1 pc w l r f w' l' o Eg Hc Ho HL Hi He K1 K2).
Qed.

(** For [Store]. *)
Lemma use_store : forall (Q : Prop) d e t m L c m' pc w l r f w' l' o,
  gen (KM (Store d)) e t m L = (c, m') -> codeat pc c -> ok (use_of (KM (Store d))) e = true -> wfk (KM (Store d)) t -> wfL L t -> inv l r ->
  bind (eval n w l e) f = Some (w', l', o) ->
  (forall w1 l1 v r1, steps (At pc r w) (At (pc + length c) r1 w1) -> inv (lputd d l1 v) r1 -> keep t (Some d) r r1 -> r1 d = v ->
     (forall y, assigns y e = false -> l1 y = l y) -> eval n w l e = Some (w1, l1, OVal v) -> f w1 l1 v = Some (w', l', o) -> Q) ->
  (forall cf, steps (At pc r w) cf -> abort L t (Some d) r w' l' o cf -> (stays e = true -> match o with OBrk _ | ONxt => False | _ => True end) -> Q) -> Q.
Proof.
  intros Q d e t m L c m' pc w l r f w' l' o Hg Hc Ho Hk HL Hi He K1 K2.
  apply (use_gen Q (KM (Store d)) e t m L c m' pc w l r f w' l' o Hg Hc Ho Hk HL Hi He).
  - intros w1 l1 v cf Hs Hp Ha Ee Hf. destruct Hp as (r1 & -> & A & B & D). exact (K1 w1 l1 v r1 Hs A B D Ha Ee Hf).
  - intros cf Hs Ha St. exact (K2 cf Hs Ha St).
Qed.

(** For a statement. *)
Lemma use_no : forall (Q : Prop) e t m L c m' pc w l r f w' l' o,
  gen (KM NotUse) e t m L = (c, m') -> codeat pc c -> ok UNo e = true -> wfL L t -> inv l r ->
  bind (eval n w l e) f = Some (w', l', o) ->
  (forall w1 l1 v r1, steps (At pc r w) (At (pc + length c) r1 w1) -> inv l1 r1 -> keep t None r r1 -> f w1 l1 v = Some (w', l', o) -> Q) ->
  (forall cf, steps (At pc r w) cf -> abort L t None r w' l' o cf -> (stays e = true -> match o with OBrk _ | ONxt => False | _ => True end) -> Q) -> Q.
Proof.
  intros Q e t m L c m' pc w l r f w' l' o Hg Hc Ho HL Hi He K1 K2.
  apply (use_gen Q (KM NotUse) e t m L c m' pc w l r f w' l' o Hg Hc Ho I HL Hi He).
  - intros w1 l1 v cf Hs Hp Ha _ Hf. destruct Hp as (r1 & -> & A & B & _). exact (K1 w1 l1 v r1 Hs A B Hf).
  - intros cf Hs Ha St. exact (K2 cf Hs Ha St).
Qed.
(** For a condition. *)
Lemma use_br : forall (Q : Prop) j lb e t m L c m' pc w l r f w' l' o,
  gen (KBr j lb) e t m L = (c, m') -> codeat pc c -> ok UVal e = true -> wfL L t -> inv l r ->
  bind (eval n w l e) f = Some (w', l', o) ->
  (forall w1 l1 v r1, steps (At pc r w) (At (if eqb (truthy v) j then pos C lb else pc + length c) r1 w1) -> inv l1 r1 -> keep t None r r1 -> f w1 l1 v = Some (w', l', o) -> Q) ->
  (forall cf, steps (At pc r w) cf -> abort L t None r w' l' o cf -> Q) -> Q.
Proof.
  intros Q j lb e t m L c m' pc w l r f w' l' o Hg Hc Ho HL Hi He K1 K2.
  apply (use_gen Q (KBr j lb) e t m L c m' pc w l r f w' l' o Hg Hc Ho I HL Hi He).
  - intros w1 l1 v cf Hs Hp Ha _ Hf. destruct Hp as (r1 & -> & A & B & _). exact (K1 w1 l1 v r1 Hs A B Hf).
  - intros cf Hs Ha _. exact (K2 cf Hs Ha).
Qed.

Lemma wfL_le : forall L t t', wfL L t -> t <= t' -> wfL L t'.
Proof. intros [lp|] t t' H Ht; [|exact I]. cbn in *. destruct (l_ret lp) as [[|x|i]|]; try exact H. lia. Qed.

(** For [gens]. *)
Lemma use_gens : forall (Q : Prop) es t m L c m' pc w l r f w' l' o,
  gens L es t m = (c, m') -> codeat pc c -> forallb (ok UVal) es = true -> wfL L t -> inv l r ->
  evals (eval n) w l es f = Some (w', l', o) ->
  (forall w1 l1 vs r1, steps (At pc r w) (At (pc + length c) r1 w1) -> inv l1 r1 -> keep t None r r1 -> map r1 (temps t (length es)) = vs ->
     (forall y, existsb (assigns y) es = false -> l1 y = l y) -> f w1 l1 vs = Some (w', l', o) -> Q) ->
  (forall cf, steps (At pc r w) cf -> abort L t None r w' l' o cf -> Q) -> Q.
Proof.
  intros Q es. induction es as [|e es IHes]; intros t m L c m' pc w l r f w' l' o Hg Hc Ho HL Hi He K1 K2; cbn in Hg.
  - injection Hg as <- <-. apply (K1 w l [] r); [cbn; rewrite Nat.add_0_r; constructor|exact Hi|apply keep_refl|reflexivity|reflexivity|exact He].
  - destruct (gen (KM Push) e t m L) as [c1 n1] eqn:E1. destruct (gens L es (S t) n1) as [c2 n2] eqn:E2. injection Hg as <- <-.
    apply codeat_app in Hc. destruct Hc as [Hc1 Hc2]. cbn in Ho. apply andb_true_iff in Ho. destruct Ho as [Ho1 Ho2]. cbn in He.
    apply (use_push Q e t m L c1 n1 pc w l r _ w' l' o E1 Hc1 Ho1 HL Hi He); [|exact K2].
    intros w1 l1 v r1 Hs1 Hi1 Hk1 Hv1 Ha1 Hf1.
    apply (IHes (S t) n1 L c2 n2 (pc + length c1) w1 l1 r1 _ w' l' o E2 Hc2 Ho2 (wfL_le L t (S t) HL (le_S _ _ (le_n t))) Hi1 Hf1).
    + intros w2 l2 vs r2 Hs2 Hi2 Hk2 Hv2 Ha2 Hf2. apply (K1 w2 l2 (v :: vs) r2); [|exact Hi2| | | |exact Hf2].
      * rewrite app_length, Nat.add_assoc. exact (steps_trans _ _ _ _ _ _ _ Hs1 Hs2).
      * apply (keep_trans t None r r1 r2 Hk1). exact (keep_weak t (S t) None None r1 r2 Hk2 (le_S _ _ (le_n t)) (leq_none t None)).
      * cbn. f_equal; [|exact Hv2]. rewrite <- Hv1. apply Hk2; [lia|discriminate].
      * intros y Hy. cbn in Hy. apply orb_false_iff in Hy. destruct Hy as [Hy1 Hy2]. rewrite (Ha2 y Hy2). exact (Ha1 y Hy1).
    + intros cf Hs Ha. apply (K2 cf (steps_trans _ _ _ _ _ _ _ Hs1 Hs)).
      exact (abort_weak L t (S t) None None r r1 w' l' o cf Ha (le_S _ _ (le_n t)) (leq_none t None) Hk1).
Qed.
(** For [gen_args]: the registers hold the values. *)
Lemma use_args : forall (Q : Prop) es t m L rs c m' pc w l r f w' l' o,
  gen_args L es t m = (rs, c, m') -> codeat pc c -> forallb (ok UVal) es = true -> wfL L t -> inv l r ->
  evals (eval n) w l es f = Some (w', l', o) ->
  (forall w1 l1 vs r1, steps (At pc r w) (At (pc + length c) r1 w1) -> inv l1 r1 -> keep t None r r1 -> map r1 rs = vs ->
     (forall y, existsb (assigns y) es = false -> l1 y = l y) -> f w1 l1 vs = Some (w', l', o) -> Q) ->
  (forall cf, steps (At pc r w) cf -> abort L t None r w' l' o cf -> Q) -> Q.
Proof.
  intros Q es t m L rs c m' pc w l r f w' l' o Hg Hc Ho HL Hi He K1 K2. unfold gen_args in Hg.
  assert (D : (let '(c, n) := gens L es t m in (temps t (length es), c, n)) = (rs, c, m') -> Q).
  { intro D. destruct (gens L es t m) as [c1 n1] eqn:E. injection D as <- <- <-. exact (use_gens Q es t m L c1 n1 pc w l r f w' l' o E Hc Ho HL Hi He K1 K2). }
  destruct es as [|[| |x| | | | | | | | | | | | | | | | | | | |] [|e' es]]; try exact (D Hg). injection Hg as <- <- <-.
  destruct n as [|n0]; [discriminate He|]. cbn in He.
  apply (K1 w l [l x] r); [cbn; rewrite Nat.add_0_r; constructor|exact Hi|apply keep_refl|cbn; rewrite (proj2 Hi x); reflexivity|reflexivity|exact He].
Qed.

(* ---- targets ---- *)

Definition tgt (r : regs) (g : target) (s : starget) : Prop :=
  match g, s with
  | TVar x, SVar y => x = y
  | TAttr m q, SAttr m' v => m = m' /\ r q = v
  | TIdx b i, SIdx vb vi => r b = vb /\ r i = vi
  | _, _ => False
  end.
Definition gregs (g : target) : list reg := match g with TVar _ => [] | TAttr _ q => [q] | TIdx b i => [b; i] end.
(** The registers of a target: temporaries below [t], [self], a local variable that is the receiver. *)
Definition tinfo (lv : lval) (t : nat) (g : target) : Prop :=
  forall q, In q (gregs g) -> match q with RSelf => True | RTmp i => i < t | RLoc y => exists m, lv = LAttr m (EVar y) end.
Lemma tinfo_le : forall lv t t' g, tinfo lv t g -> t <= t' -> tinfo lv t' g.
Proof. intros lv t t' g H Ht q Hq. specialize (H q Hq). destruct q; try exact H. lia. Qed.
Lemma lv_info : forall L lv t m g c m' t', gen_lv L lv t m = (g, c, m', t') -> tinfo lv t' g /\ t <= t'.
Proof.
  intros L [x|me e|b i] t m g c m' t' H; cbn [gen_lv] in H.
  - injection H as <- <- <- <-. split; [intros q []|lia].
  - destruct (gen_reg L e t m) as [[[q c1] n1] t1] eqn:E. injection H as <- <- <- <-. apply reg_info in E. split.
    + intros q' [<-|[]]. destruct e; destruct E as [-> ->]; first [exact I|exists me; reflexivity|lia].
    + destruct e; destruct E as [_ ->]; lia.
  - destruct (match b with ESelf => (RSelf, [], m, t) | _ => let '(c, n) := gen (KM Push) b t m L in (RTmp t, c, n, S t) end) as [[[rb cb] n1] t1] eqn:Eb.
    destruct (gen (KM Push) i t1 n1 L) as [ci n2]. injection H as <- <- <- <-.
    assert (B : (rb = RSelf /\ t1 = t) \/ (rb = RTmp t /\ t1 = S t)).
    { destruct (gen (KM Push) b t m L) as [c0 n0]. destruct b; injection Eb as <- <- <- <-; first [left; split; reflexivity|right; split; reflexivity]. }
    split; [|lia]. intros q [<-|[<-|[]]]; [|lia]. destruct B as [[-> _]|[-> ->]]; [exact I|lia].
Qed.
Lemma tgt_stable : forall lv t r r' g s, tgt r g s -> tinfo lv t g -> keep t None r r' -> r' RSelf = r RSelf ->
  (forall m y, lv = LAttr m (EVar y) -> r' (RLoc y) = r (RLoc y)) -> tgt r' g s.
Proof.
  intros lv t r r' g s Hg Ht Hk Hs Hl.
  assert (E : forall q, In q (gregs g) -> r' q = r q).
  { intros q Hq. specialize (Ht q Hq). destruct q as [|y|i]; [exact Hs|destruct Ht as [m Hm]; exact (Hl m y Hm)|apply Hk; [exact Ht|discriminate]]. }
  destruct g as [x|m q|b i]; destruct s as [y|m' v|vb vi]; cbn in *; try contradiction; try exact Hg.
  - rewrite (E q) by (left; reflexivity). exact Hg.
  - rewrite (E b), (E i) by auto. exact Hg.
Qed.

Definition lv_ok (t : lval) : bool := match t with LVar _ => true | LAttr _ e => ok UVal e | LIdx b i => ok UVal b && ok UVal i end.
Lemma use_lv : forall (Q : Prop) lv t m L g c m' t' pc w l r f w' l' o,
  gen_lv L lv t m = (g, c, m', t') -> codeat pc c -> lv_ok lv = true -> wfL L t -> inv l r ->
  ev_lv (eval n) w l lv f = Some (w', l', o) ->
  (forall w1 l1 s r1, steps (At pc r w) (At (pc + length c) r1 w1) -> inv l1 r1 -> keep t None r r1 -> tgt r1 g s -> s_of lv s ->
     (forall y, parts caps y [lv] = false -> l1 y = l y) -> f w1 l1 s = Some (w', l', o) -> Q) ->
  (forall cf, steps (At pc r w) cf -> abort L t None r w' l' o cf -> Q) -> Q.
Proof.
  intros Q [x|me e|b i] t m L g c m' t' pc w l r f w' l' o Hg Hc Ho HL Hi He K1 K2; cbn [gen_lv] in Hg.
  - injection Hg as <- <- <- <-. apply (K1 w l (SVar x) r); [cbn; rewrite Nat.add_0_r; apply s_refl|exact Hi|apply keep_refl|reflexivity|reflexivity|reflexivity|exact He].
  - destruct (gen_reg L e t m) as [[[q c1] n1] t1] eqn:E. injection Hg as <- <- <- <-.
    apply (use_reg Q e t m L q c1 n1 t1 pc w l r _ w' l' o E Hc Ho HL Hi He); [|exact K2].
    intros w1 l1 v r1 H1 H2 H3 H4 H5 H6. apply (K1 w1 l1 (SAttr me v) r1 H1 H2 H3); [split; [reflexivity|exact H4]|reflexivity| |exact H6].
    intros y Hy. cbn in Hy. apply orb_false_iff in Hy. exact (H5 y (proj1 Hy)).
  - cbn in Ho. apply andb_true_iff in Ho. destruct Ho as [Hob Hoi].
    assert (B : exists rb cb n1 t1 ci n2, g = TIdx rb (RTmp t1) /\ c = cb ++ ci /\ gen (KM Push) i t1 n1 L = (ci, n2) /\ t' = S (S t1)
              /\ ((b = ESelf /\ rb = RSelf /\ cb = [] /\ t1 = t) \/ (gen (KM Push) b t m L = (cb, n1) /\ rb = RTmp t /\ t1 = S t))).
    { destruct (gen (KM Push) b t m L) as [c0 n0] eqn:Eb. destruct b;
        try (cbv beta iota in Hg; destruct (gen (KM Push) i (S t) n0 L) as [ci n2] eqn:Ei; injection Hg as <- <- <- <-;
             exists (RTmp t), c0, n0, (S t), ci, n2; repeat (split; [first [reflexivity|exact Ei]|]); right; repeat split; reflexivity).
      destruct (gen (KM Push) i t m L) as [ci n2] eqn:Ei. injection Hg as <- <- <- <-.
      exists RSelf, [], m, t, ci, n2. repeat (split; [first [reflexivity|exact Ei]|]). left. repeat split; reflexivity. }
    destruct B as (rb & cb & n1 & t1 & ci & n2 & -> & -> & Ei & -> & B). apply codeat_app in Hc. destruct Hc as [Hcb Hci].
    destruct B as [(-> & -> & -> & ->)|(Eb & -> & ->)].
    + destruct n as [|n0] eqn:En; [discriminate He|]. cbn -[GenSpec.eval] in He. change (GenSpec.eval W caps call self (S n0) w l ESelf) with (Some (w, l, OVal self)) in He. cbn -[GenSpec.eval] in He.
      rewrite <- En in *. cbn in Hci. rewrite Nat.add_0_r in Hci.
      apply (use_push Q i t n1 L ci n2 pc w l r _ w' l' o Ei Hci Hoi HL Hi He); [|exact K2].
      intros w1 l1 v r1 H1 H2 H3 H4 H5 H6. apply (K1 w1 l1 (SIdx self v) r1 H1 H2 H3); [split; [exact (proj1 H2)|exact H4]|exact I| |exact H6].
      intros y Hy. cbn in Hy. apply orb_false_iff in Hy. exact (H5 y (proj1 Hy)).
    + apply (use_push Q b t m L cb n1 pc w l r _ w' l' o Eb Hcb Hob HL Hi He); [|exact K2].
      intros w1 l1 vb r1 H1 H2 H3 H4 H5 H6.
      apply (use_push Q i (S t) n1 L ci n2 (pc + length cb) w1 l1 r1 _ w' l' o Ei Hci Hoi (wfL_le L t (S t) HL (le_S _ _ (le_n t))) H2 H6).
      * intros w2 l2 vi r2 J1 J2 J3 J4 J5 J6. apply (K1 w2 l2 (SIdx vb vi) r2); [|exact J2| | |exact I| |exact J6].
        -- rewrite app_length, Nat.add_assoc. exact (steps_trans _ _ _ _ _ _ _ H1 J1).
        -- apply (keep_trans t None r r1 r2 H3). exact (keep_weak t (S t) None None r1 r2 J3 (le_S _ _ (le_n t)) (leq_none t None)).
        -- split; [|exact J4]. rewrite <- H4. apply J3; [lia|discriminate].
        -- intros y Hy. cbn in Hy. rewrite orb_false_r in Hy. apply orb_false_iff in Hy. rewrite (J5 y (proj2 Hy)). exact (H5 y (proj1 Hy)).
      * intros cf Hs Ha. apply (K2 cf (steps_trans _ _ _ _ _ _ _ H1 Hs)).
        exact (abort_weak L t (S t) None None r r1 w' l' o cf Ha (le_S _ _ (le_n t)) (leq_none t None) H3).
Qed.

Lemma parts_cons : forall y t ts, parts caps y (t :: ts) = parts caps y [t] || parts caps y ts.
Proof. intros y [x|m e|b i] ts; cbn; [reflexivity| |]; rewrite ?orb_false_r; reflexivity. Qed.

Lemma use_lvs : forall (Q : Prop) ts t m L gs c m' t' pc w l r f w' l' o before es,
  gen_lvs L ts t m = (gs, c, m', t') -> codeat pc c -> forallb lv_ok ts = true -> lazy_lvs caps before ts es = true -> wfL L t -> inv l r ->
  ev_lvs (eval n) w l ts f = Some (w', l', o) ->
  (forall w1 l1 ss r1, steps (At pc r w) (At (pc + length c) r1 w1) -> inv l1 r1 -> keep t None r r1 -> Forall2 (tgt r1) gs ss -> Forall2 s_of ts ss ->
     Forall2 (fun lv g => tinfo lv t' g) ts gs -> t <= t' ->
     (forall y, parts caps y ts = false -> l1 y = l y) -> f w1 l1 ss = Some (w', l', o) -> Q) ->
  (forall cf, steps (At pc r w) cf -> abort L t None r w' l' o cf -> Q) -> Q.
Proof.
  intros Q ts. induction ts as [|lv ts IHt]; intros t m L gs c m' t' pc w l r f w' l' o before es Hg Hc Ho Hz HL Hi He K1 K2; cbn [gen_lvs] in Hg.
  - injection Hg as <- <- <- <-. apply (K1 w l [] r); [cbn; rewrite Nat.add_0_r; apply s_refl|exact Hi|apply keep_refl|constructor|constructor|constructor|lia|reflexivity|exact He].
  - destruct (gen_lv L lv t m) as [[[g c1] n1] t1] eqn:E1. destruct (gen_lvs L ts t1 n1) as [[[gs2 c2] n2] t2] eqn:E2. injection Hg as <- <- <- <-.
    apply codeat_app in Hc. destruct Hc as [Hc1 Hc2]. cbn in Ho, Hz, He. apply andb_true_iff in Ho. destruct Ho as [Ho1 Ho2]. apply andb_true_iff in Hz. destruct Hz as [Hz1 Hz2].
    destruct (lv_info L lv t m g c1 n1 t1 E1) as [Ht1 Hle].
    apply (use_lv Q lv t m L g c1 n1 t1 pc w l r _ w' l' o E1 Hc1 Ho1 HL Hi He); [|exact K2].
    intros w1 l1 s r1 H1 H2 H3 H4 H5 H6 H7.
    apply (IHt t1 n1 L gs2 c2 n2 t2 (pc + length c1) w1 l1 r1 _ w' l' o _ es E2 Hc2 Ho2 Hz2 (wfL_le L t t1 HL Hle) H2 H7).
    + intros w2 l2 ss r2 J1 J2 J3 J4 J5 J6 J7 J8 J9.
      apply (K1 w2 l2 (s :: ss) r2); [|exact J2| | | | | | |exact J9].
      * rewrite app_length, Nat.add_assoc. exact (steps_trans _ _ _ _ _ _ _ H1 J1).
      * apply (keep_trans t None r r1 r2 H3). exact (keep_weak t t1 None None r1 r2 J3 Hle (leq_none t None)).
      * constructor; [|exact J4]. apply (tgt_stable lv t1 r1 r2 g s H4 Ht1 J3); [rewrite (proj1 J2), (proj1 H2); reflexivity|].
        intros m0 y ->. cbn in Hz1. apply negb_true_iff in Hz1. apply orb_false_iff in Hz1. destruct Hz1 as [Hz1 _]. apply orb_false_iff in Hz1.
        rewrite (proj2 J2), (proj2 H2). apply J8. exact (proj1 Hz1).
      * constructor; [exact H5|exact J5].
      * constructor; [exact (tinfo_le lv t1 t2 g Ht1 J7)|exact J6].
      * lia.
      * intros y Hy. rewrite parts_cons in Hy. apply orb_false_iff in Hy. rewrite (J8 y (proj2 Hy)). exact (H6 y (proj1 Hy)).
    + intros cf Hs Ha. apply (K2 cf (steps_trans _ _ _ _ _ _ _ H1 Hs)).
      exact (abort_weak L t t1 None None r r1 w' l' o cf Ha Hle (leq_none t None) H3).
Qed.

Definition sval (s : starget) (v : value) (vs : list value) (y : var) (old : value) : value :=
  match s with SVar x => if y =? x then v else old | _ => match lookup caps vs y with Some u => u | None => old end end.
Lemma sval_hit : forall s v vs y old, hit_by caps y s = false -> sval s v vs y old = old.
Proof.
  intros [x|m q|b i] v vs y old H; cbn in *; [rewrite Nat.eqb_sym, H; reflexivity| |];
    (destruct (lookup caps vs y) eqn:E; [|reflexivity]; apply lookup_cap in E; unfold GenSpec.cap in H; rewrite E in H; discriminate).
Qed.
Lemma use_assign : forall (Q : Prop) src g s v pc w l r f w' l' o,
  codeat pc (assign src g) -> tgt r g s -> r src = v -> capsok l r ->
  store w l s v f = Some (w', l', o) ->
  (forall w1 l1 r1 vs, steps (At pc r w) (At (pc + length (assign src g)) r1 w1) -> r1 RSelf = r RSelf -> (forall i, r1 (RTmp i) = r (RTmp i)) ->
     (forall y, r1 (RLoc y) = sval s v vs y (r (RLoc y))) -> (forall y, l1 y = sval s v vs y (l y)) -> f w1 l1 = Some (w', l', o) -> Q) ->
  (forall r1 x, o = OExn x -> steps (At pc r w) (Raised x r1 w') -> capsok l' r1 -> Q) -> Q.
Proof.
  intros Q src [x|m q|b i] [z|m' a|vb vi] v pc w l r f w' l' o Hc Hg Hv Hk He K1 K2; cbn in Hg; try contradiction.
  - subst z. cbn [assign] in *. destruct (use_mov (RLoc x) src pc r w Hc ltac:(discriminate)) as (r' & Hs & Hr).
    apply (K1 w (upd l x v) r' [] Hs); [rewrite Hr; reflexivity|intro i; rewrite Hr; reflexivity| |reflexivity|exact He].
    intro y. rewrite Hr. cbn. rewrite Hv. reflexivity.
  - destruct Hg as [<- Hq]. cbn in He. cbn [assign] in Hc |- *. apply codeat_cons in Hc. destruct Hc as [Hc _].
    apply (use_call Q None m [q; src] [a; v] _ pc r w l w' l' o Hc ltac:(cbn; rewrite Hq, Hv; reflexivity) Hk He); [|exact K2].
    intros w1 vs u Hs Hf. apply (K1 w1 (put_env caps l vs) (put_caps caps r vs) vs); try reflexivity; [|exact Hf]. cbn. rewrite Nat.add_1_r. exact Hs.
  - destruct Hg as [Hb Hi]. cbn in He. cbn [assign] in Hc |- *. apply codeat_cons in Hc. destruct Hc as [Hc _].
    apply (use_call Q None SETINDEX [b; i; src] [vb; vi; v] _ pc r w l w' l' o Hc ltac:(cbn; rewrite Hb, Hi, Hv; reflexivity) Hk He); [|exact K2].
    intros w1 vs u Hs Hf. apply (K1 w1 (put_env caps l vs) (put_caps caps r vs) vs); try reflexivity; [|exact Hf]. cbn. rewrite Nat.add_1_r. exact Hs.
Qed.
Lemma lazy_before : forall ts before es t0 tj, lazy_lvs caps before ts es = true -> In t0 before -> In tj ts -> lazy_lv tj (fun y => hits caps y t0) = true.
Proof.
  induction ts as [|t ts IHt]; intros before es t0 tj H H0 Hj; [destruct Hj|]. cbn in H. apply andb_true_iff in H. destruct H as [H1 H2].
  destruct Hj as [<-|Hj].
  - destruct t as [x|m e|b i]; try reflexivity. destruct e; try reflexivity. cbn in *. apply negb_true_iff in H1. apply orb_false_iff in H1. destruct H1 as [_ H1].
    apply negb_true_iff. destruct (hits caps x t0) eqn:E; [|reflexivity].
    assert (K : existsb (hits caps x) before = true) by (apply existsb_exists; exists t0; split; assumption). rewrite K in H1. discriminate.
  - apply (IHt (before ++ [t]) es t0 tj H2); [apply in_or_app; left; exact H0|exact Hj].
Qed.
Lemma use_stores : forall (Q : Prop) ts gs ss vs i t pc w l r f w' l' o before es,
  codeat pc (assigns_code i gs) -> Forall2 (tgt r) gs ss -> Forall2 s_of ts ss -> Forall2 (fun lv g => tinfo lv t g) ts gs ->
  lazy_lvs caps before ts es = true -> map r (temps i (length gs)) = vs -> inv l r ->
  stores w l ss vs f = Some (w', l', o) ->
  (forall w1 l1 r1, steps (At pc r w) (At (pc + length (assigns_code i gs)) r1 w1) -> inv l1 r1 -> (forall j, r1 (RTmp j) = r (RTmp j)) -> f w1 l1 = Some (w', l', o) -> Q) ->
  (forall r1 x, o = OExn x -> steps (At pc r w) (Raised x r1 w') -> capsok l' r1 -> Q) -> Q.
Proof.
  intros Q ts. induction ts as [|lv ts IHt]; intros gs ss vs i t pc w l r f w' l' o before es Hc H1 H2 H3 Hz Hv Hi He K1 K2.
  - inversion H3; subst. inversion H2; subst. cbn in He. apply (K1 w l r); [cbn; rewrite Nat.add_0_r; apply s_refl|exact Hi|reflexivity|exact He].
  - inversion H3 as [|? g ? gs' Hti H3']; subst. inversion H2 as [|? s ? ss' Hso H2']; subst. inversion H1 as [|? ? ? ? Htg H1']; subst.
    cbn [length temps seq map] in He. cbn in He. cbn [assigns_code] in Hc. apply codeat_app in Hc. destruct Hc as [Hc1 Hc2].
    cbn in Hz. apply andb_true_iff in Hz. destruct Hz as [_ Hz].
    apply (use_assign Q (RTmp i) g s (r (RTmp i)) pc w l r _ w' l' o Hc1 Htg eq_refl (inv_caps l r Hi) He); [|exact K2].
    intros w1 l1 r1 us A1 A2 A3 A4 A5 A6.
    assert (Hi1 : inv l1 r1) by (split; [rewrite A2; exact (proj1 Hi)|intro y; rewrite A4, A5, (proj2 Hi); reflexivity]).
    assert (Hk1 : keep t None r r1) by (intros j _ _; apply A3).
    assert (H1n : Forall2 (tgt r1) gs' ss').
    { assert (B : forall ts gs ss, Forall2 (tgt r) gs ss -> Forall2 (fun lv g => tinfo lv t g) ts gs -> (forall tj, In tj ts -> lazy_lv tj (fun y => hits caps y lv) = true) -> Forall2 (tgt r1) gs ss).
      { clear - Hk1 A2 A4 Hso. intros ts gs ss F1. revert ts. induction F1 as [|g s0 gs ss Hg F1 IHF]; intros ts F2 Hl; [constructor|].
        inversion F2 as [|lj ? ts' ? Hlj F2']; subst. constructor.
        - apply (tgt_stable lj t r r1 g s0 Hg Hlj Hk1 A2). intros m y ->. rewrite A4. apply sval_hit. rewrite (s_hits caps y lv s Hso).
          assert (Hx := Hl _ (or_introl eq_refl)). cbn in Hx. apply negb_true_iff in Hx. exact Hx.
        - apply (IHF ts' F2'). intros tj Hj. apply Hl. right. exact Hj. }
      apply (B ts gs' ss' H1' H3'). intros tj Hj. apply (lazy_before ts (before ++ [lv]) es lv tj Hz); [apply in_or_app; right; left; reflexivity|exact Hj]. }
    apply (IHt gs' ss' (map r (map RTmp (seq (S i) (length gs')))) (S i) t (pc + length (assign (RTmp i) g)) w1 l1 r1 f w' l' o (before ++ [lv]) es Hc2 H1n H2' H3' Hz).
    + unfold temps. rewrite !map_map. apply map_ext. intro j. apply A3.
    + exact Hi1.
    + exact A6.
    + intros w2 l2 r2 B1 B2 B3 B4. apply (K1 w2 l2 r2); [|exact B2| |exact B4].
      * cbn [assigns_code]. rewrite app_length, Nat.add_assoc. exact (steps_trans _ _ _ _ _ _ _ A1 B1).
      * intro j. rewrite B3. apply A3.
    + intros r2 x Hx Hs Hk. exact (K2 r2 x Hx (steps_trans _ _ _ _ _ _ _ A1 Hs) Hk).
Qed.
End Sub.

(* ---- more ends ---- *)

Lemma inv_dest : forall k t l r v, wfk k t -> inv l r -> inv (lput k l v) (set r (dest k t) v).
Proof.
  intros k t l r v Hk Hi. destruct k as [[| |d|]|j lb]; cbn; try (apply inv_tmp; exact Hi). apply inv_set; [intros ->; exact Hk|exact Hi].
Qed.
Lemma keep_dest : forall k t r v, keep t (kd k) r (set r (dest k t) v).
Proof.
  intros k t r v i Hi Hn. apply set_other. destruct k as [[| |d|]|j lb]; cbn in *; try (intro E; injection E as E; lia). intros <-. apply Hn. reflexivity.
Qed.
Definition dst_of (k : kind) (t : nat) (d : option reg) : Prop := d = dst k t \/ d = Some (dest k t).
Lemma keep_dst : forall k t d r v, dst_of k t d -> keep t (kd k) r (dset d r v).
Proof.
  intros k t d r v [->| ->]; [|apply keep_dest]. unfold dst. destruct (used k); [apply keep_dest|apply keep_refl].
Qed.
Lemma inv_dst : forall k t d l r v, dst_of k t d -> wfk k t -> inv l r -> inv (lput k l v) (dset d r v).
Proof.
  intros k t d l r v [->| ->] Hk Hi; [|apply inv_dest; assumption]. unfold dst. destruct k as [[| |q|]|j lb]; cbn [used dest dset]; first [exact Hi|exact (inv_dest _ t l r v Hk Hi)].
Qed.
Lemma val_dst : forall k t d r v, dst_of k t d -> used k = true -> dset d r v (dest k t) = v.
Proof. intros k t d r v [->| ->] Hu; [unfold dst; rewrite Hu|]; apply set_same. Qed.
Lemma keep_put : forall t d r vs, keep t d r (put_caps caps r vs).
Proof. intros t d r vs i _ _. reflexivity. Qed.

Lemma fin_call0 : forall k L t pe pc r w l d m rs args w' l' o, nth_error C pc = Some (ICall d m rs) -> codeat (S pc) (after k t) -> pe = S pc + length (after k t) ->
  dst_of k t d -> map r rs = args -> capsok l r -> (forall vs v, inv (lput k (put_env caps l vs) v) (dset d (put_caps caps r vs) v)) ->
  do_call w l m args = Some (w', l', o) -> G k L t pe pc r w w' l' o.
Proof.
  intros k L t pe pc r w l d m rs args w' l' o Hc Ha Hpe Hd Hr Hk Hv He. rewrite <- (bind_ret (do_call w l m args)) in He.
  apply (use_call _ d m rs args _ pc r w l w' l' o Hc Hr Hk He).
  - intros w1 vs v Hs E. injection E as <- <- <-.
    apply (G_steps k L t pe pc (S pc) r (dset d (put_caps caps r vs) v) w w1 w1 _ _ Hs); [exact (keep_trans _ _ _ _ _ (keep_put t (kd k) r vs) (keep_dst k t d _ v Hd))|].
    apply fin_after; [exact Ha|exact Hpe|apply Hv|intro Hu; exact (val_dst k t d _ v Hd Hu)].
  - intros r1 x Hx Hs Hok. exact (G_raise k L t pe pc r w w' l' o r1 x Hx Hs Hok).
Qed.
Lemma fin_call : forall k L t pe pc r w l d m rs args w' l' o, nth_error C pc = Some (ICall d m rs) -> codeat (S pc) (after k t) -> pe = S pc + length (after k t) ->
  dst_of k t d -> map r rs = args -> inv l r -> wfk k t -> do_call w l m args = Some (w', l', o) -> G k L t pe pc r w w' l' o.
Proof.
  intros k L t pe pc r w l d m rs args w' l' o Hc Ha Hpe Hd Hr Hi Hk He.
  apply (fin_call0 k L t pe pc r w l d m rs args w' l' o Hc Ha Hpe Hd Hr (inv_caps l r Hi)); [|exact He].
  intros vs v. apply (inv_dst k t d _ _ v Hd Hk). apply inv_put. exact Hi.
Qed.
Definition wtail (k : kind) (t : nat) : code := match k with KM Ret => [IRet (RTmp t)] | _ => outer k t end.
Lemma fin_tail : forall k L t pe pc r w l v, codeat pc (wtail k t) -> pe = pc + length (wtail k t) -> inv l r -> (used k = true -> r (RTmp t) = v) -> wfk k t ->
  G k L t pe pc r w w l (OVal v).
Proof.
  intros k L t pe pc r w l v Hc Hpe Hi Hv Hk. destruct k as [[| |d|]|j lb]; cbn [wtail outer] in *.
  - apply fin_after; [exact Hc|exact Hpe|exact Hi|discriminate].
  - apply fin_after; [exact Hc|exact Hpe|exact Hi|exact Hv].
  - exact (fin_handle (KM (Store d)) L t pe pc r w l v (RTmp t) Hc Hpe Hi (Hv eq_refl) Hk).
  - exact (fin_handle (KM Ret) L t pe pc r w l v (RTmp t) Hc Hpe Hi (Hv eq_refl) Hk).
  - exact (fin_handle (KBr j lb) L t pe pc r w l v (RTmp t) Hc Hpe Hi (Hv eq_refl) Hk).
Qed.

(* ---- loops ---- *)

Definition SimW (n : nat) : Prop := forall op c b k t m L cc cb n1 n2 pc w l r w' l' o,
  let t1 := if used k then S t else t in
  let L1 := Some (mkLoop (S m) m (if used k then Some (RTmp t) else None)) in
  gen (KBr (negb op) (S (S m))) c t1 (S (S (S m))) L1 = (cc, n1) -> gen (KM NotUse) b t1 n1 L1 = (cb, n2) ->
  codeat pc ([ILabel m] ++ cc ++ cb ++ [IBr m] ++ [ILabel (S (S m))] ++ [ILabel (S m)] ++ wtail k t) ->
  ok UVal c = true -> ok UNo b = true -> wfk k t -> inv l r -> (used k = true -> r (RTmp t) = Nil) ->
  eval n w l (EWhile op c b) = Some (w', l', o) ->
  G k L t (pc + length ([ILabel m] ++ cc ++ cb ++ [IBr m] ++ [ILabel (S (S m))] ++ [ILabel (S m)] ++ wtail k t)) pc r w w' l' o.

Lemma simW_step : forall n, Sim n -> SimW n -> SimW (S n).
Proof.
  intros n IH IHW op c b k t m L cc cb n1 n2 pc w l r w' l' o t1 L1 Ec Eb Hc Hoc Hob Hk Hi Hn He.
  assert (Hc0 := Hc). apply codeat_cons in Hc. destruct Hc as [P0 Hc]. change ([] ++ cc ++ cb ++ [IBr m] ++ [ILabel (S (S m))] ++ [ILabel (S m)] ++ wtail k t) with (cc ++ cb ++ [IBr m] ++ [ILabel (S (S m))] ++ [ILabel (S m)] ++ wtail k t) in Hc.
  apply codeat_app in Hc. destruct Hc as [Hcc Hc]. apply codeat_app in Hc. destruct Hc as [Hcb Hc].
  apply codeat_cons in Hc. destruct Hc as [P1 Hc]. apply codeat_cons in Hc. destruct Hc as [P2 Hc]. apply codeat_cons in Hc. destruct Hc as [P3 Hc].
  assert (L0 := pos_at C _ _ Hdup P0). assert (L2 := pos_at C _ _ Hdup P2). assert (L3 := pos_at C _ _ Hdup P3).
  set (whole := [ILabel m] ++ cc ++ cb ++ [IBr m] ++ [ILabel (S (S m))] ++ [ILabel (S m)] ++ wtail k t) in *.
  assert (Hlen : pc + length whole = S (S (S (S pc + length cc + length cb))) + length (wtail k t)).
  { unfold whole. rewrite !app_length. cbn [length]. lia. }
  assert (HL1 : wfL L1 t1) by (unfold L1, t1, wfL; cbn; destruct (used k); [lia|exact I]).
  assert (Htt : t <= t1) by (unfold t1; destruct (used k); lia).
  cbn [GenSpec.eval] in He.
  match type of He with match ?x with _ => _ end = _ => destruct x as [[[wx lx] ox]|] eqn:Ex; [|discriminate He] end.
  assert (Kt : forall r1 w1, inv lx r1 -> keep t (kd k) r r1 -> (used k = true -> r1 (RTmp t) = Nil) -> steps (At pc r w) (At pc r1 w1) -> ox = ONxt -> w1 = wx -> G k L t (pc + length whole) pc r w w' l' o).
  { intros r1 w1 A1 A2 A3 A4 -> ->. apply (G_steps k L t _ pc pc r r1 w wx w' l' o A4 A2).
    exact (IHW op c b k t m L cc cb n1 n2 pc wx lx r1 w' l' o Ec Eb Hc0 Hoc Hob Hk A1 A3 He). }
  assert (Ka : forall cf, steps (At pc r w) cf -> abort L1 t1 None r wx lx ox cf -> G k L t (pc + length whole) pc r w w' l' o).
  { intros cf Hs Ha. destruct ox as [v|v| |v|x]; [destruct Ha| | | |].
    - destruct Ha as (r' & -> & A1 & A2 & A3). cbn in He. injection He as <- <- <-.
      apply (G_steps k L t _ pc (S (S (S (S pc + length cc + length cb)))) r r' w wx).
      + apply (steps_trans _ _ _ _ _ _ _ Hs). cbn [l_break]. rewrite L3. exact (at_label _ r' wx _ P3).
      + intros i Hl _. apply A2; [lia|discriminate|]. cbn. destruct (used k); [intro E; injection E as E; lia|discriminate].
      + apply fin_tail; [exact Hc|exact Hlen|exact A1| |exact Hk]. intro Hu. apply A3. cbn. rewrite Hu. reflexivity.
    - destruct Ha as (r' & -> & A1 & A2). cbn [l_next] in Hs. rewrite L0 in Hs. apply (Kt r' wx); try reflexivity.
      + exact A1.
      + intros i Hl _. apply A2; [lia|discriminate].
      + intro Hu. rewrite A2; [exact (Hn Hu)| |discriminate]. unfold t1. rewrite Hu. lia.
      + exact Hs.
    - cbn in He. injection He as <- <- <-. exists cf. split; [exact Hs|exact Ha].
    - cbn in He. injection He as <- <- <-. exists cf. split; [exact Hs|exact Ha]. }
  assert (Hs0 := at_label pc r w m P0).
  assert (Ex' := Ex). clear Ex. revert Ex'.
  intro Ex. apply (use_br n IH _ (negb op) (S (S m)) c t1 _ L1 cc n1 (S pc) w l r _ wx lx ox Ec Hcc Hoc HL1 Hi Ex).
  - intros w1 l1 v r1 Hs1 Hi1 Hk1 Hf1. destruct (eqb (truthy v) op) eqn:Ev.
    + assert (Ev' : eqb (truthy v) (negb op) = false) by (destruct (truthy v), op; try discriminate; reflexivity). rewrite Ev' in Hs1.
      apply (use_no n IH _ b t1 n1 L1 cb n2 (S pc + length cc) w1 l1 r1 _ wx lx ox Eb Hcb Hob HL1 Hi1 Hf1).
      * intros w2 l2 v2 r2 Hs2 Hi2 Hk2 Hf2. injection Hf2 as <- <- <-. apply (Kt r2 w2); try reflexivity.
        -- exact Hi2.
        -- intros i Hl _. rewrite (Hk2 i) by (try lia; discriminate). apply Hk1; [lia|discriminate].
        -- intro Hu. rewrite (Hk2 t); [|unfold t1; rewrite Hu; lia|discriminate]. rewrite (Hk1 t); [exact (Hn Hu)|unfold t1; rewrite Hu; lia|discriminate].
        -- apply (steps_trans _ _ _ _ _ _ _ Hs0). apply (steps_trans _ _ _ _ _ _ _ Hs1). apply (steps_trans _ _ _ _ _ _ _ Hs2).
           rewrite <- L0 at 2. exact (at_br _ r2 w2 m P1).
      * intros cf Hs2 Ha _. apply (Ka cf); [exact (steps_trans _ _ _ _ _ _ _ Hs0 (steps_trans _ _ _ _ _ _ _ Hs1 Hs2))|].
        exact (abort_weak L1 t1 t1 None None r r1 wx lx ox cf Ha (le_n t1) (leq_none t1 None) Hk1).
    + assert (Ev' : eqb (truthy v) (negb op) = true) by (destruct (truthy v), op; try discriminate; reflexivity). rewrite Ev', L2 in Hs1.
      injection Hf1 as <- <- <-. cbn in He. injection He as <- <- <-.
      apply (G_steps k L t _ pc (S (S (S (S pc + length cc + length cb)))) r r1 w w1).
      * apply (steps_trans _ _ _ _ _ _ _ Hs0). apply (steps_trans _ _ _ _ _ _ _ Hs1). apply (steps_trans _ _ _ _ _ _ _ (at_label _ r1 w1 _ P2)). exact (at_label _ r1 w1 _ P3).
      * intros i Hl _. apply Hk1; [lia|discriminate].
      * apply fin_tail; [exact Hc|exact Hlen|exact Hi1| |exact Hk]. intro Hu. rewrite (Hk1 t); [exact (Hn Hu)|unfold t1; rewrite Hu; lia|discriminate].
  - intros cf Hs1 Ha. apply (Ka cf (steps_trans _ _ _ _ _ _ _ Hs0 Hs1) Ha).
Qed.

(* ---- the cases ---- *)

Definition SimE (n : nat) (e : expr) : Prop := forall k t m L c m' pc w l r w' l' o,
  gen k e t m L = (c, m') -> codeat pc c -> ok (use_of k) e = true -> wfk k t -> wfL L t -> inv l r ->
  eval (S n) w l e = Some (w', l', o) -> G k L t (pc + length c) pc r w w' l' o.

Ltac start := intros k t m0 L c0 m' pc w l r w' l' o Hg Hc Ho Hk HL Hi He; cbn [GenSpec.eval] in He.
Ltac len := cbn [handle]; repeat (progress (rewrite ?app_length; cbn [length])); lia.
Ltac no_abort := intros; eapply G_abort; [eassumption|eassumption|lia|apply leq_none].

Lemma c_lit : forall n v, SimE n (ELit v).
Proof.
  intros n v. start. cbn in Hg. injection Hg as <- <-. injection He as <- <- <-. destruct (used k) eqn:Hu.
  - apply codeat_cons in Hc. destruct Hc as [P Hc]. apply (G_steps k L t _ pc (S pc) r (set r (dest k t) v) w w _ _ _ (at_const pc r w _ v P) (keep_dest k t r v)).
    apply fin_after; [exact Hc|cbn [length]; lia|exact (inv_dest k t l r v Hk Hi)|intros _; apply set_same].
  - destruct k as [[| |d|]|j lb]; try discriminate Hu. apply fin_after; [exact Hc|reflexivity|exact Hi|discriminate].
Qed.
Lemma c_self : forall n, SimE n ESelf.
Proof. intros n. start. cbn in Hg. injection Hg as <- <-. injection He as <- <- <-. apply fin_handle with (src := RSelf); [exact Hc|reflexivity|exact Hi|exact (proj1 Hi)|exact Hk]. Qed.
Lemma c_var : forall n x, SimE n (EVar x).
Proof. intros n x. start. cbn in Hg. injection Hg as <- <-. injection He as <- <- <-. apply fin_handle with (src := RLoc x); [exact Hc|reflexivity|exact Hi|exact (proj2 Hi x)|exact Hk]. Qed.

(** A register that was filled by [gen_reg] keeps its value while what follows does not assign it. *)
Lemma reg_stays : forall a t t1 q l1 l2 r1 r2 v, rinfo a t t1 q -> r1 q = v -> inv l1 r1 -> inv l2 r2 -> keep t1 None r1 r2 ->
  (forall y, a = EVar y -> l2 y = l1 y) -> r2 q = v.
Proof.
  intros a t t1 q l1 l2 r1 r2 v Hr Hv H1 H2 Hk Ha. destruct a; destruct Hr as [-> ->];
    try (rewrite (Hk t); [exact Hv|lia|discriminate]).
  - rewrite <- Hv. rewrite (proj1 H1), (proj1 H2). reflexivity.
  - rewrite <- Hv, (proj2 H1), (proj2 H2). apply Ha. reflexivity.
Qed.
Lemma rinfo_le : forall a t t1 q, rinfo a t t1 q -> t <= t1.
Proof. intros a t t1 q H. destruct a; destruct H as [_ ->]; lia. Qed.

Lemma c_bin : forall n, Sim n -> forall m a b, SimE n (EBin m a b).
Proof.
  intros n IH m a b. start. rewrite gen_bin in Hg. cbn in Ho. apply andb_true_iff in Ho. destruct Ho as [Ho Hz]. apply andb_true_iff in Ho. destruct Ho as [Hoa Hob].
  destruct (gen_reg L a t m0) as [[[ra ca] n1] t1] eqn:Ea. destruct (gen_reg L b t1 n1) as [[[rb cb] n2] t2] eqn:Eb. injection Hg as <- <-.
  apply codeat_app in Hc. destruct Hc as [Hca Hc]. apply codeat_app in Hc. destruct Hc as [Hcb Hc]. apply codeat_cons in Hc. destruct Hc as [P Hc].
  assert (Ra := reg_info L a t m0 ra ca n1 t1 Ea). assert (Ht := rinfo_le a t t1 ra Ra).
  apply (use_reg n IH _ a t m0 L ra ca n1 t1 pc w l r _ w' l' o Ea Hca Hoa HL Hi He); [|no_abort].
  intros w1 l1 va r1 Hs1 Hi1 Hk1 Hv1 Ha1 Hf1.
  apply (use_reg n IH _ b t1 n1 L rb cb n2 t2 (pc + length ca) w1 l1 r1 _ w' l' o Eb Hcb Hob (wfL_le L t t1 HL Ht) Hi1 Hf1).
  - intros w2 l2 vb r2 Hs2 Hi2 Hk2 Hv2 Ha2 Hf2.
    apply (G_steps k L t _ pc _ r r2 w w2 _ _ _ (steps_trans _ _ _ _ _ _ _ Hs1 Hs2)).
    + apply (keep_weak t t _ None r r2); [|lia|apply leq_none]. apply (keep_trans t None r r1 r2 Hk1). exact (keep_weak t t1 None None r1 r2 Hk2 Ht (leq_none t None)).
    + apply (fin_call k L t _ _ r2 w2 l2 (dst k t) m [ra; rb] [va; vb] w' l' o P Hc); [len|left; reflexivity| |exact Hi2|exact Hk|exact Hf2].
      cbn. rewrite Hv2. f_equal. apply (reg_stays a t t1 ra l1 l2 r1 r2 va Ra Hv1 Hi1 Hi2 Hk2).
      intros y ->. cbn in Hz. apply negb_true_iff in Hz. exact (Ha2 y Hz).
  - intros cf Hs2 Hab. eapply G_abort; [exact (steps_trans _ _ _ _ _ _ _ Hs1 Hs2)| |apply le_n|apply leq_none].
    exact (abort_weak L t t1 None None r r1 w' l' o cf Hab Ht (leq_none t None) Hk1).
Qed.

Lemma inv_un : forall d l r u vs v, (forall x, d = RLoc x -> cap x = false) -> d <> RSelf -> inv (lputd d l u) r ->
  inv (lputd d (put_env caps l vs) v) (set (put_caps caps r vs) d v).
Proof.
  intros [|x|i] l r u vs v Hx Hd Hi; [contradiction Hd; reflexivity| |].
  - cbn in *. assert (Hx' := Hx x eq_refl). split; [rewrite set_other by discriminate; exact (proj1 Hi)|]. intro y. unfold upd. destruct (Nat.eqb_spec y x) as [->|Hy]; [apply set_same|].
    rewrite set_other by (intro E; injection E as E; contradiction). unfold put_caps, put_env. destruct (lookup caps vs y); [reflexivity|].
    rewrite (proj2 Hi y). unfold upd. destruct (Nat.eqb_spec y x) as [E|_]; [contradiction|reflexivity].
  - cbn in *. apply inv_tmp. apply inv_put. exact Hi.
Qed.
Lemma caps_un : forall d l r u, (forall x, d = RLoc x -> cap x = false) -> inv (lputd d l u) r -> capsok l r.
Proof.
  intros d l r u Hx Hi y Hy. rewrite (proj2 Hi y). destruct d as [|x|i]; cbn; try reflexivity. unfold upd. destruct (Nat.eqb_spec y x) as [->|_]; [|reflexivity].
  rewrite (Hx x eq_refl) in Hy. discriminate.
Qed.
(** Where [dest] points when a value is made there first. *)
Lemma dest_facts : forall k t, wfk k t -> wfk (KM (Store (dest k t))) (base1 k t) /\ t <= base1 k t /\ leq_d t (kd k) (Some (dest k t)) /\ dest k t <> RSelf
  /\ (forall l v, lputd (dest k t) l v = lput k l v) /\ (forall e, (use_of k = UVal \/ use_of k = UNo -> ok UVal e = true) -> (forall x, use_of k = ULoc x -> ok (ULoc x) e = true) -> ok (use_of (KM (Store (dest k t)))) e = true).
Proof.
  intros k t Hk. destruct k as [[| |d|]|j lb]; cbn [dest base1 kd lput];
    try (split; [cbn; lia|]; split; [lia|]; split; [apply leq_high; lia|]; split; [discriminate|]; split; [reflexivity|]; intros e H1 H2; apply H1; first [left; reflexivity|right; reflexivity]).
  split; [exact Hk|]. split; [lia|]. split; [apply leq_refl|]. split; [intros ->; exact Hk|]. split; [reflexivity|].
  intros e H1 H2. destruct d as [|x|i]; cbn in *; [contradiction|apply H2; reflexivity|apply H1; left; reflexivity].
Qed.

Lemma c_un : forall n, Sim n -> forall m a, SimE n (EUn m a).
Proof.
  intros n IH m a. start. cbn in Hg. fold (base1 k t) in Hg.
  destruct (dest_facts k t Hk) as (D1 & D2 & D3 & D4 & D5 & D6).
  assert (Hcap : forall x, dest k t = RLoc x -> cap x = false).
  { intros x E. destruct k as [[| |d|]|j lb]; cbn in E; try discriminate E. subst d. cbn in Ho. apply andb_true_iff in Ho. apply negb_true_iff. exact (proj1 Ho). }
  assert (Hoa : ok (use_of (KM (Store (dest k t)))) a = true).
  { apply D6; [intros [E|E]; cbn in Ho; rewrite E in Ho; exact Ho|intros x E; cbn in Ho; rewrite E in Ho; apply andb_true_iff in Ho; exact (proj2 Ho)]. }
  destruct (refer a) as [q|] eqn:Er.
  - injection Hg as <- <-. apply codeat_cons in Hc. destruct Hc as [P Hc].
    destruct n as [|n0]; [destruct a; discriminate He|].
    apply (fin_call k L t _ pc r w l (Some (dest k t)) m [q] [r q] w' l' o P Hc); [cbn [length]; lia|right; reflexivity|reflexivity|exact Hi|exact Hk|].
    destruct Hi as [Hs Hl]. destruct a; try discriminate Er; injection Er as <-; cbn in He; [rewrite Hs|rewrite Hl]; exact He.
  - destruct (gen (KM (Store (dest k t))) a (base1 k t) m0 L) as [c1 n1] eqn:Eg. injection Hg as <- <-.
    apply codeat_app in Hc. destruct Hc as [Hc1 Hc]. apply codeat_cons in Hc. destruct Hc as [P Hc].
    apply (use_store n IH _ (dest k t) a (base1 k t) m0 L c1 n1 pc w l r _ w' l' o Eg Hc1 Hoa D1 (wfL_le L t _ HL D2) Hi He).
    + intros w1 l1 v r1 Hs1 Hi1 Hk1 Hv1 Ha1 Ee Hf1.
      apply (G_steps k L t _ pc _ r r1 w w1 _ _ _ Hs1 (keep_weak t _ _ _ r r1 Hk1 D2 D3)).
      apply (fin_call0 k L t _ _ r1 w1 l1 (Some (dest k t)) m [dest k t] [v] w' l' o P Hc); [len|right; reflexivity|cbn; rewrite Hv1; reflexivity|exact (caps_un _ l1 r1 v Hcap Hi1)| |exact Hf1].
      intros vs u. rewrite <- D5. exact (inv_un (dest k t) l1 r1 v vs u Hcap D4 Hi1).
    + intros cf Hs Hab _. eapply G_abort; [exact Hs|exact Hab|exact D2|exact D3].
Qed.

(** The right side of an [&&] that is put in a local variable runs with that variable changed. *)
Lemma G_swap : forall x L t pe pc r w w' l1 l2 o, G (KM (Store (RLoc x))) L t pe pc r w w' l2 o -> same x l1 l2 -> quiet caps x o ->
  (match o with OBrk _ | ONxt => False | _ => True end) -> G (KM (Store (RLoc x))) L t pe pc r w w' l1 o.
Proof.
  intros x L t pe pc r w w' l1 l2 o (c & Hs & Hp) He Hq Hst. exists c. split; [exact Hs|].
  destruct o as [v|v| |v|y]; cbn in *; try contradiction.
  - destruct Hp as (r' & -> & A & B & D). exists r'. split; [reflexivity|]. split; [|split; [exact B|exact D]].
    apply (inv_ext (upd l2 x v)); [exact A|]. intro y. unfold upd. destruct (Nat.eqb_spec y x) as [_|Hy]; [reflexivity|]. symmetry. apply He. exact Hy.
  - destruct Hp as (r' & -> & A). exists r'. split; [reflexivity|]. intros z Hz. rewrite (A z Hz). symmetry. apply He. intros ->. rewrite Hz in Hq. discriminate.
  - destruct Hp as (r' & -> & A). exists r'. split; [reflexivity|]. intros z Hz. rewrite (A z Hz). symmetry. apply He. intros ->. rewrite Hz in Hq. discriminate.
Qed.
(** From a value in [dest] to the end. *)
Lemma G_dest : forall k L t pe pe1 pc r w w' l' o, wfk k t -> G (KM (Store (dest k t))) L (base1 k t) pe1 pc r w w' l' o ->
  (forall r1, steps (At pe1 r1 w') (At (S pe1) r1 w')) -> codeat (S pe1) (after k t) -> pe = S pe1 + length (after k t) ->
  G k L t pe pc r w w' l' o.
Proof.
  intros k L t pe pe1 pc r w w' l' o Hk (c & Hs & Hp) Hj Hc Hpe. destruct (dest_facts k t Hk) as (D1 & D2 & D3 & D4 & D5 & D6).
  destruct o as [v| | | |]; try exact (G_abort k L t _ _ _ pc r w w' l' _ c Hs Hp D2 D3).
  destruct Hp as (r' & -> & A & B & D). apply (G_steps k L t _ pc (S pe1) r r' w w'); [exact (steps_trans _ _ _ _ _ _ _ Hs (Hj r'))|exact (keep_weak _ _ _ _ _ _ B D2 D3)|].
  apply fin_after; [exact Hc|exact Hpe|rewrite <- D5; exact A|intros _; exact D].
Qed.

Lemma c_and : forall n, Sim n -> forall a b, SimE n (EAnd a b).
Proof.
  intros n IH a b. start. destruct k as [md|j lb].
  - set (k := KM md) in *. cbn in Hg. change (match md with Store _ => t | _ => S t end) with (base1 k t) in Hg. change (match md with Store d => d | _ => RTmp t end) with (dest k t) in Hg.
    destruct (dest_facts k t Hk) as (D1 & D2 & D3 & D4 & D5 & D6).
    assert (Hoa : ok (use_of (KM (Store (dest k t)))) a = true).
    { apply D6; [intros [E|E]; cbn [GenSpec.ok] in Ho; rewrite E in Ho; apply andb_true_iff in Ho; exact (proj1 Ho)|].
      intros x E; cbn [GenSpec.ok] in Ho; rewrite E in Ho. apply andb_true_iff in Ho. destruct Ho as [Ho _]. apply andb_true_iff in Ho. exact (proj1 Ho). }
    assert (Hob : ok (use_of (KM (Store (dest k t)))) b = true).
    { apply D6; [intros [E|E]; cbn [GenSpec.ok] in Ho; rewrite E in Ho; apply andb_true_iff in Ho; exact (proj2 Ho)|].
      intros x E; cbn [GenSpec.ok] in Ho; rewrite E in Ho. apply andb_true_iff in Ho. destruct Ho as [Ho _]. apply andb_true_iff in Ho. exact (proj2 Ho). }
    destruct (gen (KM (Store (dest k t))) a (base1 k t) (S m0) L) as [ca n1] eqn:Ea. destruct (gen (KM (Store (dest k t))) b (base1 k t) n1 L) as [cb n2] eqn:Eb.
    injection Hg as <- <-. change (match md with Ret => [IRet (RTmp t)] | _ => [] end) with (after k t) in *.
    apply codeat_app in Hc. destruct Hc as [Hca Hc]. apply codeat_cons in Hc. destruct Hc as [P1 Hc]. apply codeat_app in Hc. destruct Hc as [Hcb Hc]. apply codeat_cons in Hc. destruct Hc as [P2 Hc].
    assert (L2 := pos_at C _ _ Hdup P2).
    apply (use_store n IH _ (dest k t) a (base1 k t) (S m0) L ca n1 pc w l r _ w' l' o Ea Hca Hoa D1 (wfL_le L t _ HL D2) Hi He).
    + intros w1 l1 va r1 Hs1 Hi1 Hk1 Hv1 Ha1 Ee Hf1.
      assert (Hs2 : steps (At (pc + length ca) r1 w1) (At (if eqb (truthy (r1 (dest k t))) false then pos C m0 else S (pc + length ca)) r1 w1)) by exact (at_cond _ r1 w1 _ _ _ P1).
      rewrite Hv1 in Hs2.
      apply (G_steps k L t _ pc _ r r1 w w1 _ _ _ (steps_trans _ _ _ _ _ _ _ Hs1 Hs2) (keep_weak t _ _ _ r r1 Hk1 D2 D3)).
      destruct (truthy va) eqn:Ev; cbn [eqb].
      * assert (Gb : G (KM (Store (dest k t))) L (base1 k t) (S (pc + length ca) + length cb) (S (pc + length ca)) r1 w1 w' l' o).
        { destruct (dest k t) as [|x|i] eqn:Ed; [contradiction D4; reflexivity| |].
          - assert (Ek : use_of k = ULoc x) by (destruct md; cbn in Ed |- *; try discriminate Ed; rewrite Ed; reflexivity).
            cbn [GenSpec.ok] in Ho. rewrite Ek in Ho. apply andb_true_iff in Ho. destruct Ho as [_ Ho]. apply orb_true_iff in Ho. destruct Ho as [Ho|Ho].
            + destruct a; try discriminate Ho. cbn in Ho. apply Nat.eqb_eq in Ho. subst x0.
              apply (IH b (KM (Store (RLoc x))) (base1 k t) n1 L cb n2 _ w1 l1 r1 w' l' o Eb Hcb Hob D1 (wfL_le L t _ HL D2)); [|exact Hf1].
              apply (inv_ext (upd l1 x va)); [exact Hi1|]. intro y. unfold upd. destruct (Nat.eqb_spec y x) as [->|_]; [|reflexivity].
              destruct n as [|n0]; [discriminate Ee|]. cbn in Ee. injection Ee as <- <- <-. reflexivity.
            + apply andb_true_iff in Ho. destruct Ho as [Hr Hst]. apply negb_true_iff in Hr.
              assert (Sm : same x l1 (upd l1 x va)) by (intros y Hy; unfold upd; destruct (Nat.eqb_spec y x) as [E|_]; [contradiction|reflexivity]).
              assert (R := reads_sound W caps call self n x b w1 l1 (upd l1 x va) Hr Sm). rewrite Hf1 in R.
              destruct (eval n w1 (upd l1 x va) b) as [[[w2 l2] o2]|] eqn:E2; [|destruct R]. destruct R as (<- & <- & R1 & R2).
              assert (St := stays_sound W caps call self n b w1 l1 Hst). rewrite Hf1 in St.
              apply (G_swap x L _ _ _ r1 w1 w' l' l2 o); [|exact R1|exact R2|destruct o; exact St].
              exact (IH b (KM (Store (RLoc x))) (base1 k t) n1 L cb n2 _ w1 (upd l1 x va) r1 w' l2 o Eb Hcb Hob D1 (wfL_le L t _ HL D2) Hi1 E2).
          - exact (IH b (KM (Store (RTmp i))) (base1 k t) n1 L cb n2 _ w1 l1 r1 w' l' o Eb Hcb Hob D1 (wfL_le L t _ HL D2) Hi1 Hf1). }
        apply (G_dest k L t _ _ _ r1 w1 w' l' o Hk Gb); [intro r2; exact (at_label _ r2 w' _ P2)|exact Hc|unfold k; cbn [after]; len].
      * injection Hf1 as <- <- <-. rewrite L2.
        apply (G_steps k L t _ _ _ r1 r1 w1 w1 _ _ _ (at_label _ r1 w1 _ P2) (keep_refl _ _ _)).
        apply fin_after; [exact Hc|unfold k; cbn [after]; len|rewrite <- D5; exact Hi1|intros _; exact Hv1].
    + intros cf Hs Hab _. eapply G_abort; [exact Hs|exact Hab|exact D2|exact D3].
  - cbn in Ho. apply andb_true_iff in Ho. destruct Ho as [Hoa Hob]. destruct j; cbn in Hg.
    + destruct (gen (KBr false m0) a t (S m0) L) as [ca n1] eqn:Ea. destruct (gen (KBr true lb) b t n1 L) as [cb n2] eqn:Eb. injection Hg as <- <-.
      apply codeat_app in Hc. destruct Hc as [Hca Hc]. apply codeat_app in Hc. destruct Hc as [Hcb Hc]. apply codeat_cons in Hc. destruct Hc as [P2 Hc].
      assert (L2 := pos_at C _ _ Hdup P2).
      apply (use_br n IH _ false m0 a t (S m0) L ca n1 pc w l r _ w' l' o Ea Hca Hoa HL Hi He); [|no_abort].
      intros w1 l1 va r1 Hs1 Hi1 Hk1 Hf1. apply (G_steps (KBr true lb) L t _ pc _ r r1 w w1 _ _ _ Hs1 Hk1). destruct (truthy va) eqn:Ev; cbn [eqb].
      * assert (Gb := IH b (KBr true lb) t n1 L cb n2 _ w1 l1 r1 w' l' o Eb Hcb Hob I HL Hi1 Hf1). destruct Gb as (cf & Hs & Hp).
        destruct o as [v| | | |]; try exact (G_abort _ L t t None _ _ r1 w1 w' l' _ cf Hs Hp (le_n t) (leq_none t _)).
        destruct Hp as (r' & -> & A & B & _). destruct (eqb (truthy v) true) eqn:E.
        -- exists (At (pos C lb) r' w'). split; [exact Hs|]. exists r'. rewrite E. split; [reflexivity|]. split; [exact A|]. split; [exact B|exact I].
        -- exists (At (pc + length (ca ++ cb ++ [ILabel m0])) r' w'). split.
           ++ apply (steps_trans _ _ _ _ _ _ _ Hs). replace (pc + length (ca ++ cb ++ [ILabel m0])) with (S (pc + length ca + length cb)) by len. exact (at_label _ r' w' _ P2).
           ++ exists r'. rewrite E. split; [reflexivity|]. split; [exact A|]. split; [exact B|exact I].
      * injection Hf1 as <- <- <-. rewrite L2. exists (At (pc + length (ca ++ cb ++ [ILabel m0])) r1 w1). split.
        -- replace (pc + length (ca ++ cb ++ [ILabel m0])) with (S (pc + length ca + length cb)) by len. exact (at_label _ r1 w1 _ P2).
        -- exists r1. rewrite Ev. split; [reflexivity|]. split; [exact Hi1|]. split; [apply keep_refl|exact I].
    + destruct (gen (KBr false lb) a t m0 L) as [ca n1] eqn:Ea. destruct (gen (KBr false lb) b t n1 L) as [cb n2] eqn:Eb. injection Hg as <- <-.
      apply codeat_app in Hc. destruct Hc as [Hca Hcb].
      apply (use_br n IH _ false lb a t m0 L ca n1 pc w l r _ w' l' o Ea Hca Hoa HL Hi He); [|no_abort].
      intros w1 l1 va r1 Hs1 Hi1 Hk1 Hf1. apply (G_steps (KBr false lb) L t _ pc _ r r1 w w1 _ _ _ Hs1 Hk1). destruct (truthy va) eqn:Ev; cbn [eqb].
      * rewrite app_length, Nat.add_assoc. exact (IH b (KBr false lb) t n1 L cb n2 _ w1 l1 r1 w' l' o Eb Hcb Hob I HL Hi1 Hf1).
      * injection Hf1 as <- <- <-. exists (At (pos C lb) r1 w1). split; [apply s_refl|]. exists r1. rewrite Ev. split; [reflexivity|]. split; [exact Hi1|]. split; [apply keep_refl|exact I].
Qed.

Lemma c_or : forall n, Sim n -> forall a b, SimE n (EOr a b).
Proof.
  intros n IH a b. start. assert (Ho' : ok UVal a = true /\ ok UVal b = true) by (cbn in Ho; apply andb_true_iff; exact Ho). destruct Ho' as [Hoa Hob].
  destruct k as [md|j lb].
  - set (k := KM md) in *. cbn in Hg.
    destruct (gen (KM Push) a t (S m0) L) as [ca n1] eqn:Ea. destruct (gen (KM (Store (RTmp t))) b (S t) n1 L) as [cb n2] eqn:Eb. injection Hg as <- <-.
    apply codeat_app in Hc. destruct Hc as [Hca Hc]. apply codeat_cons in Hc. destruct Hc as [P1 Hc]. apply codeat_app in Hc. destruct Hc as [Hcb Hc]. apply codeat_cons in Hc. destruct Hc as [P2 Hc].
    assert (L2 := pos_at C _ _ Hdup P2).
    match type of Hc with GenStepProofs.codeat _ _ ?tl => assert (Htl : tl = wtail k t) by (unfold k; destruct md; reflexivity) end. rewrite Htl in *.
    apply (use_push n IH _ a t (S m0) L ca n1 pc w l r _ w' l' o Ea Hca Hoa HL Hi He); [|no_abort].
    intros w1 l1 va r1 Hs1 Hi1 Hk1 Hv1 Ha1 Hf1. assert (Hs2 := at_cond _ r1 w1 _ _ _ P1). rewrite Hv1 in Hs2.
    apply (G_steps k L t _ pc _ r r1 w w1 _ _ _ (steps_trans _ _ _ _ _ _ _ Hs1 Hs2) (keep_weak t t _ None r r1 Hk1 (le_n t) (leq_none t _))).
    destruct (truthy va) eqn:Ev; cbn [eqb].
    + injection Hf1 as <- <- <-. rewrite L2. apply (G_steps k L t _ _ _ r1 r1 w1 w1 _ _ _ (at_label _ r1 w1 _ P2) (keep_refl _ _ _)).
      apply fin_tail; [exact Hc|len|exact Hi1|intros _; exact Hv1|exact Hk].
    + assert (Gb := IH b (KM (Store (RTmp t))) (S t) n1 L cb n2 _ w1 l1 r1 w' l' o Eb Hcb Hob (le_n (S t)) (wfL_le L t (S t) HL (le_S _ _ (le_n t))) Hi1 Hf1). destruct Gb as (cf & Hs & Hp).
      destruct o as [v| | | |]; try exact (G_abort _ L t (S t) (Some (RTmp t)) _ _ r1 w1 w' l' _ cf Hs Hp (le_S _ _ (le_n t)) (leq_high t _ t (le_n t))).
      destruct Hp as (r' & -> & A & B & D). apply (G_steps k L t _ _ _ r1 r' w1 w' _ _ _ (steps_trans _ _ _ _ _ _ _ Hs (at_label _ r' w' _ P2))).
      * exact (keep_weak t (S t) _ _ r1 r' B (le_S _ _ (le_n t)) (leq_high t _ t (le_n t))).
      * apply fin_tail; [exact Hc|len|exact A|intros _; exact D|exact Hk].
  - destruct j; cbn in Hg.
    + destruct (gen (KBr true lb) a t m0 L) as [ca n1] eqn:Ea. destruct (gen (KBr true lb) b t n1 L) as [cb n2] eqn:Eb. injection Hg as <- <-.
      apply codeat_app in Hc. destruct Hc as [Hca Hcb].
      apply (use_br n IH _ true lb a t m0 L ca n1 pc w l r _ w' l' o Ea Hca Hoa HL Hi He); [|no_abort].
      intros w1 l1 va r1 Hs1 Hi1 Hk1 Hf1. apply (G_steps (KBr true lb) L t _ pc _ r r1 w w1 _ _ _ Hs1 Hk1). destruct (truthy va) eqn:Ev; cbn [eqb].
      * injection Hf1 as <- <- <-. exists (At (pos C lb) r1 w1). split; [apply s_refl|]. exists r1. rewrite Ev. split; [reflexivity|]. split; [exact Hi1|]. split; [apply keep_refl|exact I].
      * rewrite app_length, Nat.add_assoc. exact (IH b (KBr true lb) t n1 L cb n2 _ w1 l1 r1 w' l' o Eb Hcb Hob I HL Hi1 Hf1).
    + destruct (gen (KBr true m0) a t (S m0) L) as [ca n1] eqn:Ea. destruct (gen (KBr false lb) b t n1 L) as [cb n2] eqn:Eb. injection Hg as <- <-.
      apply codeat_app in Hc. destruct Hc as [Hca Hc]. apply codeat_app in Hc. destruct Hc as [Hcb Hc]. apply codeat_cons in Hc. destruct Hc as [P2 Hc].
      assert (L2 := pos_at C _ _ Hdup P2).
      apply (use_br n IH _ true m0 a t (S m0) L ca n1 pc w l r _ w' l' o Ea Hca Hoa HL Hi He); [|no_abort].
      intros w1 l1 va r1 Hs1 Hi1 Hk1 Hf1. apply (G_steps (KBr false lb) L t _ pc _ r r1 w w1 _ _ _ Hs1 Hk1). destruct (truthy va) eqn:Ev; cbn [eqb].
      * injection Hf1 as <- <- <-. rewrite L2. exists (At (pc + length (ca ++ cb ++ [ILabel m0])) r1 w1). split.
        -- replace (pc + length (ca ++ cb ++ [ILabel m0])) with (S (pc + length ca + length cb)) by len. exact (at_label _ r1 w1 _ P2).
        -- exists r1. rewrite Ev. split; [reflexivity|]. split; [exact Hi1|]. split; [apply keep_refl|exact I].
      * assert (Gb := IH b (KBr false lb) t n1 L cb n2 _ w1 l1 r1 w' l' o Eb Hcb Hob I HL Hi1 Hf1). destruct Gb as (cf & Hs & Hp).
        destruct o as [v| | | |]; try exact (G_abort _ L t t None _ _ r1 w1 w' l' _ cf Hs Hp (le_n t) (leq_none t _)).
        destruct Hp as (r' & -> & A & B & _). destruct (eqb (truthy v) false) eqn:E.
        -- exists (At (pos C lb) r' w'). split; [exact Hs|]. exists r'. rewrite E. split; [reflexivity|]. split; [exact A|]. split; [exact B|exact I].
        -- exists (At (pc + length (ca ++ cb ++ [ILabel m0])) r' w'). split.
           ++ apply (steps_trans _ _ _ _ _ _ _ Hs). replace (pc + length (ca ++ cb ++ [ILabel m0])) with (S (pc + length ca + length cb)) by len. exact (at_label _ r' w' _ P2).
           ++ exists r'. rewrite E. split; [reflexivity|]. split; [exact A|]. split; [exact B|exact I].
Qed.

(** [handle], or a move and a test. *)
Lemma fin_set : forall k L t pe pc r w l v src c,
  c = match k with KBr j lb => mov (RTmp t) src ++ [ICond (RTmp t) j lb] | _ => handle k t src end ->
  codeat pc c -> pe = pc + length c -> inv l r -> r src = v -> wfk k t -> G k L t pe pc r w w l (OVal v).
Proof.
  intros k L t pe pc r w l v src c -> Hc -> Hi Hv Hk.
  destruct k as [md|j lb]; [exact (fin_handle (KM md) L t _ pc r w l v src Hc eq_refl Hi Hv Hk)|].
  apply codeat_app in Hc. destruct Hc as [Hc1 Hc2].
  assert (Gp := fin_handle (KM Push) L t _ pc r w l v src Hc1 eq_refl Hi Hv I).
  apply (G_outer (KBr j lb) L t _ _ (pc + length (mov (RTmp t) src)) pc r w w l (OVal v) I Gp); [intro; apply s_refl|exact Hc2|rewrite app_length; cbn; lia].
Qed.
(** [handle] for [inner], then [outer]. *)
Lemma fin_inout : forall k L t pe pc r w l v src, codeat pc (handle (KM (inner k)) t src ++ outer k t) -> pe = pc + length (handle (KM (inner k)) t src ++ outer k t) ->
  inv l r -> r src = v -> wfk k t -> G k L t pe pc r w w l (OVal v).
Proof.
  intros k L t pe pc r w l v src Hc -> Hi Hv Hk. apply codeat_app in Hc. destruct Hc as [Hc1 Hc2].
  assert (Hk' : wfk (KM (inner k)) t) by (destruct k as [[]|]; exact I).
  assert (Gp := fin_handle (KM (inner k)) L t _ pc r w l v src Hc1 eq_refl Hi Hv Hk').
  apply (G_outer k L t _ _ (pc + length (handle (KM (inner k)) t src)) pc r w w l (OVal v) Hk Gp); [intro; apply s_refl|exact Hc2|rewrite app_length; lia].
Qed.
Ltac no_abort2 := intros; eapply G_abort; [eassumption|eassumption|apply le_n|apply leq_loc].

Lemma c_asgn : forall n, Sim n -> forall x e, SimE n (EAsgn x e).
Proof.
  intros n IH x e. start. cbn [gen] in Hg. destruct (gen (KM (Store (RLoc x))) e t m0 L) as [c1 n1] eqn:E1. injection Hg as <- <-.
  apply codeat_app in Hc. destruct Hc as [Hc1 Hc2]. cbn [GenSpec.ok] in Ho.
  apply (use_store n IH _ (RLoc x) e t m0 L c1 n1 pc w l r _ w' l' o E1 Hc1 Ho I HL Hi He); [|no_abort2].
  intros w1 l1 v r1 Hs1 Hi1 Hk1 Hv1 Ha1 Ee Hf1. injection Hf1 as <- <- <-.
  apply (G_steps k L t _ pc _ r r1 w w1 _ _ _ Hs1 (keep_weak t t _ (Some (RLoc x)) r r1 Hk1 (le_n t) (leq_loc t _ x))).
  apply (fin_set k L t _ _ r1 w1 _ v (RLoc x) _ eq_refl Hc2); [rewrite app_length, Nat.add_assoc; destruct k; reflexivity|exact Hi1|exact Hv1|exact Hk].
Qed.

Lemma c_op : forall n, Sim n -> forall m x e, SimE n (EOp m x e).
Proof.
  intros n IH m x e. start. rewrite gen_op in Hg. cbn in Ho. apply andb_true_iff in Ho. destruct Ho as [Ho Hx]. apply negb_true_iff in Hx.
  destruct (gen_reg L e t m0) as [[[q c1] n1] t1] eqn:E1. injection Hg as <- <-.
  apply codeat_app in Hc. destruct Hc as [Hc1 Hc]. apply codeat_cons in Hc. destruct Hc as [P Hc].
  apply (use_reg n IH _ e t m0 L q c1 n1 t1 pc w l r _ w' l' o E1 Hc1 Ho HL Hi He); [|no_abort].
  intros w1 l1 v r1 Hs1 Hi1 Hk1 Hv1 Ha1 Hf1.
  apply (G_steps k L t _ pc _ r r1 w w1 _ _ _ Hs1 (keep_weak t t _ None r r1 Hk1 (le_n t) (leq_none t _))).
  assert (Em : map r1 [RLoc x; q] = [l x; v]) by (cbn; rewrite (proj2 Hi1 x), (Ha1 x Hx), Hv1; reflexivity).
  apply (use_call _ (Some (RLoc x)) m [RLoc x; q] [l x; v] _ _ r1 w1 l1 w' l' o P Em (inv_caps l1 r1 Hi1) Hf1).
  - intros w2 vs u Hs2 Hf2. injection Hf2 as <- <- <-. cbn [dset] in Hs2.
    apply (G_steps k L t _ _ _ r1 _ w1 w2 _ _ _ Hs2); [intros i _ _; rewrite set_other by discriminate; reflexivity|].
    apply (fin_inout k L t _ _ _ w2 _ u (RLoc x) Hc); [len|apply inv_loc; apply inv_put; exact Hi1|apply set_same|exact Hk].
  - intros r2 y Hy Hs Hok. exact (G_raise k L t _ _ r1 w1 w' l' o r2 y Hy Hs Hok).
Qed.

Lemma c_orA : forall n, Sim n -> forall x e, SimE n (EOrA x e).
Proof.
  intros n IH x e. start. cbn [gen] in Hg. destruct (gen (KM (Store (RTmp t))) e (S t) (S m0) L) as [c1 n1] eqn:E1. injection Hg as <- <-. cbn [GenSpec.ok] in Ho.
  change (mov (RTmp t) (RLoc x)) with [IMov (RTmp t) (RLoc x)] in *. change (mov (RLoc x) (RTmp t)) with [IMov (RLoc x) (RTmp t)] in *.
  apply codeat_cons in Hc. destruct Hc as [P0 Hc]. apply codeat_cons in Hc. destruct Hc as [P1 Hc].
  apply codeat_app in Hc. destruct Hc as [Hc1 Hc]. apply codeat_cons in Hc. destruct Hc as [P2 Hc]. apply codeat_cons in Hc. destruct Hc as [P3 Hc].
  assert (L2 := pos_at C _ _ Hdup P2).
  set (r0 := set r (RTmp t) (l x)).
  assert (Hs0 : steps (At pc r w) (At (S pc) r0 w)) by (unfold r0; rewrite <- (proj2 Hi x); apply steps_one; unfold step; rewrite P0; reflexivity).
  assert (Hi0 : inv l r0) by (apply inv_tmp; exact Hi).
  assert (Hk0 : keep t (kd k) r r0) by (intros i Hl _; apply set_other; intro E; injection E as E; lia).
  assert (Hv0 : r0 (RTmp t) = l x) by apply set_same.
  assert (Hs1 := at_cond _ r0 w _ _ _ P1). rewrite Hv0 in Hs1.
  (* after the label *)
  assert (Fin : forall r1 w1 l1 v, inv l1 r1 -> r1 (RTmp t) = v ->
            G k L t (pc + length ([IMov (RTmp t) (RLoc x)] ++ [ICond (RTmp t) true m0] ++ c1 ++ [ILabel m0] ++ [IMov (RLoc x) (RTmp t)] ++ handle (KM (inner k)) t (RLoc x) ++ outer k t))
              (S (S pc) + length c1) r1 w1 w1 (upd l1 x v) (OVal v)).
  { intros r1 w1 l1 v A1 A2.
    assert (Hm : steps (At (S (S (S pc) + length c1)) r1 w1) (At (S (S (S (S pc) + length c1))) (set r1 (RLoc x) v) w1)) by (rewrite <- A2; apply steps_one; unfold step; rewrite P3; reflexivity).
    apply (G_steps k L t _ _ _ r1 _ w1 w1 _ _ _ (steps_trans _ _ _ _ _ _ _ (at_label _ r1 w1 _ P2) Hm)); [intros i _ _; apply set_other; discriminate|].
    apply (fin_inout k L t _ _ _ w1 _ v (RLoc x) Hc); [len|apply inv_loc; exact A1|apply set_same|exact Hk]. }
  apply (G_steps k L t _ pc _ r r0 w w _ _ _ (steps_trans _ _ _ _ _ _ _ Hs0 Hs1) Hk0).
  destruct (truthy (l x)) eqn:Ev; cbn [eqb].
  - injection He as <- <- <-. rewrite L2. destruct (Fin r0 w l (l x) Hi0 Hv0) as (cf & Hs & Hp). exists cf. split; [exact Hs|].
    assert (Hu : forall y, upd l x (l x) y = l y) by (intro y; unfold upd; destruct (Nat.eqb_spec y x) as [->|_]; reflexivity).
    cbn in Hp |- *. destruct k as [[| |d|]|j lb]; cbn in Hp |- *; destruct Hp as (r' & E & Hp); exists r'; (split; [exact E|]).
    + destruct Hp as (A & B). split; [exact (inv_ext _ _ _ A Hu)|exact B].
    + destruct Hp as (A & B). split; [exact (inv_ext _ _ _ A Hu)|exact B].
    + destruct Hp as (A & B). split; [|exact B]. apply (inv_ext _ _ _ A). intro y. destruct d as [|z|i]; cbn; try apply Hu. unfold upd at 1 3. destruct (y =? z); [reflexivity|apply Hu].
    + intros y Hy. rewrite (Hp y Hy). apply Hu.
    + destruct Hp as (A & B). split; [exact (inv_ext _ _ _ A Hu)|exact B].
  - apply (use_store n IH _ (RTmp t) e (S t) (S m0) L c1 n1 _ w l r0 _ w' l' o E1 Hc1 Ho (le_n (S t)) (wfL_le L t (S t) HL (le_S _ _ (le_n t))) Hi0 He).
    + intros w1 l1 v r1 Hs2 Hi1 Hk1 Hv1 Ha1 Ee Hf1. injection Hf1 as <- <- <-.
      apply (G_steps k L t _ _ _ r0 r1 w w1 _ _ _ Hs2 (keep_weak t (S t) _ _ r0 r1 Hk1 (le_S _ _ (le_n t)) (leq_high t _ t (le_n t)))).
      exact (Fin r1 w1 l1 v Hi1 Hv1).
    + intros cf Hs Hab _. exact (G_abort k L t (S t) _ _ _ r0 w w' l' o cf Hs Hab (le_S _ _ (le_n t)) (leq_high t _ t (le_n t))).
Qed.

Lemma c_andA : forall n, Sim n -> forall x e, SimE n (EAndA x e).
Proof.
  intros n IH x e. start. cbn [gen] in Hg. destruct (gen (KM (Store (RLoc x))) e t (S m0) L) as [c1 n1] eqn:E1. injection Hg as <- <-. cbn [GenSpec.ok] in Ho.
  apply codeat_cons in Hc. destruct Hc as [P1 Hc]. apply codeat_app in Hc. destruct Hc as [Hc1 Hc]. apply codeat_cons in Hc. destruct Hc as [P2 Hc].
  assert (L2 := pos_at C _ _ Hdup P2). assert (Hs1 := at_cond _ r w _ _ _ P1). rewrite (proj2 Hi x) in Hs1.
  apply (G_steps k L t _ pc _ r r w w _ _ _ Hs1 (keep_refl _ _ _)).
  destruct (truthy (l x)) eqn:Ev; cbn [eqb].
  - apply (use_store n IH _ (RLoc x) e t (S m0) L c1 n1 _ w l r _ w' l' o E1 Hc1 Ho I HL Hi He); [|no_abort2].
    intros w1 l1 v r1 Hs2 Hi1 Hk1 Hv1 Ha1 Ee Hf1. injection Hf1 as <- <- <-.
    apply (G_steps k L t _ _ _ r r1 w w1 _ _ _ (steps_trans _ _ _ _ _ _ _ Hs2 (at_label _ r1 w1 _ P2)) (keep_weak t t _ _ r r1 Hk1 (le_n t) (leq_loc t _ x))).
    apply (fin_inout k L t _ _ _ w1 _ v (RLoc x) Hc); [len|exact Hi1|exact Hv1|exact Hk].
  - injection He as <- <- <-. rewrite L2. apply (G_steps k L t _ _ _ r r w w _ _ _ (at_label _ r w _ P2) (keep_refl _ _ _)).
    apply (fin_inout k L t _ _ _ w _ (l x) (RLoc x) Hc); [len|exact Hi|exact (proj2 Hi x)|exact Hk].
Qed.

Lemma c_seq : forall n, Sim n -> forall a b, SimE n (ESeq a b).
Proof.
  intros n IH a b. start. cbn [gen] in Hg. cbn [GenSpec.ok] in Ho. apply andb_true_iff in Ho. destruct Ho as [Hoa Hob].
  destruct (gen (KM NotUse) a t m0 L) as [ca n1] eqn:Ea. destruct k as [md|j lb].
  - destruct (gen (KM md) b t n1 L) as [cb n2] eqn:Eb. injection Hg as <- <-. apply codeat_app in Hc. destruct Hc as [Hca Hcb].
    apply (use_no n IH _ a t m0 L ca n1 pc w l r _ w' l' o Ea Hca Hoa HL Hi He); [|no_abort].
    intros w1 l1 v r1 Hs1 Hi1 Hk1 Hf1. apply (G_steps (KM md) L t _ pc _ r r1 w w1 _ _ _ Hs1 (keep_weak t t _ None r r1 Hk1 (le_n t) (leq_none t _))).
    rewrite app_length, Nat.add_assoc. exact (IH b (KM md) t n1 L cb n2 _ w1 l1 r1 w' l' o Eb Hcb Hob Hk HL Hi1 Hf1).
  - destruct (gen (KM Push) b t n1 L) as [cb n2] eqn:Eb. injection Hg as <- <-. apply codeat_app in Hc. destruct Hc as [Hca Hc]. apply codeat_app in Hc. destruct Hc as [Hcb Hc].
    apply (use_no n IH _ a t m0 L ca n1 pc w l r _ w' l' o Ea Hca Hoa HL Hi He); [|no_abort].
    intros w1 l1 v r1 Hs1 Hi1 Hk1 Hf1. apply (G_steps (KBr j lb) L t _ pc _ r r1 w w1 _ _ _ Hs1 Hk1).
    assert (Gb := IH b (KM Push) t n1 L cb n2 _ w1 l1 r1 w' l' o Eb Hcb Hob I HL Hi1 Hf1).
    apply (G_outer (KBr j lb) L t _ _ _ _ r1 w1 w' l' o I Gb (fun r2 => s_refl (At _ r2 _))); [exact Hc|cbn [outer]; len].
Qed.

Lemma G_ret : forall L t pe pe' pc r w w' l' o, G (KM Ret) L t pe pc r w w' l' o -> G (KM Ret) L t pe' pc r w w' l' o.
Proof. intros L t pe pe' pc r w w' l' o (c & Hs & Hp). exists c. split; [exact Hs|]. destruct o; exact Hp. Qed.
Lemma ok_inner : forall k e, ok (match use_of k with UNo => UNo | _ => UVal end) e = true -> ok (use_of (KM (inner k))) e = true.
Proof. intros [[| |[|x|i]|]|j lb] e H; exact H. Qed.

Lemma c_if : forall n, Sim n -> forall c a b, SimE n (EIf c a b).
Proof.
  intros n IH c a b. start. cbn [gen] in Hg. cbn [GenSpec.ok] in Ho. apply andb_true_iff in Ho. destruct Ho as [Ho Hob]. apply andb_true_iff in Ho. destruct Ho as [Hoc Hoa].
  apply ok_inner in Hoa. apply ok_inner in Hob.
  assert (Hk' : wfk (KM (inner k)) t) by (destruct k as [[]|]; exact I).
  destruct (gen (KBr false m0) c t (S (S m0)) L) as [cc n1] eqn:Ec. destruct (gen (KM (inner k)) a t n1 L) as [ca n2] eqn:Ea. destruct (gen (KM (inner k)) b t n2 L) as [cb n3] eqn:Eb. injection Hg as <- <-.
  set (jmp := match inner k with Ret => [] | _ => [IBr (S m0)] end) in *.
  apply codeat_app in Hc. destruct Hc as [Hcc Hc]. apply codeat_app in Hc. destruct Hc as [Hca Hc]. apply codeat_app in Hc. destruct Hc as [Hj Hc].
  apply codeat_cons in Hc. destruct Hc as [P0 Hc]. apply codeat_app in Hc. destruct Hc as [Hcb Hc]. apply codeat_cons in Hc. destruct Hc as [P1 Hc].
  assert (L0 := pos_at C _ _ Hdup P0). assert (L1 := pos_at C _ _ Hdup P1).
  apply (use_br n IH _ false m0 c t _ L cc n1 pc w l r _ w' l' o Ec Hcc Hoc HL Hi He); [|no_abort].
  intros w1 l1 v r1 Hs1 Hi1 Hk1 Hf1.
  apply (G_steps k L t _ pc _ r r1 w w1 _ _ _ Hs1 (keep_weak t t _ None r r1 Hk1 (le_n t) (leq_none t _))).
  assert (Hlen : pc + length (cc ++ ca ++ jmp ++ [ILabel m0] ++ cb ++ [ILabel (S m0)] ++ outer k t) = S (S (pc + length cc + length ca + length jmp) + length cb) + length (outer k t)) by len.
  match goal with |- G _ _ _ ?pe _ _ _ _ _ _ => change pe with (pc + length (cc ++ ca ++ jmp ++ [ILabel m0] ++ cb ++ [ILabel (S m0)] ++ outer k t)) end.
  rewrite Hlen. destruct (truthy v) eqn:Ev; cbn [eqb].
  - assert (Ga := IH a (KM (inner k)) t n1 L ca n2 _ w1 l1 r1 w' l' o Ea Hca Hoa Hk' HL Hi1 Hf1).
    assert (D : k = KM Ret \/ jmp = [IBr (S m0)]) by (unfold jmp; destruct k as [[| |d|]|j lb]; cbn; auto).
    destruct D as [->|D].
    + exact (G_ret L t _ _ _ r1 w1 w' l' o Ga).
    + rewrite D in Hj. apply codeat_cons in Hj. destruct Hj as [Pj _].
      apply (G_outer k L t _ _ (S (S (pc + length cc + length ca + length jmp) + length cb)) _ r1 w1 w' l' o Hk Ga); [|exact Hc|reflexivity].
      intro r2. apply (steps_trans _ _ _ _ _ _ _ (at_br _ r2 w' _ Pj)). rewrite L1. exact (at_label _ r2 w' _ P1).
  - rewrite L0. apply (G_steps k L t _ _ _ r1 r1 w1 w1 _ _ _ (at_label _ r1 w1 _ P0) (keep_refl _ _ _)).
    assert (Gb := IH b (KM (inner k)) t n2 L cb n3 _ w1 l1 r1 w' l' o Eb Hcb Hob Hk' HL Hi1 Hf1).
    apply (G_outer k L t _ _ (S (S (pc + length cc + length ca + length jmp) + length cb)) _ r1 w1 w' l' o Hk Gb); [|exact Hc|reflexivity].
    intro r2. exact (at_label _ r2 w' _ P1).
Qed.

Lemma c_while : forall n, SimW (S n) -> forall op c b, SimE n (EWhile op c b).
Proof.
  intros n IHW op c b. intros k t m0 L c0 m' pc w l r w' l' o Hg Hc Ho Hk HL Hi He. cbn [gen] in Hg. cbn [GenSpec.ok] in Ho. apply andb_true_iff in Ho. destruct Ho as [Hoc Hob].
  match type of Hg with context [gen (KBr ?j ?lb) c ?t1 ?n0 ?L1] => destruct (gen (KBr j lb) c t1 n0 L1) as [cc n1] eqn:Ec; destruct (gen (KM NotUse) b t1 n1 L1) as [cb n2] eqn:Eb end.
  injection Hg as <- <-. fold (wtail k t) in Hc |- *.
  destruct (used k) eqn:Hu.
  - apply codeat_cons in Hc. destruct Hc as [P Hc].
    apply (G_steps k L t _ pc _ r _ w w _ _ _ (at_const pc r w _ _ P)); [intros i Hl _; apply set_other; intro E; injection E as E; lia|].
    rewrite app_length. cbn [length]. rewrite Nat.add_assoc, Nat.add_1_r.
    assert (X := IHW op c b k t m0 L cc cb n1 n2 (S pc) w l (set r (RTmp t) Nil) w' l' o). rewrite Hu in X.
    apply (X Ec Eb Hc Hoc Hob Hk); [apply inv_tmp; exact Hi|intros _; apply set_same|exact He].
  - assert (X := IHW op c b k t m0 L cc cb n1 n2 pc w l r w' l' o). rewrite Hu in X.
    apply (X Ec Eb Hc Hoc Hob Hk Hi); [discriminate|exact He].
Qed.

Lemma c_break : forall n, Sim n -> forall e, SimE n (EBreak e).
Proof.
  intros n IH e. start. cbn [gen] in Hg. cbn [GenSpec.ok] in Ho. apply andb_true_iff in Ho. destruct Ho as [Ho Hst]. apply andb_true_iff in Ho. destruct Ho as [Hon Hov].
  destruct L as [lp|].
  - destruct (gen (KM match l_ret lp with Some q => Store q | None => NotUse end) e t m0 (Some lp)) as [c1 n1] eqn:E1. injection Hg as <- <-.
    apply codeat_app in Hc. destruct Hc as [Hc1 Hc]. apply codeat_cons in Hc. destruct Hc as [P _]. destruct (l_ret lp) as [q|] eqn:Eq.
    + assert (Hq : exists i, q = RTmp i /\ i < t) by (cbn in HL; rewrite Eq in HL; destruct q as [|y|i]; try contradiction; exists i; split; [reflexivity|exact HL]).
      destruct Hq as (i & -> & Hit).
      apply (use_store n IH _ (RTmp i) e t m0 (Some lp) c1 n1 pc w l r _ w' l' o E1 Hc1 Hov Hit HL Hi He).
      * intros w1 l1 v r1 Hs1 Hi1 Hk1 Hv1 Ha1 Ee Hf1. injection Hf1 as <- <- <-.
        exists (At (pos C (l_break lp)) r1 w1). split; [exact (steps_trans _ _ _ _ _ _ _ Hs1 (at_br _ r1 w1 _ P))|].
        exists r1. split; [reflexivity|]. split; [exact Hi1|]. rewrite Eq. split.
        -- intros j Hj _ N2. exact (Hk1 j Hj N2).
        -- intros q E. injection E as <-. exact Hv1.
      * intros cf Hs Hab St. specialize (St Hst). exists cf. split; [exact Hs|]. destruct o; cbn in *; try contradiction; exact Hab.
    + apply (use_no n IH _ e t m0 (Some lp) c1 n1 pc w l r _ w' l' o E1 Hc1 Hon HL Hi He).
      * intros w1 l1 v r1 Hs1 Hi1 Hk1 Hf1. injection Hf1 as <- <- <-.
        exists (At (pos C (l_break lp)) r1 w1). split; [exact (steps_trans _ _ _ _ _ _ _ Hs1 (at_br _ r1 w1 _ P))|].
        exists r1. split; [reflexivity|]. split; [exact Hi1|]. rewrite Eq. split; [|discriminate].
        intros j Hj _ _. apply Hk1; [exact Hj|discriminate].
      * intros cf Hs Hab _. exact (G_abort k (Some lp) t t None _ pc r w w' l' o cf Hs Hab (le_n t) (leq_none t _)).
  - apply (use_no n IH _ e t m0 None c0 m' pc w l r _ w' l' o Hg Hc Hon HL Hi He).
    + intros w1 l1 v r1 Hs1 Hi1 Hk1 Hf1. injection Hf1 as <- <- <-. exists (At (pc + length c0) r1 w1). split; [exact Hs1|exact I].
    + intros cf Hs Hab _. exact (G_abort k None t t None _ pc r w w' l' o cf Hs Hab (le_n t) (leq_none t _)).
Qed.

Lemma c_next : forall n, Sim n -> forall e, SimE n (ENext e).
Proof.
  intros n IH e. start. cbn [gen] in Hg. cbn [GenSpec.ok] in Ho. destruct L as [lp|].
  - destruct (gen (KM NotUse) e t m0 (Some lp)) as [c1 n1] eqn:E1. injection Hg as <- <-.
    apply codeat_app in Hc. destruct Hc as [Hc1 Hc]. apply codeat_cons in Hc. destruct Hc as [P _].
    apply (use_no n IH _ e t m0 (Some lp) c1 n1 pc w l r _ w' l' o E1 Hc1 Ho HL Hi He).
    + intros w1 l1 v r1 Hs1 Hi1 Hk1 Hf1. injection Hf1 as <- <- <-.
      exists (At (pos C (l_next lp)) r1 w1). split; [exact (steps_trans _ _ _ _ _ _ _ Hs1 (at_br _ r1 w1 _ P))|].
      exists r1. split; [reflexivity|]. split; [exact Hi1|]. exact (keep_weak t t _ None r r1 Hk1 (le_n t) (leq_none t _)).
    + intros cf Hs Hab _. exact (G_abort k (Some lp) t t None _ pc r w w' l' o cf Hs Hab (le_n t) (leq_none t _)).
  - apply (use_no n IH _ e t m0 None c0 m' pc w l r _ w' l' o Hg Hc Ho HL Hi He).
    + intros w1 l1 v r1 Hs1 Hi1 Hk1 Hf1. injection Hf1 as <- <- <-. exists (At (pc + length c0) r1 w1). split; [exact Hs1|exact I].
    + intros cf Hs Hab _. exact (G_abort k None t t None _ pc r w w' l' o cf Hs Hab (le_n t) (leq_none t _)).
Qed.

Lemma c_return : forall n, Sim n -> forall e, SimE n (EReturn e).
Proof.
  intros n IH e. start. cbn [gen] in Hg. cbn [GenSpec.ok] in Ho. destruct (gen (KM Ret) e t m0 L) as [c1 n1] eqn:E1. injection Hg as <- <-.
  apply codeat_app in Hc. destruct Hc as [Hc1 _].
  apply (use_gen n IH _ (KM Ret) e t m0 L c1 n1 pc w l r _ w' l' o E1 Hc1 Ho I HL Hi He).
  - intros w1 l1 v cf Hs Hp Ha Ee Hf. injection Hf as <- <- <-. exists cf. split; [exact Hs|exact Hp].
  - intros cf Hs Hab _. exact (G_abort k L t t None _ pc r w w' l' o cf Hs Hab (le_n t) (leq_none t _)).
Qed.

(* ---- calls ---- *)

Lemma fin_callj : forall k L t pe pa pc r w l d m rs args w' l' o, nth_error C pc = Some (ICall d m rs) ->
  (forall r1 w1, steps (At (S pc) r1 w1) (At pa r1 w1)) -> codeat pa (after k t) -> pe = pa + length (after k t) ->
  dst_of k t d -> map r rs = args -> inv l r -> wfk k t -> do_call w l m args = Some (w', l', o) -> G k L t pe pc r w w' l' o.
Proof.
  intros k L t pe pa pc r w l d m rs args w' l' o Hc Hj Ha Hpe Hd Hr Hi Hk He. rewrite <- (bind_ret (do_call w l m args)) in He.
  apply (use_call _ d m rs args _ pc r w l w' l' o Hc Hr (inv_caps l r Hi) He).
  - intros w1 vs v Hs E. injection E as <- <- <-.
    apply (G_steps k L t pe pc pa r (dset d (put_caps caps r vs) v) w w1 w1 _ _ (steps_trans _ _ _ _ _ _ _ Hs (Hj _ _))); [exact (keep_trans _ _ _ _ _ (keep_put t (kd k) r vs) (keep_dst k t d _ v Hd))|].
    apply fin_after; [exact Ha|exact Hpe|apply (inv_dst k t d _ _ v Hd Hk); apply inv_put; exact Hi|intro Hu; exact (val_dst k t d _ v Hd Hu)].
  - intros r1 x Hx Hs Hok. exact (G_raise k L t pe pc r w w' l' o r1 x Hx Hs Hok).
Qed.

Lemma c_call : forall n, Sim n -> forall m a es, SimE n (ECall m a es).
Proof.
  intros n IH m a es. start. rewrite gen_call in Hg. cbn [GenSpec.ok] in Ho. apply andb_true_iff in Ho. destruct Ho as [Ho Hz]. apply andb_true_iff in Ho. destruct Ho as [Hoa Hob].
  destruct (gen_reg L a t m0) as [[[ra ca] n1] t1] eqn:Ea. destruct (gen_args L es t1 n1) as [[rs cb] n2] eqn:Eb. injection Hg as <- <-.
  apply codeat_app in Hc. destruct Hc as [Hca Hc]. apply codeat_app in Hc. destruct Hc as [Hcb Hc]. apply codeat_cons in Hc. destruct Hc as [P Hc].
  assert (Ra := reg_info L a t m0 ra ca n1 t1 Ea). assert (Ht := rinfo_le a t t1 ra Ra).
  apply (use_reg n IH _ a t m0 L ra ca n1 t1 pc w l r _ w' l' o Ea Hca Hoa HL Hi He); [|no_abort].
  intros w1 l1 va r1 Hs1 Hi1 Hk1 Hv1 Ha1 Hf1.
  apply (use_args n IH _ es t1 n1 L rs cb n2 (pc + length ca) w1 l1 r1 _ w' l' o Eb Hcb Hob (wfL_le L t t1 HL Ht) Hi1 Hf1).
  - intros w2 l2 vs r2 Hs2 Hi2 Hk2 Hv2 Ha2 Hf2.
    apply (G_steps k L t _ pc _ r r2 w w2 _ _ _ (steps_trans _ _ _ _ _ _ _ Hs1 Hs2)).
    + apply (keep_weak t t _ None r r2); [|lia|apply leq_none]. apply (keep_trans t None r r1 r2 Hk1). exact (keep_weak t t1 None None r1 r2 Hk2 Ht (leq_none t None)).
    + apply (fin_call k L t _ _ r2 w2 l2 (dst k t) m (ra :: rs) (va :: vs) w' l' o P Hc); [len|left; reflexivity| |exact Hi2|exact Hk|exact Hf2].
      cbn. rewrite Hv2. f_equal. apply (reg_stays a t t1 ra l1 l2 r1 r2 va Ra Hv1 Hi1 Hi2 Hk2).
      intros y ->. cbn in Hz. apply negb_true_iff in Hz. exact (Ha2 y Hz).
  - intros cf Hs2 Hab. eapply G_abort; [exact (steps_trans _ _ _ _ _ _ _ Hs1 Hs2)| |apply le_n|apply leq_none].
    exact (abort_weak L t t1 None None r r1 w' l' o cf Hab Ht (leq_none t None) Hk1).
Qed.

Lemma c_safe : forall n, Sim n -> forall m a es, SimE n (ESafe m a es).
Proof.
  intros n IH m a es. start. rewrite gen_safe in Hg. cbn [GenSpec.ok] in Ho. apply andb_true_iff in Ho. destruct Ho as [Ho Hz]. apply andb_true_iff in Ho. destruct Ho as [Hoa Hob].
  destruct (gen_reg L a t (S (S m0))) as [[[ra ca] n1] t1] eqn:Ea. destruct (gen_args L es t1 n1) as [[rs cb] n2] eqn:Eb. injection Hg as <- <-.
  apply codeat_app in Hc. destruct Hc as [Hca Hc]. apply codeat_cons in Hc. destruct Hc as [P0 Hc]. apply codeat_app in Hc. destruct Hc as [Hcb Hc]. apply codeat_cons in Hc. destruct Hc as [P Hc].
  set (mid := if used k && negb (reg_eqb (dest k t) ra) then [IBr (S m0); ILabel m0; IConst (dest k t) Nil; ILabel (S m0)] else [ILabel m0]) in *.
  change (codeat (S (S (pc + length ca) + length cb)) (mid ++ after k t)) in Hc.
  match goal with |- G _ _ _ ?pe _ _ _ _ _ _ => change pe with (pc + length (ca ++ [INilBr ra m0] ++ cb ++ [ICall (dst k t) m (ra :: rs)] ++ mid ++ after k t)) end.
  apply codeat_app in Hc. destruct Hc as [Hm Hc].
  assert (Hlen : pc + length (ca ++ [INilBr ra m0] ++ cb ++ [ICall (dst k t) m (ra :: rs)] ++ mid ++ after k t) = S (S (pc + length ca) + length cb) + length mid + length (after k t)) by len.
  rewrite Hlen. set (pm := S (S (pc + length ca) + length cb)) in *.
  assert (Ra := reg_info L a t _ ra ca n1 t1 Ea). assert (Ht := rinfo_le a t t1 ra Ra).
  (* over the middle: after a call, and when the receiver is nil *)
  assert (M : (forall r1 w1, steps (At pm r1 w1) (At (pm + length mid) r1 w1)) /\
              forall r1 w1 l1, inv l1 r1 -> r1 ra = Nil -> exists r2, steps (At (pos C m0) r1 w1) (At (pm + length mid) r2 w1) /\ inv (lput k l1 Nil) r2 /\ keep t (kd k) r1 r2 /\ (used k = true -> r2 (dest k t) = Nil)).
  { unfold mid in *. destruct (used k && negb (reg_eqb (dest k t) ra)) eqn:Em.
    - apply codeat_cons in Hm. destruct Hm as [Q0 Hm]. apply codeat_cons in Hm. destruct Hm as [Q1 Hm]. apply codeat_cons in Hm. destruct Hm as [Q2 Hm]. apply codeat_cons in Hm. destruct Hm as [Q3 _].
      replace (pm + length [IBr (S m0); ILabel m0; IConst (dest k t) Nil; ILabel (S m0)]) with (S (S (S (S pm)))) by (cbn; lia). split.
      + intros r1 w1. apply (steps_trans _ _ _ _ _ _ _ (at_br _ r1 w1 _ Q0)). rewrite (pos_at C _ _ Hdup Q3). exact (at_label _ r1 w1 _ Q3).
      + intros r1 w1 l1 A1 A2. exists (set r1 (dest k t) Nil). split; [|split; [exact (inv_dest k t l1 r1 Nil Hk A1)|split; [exact (keep_dest k t r1 Nil)|intros _; apply set_same]]].
        rewrite (pos_at C _ _ Hdup Q1). apply (steps_trans _ _ _ _ _ _ _ (at_label _ r1 w1 _ Q1)). apply (steps_trans _ _ _ _ _ _ _ (at_const _ r1 w1 _ _ Q2)). exact (at_label _ _ w1 _ Q3).
    - apply codeat_cons in Hm. destruct Hm as [Q0 _]. replace (pm + length [ILabel m0]) with (S pm) by (cbn; lia). split.
      + intros r1 w1. exact (at_label _ r1 w1 _ Q0).
      + intros r1 w1 l1 A1 A2. exists r1. rewrite (pos_at C _ _ Hdup Q0). split; [exact (at_label _ r1 w1 _ Q0)|].
        destruct (used k) eqn:Hu; cbn in Em.
        * apply negb_false_iff in Em. destruct (reg_eqb_spec (dest k t) ra) as [E|_]; [|discriminate Em]. rewrite <- E in A2. split; [|split; [apply keep_refl|intros _; exact A2]].
          destruct k as [[| |d|]|j lb]; cbn in A2 |- *; try exact A1. destruct d as [|z|i]; cbn; try exact A1.
          apply (inv_ext l1 _ r1 A1). intro y. unfold upd. destruct (Nat.eqb_spec y z) as [->|_]; [|reflexivity]. rewrite <- (proj2 A1). exact A2.
        * split; [|split; [apply keep_refl|discriminate]]. destruct k as [[| |d|]|j lb]; try discriminate Hu. exact A1. }
  destruct M as [M1 M2].
  apply (use_reg n IH _ a t _ L ra ca n1 t1 pc w l r _ w' l' o Ea Hca Hoa HL Hi He); [|no_abort].
  intros w1 l1 va r1 Hs1 Hi1 Hk1 Hv1 Ha1 Hf1. assert (Hs2 := at_nil _ r1 w1 _ _ P0). rewrite Hv1 in Hs2.
  apply (G_steps k L t _ pc _ r r1 w w1 _ _ _ (steps_trans _ _ _ _ _ _ _ Hs1 Hs2) (keep_weak t t _ None r r1 Hk1 (le_n t) (leq_none t _))).
  destruct (is_nil va) eqn:Ev.
  - injection Hf1 as <- <- <-. assert (va = Nil) as -> by (destruct va; try discriminate Ev; reflexivity).
    destruct (M2 r1 w1 l1 Hi1 Hv1) as (r2 & A1 & A2 & A3 & A4). apply (G_steps k L t _ _ _ r1 r2 w1 w1 _ _ _ A1 A3).
    apply fin_after; [exact Hc|reflexivity|exact A2|exact A4].
  - apply (use_args n IH _ es t1 n1 L rs cb n2 _ w1 l1 r1 _ w' l' o Eb Hcb Hob (wfL_le L t t1 HL Ht) Hi1 Hf1).
    + intros w2 l2 vs r2 Hs3 Hi2 Hk2 Hv2 Ha2 Hf2.
      apply (G_steps k L t _ _ _ r1 r2 w1 w2 _ _ _ Hs3 (keep_weak t t1 _ None r1 r2 Hk2 Ht (leq_none t _))).
      apply (fin_callj k L t _ (pm + length mid) _ r2 w2 l2 (dst k t) m (ra :: rs) (va :: vs) w' l' o P M1 Hc); [reflexivity|left; reflexivity| |exact Hi2|exact Hk|exact Hf2].
      cbn. rewrite Hv2. f_equal. apply (reg_stays a t t1 ra l1 l2 r1 r2 va Ra Hv1 Hi1 Hi2 Hk2).
      intros y ->. cbn in Hz. apply negb_true_iff in Hz. exact (Ha2 y Hz).
    + intros cf Hs3 Hab. exact (G_abort k L t t1 None _ _ r1 w1 w' l' o cf Hs3 Hab Ht (leq_none t _)).
Qed.

Lemma c_arr : forall n, Sim n -> forall es, SimE n (EArr es).
Proof.
  intros n IH es. start. rewrite gen_arr in Hg. cbn [GenSpec.ok] in Ho. destruct (gens L es (base1 k t) m0) as [c1 n1] eqn:E1. injection Hg as <- <-.
  apply codeat_app in Hc. destruct Hc as [Hc1 Hc]. apply codeat_cons in Hc. destruct Hc as [P Hc].
  destruct (dest_facts k t Hk) as (_ & D2 & _).
  apply (use_gens n IH _ es (base1 k t) m0 L c1 n1 pc w l r _ w' l' o E1 Hc1 Ho (wfL_le L t _ HL D2) Hi He).
  - intros w1 l1 vs r1 Hs1 Hi1 Hk1 Hv1 Ha1 Hf1.
    apply (G_steps k L t _ pc _ r r1 w w1 _ _ _ Hs1 (keep_weak t _ _ None r r1 Hk1 D2 (leq_none t _))).
    apply (fin_call k L t _ _ r1 w1 l1 (Some (dest k t)) MKARRAY _ vs w' l' o P Hc); [len|right; reflexivity|exact Hv1|exact Hi1|exact Hk|exact Hf1].
  - intros cf Hs Hab. exact (G_abort k L t _ None _ _ r w w' l' o cf Hs Hab D2 (leq_none t _)).
Qed.

(* ---- assignments to attributes and elements ---- *)

Lemma tgt_eq : forall r r' g s, tgt r g s -> (forall q, In q (gregs g) -> r' q = r q) -> tgt r' g s.
Proof.
  intros r r' g s Hg E. destruct g as [x|m q|b i]; destruct s as [y|m' v|vb vi]; cbn in *; try contradiction; try exact Hg.
  - rewrite (E q) by (left; reflexivity). exact Hg.
  - rewrite (E b), (E i) by auto. exact Hg.
Qed.
Lemma lv_low : forall L lv t m g c m' t', gen_lv L lv t m = (g, c, m', t') -> forall i, In (RTmp i) (gregs g) -> t <= i.
Proof.
  intros L [x|me e|b i] t m g c m' t' H j Hj; cbn [gen_lv] in H.
  - injection H as <- <- <- <-. destruct Hj.
  - destruct (gen_reg L e t m) as [[[q c1] n1] t1] eqn:E. injection H as <- <- <- <-. apply reg_info in E. destruct Hj as [->|[]].
    destruct e; destruct E as [E _]; try discriminate E; injection E as ->; lia.
  - destruct (match b with ESelf => (RSelf, [], m, t) | _ => let '(c, n) := gen (KM Push) b t m L in (RTmp t, c, n, S t) end) as [[[rb cb] n1] t1] eqn:Eb.
    destruct (gen (KM Push) i t1 n1 L) as [ci n2]. injection H as <- <- <- <-.
    assert (B : (rb = RSelf /\ t1 = t) \/ (rb = RTmp t /\ t1 = S t)).
    { destruct (gen (KM Push) b t m L) as [c0 n0]. destruct b; injection Eb as <- <- <- <-; first [left; split; reflexivity|right; split; reflexivity]. }
    destruct Hj as [Hj|[Hj|[]]]; [|injection Hj as <-; lia]. destruct B as [[-> _]|[-> ->]]; [discriminate Hj|injection Hj as <-; lia].
Qed.
Lemma sval_self : forall s v vs x, cap x = false -> sval s v vs x v = v.
Proof.
  intros [z|m q|b i] v vs x Hx; cbn; [destruct (x =? z); reflexivity| |];
    (destruct (lookup caps vs x) eqn:E; [apply lookup_cap in E; unfold GenSpec.cap in Hx; rewrite E in Hx; discriminate|reflexivity]).
Qed.
Lemma lv_ok_eq : forall t, match t with LVar _ => true | LAttr _ e => ok UVal e | LIdx b i => ok UVal b && ok UVal i end = lv_ok t.
Proof. reflexivity. Qed.

Lemma c_set : forall n, Sim n -> forall lv e, SimE n (ESet lv e).
Proof.
  intros n IH lv e. start. rewrite gen_set in Hg. cbn [GenSpec.ok] in Ho. rewrite lv_ok_eq in Ho. apply andb_true_iff in Ho. destruct Ho as [Hol Ho].
  destruct (gen_lv L lv t m0) as [[[g cg] n1] t1] eqn:Eg. destruct (lv_info L lv t m0 g cg n1 t1 Eg) as [Hti Hle].
  assert (D : (exists d, k = KM (Store d)) \/ match k with KM (Store _) => False | _ => True end) by (destruct k as [[| |d|]|j lb]; auto; left; exists d; reflexivity).
  destruct D as [[d ->]|D].
  - destruct (gen (KM (Store d)) e t1 n1 L) as [ce n2] eqn:Ee. injection Hg as <- <-.
    apply codeat_app in Hc. destruct Hc as [Hcg Hc]. apply codeat_app in Hc. destruct Hc as [Hce Hca].
    assert (F : ok (use_of (KM (Store d))) e = true /\ (forall x, d = RLoc x -> cap x = false) /\ lazy_lv lv (fun y => (match d with RLoc x => y =? x | _ => false end) || assigns y e) = true).
    { destruct d as [|x|i]; [destruct Hk| |]; cbn [use_of] in Ho.
      - apply andb_true_iff in Ho. destruct Ho as [Ho Hz]. apply andb_true_iff in Ho. destruct Ho as [Hx Ho]. apply negb_true_iff in Hx.
        split; [exact Ho|]. split; [intros z E; injection E as <-; exact Hx|exact Hz].
      - apply andb_true_iff in Ho. destruct Ho as [Ho _]. apply andb_true_iff in Ho. destruct Ho as [Ho Hz]. split; [exact Ho|]. split; [discriminate|exact Hz]. }
    destruct F as (Hoe & Hcap & Hz).
    assert (Hk1' : wfk (KM (Store d)) t1) by (destruct d as [|x|i]; cbn in *; try exact Hk; lia).
    apply (use_lv n IH _ lv t m0 L g cg n1 t1 pc w l r _ w' l' o Eg Hcg Hol HL Hi He); [|no_abort].
    intros w1 l1 s r1 Hs1 Hi1 Hk1 Htg Hso Ha1 Hf1.
    apply (use_store n IH _ d e t1 n1 L ce n2 _ w1 l1 r1 _ w' l' o Ee Hce Hoe Hk1' (wfL_le L t t1 HL Hle) Hi1 Hf1).
    + intros w2 l2 v r2 Hs2 Hi2 Hk2 Hv2 Ha2 Ee2 Hf2.
      assert (Htg2 : tgt r2 g s).
      { apply (tgt_eq r1 r2 g s Htg). intros q Hq. assert (Hq' := Hti q Hq). destruct q as [|y|i].
        - assert (A : r2 RSelf = self) by (destruct Hi2 as [A _]; exact A). rewrite A, (proj1 Hi1). reflexivity.
        - destruct Hq' as [m ->]. cbn in Hz. apply negb_true_iff in Hz. apply orb_false_iff in Hz. destruct Hz as [Hz1 Hz2].
          rewrite (proj2 Hi1 y), <- (Ha2 y Hz2), (proj2 Hi2 y). destruct d as [|x|i]; cbn; try reflexivity. unfold upd. rewrite Hz1. reflexivity.
        - apply Hk2; [exact Hq'|]. intro E. injection E as ->. assert (Q := lv_low L lv t m0 g cg n1 t1 Eg i Hq). cbn in Hk. lia. }
      apply (use_assign _ d g s v _ w2 l2 r2 _ w' l' o Hca Htg2 Hv2 (caps_un d l2 r2 v Hcap Hi2) Hf2).
      * intros w3 l3 r3 vs A1 A2 A3 A4 A5 A6. injection A6 as <- <- <-.
        exists (At (pc + length (cg ++ ce ++ assign d g)) r3 w3). split.
        -- replace (pc + length (cg ++ ce ++ assign d g)) with (pc + length cg + length ce + length (assign d g)) by len.
           exact (steps_trans _ _ _ _ _ _ _ Hs1 (steps_trans _ _ _ _ _ _ _ Hs2 A1)).
        -- exists r3. split; [reflexivity|].
           assert (I3 : inv (lputd d l3 v) r3).
           { split; [rewrite A2; exact (proj1 Hi2)|]. intro y. rewrite A4, (proj2 Hi2 y). destruct d as [|x|i]; cbn; try (symmetry; apply A5).
             unfold upd. destruct (Nat.eqb_spec y x) as [->|_]; [apply sval_self; apply Hcap; reflexivity|symmetry; apply A5]. }
           split; [exact I3|]. split.
           ++ intros j Hj Hn. rewrite A3, (Hk2 j) by (try lia; exact Hn). apply Hk1; [exact Hj|discriminate].
           ++ destruct d as [|x|i]; [destruct Hk|rewrite (proj2 I3 x); apply upd_same|rewrite A3; exact Hv2].
      * intros r3 y Hy Hs Hok. exact (G_raise _ L t _ _ r w w' l' o r3 y Hy (steps_trans _ _ _ _ _ _ _ Hs1 (steps_trans _ _ _ _ _ _ _ Hs2 Hs)) Hok).
    + intros cf Hs Hab _. apply (G_abort _ L t t (Some d) _ _ r w w' l' o cf (steps_trans _ _ _ _ _ _ _ Hs1 Hs)); [|apply le_n|apply leq_refl].
      exact (abort_weak L t t1 (Some d) (Some d) r r1 w' l' o cf Hab Hle (leq_refl t _) (keep_weak t t _ None r r1 Hk1 (le_n t) (leq_none t _))).
  - assert (Hg' : (let '(src, ce, n, _) := gen_reg L e t1 n1 in (cg ++ ce ++ assign src g ++ match k with KBr j l => mov (RTmp t) src ++ [ICond (RTmp t) j l] | _ => handle k t src end, n)) = (c0, m'))
      by (destruct k as [[| |d|]|j lb]; try contradiction; exact Hg). clear Hg.
    destruct (gen_reg L e t1 n1) as [[[src ce] n2] t2] eqn:Ee. 
    set (tl := match k with KBr j l => mov (RTmp t) src ++ [ICond (RTmp t) j l] | _ => handle k t src end) in *. injection Hg' as <- <-.
    apply codeat_app in Hc. destruct Hc as [Hcg Hc]. apply codeat_app in Hc. destruct Hc as [Hce Hc]. apply codeat_app in Hc. destruct Hc as [Hca Hct].
    assert (F : ok UVal e = true /\ lazy_lv lv (fun y => assigns y e) = true /\ (used k = true -> match e with EVar y => hits caps y lv = false | _ => True end)).
    { destruct (use_of k) eqn:Eu.
      - apply andb_true_iff in Ho. destruct Ho as [Ho Hz]. split; [exact Ho|]. split; [exact Hz|]. destruct k as [[| |d|]|j lb]; try discriminate Eu; try discriminate. destruct D.
      - apply andb_true_iff in Ho. destruct Ho as [Ho Hh]. apply andb_true_iff in Ho. destruct Ho as [Ho Hz]. split; [exact Ho|]. split; [exact Hz|]. intros _. destruct e; try exact I. apply negb_true_iff. exact Hh.
      - destruct k as [[| |d|]|j lb]; try discriminate Eu; try contradiction. }
    destruct F as (Hoe & Hz & Hh). assert (Re := reg_info L e t1 n1 src ce n2 t2 Ee).
    apply (use_lv n IH _ lv t m0 L g cg n1 t1 pc w l r _ w' l' o Eg Hcg Hol HL Hi He); [|no_abort].
    intros w1 l1 s r1 Hs1 Hi1 Hk1 Htg Hso Ha1 Hf1.
    apply (use_reg n IH _ e t1 n1 L src ce n2 t2 _ w1 l1 r1 _ w' l' o Ee Hce Hoe (wfL_le L t t1 HL Hle) Hi1 Hf1).
    + intros w2 l2 v r2 Hs2 Hi2 Hk2 Hv2 Ha2 Hf2.
      assert (Htg2 : tgt r2 g s).
      { apply (tgt_stable lv t1 r1 r2 g s Htg Hti Hk2); [rewrite (proj1 Hi2), (proj1 Hi1); reflexivity|].
        intros m y ->. cbn in Hz. apply negb_true_iff in Hz. rewrite (proj2 Hi2), (proj2 Hi1). exact (Ha2 y Hz). }
      apply (use_assign _ src g s v _ w2 l2 r2 _ w' l' o Hca Htg2 Hv2 (inv_caps l2 r2 Hi2) Hf2).
      * intros w3 l3 r3 vs A1 A2 A3 A4 A5 A6. injection A6 as <- <- <-.
        assert (I3 : inv l3 r3) by (split; [rewrite A2; exact (proj1 Hi2)|intro y; rewrite A4, A5, (proj2 Hi2); reflexivity]).
        apply (G_steps k L t _ pc _ r r3 w w3 _ _ _ (steps_trans _ _ _ _ _ _ _ Hs1 (steps_trans _ _ _ _ _ _ _ Hs2 A1))).
        -- intros j Hj _. rewrite A3, (Hk2 j) by (try lia; discriminate). apply Hk1; [exact Hj|discriminate].
        -- match goal with |- G _ _ _ ?pe _ _ _ _ _ _ => change pe with (pc + length (cg ++ ce ++ assign src g ++ tl)) end.
           replace (pc + length (cg ++ ce ++ assign src g ++ tl)) with (pc + length cg + length ce + length (assign src g) + length tl) by (rewrite !app_length; lia).
           destruct (used k) eqn:Hu.
           ++ apply (fin_set k L t _ _ r3 w3 l3 v src tl eq_refl Hct); [reflexivity|exact I3| |exact Hk].
              destruct e; destruct Re as [-> _]; try (rewrite A3; exact Hv2).
              ** rewrite A2. exact Hv2.
              ** rewrite A4, <- Hv2. apply sval_hit. rewrite (s_hits caps x lv s Hso). exact (Hh eq_refl).
           ++ destruct k as [[| |d|]|j lb]; try discriminate Hu. unfold tl. cbn. apply fin_after; [intros i q Hq; destruct i; discriminate Hq|reflexivity|exact I3|discriminate].
      * intros r3 y Hy Hs Hok. exact (G_raise _ L t _ _ r w w' l' o r3 y Hy (steps_trans _ _ _ _ _ _ _ Hs1 (steps_trans _ _ _ _ _ _ _ Hs2 Hs)) Hok).
    + intros cf Hs Hab. apply (G_abort _ L t t None _ _ r w w' l' o cf (steps_trans _ _ _ _ _ _ _ Hs1 Hs)); [|apply le_n|apply leq_none].
      exact (abort_weak L t t1 None None r r1 w' l' o cf Hab Hle (leq_none t _) Hk1).
Qed.

(* ---- multiple assignment ---- *)

Lemma forall2_len : forall (A B : Type) (R : A -> B -> Prop) a b, Forall2 R a b -> length a = length b.
Proof. intros A B R a b H. induction H; cbn; congruence. Qed.
Lemma lazy_es : forall ts before es m y, lazy_lvs caps before ts es = true -> In (LAttr m (EVar y)) ts -> existsb (assigns y) es = false.
Proof.
  induction ts as [|t ts IHt]; intros before es m y H Hy; [destruct Hy|]. cbn in H. apply andb_true_iff in H. destruct H as [H1 H2]. destruct Hy as [->|Hy]; [|exact (IHt _ es m y H2 Hy)].
  cbn in H1. apply negb_true_iff in H1. apply orb_false_iff in H1. destruct H1 as [H1 _]. apply orb_false_iff in H1. exact (proj2 H1).
Qed.

Lemma c_mul : forall n, Sim n -> forall ts es, SimE n (EMul ts es).
Proof.
  intros n IH ts es. start. rewrite gen_mul in Hg. cbn [GenSpec.ok] in Ho. apply andb_true_iff in Ho. destruct Ho as [Ho Hz]. apply andb_true_iff in Ho. destruct Ho as [Ho Hlen].
  apply andb_true_iff in Ho. destruct Ho as [Hot Hoe]. apply Nat.eqb_eq in Hlen.
  destruct (gen_lvs L ts t m0) as [[[gs cg] n1] t1] eqn:Eg. destruct (gens L es t1 n1) as [ce n2] eqn:Ee. injection Hg as <- <-. fold (wtail k t) in *.
  match goal with |- G _ _ _ ?pe _ _ _ _ _ _ => change pe with (pc + length (cg ++ ce ++ assigns_code t1 gs ++ [ICall (Some (RTmp t)) MKARRAY (temps t1 (length es))] ++ wtail k t)) end.
  apply codeat_app in Hc. destruct Hc as [Hcg Hc]. apply codeat_app in Hc. destruct Hc as [Hce Hc]. apply codeat_app in Hc. destruct Hc as [Hca Hc]. apply codeat_cons in Hc. destruct Hc as [P Hc].
  change (codeat (S (pc + length cg + length ce + length (assigns_code t1 gs))) (wtail k t)) in Hc.
  apply (use_lvs n IH _ ts t m0 L gs cg n1 t1 pc w l r _ w' l' o [] es Eg Hcg Hot Hz HL Hi He); [|no_abort].
  intros w1 l1 ss r1 Hs1 Hi1 Hk1 Htg Hso Hti Hle Ha1 Hf1.
  apply (use_gens n IH _ es t1 n1 L ce n2 _ w1 l1 r1 _ w' l' o Ee Hce Hoe (wfL_le L t t1 HL Hle) Hi1 Hf1).
  - intros w2 l2 vs r2 Hs2 Hi2 Hk2 Hv2 Ha2 Hf2.
    assert (Htg2 : Forall2 (tgt r2) gs ss).
    { assert (B : forall tt gg sss, Forall2 (tgt r1) gg sss -> Forall2 (fun lv g => tinfo lv t1 g) tt gg -> (forall lv, In lv tt -> In lv ts) -> Forall2 (tgt r2) gg sss).
      { intros tt gg sss F1. revert tt. induction F1 as [|g s0 gg sss Hg F1 IHF]; intros tt F2 Hin; [constructor|].
        inversion F2 as [|lj ? ts' ? Hlj F2']; subst. constructor.
        - apply (tgt_stable lj t1 r1 r2 g s0 Hg Hlj Hk2); [rewrite (proj1 Hi2), (proj1 Hi1); reflexivity|].
          intros m y ->. rewrite (proj2 Hi2), (proj2 Hi1). apply Ha2. exact (lazy_es ts [] es m y Hz (Hin _ (or_introl eq_refl))).
        - apply (IHF ts' F2'). intros lv Hlv. apply Hin. right. exact Hlv. }
      exact (B ts gs ss Htg Hti (fun lv H => H)). }
    assert (Hgl : length gs = length es) by (rewrite <- Hlen; symmetry; exact (forall2_len _ _ _ _ _ Hti)).
    assert (Hv2' : map r2 (temps t1 (length gs)) = vs) by (rewrite Hgl; exact Hv2).
    apply (use_stores _ ts gs ss vs t1 t1 _ w2 l2 r2 _ w' l' o [] es Hca Htg2 Hso Hti Hz Hv2' Hi2 Hf2).
    + intros w3 l3 r3 Hs3 Hi3 Ht3 Hf3. rewrite <- (bind_ret (do_call w3 l3 MKARRAY vs)) in Hf3.
      assert (Em : map r3 (temps t1 (length es)) = vs).
      { rewrite <- Hv2. unfold temps. rewrite !map_map. apply map_ext. intro j. apply Ht3. }
      assert (Hs13 := steps_trans _ _ _ _ _ _ _ Hs1 (steps_trans _ _ _ _ _ _ _ Hs2 Hs3)).
      apply (use_call _ (Some (RTmp t)) MKARRAY _ vs _ _ r3 w3 l3 w' l' o P Em (inv_caps l3 r3 Hi3) Hf3).
      * intros w4 us u Hs4 Hf4. injection Hf4 as <- <- <-.
        apply (G_steps k L t _ pc _ r _ w w4 _ _ _ (steps_trans _ _ _ _ _ _ _ Hs13 Hs4)).
        -- intros j Hj _. cbn [dset]. rewrite set_other by (intro E; injection E as E; lia). rewrite put_tmp, Ht3, (Hk2 j) by (try lia; discriminate). apply Hk1; [exact Hj|discriminate].
        -- apply (fin_tail k L t _ _ _ w4 _ u Hc); [len|cbn [dset]; apply inv_tmp; apply inv_put; exact Hi3|intros _; apply set_same|exact Hk].
      * intros r4 y Hy Hs Hok. exact (G_raise _ L t _ _ r w w' l' o r4 y Hy (steps_trans _ _ _ _ _ _ _ Hs13 Hs) Hok).
    + intros r4 y Hy Hs Hok. exact (G_raise _ L t _ _ r w w' l' o r4 y Hy (steps_trans _ _ _ _ _ _ _ Hs1 (steps_trans _ _ _ _ _ _ _ Hs2 Hs)) Hok).
  - intros cf Hs Hab. apply (G_abort _ L t t None _ _ r w w' l' o cf (steps_trans _ _ _ _ _ _ _ Hs1 Hs)); [|apply le_n|apply leq_none].
    exact (abort_weak L t t1 None None r r1 w' l' o cf Hab Hle (leq_none t _) Hk1).
Qed.

Lemma at_mov : forall d s pc r w, nth_error C pc = Some (IMov d s) -> steps (At pc r w) (At (S pc) (set r d (r s)) w).
Proof. intros d s pc r w H. apply steps_one. unfold step. rewrite H. reflexivity. Qed.

Lemma c_splat : forall n, Sim n -> forall x e, SimE n (ESplat x e).
Proof.
  intros n IH x e. start. rewrite gen_splat in Hg. cbn [GenSpec.ok] in Ho.
  assert (D : (exists d, k = KM (Store d)) \/ k = KM NotUse \/ match k with KM (Store _) | KM NotUse => False | _ => True end) by (destruct k as [[| |d|]|j lb]; auto; left; exists d; reflexivity).
  destruct D as [[d ->]|[->|D]].
  - (* Store *)
    destruct (gen (KM (Store d)) e t m0 L) as [c1 n1] eqn:E1. injection Hg as <- <-.
    assert (F : ok (use_of (KM (Store d))) e = true /\ (forall z, d = RLoc z -> cap z = false) /\ d <> RLoc x).
    { destruct d as [|z|i]; [destruct Hk| |]; cbn [use_of] in Ho.
      - apply andb_true_iff in Ho. destruct Ho as [Ho Hoe]. apply andb_true_iff in Ho. destruct Ho as [Hz Hzx]. apply negb_true_iff in Hz. apply negb_true_iff in Hzx. apply Nat.eqb_neq in Hzx.
        split; [exact Hoe|]. split; [intros y E; injection E as <-; exact Hz|intro E; injection E as E; contradiction].
      - split; [exact Ho|]. split; discriminate. }
    destruct F as (Hoe & Hcap & Hdx).
    change (mov (RLoc x) (RTmp t)) with [IMov (RLoc x) (RTmp t)] in *.
    assert (Hmv : mov (RTmp t) d = [IMov (RTmp t) d]).
    { unfold mov. destruct (reg_eqb_spec (RTmp t) d) as [<-|_]; [|reflexivity]. cbn in Hk. lia. }
    rewrite Hmv in *.
    apply codeat_app in Hc. destruct Hc as [Hc1 Hc]. apply codeat_cons in Hc. destruct Hc as [P1 Hc]. apply codeat_cons in Hc. destruct Hc as [P2 Hc]. apply codeat_cons in Hc. destruct Hc as [P3 _].
    apply (use_store n IH _ d e t m0 L c1 n1 pc w l r _ w' l' o E1 Hc1 Hoe Hk HL Hi He).
    + intros w1 l1 v r1 Hs1 Hi1 Hk1 Hv1 Ha1 Ee Hf1.
      assert (Hs2 := at_mov _ _ _ r1 w1 P1). rewrite Hv1 in Hs2. set (r2 := set r1 (RTmp t) v) in *.
      assert (Hi2 : inv (lputd d l1 v) r2) by (apply inv_tmp; exact Hi1).
      assert (Hs12 := steps_trans _ _ _ _ _ _ _ Hs1 Hs2).
      assert (Em : map r2 [RTmp t] = [v]) by (cbn; unfold r2; rewrite set_same; reflexivity).
      apply (use_call _ (Some (RTmp t)) SPLAT [RTmp t] [v] _ _ r2 w1 l1 w' l' o P2 Em (caps_un d l1 r2 v Hcap Hi2) Hf1).
      * intros w2 us u Hs3 Hf2. injection Hf2 as <- <- <-. cbn [dset] in Hs3. set (r3 := set (put_caps caps r2 us) (RTmp t) u) in *.
        assert (Hs4 := at_mov _ _ _ r3 w2 P3). assert (E3 : r3 (RTmp t) = u) by apply set_same. rewrite E3 in Hs4.
        exists (At (pc + length (c1 ++ [IMov (RTmp t) d] ++ [ICall (Some (RTmp t)) SPLAT [RTmp t]] ++ [IMov (RLoc x) (RTmp t)])) (set r3 (RLoc x) u) w2). split.
        -- replace (pc + length (c1 ++ [IMov (RTmp t) d] ++ [ICall (Some (RTmp t)) SPLAT [RTmp t]] ++ [IMov (RLoc x) (RTmp t)])) with (S (S (S (pc + length c1)))) by len.
           exact (steps_trans _ _ _ _ _ _ _ Hs12 (steps_trans _ _ _ _ _ _ _ Hs3 Hs4)).
        -- assert (V : forall z, d = RLoc z -> put_caps caps r2 us (RLoc z) = v).
           { intros z ->. unfold put_caps. destruct (lookup caps us z) eqn:El; [apply lookup_cap in El; specialize (Hcap z eq_refl); unfold GenSpec.cap in Hcap; rewrite El in Hcap; discriminate|]. exact Hv1. }
           assert (Vd : set r3 (RLoc x) u d = v).
           { rewrite set_other by exact Hdx. destruct d as [|z|i]; [destruct Hk| |].
             - unfold r3. rewrite set_other by discriminate. apply V. reflexivity.
             - cbn in Hk. unfold r3. rewrite set_other by (intro E; injection E as E; lia). rewrite put_tmp. unfold r2. rewrite set_other by (intro E; injection E as E; lia). exact Hv1. }
           exists (set r3 (RLoc x) u). split; [reflexivity|]. split; [|split; [|exact Vd]].
           ++ assert (Ip : inv (put_env caps (lputd d l1 v) us) r3) by (apply inv_tmp; apply inv_put; exact Hi2).
              apply (inv_ext (upd (put_env caps (lputd d l1 v) us) x u)); [apply inv_loc; exact Ip|].
              intro y. destruct d as [|z|i]; cbn; try reflexivity. unfold upd at 1. unfold upd at 2 3.
              destruct (Nat.eqb_spec y x) as [->|Hyx].
              ** destruct (Nat.eqb_spec x z) as [->|_]; [contradiction Hdx; reflexivity|reflexivity].
              ** destruct (Nat.eqb_spec y z) as [->|Hyz].
                 --- unfold put_env. destruct (lookup caps us z) eqn:El; [apply lookup_cap in El; specialize (Hcap z eq_refl); unfold GenSpec.cap in Hcap; rewrite El in Hcap; discriminate|]. apply upd_same.
                 --- unfold put_env. destruct (lookup caps us y); [reflexivity|]. unfold upd. destruct (Nat.eqb_spec y z) as [E|_]; [contradiction|reflexivity].
           ++ intros j Hj Hn. rewrite set_other by discriminate. unfold r3. rewrite set_other by (intro E; injection E as E; lia). rewrite put_tmp. unfold r2. rewrite set_other by (intro E; injection E as E; lia). apply Hk1; assumption.
      * intros r4 y Hy Hs Hok. exact (G_raise _ L t _ _ r w w' l' o r4 y Hy (steps_trans _ _ _ _ _ _ _ Hs12 Hs) Hok).
    + intros cf Hs Hab _. exact (G_abort (KM (Store d)) L t t (Some d) _ _ r w w' l' o cf Hs Hab (le_n t) (leq_refl t _)).
  - (* NotUse *)
    cbn [use_of] in Ho. apply andb_true_iff in Ho. destruct Ho as [Hoe Hx].
    destruct (gen_reg L e t m0) as [[[src c1] n1] t1] eqn:E1. injection Hg as <- <-. assert (Re := reg_info L e t m0 src c1 n1 t1 E1).
    assert (Hsrc : (src = RTmp t /\ mov (RLoc x) src = [IMov (RLoc x) (RTmp t)]) \/ (src = RLoc x /\ mov (RLoc x) src = [])).
    { destruct e; try discriminate Hx; destruct Re as [-> _]; try (left; split; reflexivity). apply Nat.eqb_eq in Hx. subst. right. split; [reflexivity|]. unfold mov. destruct (reg_eqb_spec (RLoc x) (RLoc x)) as [_|N]; [reflexivity|contradiction N; reflexivity]. }
    apply codeat_app in Hc. destruct Hc as [Hc1 Hc]. apply codeat_cons in Hc. destruct Hc as [P Hc]. change (codeat (S (pc + length c1)) (mov (RLoc x) src)) in Hc.
    apply (use_reg n IH _ e t m0 L src c1 n1 t1 pc w l r _ w' l' o E1 Hc1 Hoe HL Hi He); [|no_abort].
    intros w1 l1 v r1 Hs1 Hi1 Hk1 Hv1 Ha1 Hf1.
    assert (Em : map r1 [src] = [v]) by (cbn; rewrite Hv1; reflexivity).
    apply (use_call _ (Some src) SPLAT [src] [v] _ _ r1 w1 l1 w' l' o P Em (inv_caps l1 r1 Hi1) Hf1).
    + intros w2 us u Hs2 Hf2. injection Hf2 as <- <- <-. cbn [dset] in Hs2.
      apply (G_steps (KM NotUse) L t _ pc _ r _ w w2 _ _ _ (steps_trans _ _ _ _ _ _ _ Hs1 Hs2)).
      * intros j Hj _. rewrite set_other by (destruct Hsrc as [[-> _]|[-> _]]; [intro E; injection E as E; lia|discriminate]). rewrite put_tmp. apply Hk1; [exact Hj|discriminate].
      * destruct Hsrc as [[-> Em2]|[-> Em2]]; rewrite Em2 in *.
        -- apply codeat_cons in Hc. destruct Hc as [P3 _]. assert (Hs3 := at_mov _ _ _ (set (put_caps caps r1 us) (RTmp t) u) w2 P3). rewrite set_same in Hs3.
           apply (G_steps (KM NotUse) L t _ _ _ _ _ w2 w2 _ _ _ Hs3); [intros j Hj _; apply set_other; discriminate|].
           apply fin_after; [intros i q Hq; destruct i; discriminate Hq|cbn [after]; len|cbn [lput]; apply inv_loc; apply inv_tmp; apply inv_put; exact Hi1|discriminate].
        -- apply fin_after; [intros i q Hq; destruct i; discriminate Hq|cbn [after]; len|cbn [lput]; apply inv_loc; apply inv_put; exact Hi1|discriminate].
    + intros r4 y Hy Hs Hok. exact (G_raise _ L t _ _ r w w' l' o r4 y Hy (steps_trans _ _ _ _ _ _ _ Hs1 Hs) Hok).
  - (* a value *)
    assert (Hg' : (let '(c, n) := gen (KM Push) e t m0 L in (c ++ [IMov (RTmp (S t)) (RTmp t)] ++ [ICall (Some (RTmp (S t))) SPLAT [RTmp (S t)]] ++ mov (RLoc x) (RTmp (S t)) ++ after k t, n)) = (c0, m'))
      by (destruct k as [[| |d|]|j lb]; try contradiction; exact Hg). clear Hg.
    assert (Hoe : ok UVal e = true) by (destruct k as [[| |d|]|j lb]; try contradiction; exact Ho).
    destruct (gen (KM Push) e t m0 L) as [c1 n1] eqn:E1. change (mov (RLoc x) (RTmp (S t))) with [IMov (RLoc x) (RTmp (S t))] in Hg'. injection Hg' as <- <-.
    apply codeat_app in Hc. destruct Hc as [Hc1 Hc]. apply codeat_cons in Hc. destruct Hc as [P1 Hc]. apply codeat_cons in Hc. destruct Hc as [P2 Hc]. apply codeat_cons in Hc. destruct Hc as [P3 Hc].
    apply (use_push n IH _ e t m0 L c1 n1 pc w l r _ w' l' o E1 Hc1 Hoe HL Hi He); [|no_abort].
    intros w1 l1 v r1 Hs1 Hi1 Hk1 Hv1 Ha1 Hf1.
    assert (Hs2 := at_mov _ _ _ r1 w1 P1). rewrite Hv1 in Hs2. set (r2 := set r1 (RTmp (S t)) v) in *.
    assert (Hi2 : inv l1 r2) by (apply inv_tmp; exact Hi1).
    assert (Hs12 := steps_trans _ _ _ _ _ _ _ Hs1 Hs2).
    assert (Em : map r2 [RTmp (S t)] = [v]) by (cbn; unfold r2; rewrite set_same; reflexivity).
    apply (use_call _ (Some (RTmp (S t))) SPLAT [RTmp (S t)] [v] _ _ r2 w1 l1 w' l' o P2 Em (inv_caps l1 r2 Hi2) Hf1).
    + intros w2 us u Hs3 Hf2. injection Hf2 as <- <- <-. cbn [dset] in Hs3. set (r3 := set (put_caps caps r2 us) (RTmp (S t)) u) in *.
      assert (Hs4 := at_mov _ _ _ r3 w2 P3). assert (E3 : r3 (RTmp (S t)) = u) by apply set_same. rewrite E3 in Hs4.
      assert (T : forall j, j <= t -> set r3 (RLoc x) u (RTmp j) = r1 (RTmp j)).
      { intros j Hj. rewrite set_other by discriminate. unfold r3. rewrite set_other by (intro E; injection E as E; lia). rewrite put_tmp. unfold r2. apply set_other. intro E; injection E as E; lia. }
      apply (G_steps k L t _ pc _ r (set r3 (RLoc x) u) w w2 _ _ _ (steps_trans _ _ _ _ _ _ _ Hs12 (steps_trans _ _ _ _ _ _ _ Hs3 Hs4))).
      * intros j Hj _. rewrite T by lia. apply Hk1; [exact Hj|discriminate].
      * apply fin_after; [exact Hc|len| |].
        -- assert (El : forall l, lput k l v = l) by (destruct k as [[| |d|]|j lb]; try contradiction; reflexivity). rewrite El. apply inv_loc. apply inv_tmp. apply inv_put. exact Hi2.
        -- intros _. assert (Ed : dest k t = RTmp t) by (destruct k as [[| |d|]|j lb]; try contradiction; reflexivity). rewrite Ed, T by lia. exact Hv1.
    + intros r4 y Hy Hs Hok. exact (G_raise _ L t _ _ r w w' l' o r4 y Hy (steps_trans _ _ _ _ _ _ _ Hs12 Hs) Hok).
Qed.

(* ---- the simulation ---- *)

Lemma sim_step : forall n, Sim n -> SimW (S n) -> Sim (S n).
Proof.
  intros n IH IHW e. change (SimE n e). destruct e.
  - apply c_lit.
  - apply c_self.
  - apply c_var.
  - apply c_bin; exact IH.
  - apply c_un; exact IH.
  - apply c_and; exact IH.
  - apply c_or; exact IH.
  - apply c_asgn; exact IH.
  - apply c_op; exact IH.
  - apply c_orA; exact IH.
  - apply c_andA; exact IH.
  - apply c_seq; exact IH.
  - apply c_if; exact IH.
  - apply c_while; exact IHW.
  - apply c_break; exact IH.
  - apply c_next; exact IH.
  - apply c_return; exact IH.
  - apply c_call; exact IH.
  - apply c_safe; exact IH.
  - apply c_arr; exact IH.
  - apply c_set; exact IH.
  - apply c_mul; exact IH.
  - apply c_splat; exact IH.
Qed.
Theorem sim : forall n, Sim n /\ SimW n.
Proof.
  induction n as [|n [IH IHW]].
  - split.
    + intros e k t m L c m' pc w l r w' l' o _ _ _ _ _ _ He. discriminate He.
    + intros op c b k t m L cc cb n1 n2 pc w l r w' l' o t1 L1 _ _ _ _ _ _ _ _ He. discriminate He.
  - assert (HW := simW_step n IH IHW). split; [exact (sim_step n IH HW)|exact HW].
Qed.

End Sim.
