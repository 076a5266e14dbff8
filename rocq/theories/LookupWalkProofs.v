(** The search along the chain. *)
From Coq Require Import ZArith List Bool Lia.
From Verif Require Import ClassModel ClassSpec ClassProofs ClassStepProofs LookupModel LookupSpec.
Import ListNotations.
Open Scope Z_scope.

(** The walk over the ids alone. *)
Fixpoint lwalk (T : tables) (n : Z) (v : option vis) (sh : option entry) (l : list Z) : option entry :=
  match l with
  | [] => match sh with None => None | Some s => Some (with_vis s (or_else v (evis s))) end
  | c :: t =>
      match T c n with
      | None => lwalk T n v sh t
      | Some e =>
          if eshadow e then lwalk T n (first v (evis e)) (first sh e) t
          else match efid e with
               | Some _ =>
                   let e1 := with_vis e (or_else v (evis e)) in
                   Some (match sh with Some s => with_owner e1 (eowner s) | None => e1 end)
               | None => match evis e with Undefined => None | w => lwalk T n (first v w) sh t end
               end
      end
  end.
Lemma walk_places h T n l : forall v sh, walk h T [] n v sh l = lwalk T n v sh (places h l).
Proof.
  unfold places. induction l as [|x t IH]; intros v sh; auto. cbn [walk filter refined]. destruct (norg (at_ h x)); auto.
  cbn [map lwalk]. destruct (T (idof h x) n) as [e|]; auto. destruct (eshadow e); auto. destruct (efid e); auto. destruct (evis e); auto.
Qed.
Lemma search_positions h T a n : search h T a n = lwalk T n None None (positions h a).
Proof. unfold search, search_refined. apply walk_places. Qed.

Section Tables.
Variable T : tables.
Variable n : Z.
Hypothesis G : good_tables T.

(** Passing over declarations changes only the two variables. *)
Definition shown (v : option vis) (sh : option entry) (c : Z) (d : vis) : vis * Z :=
  (or_else v d, match sh with Some s => eowner s | None => c end).
Lemma first_first {A} (v : option A) x y : first (first v x) y = first v x.
Proof. now destruct v. Qed.
Lemma declared_entry c v b : declares T n c v b -> exists e, T c n = Some e /\ eowner e = c /\ evis e = v /\
  forall w sh t, lwalk T n w sh (c :: t) = lwalk T n (first w v) (if b then first sh e else sh) t.
Proof.
  intros (e & d1 & d2 & d3 & d4). exists e. split; auto. split; [apply (G _ _ _ d1)|]. split; auto. intros w sh t. cbn [lwalk]. rewrite d1, d2.
  destruct b; [now rewrite d3|]. destruct (d4 eq_refl) as (-> & d5). rewrite d3. destruct v; auto. congruence.
Qed.
Lemma near_exists l : forall c f v, Forall (passes T n) l -> defines T n c f v -> exists w, nearest T n c l w.
Proof.
  induction l as [|a l IH]; intros c f v P D; [exists v; eapply near_here; eauto|]. inversion P as [|? ? p q]; subst.
  destruct p as [p|(w & b & p)]; [|exists w; eapply near_declared; eauto]. destruct (IH c f v q D) as (w & h). exists w. now apply near_silent.
Qed.
Lemma walk_found l : forall c f v0 v o w sh t, Forall (passes T n) l -> defines T n c f v0 -> nearest T n c l v -> lister T n c l o ->
  answer (lwalk T n w sh (l ++ c :: t)) = Some (f, or_else w v, match sh with Some s => eowner s | None => o end).
Proof.
  induction l as [|a l IH]; intros c f v0 v o w sh t P D N L; cbn [app].
  - destruct D as (e & d1 & d2 & d3 & d4). inversion N as [g v1 D1| |]; subst. inversion L; subst.
    destruct D1 as (e1 & q1 & q2 & q3 & q4). assert (e1 = e) by congruence. subst e1. cbn [lwalk]. rewrite d1, d2, d3.
    destruct (G _ _ _ d1) as (g1 & _). destruct sh; cbn; rewrite d3, ?g1, <- ?q4; reflexivity.
  - inversion P as [|? ? p q]; subst. destruct p as [p|(x & b & d)].
    + assert (E : lwalk T n w sh (a :: l ++ c :: t) = lwalk T n w sh (l ++ c :: t)) by (cbn [lwalk]; now rewrite p).
      rewrite E. inversion N as [|? ? ? _ N2|? ? ? ? (e1 & d1 & _)]; subst; [|unfold silent in p; congruence].
      inversion L as [|? ? ? _ L2|? ? ? (e1 & d1 & _)]; subst; [|unfold silent in p; congruence]. eauto.
    + destruct (declared_entry a x b d) as (e & d1 & d2 & d3 & E). rewrite E.
      inversion N as [|? ? ? p _|? ? ? b' d']; subst; [unfold silent in p; congruence|].
      assert (V : evis e = v) by (destruct d' as (e2 & y1 & y2 & y3 & _); congruence). rewrite V in *.
      destruct (near_exists l c f v0 q D) as (x & N').
      destruct b.
      * assert (LO : exists o', lister T n c l o').
        { clear - q. induction l as [|z l IH]; [exists c; constructor|]. inversion q as [|? ? p q']; subst. destruct (IH q') as (o' & h).
          destruct p as [p|(v & [] & d)]; [exists o'; constructor; auto|exists z; eapply list_declared; eauto|exists o'; constructor; eauto]. }
        destruct LO as (o' & LO). rewrite (IH c f v0 x o' _ _ t q D N' LO).
        inversion L as [|? ? ? [p|(y & d2')] _|? ? ? d2']; subst.
        -- unfold silent in p. congruence.
        -- destruct d as (e1 & z1 & z2 & _), d2' as (e2 & y1 & y2 & _). congruence.
        -- destruct w, sh; cbn; rewrite ?d2; reflexivity.
      * inversion L as [|? ? ? _ L2|? ? ? d2']; subst.
        -- rewrite (IH c f v0 x o _ _ t q D N' L2). destruct w; reflexivity.
        -- destruct d as (e1 & z1 & z2 & _), d2' as (e2 & y1 & y2 & _). congruence.
Qed.
Lemma walk_undefined l : forall c w sh t, Forall (passes T n) l -> undefines T n c -> lwalk T n w sh (l ++ c :: t) = None.
Proof.
  induction l as [|a l IH]; intros c w sh t P U; cbn [app].
  - destruct U as (e & d1 & d2 & d3 & d4). cbn [lwalk]. now rewrite d1, d2, d3, d4.
  - inversion P as [|? ? p q]; subst. destruct p as [p|(x & b & d)].
    + cbn [lwalk]. unfold silent in p. rewrite p. auto.
    + destruct (declared_entry a x b d) as (e & _ & _ & _ & E). rewrite E. auto.
Qed.
Lemma walk_nothing l : forall w, Forall (fun c => passes T n c /\ forall v, ~ declares T n c v true) l -> lwalk T n w None l = None.
Proof.
  induction l as [|a l IH]; intros w P; auto. inversion P as [|? ? (p & q) r]; subst. destruct p as [p|(x & b & d)].
  - cbn [lwalk]. unfold silent in p. rewrite p. auto.
  - destruct b; [now apply q in d|]. destruct (declared_entry a x false d) as (e & _ & _ & _ & E). rewrite E. auto.
Qed.
Lemma lwalk_resolves l r : resolves T n l r -> answer (lwalk T n None None l) = r.
Proof.
  intros R. destruct R as [l1 c l2 f w v o P D N L|l1 c l2 P U|l S].
  - now rewrite (walk_found l1 c f w v o None None l2 P D N L).
  - now rewrite walk_undefined.
  - now rewrite walk_nothing.
Qed.
(** The first class that settles the question. *)
Lemma settled l : Forall (passes T n) l \/ exists l1 c l2, l = l1 ++ c :: l2 /\ Forall (passes T n) l1 /\
  ((exists f v, defines T n c f v) \/ undefines T n c).
Proof.
  induction l as [|a l IH]; [left; constructor|].
  assert (X : passes T n a \/ (exists f v, defines T n a f v) \/ undefines T n a).
  { destruct (T a n) as [e|] eqn:d; [|left; now left].
    destruct (eshadow e) eqn:s; [left; right; exists (evis e), true, e; split; auto; split; auto; split; auto; discriminate|].
    destruct (efid e) as [f|] eqn:q; [right; left; exists f, (evis e), e; auto|].
    assert (V : evis e = Undefined \/ evis e <> Undefined) by (destruct (evis e); auto; right; discriminate).
    destruct V as [V|V]; [right; right; exists e; auto|left; right; exists (evis e), false, e; auto]. }
  destruct X as [X|X].
  - destruct IH as [IH|(l1 & c & l2 & -> & p & q)]; [left; constructor; auto|]. right. exists (a :: l1), c, l2. split; [reflexivity|]. split; auto.
  - right. exists [], a, l. split; auto.
Qed.
Lemma list_exists l : forall c, Forall (passes T n) l -> exists o, lister T n c l o.
Proof.
  intros c q. induction l as [|z l IH]; [exists c; constructor|]. inversion q as [|? ? p q']; subst. destruct (IH q') as (o' & h).
  destruct p as [p|(v & [] & d)]; [exists o'; constructor; auto|exists z; eapply list_declared; eauto|exists o'; constructor; eauto].
Qed.
Lemma resolves_total l : (exists r, resolves T n l r) \/ orphan T n l.
Proof.
  destruct (settled l) as [P|(l1 & c & l2 & -> & P & [(f & v & D)|U])].
  - assert (X : Forall (fun c => passes T n c /\ forall v, ~ declares T n c v true) l \/ exists c v, In c l /\ declares T n c v true).
    { induction P as [|a l p P IH]; [left; constructor|].
      assert (Y : (exists v, declares T n a v true) \/ forall v, ~ declares T n a v true).
      { destruct (T a n) as [e|] eqn:d; [|right; intros v (e & q & _); congruence].
        destruct (eshadow e) eqn:s; [left; exists (evis e), e; split; auto; split; auto; split; auto; discriminate|].
        right. intros v (e' & q1 & q2 & _). congruence. }
      destruct Y as [(v & Y)|Y]; [right; exists a, v; split; [now left|auto]|].
      destruct IH as [IH|(c & v & i & d)]; [left; constructor; auto|right; exists c, v; split; [now right|auto]]. }
    destruct X as [X|X]; [left; exists None; now apply res_nothing|right; split; auto].
  - left. destruct (near_exists l1 c f v P D) as (w & h). destruct (list_exists l1 c P) as (o & h2). exists (Some (f, w, o)). eapply res_found; eauto.
  - left. exists None. now apply res_undefined.
Qed.
Lemma passes_not c : passes T n c -> (forall f v, ~ defines T n c f v) /\ ~ undefines T n c.
Proof.
  intros [p|(w & b & e & p1 & p2 & p3 & p4)]; unfold silent in *; split; intros; intros (e' & d1 & d2 & d3 & d4); try congruence.
  - assert (e' = e) by congruence. subst e'. destruct b; [congruence|]. destruct (p4 eq_refl). congruence.
  - assert (e' = e) by congruence. subst e'. destruct b; [congruence|]. destruct (p4 eq_refl). congruence.
Qed.
Lemma resolves_orphan l r : resolves T n l r -> ~ orphan T n l.
Proof.
  intros R (P & c & v & i & d). rewrite Forall_forall in P. destruct R as [l1 a l2 f w x o _ D _ _|l1 a l2 _ U|l S].
  - eapply (proj1 (passes_not a (P a ltac:(apply in_or_app; right; now left)))); eauto.
  - apply (proj2 (passes_not a (P a ltac:(apply in_or_app; right; now left)))); auto.
  - rewrite Forall_forall in S. destruct (S c i) as (_ & q). now apply q in d.
Qed.
(** Every answer has a body. *)
Lemma lwalk_body l : forall v sh e, (forall s, sh = Some s -> efid s <> None) -> lwalk T n v sh l = Some e -> efid e <> None.
Proof.
  induction l as [|c l IH]; intros v sh e S E; cbn [lwalk] in E.
  - destruct sh as [s|]; [|discriminate]. injection E as <-. cbn. now apply S.
  - destruct (T c n) as [e0|] eqn:d; [|eauto]. destruct (eshadow e0) eqn:s.
    + eapply IH; [|exact E]. intros s0 q. injection q as <-. destruct sh as [s1|]; cbn; [now apply S|]. now apply (G _ _ _ d).
    + destruct (efid e0) eqn:f.
      * injection E as <-. destruct sh; cbn; congruence.
      * destruct (evis e0); try discriminate; eauto.
Qed.
End Tables.
Lemma search_body h T a n e : good_tables T -> search h T a n = Some e -> efid e <> None.
Proof. intros G E. rewrite search_positions in E. eapply lwalk_body; eauto. discriminate. Qed.

(** * The positions and the ancestors *)
Lemma places_rendered h l : hinv h -> places h l = rendered h true l.
Proof.
  intros I. unfold places. induction l as [|x t IH]; auto. cbn [filter rendered negb andb]. destruct (norg (at_ h x)) as [o|] eqn:e.
  - destruct (inv_org h I x o e) as (q & _). rewrite q. exact IH.
  - cbn [map]. rewrite IH. now destruct (nic _).
Qed.
Lemma places_cons h x t : places h (x :: t) = match norg (at_ h x) with None => [idof h x] | Some _ => [] end ++ places h t.
Proof. unfold places. cbn [filter]. destruct (norg (at_ h x)); auto. Qed.
Lemma class_positions s c : inv s -> is_class (hp s) (head s c) = true -> positions (hp s) (head s c) = ancestors s c.
Proof.
  intros I k. unfold positions, ancestors, is_class in *. apply negb_true_iff in k. rewrite k. cbn [negb].
  rewrite places_cons, (places_rendered _ (above _ _)) by apply (inv_heap s I). reflexivity.
Qed.
Lemma rendered_prefix h l : hinv h -> exists t, rendered h true l = rendered h false l ++ t.
Proof.
  intros I. induction l as [|x l IH]; [exists []; auto|]. cbn [rendered negb andb]. destruct (negb (nmod (at_ h x)) && negb (nic (at_ h x))).
  - eexists. reflexivity.
  - destruct IH as (t & ->). exists t. now rewrite app_assoc.
Qed.
Lemma module_positions s c : inv s -> exists t, positions (hp s) (head s c) = ancestors s c ++ t.
Proof.
  intros I. destruct (is_class (hp s) (head s c)) eqn:k; [exists []; rewrite app_nil_r; now apply class_positions|].
  unfold positions, ancestors, is_class in *. apply negb_false_iff in k. rewrite k. cbn [negb].
  rewrite places_cons, (places_rendered _ (above _ _)) by apply (inv_heap s I).
  destruct (rendered_prefix (hp s) (above (hp s) (head s c)) (inv_heap s I)) as (t & ->). exists t. now rewrite app_assoc.
Qed.

(** * Refinements *)
Lemma refined_none h T rs n l : (forall x, In x l -> refined T (idof h x) n rs = None) -> forall v sh,
  walk h T rs n v sh l = walk h T [] n v sh l.
Proof.
  induction l as [|x t IH]; intros H v sh; auto. cbn [walk]. rewrite (H x (or_introl eq_refl)). cbn [refined].
  assert (H' : forall y, In y t -> refined T (idof h y) n rs = None) by (intros y i; apply H; now right).
  destruct (norg _); [now apply IH|]. destruct (T (idof h x) n) as [e|]; [|now apply IH]. destruct (eshadow e); [now apply IH|].
  destruct (efid e); auto. destruct (evis e); auto; now apply IH.
Qed.
Lemma refined_first h T rs n l1 x l2 e : (forall y, In y l1 -> refined T (idof h y) n rs = None /\ T (idof h y) n = None) ->
  refined T (idof h x) n rs = Some e -> forall v sh, walk h T rs n v sh (l1 ++ x :: l2) = Some (with_vis e (or_else v (evis e))).
Proof.
  intros H r. induction l1 as [|y l1 IH]; intros v sh; cbn [app walk]; [now rewrite r|].
  destruct (H y (or_introl eq_refl)) as (-> & E). rewrite E. assert (H' := fun z i => H z (or_intror i)). destruct (norg _); auto.
Qed.
Lemma own_first h T rs n l1 x l2 e f : (forall y, In y (l1 ++ [x]) -> refined T (idof h y) n rs = None) ->
  (forall y, In y l1 -> T (idof h y) n = None) -> norg (at_ h x) = None -> T (idof h x) n = Some e -> eshadow e = false -> efid e = Some f ->
  walk h T rs n None None (l1 ++ x :: l2) = Some e.
Proof.
  intros R H o d s q. induction l1 as [|y l1 IH]; cbn [app walk].
  - rewrite (R x (or_introl eq_refl)), o, d, s, q. destruct e; reflexivity.
  - rewrite (R y (or_introl eq_refl)), (H y (or_introl eq_refl)). assert (X : walk h T rs n None None (l1 ++ x :: l2) = Some e).
    { apply IH; [intros z i; apply R; now right|intros z i; apply H; now right]. }
    destruct (norg (at_ h y)); exact X.
Qed.
