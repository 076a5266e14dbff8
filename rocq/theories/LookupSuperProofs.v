(** super. *)
From Coq Require Import ZArith List Bool Lia.
From Verif Require Import ClassModel ClassSpec LookupModel LookupSpec LookupWalkProofs.
Import ListNotations.
Open Scope Z_scope.

Definition body_of (r : option (Z * vis * Z)) : option Z := match r with Some (f, _, _) => Some f | None => None end.
Lemma answer_body o : match o with Some e => efid e | None => None end = body_of (answer o).
Proof. destruct o as [e|]; auto. unfold answer. now destruct (efid e). Qed.
Lemma body_in_resolves h T n l r : good_tables T -> resolves T n (places h l) r -> body_in h T n l = body_of r.
Proof.
  intros G R. unfold body_in. destruct l as [|x l].
  - cbn in R. inversion R as [l1 a l2 f w v o _ _ _ _ E|l1 a l2 _ _ E|l0 _ E]; [destruct l1; discriminate..|reflexivity].
  - rewrite walk_places, answer_body. now rewrite (lwalk_resolves T n G _ r R).
Qed.
Lemma places_in h l c : In c (places h l) -> exists x, In x l /\ norg (at_ h x) = None /\ idof h x = c.
Proof.
  intros i. unfold places in i. apply in_map_iff in i as (x & e & i). apply filter_In in i as (i & q). exists x. destruct (norg (at_ h x)); auto. discriminate.
Qed.
Lemma filter_none {A} (p : A -> bool) l : (forall x, In x l -> p x = false) -> filter p l = [].
Proof. induction l as [|x l IH]; intros H; auto. cbn. rewrite (H x (or_introl eq_refl)). apply IH. intros y i. apply H. now right. Qed.

Section Super.
Variable inner : Z -> option Z.
Variable owners : Z -> list Z.
Variables (h : heap) (T : tables) (f n : Z).
Hypothesis G : good_tables T.

Lemma by_name_none occ l : forall m, (forall x, In x l -> at_position inner h T n f x = false) -> by_name inner h T f n occ m l = (None, m).
Proof.
  induction l as [|x l IH]; intros m H; auto. cbn [by_name]. rewrite (H x (or_introl eq_refl)). apply IH. intros y i. apply H. now right.
Qed.
Lemma by_name_skip occ m l1 l2 : (forall x, In x l1 -> at_position inner h T n f x = false) -> by_name inner h T f n occ m (l1 ++ l2) = by_name inner h T f n occ m l2.
Proof.
  intros H. induction l1 as [|x l IH]; auto. cbn [app by_name]. rewrite (H x (or_introl eq_refl)). apply IH. intros y i. apply H. now right.
Qed.
(** The bodies before the k-th position are passed over. *)
Lemma by_name_before k l1 l2 : forall m, (m + length (filter (at_position inner h T n f) l1) < k)%nat ->
  by_name inner h T f n (Some k) m (l1 ++ l2) = by_name inner h T f n (Some k) (m + length (filter (at_position inner h T n f) l1)) l2.
Proof.
  induction l1 as [|x l IH]; intros m b; cbn [app by_name filter] in *; [now rewrite Nat.add_0_r|].
  destruct (at_position inner h T n f x); [|now apply IH]. cbn [length] in *. destruct (Nat.leb_spec k (S m)); [lia|].
  rewrite IH by lia. f_equal. lia.
Qed.
Lemma not_itself l r : (forall x, In x l -> at_position inner h T n f x = false) -> resolves T n (places h l) r -> body_of r <> Some f.
Proof.
  intros H R. inversion R as [l1 c l2 g w v o P D N L E1 E2|l1 c l2 P U E1 E2|l0 P E1 E2]; try discriminate. cbn. intros e. injection e as ->.
  destruct (places_in h l c) as (x & i & no & id); [rewrite <- E1; apply in_or_app; right; now left|].
  specialize (H x i). unfold at_position in H. rewrite no, id in H. destruct D as (e0 & d1 & d2 & d3 & d4). unfold dispatches in H. now rewrite d1, d2, d3, Z.eqb_refl in H.
Qed.

(** One position: super is what the lookup of the rest of the chain finds. *)
Lemma super_unique a l1 x l2 r : a :: above h a = l1 ++ x :: l2 -> at_position inner h T n f x = true ->
  (forall y, In y (l1 ++ l2) -> at_position inner h T n f y = false) -> resolves T n (places h l2) r ->
  check_super inner owners h T a f n = body_of r.
Proof.
  intros E X H R. assert (H1 := fun y i => H y (in_or_app _ _ y (or_introl i))). assert (H2 := fun y i => H y (in_or_app _ _ y (or_intror i))).
  unfold check_super, occurrences, super_at. rewrite E, filter_app. cbn [filter]. rewrite X, (filter_none _ l1 H1), (filter_none _ l2 H2). cbn [app length Nat.ltb Nat.leb].
  rewrite by_name_skip by auto. cbn [by_name]. rewrite X, (body_in_resolves h T n l2 r G R). pose proof (not_itself l2 r H2 R) as NI.
  destruct (body_of r) as [g|] eqn:B.
  - destruct (Z.eqb_spec g f) as [->|]; [easy|reflexivity].
  - now rewrite (by_name_none None l2 _ H2).
Qed.
(** The k-th position of several. *)
Lemma super_kth a k l1 x l2 g : a :: above h a = l1 ++ x :: l2 -> at_position inner h T n f x = true ->
  k = S (length (filter (at_position inner h T n f) l1)) -> body_in h T n l2 = Some g ->
  super_at inner owners h T a f n (Some k) = Some g.
Proof.
  intros E X K B. unfold super_at. rewrite E, by_name_before by lia. cbn [by_name plus]. rewrite X, B. subst k. now rewrite Nat.leb_refl.
Qed.
Lemma super_last a k l1 x l2 : a :: above h a = l1 ++ x :: l2 -> at_position inner h T n f x = true ->
  k = S (length (filter (at_position inner h T n f) l1)) -> (forall y, In y l2 -> at_position inner h T n f y = false) ->
  super_at inner owners h T a f n (Some k) = body_in h T n l2.
Proof.
  intros E X K H. destruct (body_in h T n l2) as [g|] eqn:B; [eapply super_kth; eauto|].
  unfold super_at. rewrite E, by_name_before by lia. cbn [by_name plus]. rewrite X, B. subst k. rewrite Nat.leb_refl.
  now rewrite by_name_none.
Qed.
(** No position: the class the body was defined in. *)
Lemma by_owner_skip l1 l2 : (forall y, In y l1 -> ~ (norg (at_ h y) = None /\ In (idof h y) (owners f))) -> forall s,
  by_owner owners h T f n s (l1 ++ l2) = by_owner owners h T f n s l2.
Proof.
  intros H s. induction l1 as [|y l IH]; auto. cbn [app by_owner].
  assert (Q : match norg (at_ h y) with Some _ => false | None => existsb (fun c => c =? idof h y) (owners f) end = false).
  { destruct (norg (at_ h y)) eqn:no; auto. destruct (existsb _ _) eqn:ex; auto. apply existsb_exists in ex as (c & i & q). apply Z.eqb_eq in q. subst c.
    destruct (H y (or_introl eq_refl)); auto. }
  rewrite Q. apply IH. intros z i. apply H. now right.
Qed.
Lemma super_owner a l1 x l2 g : a :: above h a = l1 ++ x :: l2 -> (forall y, In y (a :: above h a) -> at_position inner h T n f y = false) ->
  norg (at_ h x) = None -> In (idof h x) (owners f) -> (forall y, In y l1 -> ~ (norg (at_ h y) = None /\ In (idof h y) (owners f))) ->
  body_in h T n l2 = Some g -> g <> f -> check_super inner owners h T a f n = Some g.
Proof.
  intros E H no ow S B ne. unfold check_super, occurrences, super_at. rewrite (filter_none _ _ H). cbn [length Nat.ltb Nat.leb].
  rewrite (by_name_none None _ _ H). rewrite E, by_owner_skip by auto. cbn [by_owner]. rewrite no.
  assert (Q : existsb (fun c => c =? idof h x) (owners f) = true) by (apply existsb_exists; exists (idof h x); split; auto; apply Z.eqb_refl).
  rewrite Q, B. destruct (Z.eqb_spec g f); [easy|reflexivity].
Qed.
(** Neither: the whole chain. *)
Lemma super_foreign a r : (forall y, In y (a :: above h a) -> at_position inner h T n f y = false) ->
  (forall y, In y (a :: above h a) -> ~ (norg (at_ h y) = None /\ In (idof h y) (owners f))) ->
  resolves T n (places h (a :: above h a)) r -> check_super inner owners h T a f n = body_of r.
Proof.
  intros H S R. pose proof (not_itself _ r H R) as NI. unfold check_super, occurrences, super_at. rewrite (filter_none _ _ H). cbn [length Nat.ltb Nat.leb].
  rewrite (by_name_none None _ _ H). rewrite <- (app_nil_r (a :: above h a)) at 1. rewrite by_owner_skip by auto. cbn [by_owner].
  rewrite (body_in_resolves h T n _ r G R). destruct (body_of r) as [g|]; auto. destruct (Z.eqb_spec g f) as [->|]; [easy|reflexivity].
Qed.
(** Whatever is called has a body of its own name in the chain, and without an index it is
    never the running body. *)
Lemma super_other a g : check_super inner owners h T a f n = Some g -> g <> f.
Proof.
  unfold check_super, super_at. destruct (Nat.ltb 1 _); [discriminate|].
  assert (BN : forall l m g', fst (by_name inner h T f n None m l) = Some g' -> g' <> f).
  { induction l as [|x l IH]; intros m g'; cbn [by_name]; [discriminate|]. destruct (at_position inner h T n f x); [|apply IH].
    destruct (body_in h T n l) as [b|]; [|apply IH]. destruct (Z.eqb_spec b f); cbn [negb]; [apply IH|]. cbn. congruence. }
  assert (BO : forall l s g', fst (by_owner owners h T f n s l) = Some g' -> g' <> f).
  { induction l as [|x l IH]; intros s g'; cbn [by_owner]; [discriminate|]. destruct (match norg (at_ h x) with Some _ => false | None => _ end); [|apply IH].
    destruct (body_in h T n l) as [b|]; [|apply IH]. destruct (Z.eqb_spec b f); [apply IH|]. cbn. congruence. }
  pose proof (BN (a :: above h a) O) as B1. destruct (by_name inner h T f n None 0 (a :: above h a)) as [r1 m]. cbn [fst] in B1.
  destruct r1 as [g1|]; [intros e; injection e as <-; auto|]. destruct m; [|discriminate].
  pose proof (BO (a :: above h a) false) as B2. destruct (by_owner owners h T f n false (a :: above h a)) as [r2 s]. cbn [fst] in B2.
  destruct r2 as [g2|]; [intros e; injection e as <-; auto|]. destruct s; [discriminate|]. destruct (body_in h T n _) as [b|]; [|discriminate].
  destruct (Z.eqb_spec b f); [discriminate|]. congruence.
Qed.
End Super.
