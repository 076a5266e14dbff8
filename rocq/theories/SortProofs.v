(** Proofs for C12 and C13. *)
From Coq Require Import List Bool Arith Lia Permutation Sorting.Sorted.
From Verif Require Import SortSpec SortModel.
Import ListNotations.

(** *** Memory facts *)
Lemma nth_mid {A} (p q : list A) x : nth_error (p ++ x :: q) (length p) = Some x.
Proof. rewrite nth_error_app2, Nat.sub_diag; auto. Qed.
Lemma nth_mid' {A} (p q : list A) x i : i = length p -> nth_error (p ++ x :: q) i = Some x.
Proof. intros ->. apply nth_mid. Qed.
Lemma skipn_exact {A} (p q : list A) n : n = length p -> skipn n (p ++ q) = q.
Proof. intros ->. rewrite skipn_app, skipn_all, Nat.sub_diag. reflexivity. Qed.
Lemma firstn_exact {A} (p q : list A) n : n = length p -> firstn n (p ++ q) = p.
Proof. intros ->. rewrite firstn_app, firstn_all, Nat.sub_diag. cbn. apply app_nil_r. Qed.
Lemma store_mid {A} (p q : list A) y x i : i = length p -> store (p ++ y :: q) i x = Some (p ++ x :: q).
Proof.
  intros ->. unfold store. rewrite app_length. cbn [length].
  replace (length p <? length p + S (length q)) with true by (symmetry; apply Nat.ltb_lt; lia).
  rewrite firstn_exact by auto. replace (p ++ y :: q) with ((p ++ [y]) ++ q) by (rewrite <- app_assoc; auto).
  rewrite skipn_exact by (rewrite app_length; cbn; lia). reflexivity.
Qed.
Lemma blit_mid {A} (p g q xs : list A) i : i = length p -> length g = length xs ->
  blit (p ++ g ++ q) i xs = Some (p ++ xs ++ q).
Proof.
  intros -> hl. unfold blit. rewrite !app_length.
  replace (length p + length xs <=? length p + (length g + length q)) with true by (symmetry; apply Nat.leb_le; lia).
  rewrite firstn_exact by auto. rewrite (app_assoc p g q), skipn_exact by (rewrite app_length; lia). reflexivity.
Qed.
Lemma slice_mid {A} (p g q : list A) i n : i = length p -> n = length g -> slice (p ++ g ++ q) i n = Some g.
Proof.
  intros -> ->. unfold slice. rewrite !app_length.
  replace (length p + length g <=? length p + (length g + length q)) with true by (symmetry; apply Nat.leb_le; lia).
  rewrite skipn_exact, firstn_exact by auto. reflexivity.
Qed.

Section P.
Context {A St : Type}.
Variable cmp : St -> list A -> list A -> A -> A -> St * option bool.
(** The elements that must stay in memory. *)
Variable l0 : list A.
(** What is known of the comparator: [I] is kept by answers, [G] holds of
    answers, [E] of the state in which it raises; on elements in [Dm]. *)
Variables (I E : St -> Prop) (G : A -> A -> bool -> Prop) (Dm : A -> Prop).
Hypothesis cmp_ok : forall s a b x y, I s -> Dm x -> Dm y -> incl l0 (y :: a ++ b) ->
  match cmp s a b x y with (s', Some b) => I s' /\ G x y b | (s', None) => E s' end.
Notation mem := (@mem A St).
Notation ALL := (Forall Dm).
Ltac inc h := let z := fresh in let hz := fresh in intros z hz; apply h in hz; repeat (rewrite ?in_app_iff in *; cbn [In app] in *); intuition.

Definition post {X} (r : @out A St X) (Q : mem -> X -> Prop) (F : mem -> Prop) : Prop :=
  match r with Bad => False | Err m => E (st m) /\ F m | Ok m x => I (st m) /\ Q m x end.
Lemma post_bind {X Y} (r : out X) (f : mem -> X -> out Y) Q F Q' :
  post r Q F -> (forall m x, I (st m) -> Q m x -> post (f m x) Q' F) -> post (bind r f) Q' F.
Proof. destruct r; cbn; auto. intros [h1 h2] h. auto. Qed.
Lemma post_imp {X} (r : out X) (Q Q' : mem -> X -> Prop) (F F' : mem -> Prop) : post r Q F -> (forall m x, Q m x -> Q' m x) -> (forall m, F m -> F' m) -> post r Q' F'.
Proof. destruct r; cbn; intuition. Qed.

Lemma less_ok m x y : I (st m) -> Dm x -> Dm y -> incl l0 (y :: arr m ++ buf m) ->
  post (less cmp m (Some x) (Some y)) (fun m' b => arr m' = arr m /\ buf m' = buf m /\ G x y b)
    (fun m' => arr m' = arr m /\ buf m' = buf m).
Proof.
  intros i hx hy hv. unfold less. pose proof (cmp_ok (st m) (arr m) (buf m) x y i hx hy hv) as h. destruct (cmp (st m) (arr m) (buf m) x y) as [s [b|]]; cbn; intuition.
Qed.

(** *** insert_head *)
Inductive inserted : list A -> list A -> Prop :=
| ins_stay x t : match t with [] => True | y :: _ => G y x false end -> inserted (x :: t) (x :: t)
| ins_move x l1 l2 : l1 <> [] -> Forall (fun y => G y x true) l1 -> match l2 with [] => True | y :: _ => G y x false end ->
    inserted (x :: l1 ++ l2) (l1 ++ x :: l2).

Lemma ALL_app a b : ALL (a ++ b) <-> ALL a /\ ALL b. Proof. apply Forall_app. Qed.

Lemma insert_loop_ok t : forall p l1 g q x m n i dest, I (st m) -> ALL (x :: t) -> incl l0 (p ++ (x :: l1 ++ t) ++ q) ->
  arr m = p ++ l1 ++ g :: t ++ q -> n = length t -> dest = length (p ++ l1) -> i = S dest -> l1 <> [] ->
  Forall (fun y => G y x true) l1 ->
  post (insert_loop cmp n x i dest m)
    (fun m' _ => buf m' = buf m /\ exists s', arr m' = p ++ s' ++ q /\ inserted (x :: l1 ++ t) s')
    (fun m' => buf m' = buf m /\ exists s', arr m' = p ++ s' ++ q /\ Permutation (x :: l1 ++ t) s').
Proof.
  induction t as [|y t IH]; intros p l1 g q x m n i dest hi ha hv he hn hd hi' hne hf; subst n; cbn [length insert_loop].
  - unfold drop_insertion, put. rewrite he, app_assoc. rewrite store_mid by auto. cbn. split; auto. split; auto.
    exists (l1 ++ [x]). rewrite <- !app_assoc. cbn. split; auto. apply ins_move with (l2 := []); auto.
  - inversion ha as [|? ? hx ha']; subst. inversion ha' as [|? ? hy ha2]; subst.
    assert (Hd : forall e m', I (st m') \/ E (st m') -> arr m' = arr m -> buf m' = buf m ->
       drop_insertion x (length (p ++ l1)) m' e = (if e then Err (M (st m') (p ++ (l1 ++ x :: y :: t) ++ q) (buf m'))
          else Ok (M (st m') (p ++ (l1 ++ x :: y :: t) ++ q) (buf m')) tt)).
    { intros e m' _ ea _. unfold drop_insertion, put. rewrite ea, he, app_assoc, store_mid by auto. cbn.
      rewrite <- !app_assoc. cbn. reflexivity. }
    assert (N : nth_error (arr m) (S (length (p ++ l1))) = Some y).
    { rewrite he. replace (p ++ l1 ++ g :: (y :: t) ++ q) with ((p ++ l1 ++ [g]) ++ y :: t ++ q) by (rewrite <- !app_assoc; reflexivity).
      apply nth_mid'. rewrite !app_length. cbn. lia. }
    rewrite N. assert (V : incl l0 (x :: arr m ++ buf m)) by (rewrite he; inc hv).
    pose proof (less_ok m y x hi hy hx V) as L.
    destruct (less cmp m (Some y) (Some x)) as [|m'|m' b]; cbn in L; [tauto| |].
    + rewrite Hd by tauto. cbn. intuition. exists (l1 ++ x :: y :: t). split; auto. apply Permutation_middle.
    + destruct L as (Im & ea & eb & hg). destruct b.
      * rewrite ea, N. unfold put. rewrite ea, he. cbn [Nat.sub]. rewrite Nat.sub_0_r, app_assoc, store_mid by auto. cbn [bind].
        replace (x :: l1 ++ y :: t) with (x :: (l1 ++ [y]) ++ t) by (rewrite <- app_assoc; reflexivity).
        rewrite <- eb.
        match goal with |- post (insert_loop cmp _ _ _ _ ?m2) _ _ => change (buf m') with (buf m2) end.
        apply IH with (g := y); cbn; auto.
        -- inc hv.
        -- rewrite <- !app_assoc. reflexivity.
        -- rewrite !app_length. cbn. lia.
        -- destruct l1; discriminate.
        -- apply Forall_app; auto.
      * rewrite Hd by tauto. cbn. intuition. exists (l1 ++ x :: y :: t). split; auto. apply ins_move; auto.
Qed.

Lemma insert_head_ok p seg q m lo hi : I (st m) -> ALL seg -> incl l0 (arr m) -> seg <> [] -> arr m = p ++ seg ++ q -> lo = length p -> hi = length (p ++ seg) ->
  post (insert_head cmp lo hi m)
    (fun m' _ => buf m' = buf m /\ exists s', arr m' = p ++ s' ++ q /\ inserted seg s')
    (fun m' => buf m' = buf m /\ exists s', arr m' = p ++ s' ++ q /\ Permutation seg s').
Proof.
  intros i ha hv hne he -> ->. unfold insert_head. rewrite app_length.
  destruct seg as [|x seg]; [congruence|]. destruct seg as [|y t].
  - cbn [length]. replace (length p + 1 - length p <? 2) with true by (symmetry; apply Nat.ltb_lt; lia).
    cbn. split; auto. split; auto. exists [x]. split; auto. constructor; auto.
  - cbn [length]. replace (_ <? 2) with false by (symmetry; apply Nat.ltb_ge; lia).
    inversion ha as [|? ? hx ha']; subst. inversion ha' as [|? ? hy ha2]; subst.
    assert (N0 : nth_error (arr m) (length p) = Some x) by (rewrite he; apply nth_mid).
    assert (N1 : nth_error (arr m) (S (length p)) = Some y).
    { rewrite he. replace (p ++ (x :: y :: t) ++ q) with ((p ++ [x]) ++ y :: t ++ q) by (rewrite <- !app_assoc; reflexivity).
      apply nth_mid'. rewrite app_length; cbn; lia. }
    rewrite N0, N1. eapply post_bind.
    { eapply post_imp; [apply less_ok; auto; inc hv|..].
      - intros m' b h. exact h.
      - intros m' [h1 h2]. split; auto. exists (x :: y :: t). rewrite h1. auto. }
    intros m' b Im (ea & eb & hg). destruct b; cbn [negb].
    + rewrite ea, N0, N1. unfold put. rewrite ea, he. cbn [app]. rewrite store_mid by auto. cbn [bind].
      rewrite <- eb. match goal with |- post (insert_loop cmp _ _ _ _ ?m2) _ _ => change (buf m') with (buf m2) end.
      change (x :: y :: t) with (x :: [y] ++ t).
      rewrite he in hv. apply insert_loop_ok with (g := y); cbn; auto; try rewrite app_length; cbn; try lia.
      discriminate.
    + cbn. split; auto. split; auto. exists (x :: y :: t). rewrite ea. split; auto. constructor. auto.
Qed.

(** *** merge *)
Inductive merged_lo : list A -> list A -> list A -> Prop :=
| mlo_l r : merged_lo [] r r
| mlo_r l : merged_lo l [] l
| mlo_right x l y r o : G y x true -> merged_lo (x :: l) r o -> merged_lo (x :: l) (y :: r) (y :: o)
| mlo_left x l y r o : G y x false -> merged_lo l (y :: r) o -> merged_lo (x :: l) (y :: r) (x :: o).
Inductive merged_hi : list A -> list A -> list A -> Prop :=
| mhi_l r : merged_hi [] r r
| mhi_r l : merged_hi l [] l
| mhi_left l x r y o : G y x true -> merged_hi l (r ++ [y]) o -> merged_hi (l ++ [x]) (r ++ [y]) (o ++ [x])
| mhi_right l x r y o : G y x false -> merged_hi (l ++ [x]) r o -> merged_hi (l ++ [x]) (r ++ [y]) (o ++ [y]).

Lemma drop_merge_ok p g q b1 lr b2 start stop dest (m : mem) e :
  arr m = p ++ g ++ q -> buf m = b1 ++ lr ++ b2 -> start = length b1 -> stop = length (b1 ++ lr) -> dest = length p -> length g = length lr ->
  drop_merge start stop dest m e = if e then Err (M (st m) (p ++ lr ++ q) (buf m)) else Ok (M (st m) (p ++ lr ++ q) (buf m)) tt.
Proof.
  intros ea eb -> -> -> hg. unfold drop_merge. rewrite eb, slice_mid by (auto; rewrite app_length; lia).
  rewrite ea, blit_mid by auto. reflexivity.
Qed.

Lemma merge_lo_ok n : forall p o g rr q b1 lr b2 m left stop right hi out, I (st m) -> ALL lr -> ALL rr -> incl l0 (p ++ o ++ lr ++ rr ++ q) ->
  arr m = p ++ o ++ g ++ rr ++ q -> buf m = b1 ++ lr ++ b2 -> length g = length lr ->
  left = length b1 -> stop = length (b1 ++ lr) -> out = length (p ++ o) -> right = length (p ++ o ++ g) -> hi = length (p ++ o ++ g ++ rr) ->
  length lr + length rr <= n ->
  post (merge_lo cmp n left stop right hi out m)
    (fun m' _ => buf m' = buf m /\ exists s', arr m' = p ++ o ++ s' ++ q /\ merged_lo lr rr s')
    (fun m' => buf m' = buf m /\ exists s', arr m' = p ++ o ++ s' ++ q /\ Permutation (lr ++ rr) s').
Proof.
  induction n as [|n IH]; intros p o g rr q b1 lr b2 m left stop right hi out i hl hr hcov ea eb hg hleft hstop hout hright hhi hn.
  all: assert (Hd : forall e (m' : mem), arr m' = arr m -> buf m' = buf m -> drop_merge left stop out m' e =
      if e then Err (M (st m') (p ++ o ++ (lr ++ rr) ++ q) (buf m')) else Ok (M (st m') (p ++ o ++ (lr ++ rr) ++ q) (buf m')) tt).
  1,3: intros e m' h1 h2; rewrite (drop_merge_ok (p ++ o) g (rr ++ q) b1 lr b2) by (rewrite ?h1, ?h2, ?ea, ?eb, <- ?app_assoc; auto);
      rewrite <- !app_assoc; reflexivity.
  all: cbn [merge_lo].
  - destruct lr; destruct rr; cbn in hn; try lia. subst.
    replace (length b1 <? length (b1 ++ [])) with false by (symmetry; apply Nat.ltb_ge; rewrite app_length; cbn; lia).
    cbn [andb]. rewrite Hd by auto. cbn. split; auto. split; auto. exists []. split; auto. constructor.
  - destruct lr as [|x lr].
    { replace (left <? stop) with false by (symmetry; apply Nat.ltb_ge; subst; rewrite app_length; cbn; lia).
      cbn [andb]. rewrite Hd by auto. cbn. split; auto. split; auto. exists rr. split; auto. constructor. }
    destruct rr as [|y rr].
    { replace (right <? hi) with false by (symmetry; apply Nat.ltb_ge; subst; rewrite !app_length; cbn; lia).
      rewrite andb_false_r. rewrite Hd by auto. cbn. split; auto. split; auto. rewrite app_nil_r. exists (x :: lr). split; auto. constructor. }
    replace (left <? stop) with true by (symmetry; apply Nat.ltb_lt; subst; rewrite app_length; cbn; lia).
    replace (right <? hi) with true by (symmetry; apply Nat.ltb_lt; subst; rewrite !app_length; cbn; lia).
    cbn [andb]. inversion hl as [|? ? hx hl']; subst. inversion hr as [|? ? hy hr']; subst.
    assert (NR : nth_error (arr m) (length (p ++ o ++ g)) = Some y).
    { rewrite ea. replace (p ++ o ++ g ++ (y :: rr) ++ q) with ((p ++ o ++ g) ++ y :: rr ++ q) by (rewrite <- !app_assoc; reflexivity). apply nth_mid. }
    assert (NL : nth_error (buf m) (length b1) = Some x) by (rewrite eb; apply nth_mid).
    rewrite NR, NL. assert (V : incl l0 (x :: arr m ++ buf m)) by (rewrite ea, eb; inc hcov).
    pose proof (less_ok m y x i hy hx V) as L.
    destruct (less cmp m (Some y) (Some x)) as [|m'|m' b]; cbn in L; [tauto| |].
    + rewrite Hd by tauto. destruct L as (L1 & L2 & L3). cbn. split; auto. split; auto. exists ((x :: lr) ++ y :: rr). split; reflexivity.
    + destruct L as (Im & ea' & eb' & hgg). destruct b.
      * rewrite ea', NR. unfold put. rewrite ea', ea.
        destruct g as [|g0 g]; [cbn in hg; lia|]. rewrite app_assoc. cbn [app]. rewrite store_mid by auto. cbn [bind].
        match goal with |- post (merge_lo cmp n _ _ _ _ _ ?m2) _ _ => pose proof (IH p (o ++ [y]) (g ++ [y]) rr q b1 (x :: lr) b2 m2
          (length b1) (length (b1 ++ x :: lr)) (S (length (p ++ o ++ g0 :: g))) (length (p ++ o ++ (g0 :: g) ++ y :: rr)) (S (length (p ++ o))) ) as H end.
        cbn [arr buf st] in H. specialize (H Im hl hr' ltac:(inc hcov)).
        eapply post_imp; [apply H| |].
        -- rewrite <- !app_assoc. reflexivity.
        -- congruence.
        -- rewrite app_length. cbn in *. lia.
        -- reflexivity.
        -- reflexivity.
        -- rewrite !app_length. cbn. lia.
        -- rewrite !app_length. cbn. rewrite ?app_length. cbn. lia.
        -- rewrite !app_length. cbn. rewrite ?app_length. cbn. lia.
        -- cbn in *. lia.
        -- intros m2 _ (h1 & s' & h2 & h3). split; [congruence|]. exists (y :: s'). split; [|constructor; auto].
           rewrite h2, <- !app_assoc. reflexivity.
        -- intros m2 (h1 & s' & h2 & h3). split; [congruence|]. exists (y :: s'). split; [rewrite h2, <- !app_assoc; reflexivity|].
           rewrite <- h3. symmetry. apply (Permutation_middle (x :: lr)).
      * rewrite eb', NL. unfold put. rewrite ea', ea.
        destruct g as [|g0 g]; [cbn in hg; lia|]. rewrite app_assoc. cbn [app]. rewrite store_mid by auto. cbn [bind].
        match goal with |- post (merge_lo cmp n _ _ _ _ _ ?m2) _ _ => pose proof (IH p (o ++ [x]) g (y :: rr) q (b1 ++ [x]) lr b2 m2
          (S (length b1)) (length (b1 ++ x :: lr)) (length (p ++ o ++ g0 :: g)) (length (p ++ o ++ (g0 :: g) ++ y :: rr)) (S (length (p ++ o))) ) as H end.
        cbn [arr buf st] in H. specialize (H Im hl' hr ltac:(inc hcov)).
        eapply post_imp; [apply H| |].
        -- rewrite <- !app_assoc. reflexivity.
        -- rewrite eb', eb, <- app_assoc. reflexivity.
        -- cbn in *. lia.
        -- rewrite !app_length. cbn. lia.
        -- rewrite !app_length. cbn. lia.
        -- rewrite !app_length. cbn. lia.
        -- rewrite !app_length. cbn. rewrite ?app_length. cbn. lia.
        -- rewrite !app_length. cbn. rewrite ?app_length. cbn. lia.
        -- cbn in *. lia.
        -- intros m2 _ (h1 & s' & h2 & h3). split; [congruence|]. exists (x :: s'). split; [|constructor; auto].
           rewrite h2, <- !app_assoc. reflexivity.
        -- intros m2 (h1 & s' & h2 & h3). split; [congruence|]. exists (x :: s'). split; [rewrite h2, <- !app_assoc; reflexivity|].
           cbn. constructor. exact h3.
Qed.

Lemma snoc_case (l : list A) : l = [] \/ exists l' x, l = l' ++ [x].
Proof. destruct l as [|a l]; auto. right. destruct (exists_last (l := a :: l)) as (l' & x & e); [discriminate|eauto]. Qed.

Lemma merge_hi_ok n : forall p lr g o q rr b2 m left right out, I (st m) -> ALL lr -> ALL rr -> incl l0 (p ++ lr ++ rr ++ o ++ q) ->
  arr m = p ++ lr ++ g ++ o ++ q -> buf m = rr ++ b2 -> length g = length rr ->
  left = length (p ++ lr) -> right = length rr -> out = length (p ++ lr ++ g) ->
  length lr + length rr <= n ->
  post (merge_hi cmp n (length p) left right out m)
    (fun m' _ => buf m' = buf m /\ exists s', arr m' = p ++ s' ++ o ++ q /\ merged_hi lr rr s')
    (fun m' => buf m' = buf m /\ exists s', arr m' = p ++ s' ++ o ++ q /\ Permutation (lr ++ rr) s').
Proof.
  induction n as [|n IH]; intros p lr g o q rr b2 m left right out i hl hr hcov ea eb hg hleft hright hout hn.
  all: assert (Hd : forall e (m' : mem), arr m' = arr m -> buf m' = buf m -> drop_merge 0 right left m' e =
      if e then Err (M (st m') (p ++ (lr ++ rr) ++ o ++ q) (buf m')) else Ok (M (st m') (p ++ (lr ++ rr) ++ o ++ q) (buf m')) tt).
  1,3: intros e m' h1 h2; rewrite (drop_merge_ok (p ++ lr) g (o ++ q) [] rr b2) by (rewrite ?h1, ?h2, ?ea, ?eb, <- ?app_assoc; auto);
      rewrite <- !app_assoc; reflexivity.
  all: cbn [merge_hi].
  - destruct lr; destruct rr; cbn in hn; try lia. subst.
    replace (length p <? length (p ++ [])) with false by (symmetry; apply Nat.ltb_ge; rewrite app_length; cbn; lia).
    cbn [andb]. rewrite Hd by auto. cbn. split; auto. split; auto. exists []. split; auto. constructor.
  - destruct (snoc_case lr) as [->|(l & x & ->)].
    { replace (length p <? left) with false by (symmetry; apply Nat.ltb_ge; subst; rewrite app_length; cbn; lia).
      cbn [andb]. rewrite Hd by auto. cbn. split; auto. split; auto. exists rr. split; auto. constructor. }
    destruct (snoc_case rr) as [->|(r & y & ->)].
    { replace (0 <? right) with false by (symmetry; apply Nat.ltb_ge; subst; cbn; lia).
      rewrite andb_false_r. rewrite Hd by auto. cbn. split; auto. split; auto. rewrite app_nil_r. exists (l ++ [x]). split; auto. constructor. }
    replace (length p <? left) with true by (symmetry; apply Nat.ltb_lt; subst; rewrite !app_length; cbn; lia).
    replace (0 <? right) with true by (symmetry; apply Nat.ltb_lt; subst; rewrite !app_length; cbn; lia).
    cbn [andb]. apply ALL_app in hl as [hl hx]. apply ALL_app in hr as [hr hy]. inversion hx; inversion hy; subst.
    assert (NL : nth_error (arr m) (length (p ++ l ++ [x]) - 1) = Some x).
    { rewrite ea. replace (p ++ (l ++ [x]) ++ g ++ o ++ q) with ((p ++ l) ++ x :: g ++ o ++ q) by (rewrite <- !app_assoc; reflexivity).
      apply nth_mid'. rewrite !app_length. cbn. lia. }
    assert (NR : nth_error (buf m) (length (r ++ [y]) - 1) = Some y).
    { rewrite eb, <- app_assoc. apply nth_mid'. rewrite app_length. cbn. lia. }
    destruct (snoc_case g) as [->|(g' & g0 & ->)]; [rewrite app_length in hg; cbn in hg; lia|].
    assert (hg' : length g' = length r) by (rewrite !app_length in hg; cbn in hg; lia).
    assert (hn' : S (length l + length r) <= n) by (rewrite !app_length in hn; cbn in hn; lia).
    rewrite NR, NL. assert (V : incl l0 (x :: arr m ++ buf m)) by (rewrite ea, eb; inc hcov).
    pose proof (less_ok m y x i ltac:(assumption) ltac:(assumption) V) as L.
    destruct (less cmp m (Some y) (Some x)) as [|m'|m' b]; cbn in L; [tauto| |].
    + rewrite Hd by tauto. destruct L as (L1 & L2 & L3). cbn. split; auto. split; auto. exists ((l ++ [x]) ++ r ++ [y]). split; reflexivity.
    + destruct L as (Im & ea' & eb' & hgg).
      assert (Hput : forall z, put m' (length (p ++ (l ++ [x]) ++ g' ++ [g0]) - 1) z = Ok (M (st m') (p ++ (l ++ [x]) ++ (g' ++ [z]) ++ o ++ q) (buf m')) tt).
      { intro z. unfold put. rewrite ea', ea.
        replace (p ++ (l ++ [x]) ++ (g' ++ [g0]) ++ o ++ q) with ((p ++ (l ++ [x]) ++ g') ++ g0 :: o ++ q) by (rewrite <- !app_assoc; reflexivity).
        rewrite store_mid by (rewrite !app_length; cbn; lia). rewrite <- !app_assoc. reflexivity. }
      destruct b.
      * rewrite ea', NL, Hput. cbn [bind].
        match goal with |- post (merge_hi cmp n _ _ _ _ ?m2) _ _ => pose proof (IH p l (x :: g') (x :: o) q (r ++ [y]) b2 m2
          (length (p ++ l ++ [x]) - 1) (length (r ++ [y])) (length (p ++ (l ++ [x]) ++ g' ++ [g0]) - 1)) as H end.
        cbn [arr buf st] in H. specialize (H Im hl).
        eapply post_imp; [apply H| |].
        -- apply ALL_app; auto.
        -- inc hcov.
        -- rewrite <- !app_assoc. reflexivity.
        -- congruence.
        -- rewrite app_length. cbn. lia.
        -- rewrite !app_length. cbn. lia.
        -- reflexivity.
        -- rewrite !app_length. cbn. lia.
        -- rewrite !app_length. cbn. lia.
        -- intros m2 _ (h1 & s' & h2 & h3). split; [congruence|]. exists (s' ++ [x]). split; [|constructor; auto].
           rewrite h2, <- !app_assoc. reflexivity.
        -- intros m2 (h1 & s' & h2 & h3). split; [congruence|]. exists (s' ++ [x]). split; [rewrite h2, <- !app_assoc; reflexivity|].
           rewrite <- h3. rewrite <- !app_assoc. apply Permutation_app_head.
           transitivity ((r ++ [y]) ++ [x]); [apply (Permutation_app_comm [x] (r ++ [y]))|rewrite <- app_assoc; reflexivity].
      * rewrite eb', NR, Hput. cbn [bind].
        match goal with |- post (merge_hi cmp n _ _ _ _ ?m2) _ _ => pose proof (IH p (l ++ [x]) g' (y :: o) q r ([y] ++ b2) m2
          (length (p ++ l ++ [x])) (length (r ++ [y]) - 1) (length (p ++ (l ++ [x]) ++ g' ++ [g0]) - 1)) as H end.
        cbn [arr buf st] in H. specialize (H Im).
        eapply post_imp; [apply H| |].
        -- apply ALL_app; auto.
        -- auto.
        -- inc hcov.
        -- rewrite <- !app_assoc. reflexivity.
        -- rewrite eb', eb, <- app_assoc. reflexivity.
        -- auto.
        -- reflexivity.
        -- rewrite !app_length. cbn. lia.
        -- rewrite !app_length. cbn. lia.
        -- rewrite !app_length. cbn. lia.
        -- intros m2 _ (h1 & s' & h2 & h3). split; [congruence|]. exists (s' ++ [y]). split; [|constructor; auto].
           rewrite h2, <- !app_assoc. reflexivity.
        -- intros m2 (h1 & s' & h2 & h3). split; [congruence|]. exists (s' ++ [y]). split; [rewrite h2, <- !app_assoc; reflexivity|].
           rewrite <- h3, !app_assoc. reflexivity.
Qed.

Lemma merge_ok p l r q m lo hi mid : I (st m) -> ALL l -> ALL r -> incl l0 (arr m) -> arr m = p ++ l ++ r ++ q ->
  lo = length p -> mid = length l -> hi = length (p ++ l ++ r) -> Nat.min (length l) (length r) <= length (buf m) ->
  post (merge cmp lo hi mid m)
    (fun m' _ => length (buf m') = length (buf m) /\ exists s', arr m' = p ++ s' ++ q /\ (merged_lo l r s' \/ merged_hi l r s'))
    (fun m' => length (buf m') = length (buf m) /\ exists s', arr m' = p ++ s' ++ q /\ Permutation (l ++ r) s').
Proof.
  intros i hl hr hcov ea -> -> -> hb. unfold merge. rewrite ea in hcov.
  replace (length (p ++ l ++ r) - length p) with (length l + length r) by (rewrite !app_length; lia).
  replace (length l + length r - length l) with (length r) by lia.
  assert (B : forall xs : list A, length xs <= length (buf m) ->
     blit (buf m) 0 xs = Some (xs ++ skipn (length xs) (buf m)) /\ length (xs ++ skipn (length xs) (buf m)) = length (buf m)).
  { intros xs h. unfold blit. cbn. replace (length xs <=? length (buf m)) with true by (symmetry; apply Nat.leb_le; auto).
    split; auto. rewrite app_length, skipn_length. lia. }
  destruct (length l <=? length r) eqn:C.
  - apply Nat.leb_le in C. rewrite ea, slice_mid by auto. destruct (B l) as [-> B2]; [lia|].
    match goal with |- post ?r0 _ _ => assert (H : post r0
      (fun m' _ => buf m' = l ++ skipn (length l) (buf m) /\ exists s', arr m' = p ++ [] ++ s' ++ q /\ merged_lo l r s')
      (fun m' => buf m' = l ++ skipn (length l) (buf m) /\ exists s', arr m' = p ++ [] ++ s' ++ q /\ Permutation (l ++ r) s')) end.
    { apply (merge_lo_ok (length l + length r) p [] l r q [] l (skipn (length l) (buf m)) (M (st m) (p ++ l ++ r ++ q) (l ++ skipn (length l) (buf m))));
      auto; cbn [app length]; rewrite ?app_length; cbn [length]; lia. }
    eapply post_imp; [exact H| |].
    + intros m' _ (h1 & s' & h2 & h3). rewrite h1. eauto.
    + intros m' (h1 & s' & h2 & h3). rewrite h1. eauto.
  - apply Nat.leb_gt in C. rewrite ea, app_assoc, slice_mid by (auto; rewrite app_length; lia). destruct (B r) as [-> B2]; [lia|].
    match goal with |- post ?r0 _ _ => assert (H : post r0
      (fun m' _ => buf m' = r ++ skipn (length r) (buf m) /\ exists s', arr m' = p ++ s' ++ [] ++ q /\ merged_hi l r s')
      (fun m' => buf m' = r ++ skipn (length r) (buf m) /\ exists s', arr m' = p ++ s' ++ [] ++ q /\ Permutation (l ++ r) s')) end.
    { apply (merge_hi_ok (length l + length r) p l r [] q r (skipn (length r) (buf m)) (M (st m) ((p ++ l) ++ r ++ q) (r ++ skipn (length r) (buf m))));
      auto; cbn [app arr]; rewrite ?app_length; cbn [length]; try lia. rewrite <- app_assoc. reflexivity. }
    eapply post_imp; [exact H| |].
    + intros m' _ (h1 & s' & h2 & h3). rewrite h1. eauto.
    + intros m' (h1 & s' & h2 & h3). rewrite h1. eauto.
Qed.

(** *** Whole sort, for any relation [T] between contents and any order [So]
    that the steps establish. *)
Variables (T : list A -> list A -> Prop) (So : list A -> Prop).
Inductive chain (w : bool) : list A -> Prop :=
| chain1 x : chain w [x]
| chain2 x y t : G y x w -> chain w (y :: t) -> chain w (x :: y :: t).
Hypothesis T_refl : forall l, T l l.
Hypothesis T_trans : forall a b c, T a b -> T b c -> T a c.
Hypothesis T_ctx : forall p q a b, T a b -> T (p ++ a ++ q) (p ++ b ++ q).
Hypothesis T_perm : forall a b, T a b -> Permutation a b.
Hypothesis So_one : forall x, So [x].
Hypothesis ins_rule : forall x t s', ALL (x :: t) -> So t -> inserted (x :: t) s' -> T (x :: t) s' /\ So s'.
Hypothesis mlo_rule : forall l r s', ALL l -> ALL r -> So l -> So r -> merged_lo l r s' -> T (l ++ r) s' /\ So s'.
Hypothesis mhi_rule : forall l r s', ALL l -> ALL r -> So l -> So r -> merged_hi l r s' -> T (l ++ r) s' /\ So s'.
Hypothesis up_rule : forall l, ALL l -> chain false l -> So l.
Hypothesis down_rule : forall l, ALL l -> chain true l -> T l (rev l) /\ So (rev l).

Hypothesis l0_dm : ALL l0.
(** The array is always related to the input; the buffer keeps its size. *)
Definition inv (m : mem) : Prop := T l0 (arr m) /\ length (buf m) = merge_scratch_len (length l0).
Definition perm_err (m : mem) : Prop := Permutation l0 (arr m).
Lemma inv_len m : inv m -> length (arr m) = length l0.
Proof. intros [h _]. symmetry. apply Permutation_length, T_perm, h. Qed.
Lemma inv_all m : inv m -> ALL (arr m).
Proof. intros [h _]. apply T_perm in h. apply Forall_forall. intros x hx. rewrite Forall_forall in l0_dm. apply l0_dm.
  eapply Permutation_in; [symmetry; exact h|auto]. Qed.
Lemma inv_cov m : inv m -> incl l0 (arr m).
Proof. intros [h _] z hz. apply T_perm in h. eapply Permutation_in; eauto. Qed.
Lemma inv_step m m' p s s' q : inv m -> arr m = p ++ s ++ q -> arr m' = p ++ s' ++ q -> T s s' -> length (buf m') = length (buf m) -> inv m'.
Proof. intros [h1 h2] e e' t hb. split; [|congruence]. apply T_trans with (arr m); auto. rewrite e, e'. apply T_ctx; auto. Qed.
Lemma inv_err m m' p s s' q : inv m -> arr m = p ++ s ++ q -> arr m' = p ++ s' ++ q -> Permutation s s' -> perm_err m'.
Proof. intros [h1 h2] e e' t. unfold perm_err. apply T_perm in h1. rewrite h1, e, e'. apply Permutation_app_head, Permutation_app_tail; auto. Qed.
Lemma inv_same m m' : inv m -> arr m' = arr m -> buf m' = buf m -> inv m'.
Proof. unfold inv. intros h -> ->. exact h. Qed.

Lemma insert_head_inv p x t q m lo hi : I (st m) -> inv m -> arr m = p ++ (x :: t) ++ q -> So t \/ t = [] -> lo = length p -> hi = length (p ++ x :: t) ->
  post (insert_head cmp lo hi m)
    (fun m' _ => inv m' /\ exists s', arr m' = p ++ s' ++ q /\ So s' /\ length s' = S (length t)) perm_err.
Proof.
  intros i hv ea hs e1 e2. pose proof (inv_all _ hv) as ha. rewrite ea in ha. apply ALL_app in ha as [_ ha]. apply ALL_app in ha as [ha _].
  eapply post_imp; [eapply insert_head_ok with (p := p) (seg := x :: t) (q := q); eauto using inv_cov; discriminate|..].
  - intros m' _ (hb & s' & ea' & hi').
    assert (T (x :: t) s' /\ So s') as [ht hs'].
    { destruct hs as [hs| ->]; [apply ins_rule; auto|]. inversion hi'; subst; auto. destruct l1; [congruence|discriminate]. }
    split; [eapply inv_step; eauto; congruence|]. exists s'. split; auto. split; auto. apply T_perm, Permutation_length in ht. cbn in ht. congruence.
  - intros m' (hb & s' & ea' & hp). eapply inv_err; eauto.
Qed.

Lemma insertion_sort_inv i : forall m pre seg, I (st m) -> inv m -> arr m = pre ++ seg -> length pre = i -> So seg ->
  post (insertion_sort cmp i (length l0) m) (fun m' _ => inv m' /\ So (arr m')) perm_err.
Proof.
  induction i as [|i IH]; intros m pre seg hi hv ea hl hs; cbn [insertion_sort].
  - destruct pre; [|discriminate]. cbn in *. rewrite ea. auto.
  - destruct (snoc_case pre) as [->|(p & x & ->)]; [discriminate|]. rewrite app_length in hl. cbn in hl.
    pose proof (inv_len _ hv) as L. rewrite ea in L. rewrite !app_length in L. cbn in L.
    eapply post_bind.
    { apply insert_head_inv with (p := p) (x := x) (t := seg) (q := []); auto.
      - rewrite app_nil_r, ea, <- app_assoc. reflexivity.
      - lia.
      - rewrite app_length. cbn. lia. }
    intros m' _ Im (hv' & s' & ea' & hs' & hl'). rewrite app_nil_r in ea'. apply IH with p s'; auto. lia.
Qed.

(** Runs: a tiling of the array from the top. *)
Inductive tiled : nat -> list (nat * nat) -> list A -> Prop :=
| t_nil e : tiled e [] []
| t_cons s seg rs l : So seg -> length seg = snd s -> snd s <> 0 -> tiled (fst s) rs l -> tiled (fst s + snd s) (s :: rs) (l ++ seg).
(** [tiled top rs l]: [l] ends at position [top] and is cut by [rs], newest first in the array. *)

Lemma tiled_split r : forall top rs l, tiled top rs l -> S r < length rs ->
  exists la lb a b l1 l2, nth_error rs r = Some b /\ nth_error rs (S r) = Some a /\ l = l1 ++ (la ++ lb) ++ l2
   /\ So la /\ So lb /\ length la = snd a /\ length lb = snd b /\ fst b = fst a + snd a /\ snd a <> 0
   /\ top = fst b + snd b + length l2
   /\ (forall s', So s' -> length s' = length la + length lb ->
        tiled top (firstn r rs ++ (fst a, snd a + snd b) :: skipn (S (S r)) rs) (l1 ++ s' ++ l2)).
Proof.
  induction r as [|r IH]; intros top rs l ht hr.
  - inversion ht as [|b segb rs1 lx hs1 hl1 hn1 ht1]; subst; [cbn in hr; lia|].
    inversion ht1 as [|a sega rs2 ly hs2 hl2 hn2 ht2 eq1]; subst; [cbn in hr; lia|].
    exists sega, segb, a, b, ly, []. cbn [nth_error]. rewrite app_nil_r, <- app_assoc. cbn [length]. repeat (split; [auto; lia|]).
    intros s' hs' hl'. cbn [firstn skipn app]. rewrite app_nil_r.
    match goal with |- tiled ?n _ _ => replace n with (fst (fst a, snd a + snd b) + snd (fst a, snd a + snd b)) by (cbn; lia) end.
    apply (t_cons (fst a, snd a + snd b) s' rs2 ly); cbn [fst snd]; auto; lia.
  - inversion ht as [|b segb rs1 lx hs1 hl1 hn1 ht1]; subst; [cbn in hr; lia|]. cbn in hr.
    destruct (IH _ _ _ ht1 ltac:(lia)) as (la & lb & a & b' & l1 & l2 & h1 & h2 & h3 & h4 & h5 & h6 & h7 & h8 & h9 & h10 & h11).
    exists la, lb, a, b', l1, (l2 ++ segb). cbn [nth_error]. repeat (split; [solve [auto]|]).
    split; [rewrite h3, <- !app_assoc; reflexivity|]. repeat (split; [solve [auto]|]). split; [rewrite app_length; lia|].
    intros s' hs' hl'. specialize (h11 s' hs' hl'). cbn [firstn skipn app].
    replace (l1 ++ s' ++ l2 ++ segb) with ((l1 ++ s' ++ l2) ++ segb) by (rewrite <- !app_assoc; reflexivity).
    constructor; auto.
Qed.
Lemma tiled_len top rs l : tiled top rs l -> length l <= top /\ length rs <= length l.
Proof. induction 1; cbn; [lia|]. rewrite app_length. lia. Qed.
Lemma tiled_snoc top rs l s n seg : tiled top rs l -> s + n = top - length l -> length seg = n -> n <> 0 -> So seg ->
  tiled top (rs ++ [(s, n)]) (seg ++ l).
Proof.
  induction 1 as [e|a sg rs l h1 h2 h3 h4 IH]; intros e1 e2 e3 e4; cbn.
  - rewrite app_nil_r. replace e with (fst (s, n) + snd (s, n)) by (cbn in *; lia).
    change seg with ([] ++ seg). constructor; cbn; auto. constructor.
  - rewrite app_assoc. constructor; auto. apply IH; auto. rewrite app_length in e1. lia.
Qed.

Lemma collapse_lt rs r : collapse rs = Some r -> S r < length rs.
Proof.
  unfold collapse. destruct ((2 <=? length rs) && _) eqn:C; [|discriminate]. apply andb_true_iff in C as [C _]. apply Nat.leb_le in C.
  destruct ((3 <=? length rs) && _) eqn:C3; intro e; inversion e; subst; [|lia].
  apply andb_true_iff in C3 as [C3 _]. apply Nat.leb_le in C3. lia.
Qed.

Lemma merge_runs_inv n : forall rs m pre l, I (st m) -> inv m -> arr m = pre ++ l -> tiled (length l0) rs l -> length rs <= S n ->
  MAX_INSERTION < length l0 ->
  post (merge_runs cmp n rs m) (fun m' rs' => inv m' /\ (exists l', arr m' = pre ++ l' /\ tiled (length l0) rs' l') /\ collapse rs' = None /\ (rs <> [] -> rs' <> [])) perm_err.
Proof.
  induction n as [|n IH]; intros rs m pre l hi hv ea ht hn hbig; cbn [merge_runs].
  all: destruct (collapse rs) as [r|] eqn:C; [|cbn; split; auto; split; auto; split; eauto].
  - apply collapse_lt in C. lia.
  - assert (hr := collapse_lt _ _ C).
    destruct (tiled_split r _ _ _ ht hr) as (la & lb & a & b & l1 & l2 & h1 & h2 & h3 & h4 & h5 & h6 & h7 & h8 & h9 & h10 & h11).
    rewrite h2, h1. subst l. pose proof (inv_all _ hv) as ha. pose proof (inv_len _ hv) as hL. rewrite ea in ha, hL.
    rewrite !ALL_app in ha. rewrite !app_length in hL.
    eapply post_bind with (Q := fun m' _ => inv m' /\ exists s', arr m' = (pre ++ l1) ++ s' ++ l2 /\ So s' /\ length s' = length la + length lb).
    { eapply post_imp; [eapply merge_ok with (p := pre ++ l1) (l := la) (r := lb) (q := l2)| |]; try tauto; auto using inv_cov.
      - rewrite ea, <- !app_assoc. reflexivity.
      - rewrite app_length. lia.
      - rewrite !app_length. lia.
      - destruct hv as [_ hb]. rewrite hb. unfold merge_scratch_len. replace (length l0 <=? MAX_INSERTION) with false by (symmetry; apply Nat.leb_gt; lia).
        apply Nat.div_le_lower_bound; lia.
      - intros m' _ (hb & s' & ea' & hm).
        assert (T (la ++ lb) s' /\ So s') as [ht' hs'] by (destruct hm; [apply mlo_rule|apply mhi_rule]; tauto).
        split; [eapply inv_step with (p := pre ++ l1) (s := la ++ lb) (q := l2); eauto; rewrite ea, <- !app_assoc; reflexivity|].
        exists s'. split; auto. split; auto. apply T_perm, Permutation_length in ht'. rewrite app_length in ht'. lia.
      - intros m' (hb & s' & ea' & hp). eapply inv_err with (p := pre ++ l1) (s := la ++ lb) (q := l2); eauto. rewrite ea, <- !app_assoc. reflexivity. }
    intros m' _ Im (hv' & s' & ea' & hs' & hl'). cbn beta in *.
    eapply post_imp; [apply (IH _ m' pre (l1 ++ s' ++ l2)); auto| |]; auto.
    + rewrite ea', <- !app_assoc. reflexivity.
    + rewrite app_length, firstn_length. cbn [length]. rewrite skipn_length. lia.
    + cbn. intros m2 rs' (q1 & q2 & q3 & q4). split; auto. split; auto. split; auto. intros _. apply q4. destruct (firstn r rs); discriminate.
Qed.

Lemma extend_run_ok want start : forall m p r q, I (st m) -> inv m -> arr m = p ++ r ++ q -> length p = start -> chain want r ->
  post (extend_run cmp want start m)
    (fun m' s' => arr m' = arr m /\ buf m' = buf m /\ exists p' r', p ++ r = p' ++ r' /\ length p' = s' /\ chain want r') perm_err.
Proof.
  induction start as [|start IH]; intros m p r q i hv ea hl hc; cbn [extend_run].
  - cbn. split; auto. split; auto. split; auto. exists p, r. auto.
  - destruct (snoc_case p) as [->|(p' & x & ->)]; [discriminate|]. rewrite app_length in hl. cbn in hl.
    destruct r as [|y r]; [inversion hc|].
    pose proof (inv_all _ hv) as ha. rewrite ea in ha. rewrite !ALL_app in ha. destruct ha as ((_ & hx) & hy & _). inversion hx; inversion hy; subst.
    assert (N0 : nth_error (arr m) start = Some x) by (rewrite ea, <- app_assoc; apply nth_mid'; lia).
    assert (N1 : nth_error (arr m) (S start) = Some y) by (rewrite ea; apply nth_mid'; rewrite app_length; cbn; lia).
    rewrite N0, N1. eapply post_bind.
    { eapply post_imp; [apply less_ok; auto; inc (inv_cov _ hv)| |].
      - intros m' b h. exact h.
      - intros m' [h1 h2]. destruct hv as [hv _]. unfold perm_err. rewrite h1. apply T_perm; auto. }
    intros m' b Im (ea' & eb' & hg). destruct (eqb b want) eqn:B.
    + apply eqb_prop in B. subst b. eapply post_imp; [apply (IH m' p' (x :: y :: r) q); auto| |]; auto.
      * eapply inv_same; eauto.
      * rewrite ea', ea, <- app_assoc. reflexivity.
      * lia.
      * constructor; auto.
      * intros m2 s' (h1 & h2 & p2 & r2 & h3 & h4 & h5). split; [congruence|]. split; [congruence|]. exists p2, r2. split; auto.
        rewrite <- h3, <- app_assoc. reflexivity.
    + cbn. split; auto. split; auto. split; auto. exists (p' ++ [x]), (y :: r). split; auto. split; auto. rewrite app_length. cbn. lia.
Qed.

Lemma find_run_ok e m pre q : I (st m) -> inv m -> arr m = pre ++ q -> length pre = e -> e <> 0 ->
  post (find_run cmp e m)
    (fun m' s' => inv m' /\ exists p r, arr m' = p ++ r ++ q /\ length p = s' /\ length r = e - s' /\ s' < e /\ So r) perm_err.
Proof.
  intros i hv ea hl he. unfold find_run. destruct (snoc_case pre) as [->|(pre' & y & ->)]; [cbn in hl; lia|].
  rewrite app_length in hl. cbn in hl. pose proof (inv_all _ hv) as ha. rewrite ea in ha. rewrite !ALL_app in ha.
  destruct (snoc_case pre') as [->|(p & x & ->)].
  - cbn in hl. subst e. cbn. split; auto. split; auto. exists [], [y]. cbn. rewrite ea. cbn. repeat (split; [auto; lia|]). apply So_one.
  - rewrite app_length in hl. cbn in hl. replace (0 <? e - 1) with true by (symmetry; apply Nat.ltb_lt; lia).
    destruct ha as ((hp & hy) & _). apply ALL_app in hp as [_ hx']. inversion hx'; inversion hy; subst.
    assert (N0 : nth_error (arr m) (length p + 1 + 1 - 1 - 1) = Some x) by (rewrite ea, <- !app_assoc; apply nth_mid'; lia).
    assert (N1 : nth_error (arr m) (S (length p + 1 + 1 - 1 - 1)) = Some y) by (rewrite ea, <- app_assoc; apply nth_mid'; rewrite app_length; cbn; lia).
    rewrite N0, N1. eapply post_bind.
    { eapply post_imp; [apply less_ok; auto; inc (inv_cov _ hv)| |].
      - intros m' b h. exact h.
      - intros m' [h1 h2]. destruct hv as [hv _]. unfold perm_err. rewrite h1. apply T_perm; auto. }
    intros m' b Im (ea' & eb' & hg). pose proof (inv_same _ _ hv ea' eb') as hv'.
    assert (EX : forall want, G y x want -> post (extend_run cmp want (length p + 1 + 1 - 1 - 1) m')
      (fun m2 s' => arr m2 = arr m' /\ buf m2 = buf m' /\ exists p' r', p ++ [x; y] = p' ++ r' /\ length p' = s' /\ chain want r') perm_err).
    { intros want hw. apply extend_run_ok with (q := q); auto.
      - rewrite ea', ea, <- !app_assoc. reflexivity.
      - lia.
      - constructor; auto. constructor. }
    assert (LEN : forall p' r' w, p ++ [x; y] = p' ++ r' -> chain w r' -> length r' = length p + 1 + 1 - length p' /\ length p' < length p + 1 + 1).
    { intros p' r' w h hc. apply (f_equal (@length A)) in h. rewrite !app_length in h. cbn in h. inversion hc; subst; cbn in h; cbn; lia. }
    assert (AR : forall (m2 : mem) p' r', arr m2 = arr m' -> p ++ [x; y] = p' ++ r' -> arr m2 = p' ++ r' ++ q).
    { intros m2 p' r' h1 h2. rewrite h1, ea', ea, (app_assoc p'), <- h2, <- !app_assoc. reflexivity. }
    destruct b.
    + eapply post_bind; [apply EX; auto|]. intros m2 s' Im2 (h1 & h2 & p' & r' & h3 & h4 & h5).
      destruct (LEN _ _ _ h3 h5) as [L1 L2]. pose proof (AR _ _ _ h1 h3) as a2.
      pose proof (inv_same _ _ hv' h1 h2) as hv2. pose proof (inv_all _ hv2) as ha2. rewrite a2 in ha2. rewrite !ALL_app in ha2.
      destruct (down_rule r' ltac:(tauto) h5) as [ht hs]. subst s'.
      unfold reverse_range. rewrite a2, slice_mid, blit_mid by (auto; rewrite ?rev_length; auto). cbn. split; auto.
      split. { apply inv_step with m2 p' r' (rev r') q; auto. }
      exists p', (rev r'). rewrite rev_length. auto.
    + eapply post_imp; [apply EX; auto| |]; auto. intros m2 s' (h1 & h2 & p' & r' & h3 & h4 & h5).
      destruct (LEN _ _ _ h3 h5) as [L1 L2]. pose proof (AR _ _ _ h1 h3) as a2.
      pose proof (inv_same _ _ hv' h1 h2) as hv2. pose proof (inv_all _ hv2) as ha2. rewrite a2 in ha2. rewrite !ALL_app in ha2.
      split; auto. exists p', r'. subst s'. repeat (split; [solve [auto]|]). apply up_rule; tauto.
Qed.

Lemma grow_run_ok start : forall e m p r q, I (st m) -> inv m -> arr m = p ++ r ++ q -> length p = start -> length r = e - start -> start < e -> So r ->
  post (grow_run cmp start e m)
    (fun m' s' => inv m' /\ exists p r, arr m' = p ++ r ++ q /\ length p = s' /\ length r = e - s' /\ s' < e /\ So r) perm_err.
Proof.
  induction start as [|start IH]; intros e m p r q i hv ea hl hr he hs; cbn [grow_run].
  - cbn. split; auto. split; auto. exists p, r. rewrite ?Nat.sub_0_r in *. auto.
  - destruct (e - S start <? MIN_RUN).
    2: { cbn. split; auto. split; auto. exists p, r. auto. }
    destruct (snoc_case p) as [->|(p' & x & ->)]; [discriminate|]. rewrite app_length in hl. cbn in hl.
    eapply post_bind.
    { apply insert_head_inv with (p := p') (x := x) (t := r) (q := q); auto.
      - rewrite ea, <- app_assoc. reflexivity.
      - lia.
      - rewrite app_length. cbn. lia. }
    intros m' _ Im (hv' & s' & ea' & hs' & hl'). apply IH with p' s'; auto; lia.
Qed.

Lemma tiled_last top rs l d : tiled top rs l -> rs <> [] -> fst (nth (length rs - 1) rs d) + length l = top.
Proof.
  induction 1 as [e|s seg rs l h1 h2 h3 h4 IH]; [congruence|]. intros _. cbn [length]. rewrite Nat.sub_succ, Nat.sub_0_r, app_length.
  destruct rs as [|s' rs'].
  - inversion h4; subst. cbn. lia.
  - cbn [length]. change (nth (S (length rs')) (s :: s' :: rs') d) with (nth (length rs') (s' :: rs') d). specialize (IH ltac:(discriminate)). cbn [length] in IH. rewrite Nat.sub_succ, Nat.sub_0_r in IH. lia.
Qed.

Lemma collapse_done rs l : tiled (length l) rs l -> collapse rs = None -> l = [] \/ So l.
Proof.
  intros ht hc. destruct rs as [|a rs]; [inversion ht; auto|]. right.
  destruct rs as [|b rs].
  - inversion ht as [|? ? ? ? h1 h2 h3 h4]; subst. inversion h4; subst. auto.
  - exfalso. pose proof (tiled_last _ _ _ (0, 0) ht ltac:(discriminate)) as h. unfold collapse in hc.
    replace (fst (nth (length (a :: b :: rs) - 1) (a :: b :: rs) (0, 0))) with 0 in hc by lia.
    replace (2 <=? length (a :: b :: rs)) with true in hc by (symmetry; apply Nat.leb_le; cbn; lia).
    cbn [Nat.eqb orb andb] in hc. discriminate.
Qed.

Lemma sort_loop_ok n : forall e rs m pre l, I (st m) -> inv m -> arr m = pre ++ l -> length pre = e -> tiled (length l0) rs l ->
  collapse rs = None -> e <= n -> MAX_INSERTION < length l0 ->
  post (sort_loop cmp n e rs m) (fun m' _ => inv m' /\ So (arr m')) perm_err.
Proof.
  induction n as [|n IH]; intros e rs m pre l i hv ea hl ht hc hn hbig; cbn [sort_loop].
  all: destruct (Nat.eqb_spec e 0) as [h0|h0].
  1,3: destruct pre; [|cbn in hl; lia]; cbn; split; auto; split; auto; cbn in ea; rewrite ea;
    pose proof (inv_len _ hv) as L; rewrite ea in L; rewrite <- L in ht; destruct (collapse_done _ _ ht hc) as [ee|]; auto;
    rewrite ee in L; cbn in L; unfold MAX_INSERTION in hbig; lia.
  - lia.
  - pose proof (inv_len _ hv) as L. rewrite ea, app_length in L.
    eapply post_bind; [apply find_run_ok with (q := l) (pre := pre); auto|].
    intros m1 s1 I1 (v1 & p1 & r1 & a1 & lp1 & lr1 & lt1 & so1).
    eapply post_bind; [eapply grow_run_ok; eauto|].
    intros m2 s2 I2 (v2 & p2 & r2 & a2 & lp2 & lr2 & lt2 & so2).
    eapply post_bind.
    { eapply merge_runs_inv with (pre := p2) (l := r2 ++ l); auto.
      - apply tiled_snoc; auto; lia.
      - rewrite app_length. cbn. lia. }
    intros m3 rs3 I3 (v3 & (l3 & a3 & t3) & c3 & _). apply IH with p2 l3; auto. lia.
Qed.

Theorem merge_sort_ok m : I (st m) -> arr m = l0 -> length (buf m) = merge_scratch_len (length l0) ->
  post (merge_sort cmp m) (fun m' _ => T l0 (arr m') /\ (l0 = [] \/ So (arr m'))) perm_err.
Proof.
  intros i ea eb. assert (hv : inv m) by (split; auto; rewrite ea; apply T_refl).
  unfold merge_sort. rewrite ea. destruct (length l0 <=? MAX_INSERTION) eqn:C.
  - destruct (snoc_case l0) as [e|(l & x & e)].
    + rewrite e. cbn. split; auto. split; auto. rewrite ea, e. apply T_refl.
    + eapply post_imp; [apply insertion_sort_inv with (pre := l) (seg := [x]); auto| |]; auto.
      * congruence.
      * rewrite e, app_length. cbn. lia.
      * intros m' _ [[h1 _] h2]. auto.
  - apply Nat.leb_gt in C. eapply post_bind.
    + apply sort_loop_ok with (pre := l0) (l := []); auto.
      * rewrite app_nil_r. auto.
      * constructor.
    + intros m' _ Im [[h1 _] h2]. cbn. auto.
Qed.
End P.

(** *** Any comparator: a permutation, whatever it answers. *)
Lemma perm_ctx {A} (p q a b : list A) : Permutation a b -> Permutation (p ++ a ++ q) (p ++ b ++ q).
Proof. intro h. apply Permutation_app_head, Permutation_app_tail; auto. Qed.
Lemma merged_lo_perm {A} G (a r s : list A) : merged_lo G a r s -> Permutation (a ++ r) s.
Proof.
  induction 1; cbn; auto.
  - rewrite app_nil_r. auto.
  - rewrite <- IHmerged_lo. symmetry. apply (Permutation_middle (x :: l)).
Qed.
Lemma merged_hi_perm {A} G (a r s : list A) : merged_hi G a r s -> Permutation (a ++ r) s.
Proof.
  induction 1; cbn; auto.
  - rewrite app_nil_r. auto.
  - rewrite <- IHmerged_hi. rewrite <- !app_assoc. apply Permutation_app_head.
    rewrite (app_assoc r). apply Permutation_cons_append.
  - rewrite <- IHmerged_hi. rewrite !app_assoc. auto.
Qed.
Lemma inserted_perm {A} G (a s : list A) : inserted G a s -> Permutation a s.
Proof. destruct 1; auto. apply Permutation_middle. Qed.

Section Any.
Context {A St : Type}.
Variable cmp : St -> list A -> list A -> A -> A -> St * option bool.
Variable P : St -> Prop.
Variable l : list A.
Hypothesis P_keep : forall s a b x y s' r, P s -> In x l -> In y l -> incl l (y :: a ++ b) -> cmp s a b x y = (s', Some r) -> P s'.

Theorem sort_any nil s : P s -> match sort cmp nil s l with
  | Bad => False
  | Ok m _ => P (st m) /\ Permutation l (arr m)
  | Err m => (exists s1 a b x y, P s1 /\ In x l /\ In y l /\ incl l (y :: a ++ b) /\ cmp s1 a b x y = (st m, None)) /\ Permutation l (arr m)
  end.
Proof.
  intro hs.
  set (Er := fun s' => exists s1 a b x y, P s1 /\ In x l /\ In y l /\ incl l (y :: a ++ b) /\ cmp s1 a b x y = (s', None)).
  assert (H : post P Er (merge_sort cmp (M s l (repeat nil (merge_scratch_len (length l)))))
     (fun m' _ => Permutation l (arr m') /\ (l = [] \/ True)) (perm_err l)).
  { apply merge_sort_ok with (G := fun _ _ _ => True) (Dm := fun x => In x l) (T := @Permutation A) (So := fun _ => True); auto.
    - intros s0 a b x y h hx hy hv. destruct (cmp s0 a b x y) as [s' [r|]] eqn:C.
      + split; auto. exact (P_keep s0 a b x y s' r h hx hy hv C).
      + exists s0, a, b, x, y. auto.
    - intros. eapply perm_trans; eauto.
    - intros. apply perm_ctx; auto.
    - intros. split; auto. eapply inserted_perm; eauto.
    - intros. split; auto. eapply merged_lo_perm; eauto.
    - intros. split; auto. eapply merged_hi_perm; eauto.
    - intros. split; auto. apply Permutation_rev.
    - apply Forall_forall. auto.
    - cbn. apply repeat_length. }
  unfold sort. destruct (merge_sort cmp _) as [|m|m u]; cbn in H.
  - auto.
  - exact H.
  - tauto.
Qed.
End Any.

(** *** A consistent comparator: sorted and stable. *)
Section Ord.
Context {A : Type} (D : A -> Prop) (lt : A -> A -> bool).
Hypothesis swo : strict_weak_order D lt.
Definition Ts (a b : list A) : Prop := Permutation a b /\ stable D lt a b.
Notation ALL := (Forall D).

Lemma Ts_refl a : Ts a a. Proof. split; auto. intros x _. reflexivity. Qed.
Lemma Ts_trans a b c : Ts a b -> Ts b c -> Ts a c.
Proof. intros [h1 h2] [h3 h4]. split; [eapply perm_trans; eauto|]. intros x hx. rewrite h4, h2; auto. Qed.
Lemma Ts_ctx p q a b : Ts a b -> Ts (p ++ a ++ q) (p ++ b ++ q).
Proof. intros [h1 h2]. split; [apply perm_ctx; auto|]. intros x hx. rewrite !filter_app, (h2 x hx). reflexivity. Qed.
Lemma Ts_cons x a b : Ts a b -> Ts (x :: a) (x :: b).
Proof. intro h. pose proof (Ts_ctx [x] [] a b h) as H. cbn in H. rewrite !app_nil_r in H. exact H. Qed.
Lemma Ts_snoc x a b : Ts a b -> Ts (a ++ [x]) (b ++ [x]).
Proof. intro h. exact (Ts_ctx [] [x] a b h). Qed.

Lemma filter_none (f : A -> bool) l : (forall x, In x l -> f x = false) -> filter f l = [].
Proof. induction l as [|a l IH]; cbn; auto. intro h. rewrite (h a) by auto. apply IH. auto. Qed.

(** Moving a block over a block of elements all less than its own. *)
Lemma Ts_swap a b : ALL a -> ALL b -> (forall x y, In x a -> In y b -> lt y x = true) -> Ts (a ++ b) (b ++ a).
Proof.
  intros ha hb h. split; [apply Permutation_app_comm|]. intros z hz. rewrite !filter_app.
  rewrite Forall_forall in ha, hb.
  destruct (existsb (same_rank lt z) a) eqn:X.
  - apply existsb_exists in X as (x & hx & rx). rewrite (filter_none (same_rank lt z) b); [rewrite app_nil_r; reflexivity|].
    intros y hy. destruct (same_rank lt z y) eqn:R; auto. exfalso. unfold same_rank in *.
    apply andb_true_iff in rx as [rx1 rx2]. apply andb_true_iff in R as [ry1 ry2].
    apply negb_true_iff in rx1, rx2, ry1, ry2.
    pose proof (swo_incomp _ _ swo y z x (hb y hy) hz (ha x hx) ry2 rx1) as c. rewrite (h x y hx hy) in c. discriminate.
  - rewrite (filter_none (same_rank lt z) a); [rewrite app_nil_r; reflexivity|].
    intros x hx. destruct (same_rank lt z x) eqn:R; auto. exfalso.
    assert (existsb (same_rank lt z) a = true) by (apply existsb_exists; eauto). congruence.
Qed.
Lemma asym x y : D x -> D y -> lt x y = true -> lt y x = false.
Proof. intros hx hy h. destruct (lt y x) eqn:e; auto. pose proof (swo_trans _ _ swo x y x hx hy hx h e) as c. rewrite (swo_irrefl _ _ swo) in c; auto. Qed.

Notation R := (fun a b => lt b a = false).
Lemma ss_app a b : StronglySorted R (a ++ b) <-> StronglySorted R a /\ StronglySorted R b /\ (forall x y, In x a -> In y b -> lt y x = false).
Proof.
  induction a as [|x a IH]; cbn.
  - split; [intro h; repeat split; auto; [constructor|intros ? ? []]|tauto].
  - split.
    + intro h. inversion h as [|? ? h1 h2]; subst. apply IH in h1 as (h3 & h4 & h5). rewrite Forall_forall in h2.
      repeat split; auto.
      * constructor; auto. apply Forall_forall. intros y hy. apply h2, in_or_app; auto.
      * intros x' y [->|hx] hy; auto. apply h2, in_or_app; auto.
    + intros (h1 & h2 & h3). inversion h1 as [|? ? h4 h5]; subst. constructor.
      * apply IH. repeat split; auto.
      * rewrite Forall_forall in *. intros y hy. apply in_app_or in hy as [hy|hy]; auto.
Qed.

Notation G := (fun x y b => lt x y = b).
Ltac dall := repeat match goal with H : ALL (_ ++ _) |- _ => apply Forall_app in H as [? ?] | H : ALL (_ :: _) |- _ => inversion H; clear H; subst end.

Lemma ins_swo x t s' : ALL (x :: t) -> in_order lt t -> inserted G (x :: t) s' -> Ts (x :: t) s' /\ in_order lt s'.
Proof.
  intros ha hs hi. unfold in_order in *. inversion hi as [? ? h1|? l1 l2 h1 h2 h3]; subst.
  - split; [apply Ts_refl|]. constructor; auto. destruct t as [|y t]; constructor; auto.
    inversion hs as [|? ? h4 h5]; subst. dall. rewrite Forall_forall in *. intros z hz.
    apply (swo_incomp _ _ swo z y x); auto.
  - split.
    + pose proof (Ts_ctx [] l2 (x :: l1) (l1 ++ [x])) as H. cbn in H. rewrite <- app_assoc in H. apply H.
      dall. apply (Ts_swap [x] l1); auto. intros a b [<-|[]] hb. rewrite Forall_forall in h2. auto.
    + apply ss_app in hs as (s1 & s2 & s3). apply ss_app. dall. rewrite Forall_forall in h2.
      repeat match goal with H : ALL _ |- _ => rewrite Forall_forall in H end.
      repeat split; auto.
      * constructor; auto. destruct l2 as [|y l2]; constructor; auto.
        inversion s2 as [|? ? h4 h5]; subst. rewrite Forall_forall in *. intros z hz.
        apply (swo_incomp _ _ swo z y x); cbn in *; auto.
      * intros a b hx [<-|hb]; auto. apply asym; auto.
Qed.

Lemma le_trans x y z : D x -> D y -> D z -> lt y x = false -> lt z y = false -> lt z x = false.
Proof. intros. apply (swo_incomp _ _ swo z y x); auto. Qed.
Lemma lt_le_trans x y z : D x -> D y -> D z -> lt x y = true -> lt z y = false -> lt x z = true.
Proof. intros. destruct (lt x z) eqn:e; auto. rewrite (swo_incomp _ _ swo x z y) in *; auto. Qed.
Lemma le_lt_trans x y z : D x -> D y -> D z -> lt y x = false -> lt y z = true -> lt x z = true.
Proof. intros. destruct (lt x z) eqn:e; auto. rewrite (swo_incomp _ _ swo y x z) in *; auto. Qed.

Lemma mlo_swo l r s' : ALL l -> ALL r -> in_order lt l -> in_order lt r -> merged_lo G l r s' -> Ts (l ++ r) s' /\ in_order lt s'.
Proof.
  intros ha hb hl hr hm. induction hm as [r|l|x l y r o hg hm IH|x l y r o hg hm IH].
  - split; [apply Ts_refl|auto].
  - rewrite app_nil_r. split; [apply Ts_refl|auto].
  - inversion hr as [|? ? r1 r2]; subst. inversion hl as [|? ? l1 l2]; subst.
    assert (hb' : ALL r) by (inversion hb; auto). destruct (IH ha hb' hl r1) as [t1 s1].
    assert (Dy : D y) by (inversion hb; auto). assert (Dx : D x) by (inversion ha; auto).
    rewrite Forall_forall in r2, l2, ha, hb'. split.
    + apply Ts_trans with (y :: (x :: l) ++ r); [|apply Ts_cons; auto].
      pose proof (Ts_ctx [] r ((x :: l) ++ [y]) ([y] ++ (x :: l))) as H. cbn in H. cbn. rewrite <- app_assoc in H. apply H.
      apply (Ts_swap (x :: l) [y]); [apply Forall_forall; auto|auto|].
      intros a b ha' [<-|[]]. destruct ha' as [<-|ha']; auto. apply lt_le_trans with x; auto. apply ha; cbn; auto.
    + constructor; auto. apply Forall_forall. intros z hz. destruct t1 as [t1 _].
      apply (Permutation_in z (Permutation_sym t1)) in hz. apply in_app_or in hz as [[<-|hz]|hz]; auto.
      * apply asym; auto.
      * apply le_trans with x; auto; [apply ha; cbn; auto|apply asym; auto].
  - inversion hr as [|? ? r1 r2]; subst. inversion hl as [|? ? l1 l2]; subst.
    assert (ha' : ALL l) by (inversion ha; auto). destruct (IH ha' hb l1 hr) as [t1 s1].
    assert (Dy : D y) by (inversion hb; auto). assert (Dx : D x) by (inversion ha; auto).
    rewrite Forall_forall in r2, l2, ha', hb. split; [cbn; apply Ts_cons; auto|].
    constructor; auto. apply Forall_forall. intros z hz. destruct t1 as [t1 _].
    apply (Permutation_in z (Permutation_sym t1)) in hz. apply in_app_or in hz as [hz|[<-|hz]]; auto.
    apply le_trans with y; auto. apply hb; cbn; auto.
Qed.

Lemma mhi_swo l r s' : ALL l -> ALL r -> in_order lt l -> in_order lt r -> merged_hi G l r s' -> Ts (l ++ r) s' /\ in_order lt s'.
Proof.
  intros ha hb hl hr hm. unfold in_order in *. induction hm as [r|l|l x r y o hg hm IH|l x r y o hg hm IH].
  - split; [apply Ts_refl|auto].
  - rewrite app_nil_r. split; [apply Ts_refl|auto].
  - assert (ha' : ALL l) by (apply Forall_app in ha as [? ?]; auto). pose proof hl as hl0. apply ss_app in hl as (l1 & _ & l2).
    pose proof hr as hr0. apply ss_app in hr as (r1 & _ & r2).
    destruct (IH ha' hb l1 hr0) as [t1 s1].
    assert (Dx : D x) by (apply Forall_app in ha as [? ha2]; inversion ha2; auto).
    assert (Dy : D y) by (apply Forall_app in hb as [? hb2]; inversion hb2; auto).
    rewrite Forall_forall in ha'. pose proof hb as hb0. rewrite Forall_forall in hb.
    assert (X : forall z, In z (r ++ [y]) -> lt z x = true -> True) by auto.
    split.
    + apply Ts_trans with ((l ++ r ++ [y]) ++ [x]); [|apply Ts_snoc; auto].
      rewrite <- !app_assoc. cbn. pose proof (Ts_ctx l [] ([x] ++ r ++ [y]) ((r ++ [y]) ++ [x])) as H. rewrite !app_nil_r in H.
      rewrite <- !app_assoc in H. cbn in H. apply H. pose proof (Ts_swap [x] (r ++ [y])) as S. rewrite <- app_assoc in S. apply S; auto.
      intros a b [<-|[]] hz. apply in_app_or in hz as [hz|[<-|[]]]; auto.
      apply le_lt_trans with y; auto; [apply hb; apply in_or_app; auto|apply r2; cbn; auto].
    + apply ss_app. repeat split; auto; [repeat constructor|].
      intros z b hz [<-|[]]. destruct t1 as [t1 _]. apply (Permutation_in z (Permutation_sym t1)) in hz.
      apply in_app_or in hz as [hz|hz]; [apply l2; cbn; auto|].
      apply asym; [apply hb; auto|auto|]. apply in_app_or in hz as [hz|[<-|[]]]; auto.
      apply le_lt_trans with y; auto; [apply hb; apply in_or_app; auto|apply r2; cbn; auto].
  - assert (hb' : ALL r) by (apply Forall_app in hb as [? ?]; auto). pose proof hl as hl0. apply ss_app in hl as (l1 & _ & l2).
    pose proof hr as hr0. apply ss_app in hr as (r1 & _ & r2).
    destruct (IH ha hb' hl0 r1) as [t1 s1].
    assert (Dx : D x) by (apply Forall_app in ha as [? ha2]; inversion ha2; auto).
    assert (Dy : D y) by (apply Forall_app in hb as [? hb2]; inversion hb2; auto).
    rewrite Forall_forall in ha. split.
    + rewrite app_assoc. apply Ts_snoc; auto.
    + apply ss_app. repeat split; auto; [repeat constructor|].
      intros z b hz [<-|[]]. destruct t1 as [t1 _]. apply (Permutation_in z (Permutation_sym t1)) in hz.
      apply in_app_or in hz as [hz|hz]; [|apply r2; cbn; auto].
      apply in_app_or in hz as [hz|[<-|[]]]; auto.
      apply le_trans with x; auto; [apply ha; apply in_or_app; auto|apply l2; cbn; auto].
Qed.

Lemma up_swo l : ALL l -> chain G false l -> in_order lt l.
Proof.
  intros ha hc. unfold in_order. induction hc as [x|x y t hg hc IH]; [repeat constructor|].
  inversion ha as [|? ? dx ha']; subst. specialize (IH ha'). constructor; auto. inversion IH as [|? ? i1 i2]; subst.
  inversion ha' as [|? ? dy ha2]; subst. constructor; auto. rewrite Forall_forall in *. intros z hz. apply le_trans with y; auto.
Qed.
Lemma down_strict l : ALL l -> chain G true l -> StronglySorted (fun a b => lt b a = true) l.
Proof.
  intros ha hc. induction hc as [x|x y t hg hc IH]; [repeat constructor|].
  inversion ha as [|? ? dx ha']; subst. specialize (IH ha'). constructor; auto. inversion IH as [|? ? i1 i2]; subst.
  inversion ha' as [|? ? dy ha2]; subst. constructor; auto. rewrite Forall_forall in *. intros z hz. apply (swo_trans _ _ swo z y x); auto.
Qed.
Lemma down_swo l : ALL l -> chain G true l -> Ts l (rev l) /\ in_order lt (rev l).
Proof.
  intros ha hc. apply down_strict in hc; auto. unfold in_order. induction hc as [|x t hs IH hx]; cbn.
  - split; [apply Ts_refl|constructor].
  - inversion ha as [|? ? dx ha']; subst. destruct (IH ha') as [i1 i2]. rewrite Forall_forall in hx. split.
    + apply Ts_trans with (t ++ [x]); [|apply Ts_snoc; auto]. apply (Ts_swap [x] t); auto.
      intros a b [<-|[]] hb. auto.
    + apply ss_app. repeat split; auto; [repeat constructor|]. intros z b hz [<-|[]]. apply in_rev in hz.
      rewrite Forall_forall in ha'. apply asym; auto.
Qed.
End Ord.

Theorem sort_ordered {A St} (cmp : St -> list A -> list A -> A -> A -> St * option bool) (P : St -> Prop) (lt : A -> A -> bool) nil s l :
  strict_weak_order (fun x => In x l) lt ->
  (forall s a b x y, P s -> In x l -> In y l -> exists s', cmp s a b x y = (s', Some (lt x y)) /\ P s') ->
  P s -> exists m, sort cmp nil s l = Ok m tt /\ P (st m) /\ Permutation l (arr m) /\ in_order lt (arr m) /\ stable (fun x => In x l) lt l (arr m).
Proof.
  intros swo hc hs.
  assert (H : post P (fun _ => False) (merge_sort cmp (M s l (repeat nil (merge_scratch_len (length l)))))
     (fun m' _ => Ts (fun x => In x l) lt l (arr m') /\ (l = [] \/ in_order lt (arr m'))) (perm_err l)).
  { apply merge_sort_ok with (G := fun x y b => lt x y = b) (Dm := fun x => In x l); auto.
    - intros s0 a b x y h hx hy _. destruct (hc s0 a b x y h hx hy) as (s' & -> & hp). auto.
    - apply Ts_refl.
    - apply Ts_trans.
    - apply Ts_ctx.
    - intros a b [h _]. exact h.
    - intro x. repeat constructor.
    - apply ins_swo; auto.
    - apply mlo_swo; auto.
    - apply mhi_swo; auto.
    - apply up_swo; auto.
    - apply down_swo; auto.
    - apply Forall_forall. auto.
    - cbn. apply repeat_length. }
  unfold sort. destruct (merge_sort cmp _) as [|m|m []]; cbn in H; [tauto|tauto|].
  exists m. destruct H as (h1 & (h2 & h3) & h4). repeat split; auto.
  destruct h4 as [->|h4]; auto. apply Permutation_nil in h2. rewrite h2. constructor.
Qed.

Theorem sort_rooted {A St} (cmp : St -> list A -> list A -> A -> A -> St * option bool) nil s (l : list A) :
  match sort (recording cmp) nil (s, []) l with
  | Bad => False
  | Ok m _ | Err m => Forall (fun '(a, b, x, y) => incl l (y :: a ++ b)) (snd (st m))
  end.
Proof.
  set (ok := fun v : list A * list A * A * A => let '(a, b, x, y) := v in incl l (y :: a ++ b)).
  assert (K : forall s0 a b x y s' r, Forall ok (snd s0) -> incl l (y :: a ++ b) -> recording cmp s0 a b x y = (s', r) -> Forall ok (snd s')).
  { intros s0 a b x y s' r h hv e. unfold recording in e. destruct (cmp (fst s0) a b x y). inversion e; subst. cbn. constructor; auto. }
  pose proof (sort_any (recording cmp) (fun s => Forall ok (snd s)) l) as H.
  specialize (H ltac:(intros s0 a b x y s' r h _ _ hv e; exact (K s0 a b x y s' _ h hv e)) nil (s, []) ltac:(constructor)).
  destruct (sort (recording cmp) nil (s, []) l) as [|m|m u]; auto; [|apply H].
  destruct H as ((s1 & a & b & x & y & h1 & h2 & h3 & h4 & h5) & _). eapply K; eauto.
Qed.
