(** Proofs about product, bsearch and flatten. *)
From Coq Require Import ZArith List Bool Lia.
From Verif Require Import ArrModel ArrSpec ArrProofs.
Import ListNotations.
Open Scope Z_scope.

Section P2.
Context {V : Type}.
Implicit Types l : list V.
Implicit Types ls : list (list V).

Ltac zs := change (@zlen V) with (@size V) in *.

(** ** product *)
Definition dims ls : Z := fold_right (fun a p => size a * p) 1 ls.
Lemma dims_nn : forall ls, 0 <= dims ls.
Proof. induction ls as [|a ls IH]; cbn [dims fold_right]; [lia|]. pose proof (size_nn a). fold (dims ls). nia. Qed.
Lemma dims_pos : forall ls, Forall (fun a => a <> []) ls -> 0 < dims ls.
Proof.
  induction ls as [|a ls IH]; intros H; cbn [dims fold_right]; [lia|]. inversion H; subst. specialize (IH H3).
  fold (dims ls). assert (0 < size a) by (destruct a; [congruence | unfold size; cbn [length]; lia]). nia.
Qed.

Lemma nth_flat : forall {A B} (f : A -> list B) (l : list A) (m q r : nat) x,
  (forall a, In a l -> length (f a) = m) -> nth_error l q = Some x -> (r < m)%nat ->
  nth_error (flat_map f l) (q * m + r) = nth_error (f x) r.
Proof.
  induction l as [|a l IH]; intros m q r x Hf Hx Hr; [destruct q; discriminate|]. cbn [flat_map].
  pose proof (Hf a (or_introl eq_refl)) as Ha. destruct q.
  - cbn in Hx. injection Hx as ->. cbn [Nat.mul Nat.add]. apply nth_error_app1. lia.
  - cbn [nth_error] in Hx. rewrite nth_error_app2 by (rewrite Ha; lia).
    rewrite Ha. replace (S q * m + r - m)%nat with (q * m + r)%nat by lia.
    apply IH; [intros; apply Hf; right; assumption | exact Hx | exact Hr].
Qed.

Lemma product_at_right : forall ls, Forall (fun a => a <> []) ls -> forall tl k acc, 0 <= k ->
  exists t, nth_error (cart ls) (Z.to_nat (k mod dims ls)) = Some t /\
  product_at (rev ls ++ tl) k acc = product_at tl (k / dims ls) (t ++ acc).
Proof.
  induction ls as [|l ls IH]; intros Hne tl k acc Hk.
  - cbn [dims fold_right cart rev app]. rewrite Z.mod_1_r, Z.div_1_r. exists []. split; reflexivity.
  - inversion Hne as [|? ? Hl Hls]; subst. pose proof (dims_pos ls Hls) as Hp.
    destruct (IH Hls ([l] ++ tl) k acc Hk) as (t & Et & Ep).
    cbn [rev]. rewrite <- app_assoc. rewrite Ep. cbn [app product_at]. zs.
    assert (Hs : 0 < size l) by (destruct l; [congruence | unfold size; cbn [length]; lia]).
    pose proof (Z.mod_pos_bound (k / dims ls) (size l) Hs) as Hb.
    rewrite get_at by lia. destruct (get_in l _ Hb) as (v & Ev). rewrite Ev.
    exists (v :: t). split.
    + cbn [dims fold_right cart]. fold (dims ls). rewrite (Z.mul_comm (size l)).
      rewrite Z.rem_mul_r by lia. pose proof (Z.mod_pos_bound k (dims ls) Hp) as Hm.
      assert (Hlen : forall a, In a l -> length (map (cons a) (cart ls)) = Z.to_nat (dims ls)).
      { intros a _. rewrite map_length. pose proof (cart_len ls) as C. fold (dims ls) in C. lia. }
      replace (Z.to_nat (k mod dims ls + dims ls * ((k / dims ls) mod size l)))
        with (Z.to_nat ((k / dims ls) mod size l) * Z.to_nat (dims ls) + Z.to_nat (k mod dims ls))%nat.
      2:{ rewrite Z2Nat.inj_add by nia. rewrite Z2Nat.inj_mul by lia. lia. }
      rewrite (nth_flat (fun v => map (cons v) (cart ls)) l _ _ _ v Hlen); [| |lia].
      * rewrite nth_error_map, Et. reflexivity.
      * unfold get in Ev. destruct (Z.ltb_spec ((k / dims ls) mod size l) 0); [lia | exact Ev].
    + cbn [dims fold_right]. fold (dims ls). rewrite (Z.mul_comm (size l)). rewrite <- Z.div_div by lia. reflexivity.
Qed.

Lemma product_from_right : forall n ls k, Forall (fun a => a <> []) ls -> 0 <= k ->
  k + Z.of_nat n <= dims ls -> product_from n ls k = Ok (firstn n (skipn (Z.to_nat k) (cart ls))).
Proof.
  induction n; intros ls k Hne Hk Hn; cbn [product_from]; [rewrite firstn_O; reflexivity|].
  destruct (product_at_right ls Hne [] k [] Hk) as (t & Et & Ep). rewrite app_nil_r in Ep. rewrite Ep.
  cbn [product_at bind]. rewrite IHn by (assumption || lia). cbn [bind]. rewrite app_nil_r.
  rewrite Z.mod_small in Et by lia. f_equal.
  replace (Z.to_nat (k + 1)) with (S (Z.to_nat k)) by lia.
  destruct (nth_error_split _ _ Et) as (l1 & l2 & El & Hl). rewrite El, <- Hl.
  assert (SK : forall (a b : list (list V)), skipn (length a) (a ++ b) = b).
  { intros a b. rewrite skipn_app, skipn_all, Nat.sub_diag. reflexivity. }
  rewrite SK. cbn [firstn].
  replace (S (length l1)) with (length (l1 ++ [t])) by (rewrite app_length; cbn; lia).
  replace (l1 ++ t :: l2) with ((l1 ++ [t]) ++ l2) by (rewrite <- app_assoc; reflexivity).
  rewrite SK. reflexivity.
Qed.

Lemma cart_empty : forall ls, existsb (fun a => zlen a =? 0) ls = true -> cart ls = [].
Proof.
  induction ls as [|l ls IH]; intros H; [discriminate|]. cbn [existsb] in H. cbn [cart].
  apply orb_prop in H. destruct H as [H|H].
  - apply Z.eqb_eq in H. destruct l; [reflexivity | unfold zlen in H; cbn [length] in H; lia].
  - rewrite (IH H). induction l; [reflexivity | exact IHl].
Qed.
Lemma nonempty_all : forall ls, existsb (fun a => zlen a =? 0) ls = false -> Forall (fun a => a <> []) ls.
Proof.
  induction ls as [|l ls IH]; intros H; constructor; cbn [existsb] in H; apply orb_false_elim in H; destruct H as [H H1].
  - intros ->. discriminate.
  - apply IH. exact H1.
Qed.

Lemma total_right : forall ls t, 0 <= t ->
  match product_total t ls with
  | Ok x => x = t * dims ls
  | Err e => e = ERange /\ exists n, (n < length ls)%nat /\ PRODUCT_MAX < t * dims (firstn (S n) ls)
  | Panic => False
  end.
Proof.
  induction ls as [|l ls IH]; intros t Ht; cbn [product_total].
  - cbn. lia.
  - zs. pose proof (size_nn l). assert (PRODUCT_MAX < 2 ^ 64) by reflexivity.
    assert (B : PRODUCT_MAX < t * size l -> ERange = ERange /\
      exists n, (n < length (l :: ls))%nat /\ PRODUCT_MAX < t * dims (firstn (S n) (l :: ls))).
    { intros HB. split; [reflexivity|]. exists O. split; [cbn [length]; lia|]. cbn [firstn dims fold_right]. rewrite Z.mul_1_r. exact HB. }
    destruct (Z.leb_spec (2 ^ 64) (t * size l)); [apply B; lia|].
    destruct (Z.ltb_spec PRODUCT_MAX (t * size l)); [apply B; lia|].
    specialize (IH (t * size l) ltac:(nia)). destruct (product_total (t * size l) ls) as [x|e|].
    + rewrite IH. cbn [dims fold_right]. fold (dims ls). lia.
    + destruct IH as (-> & n & Hn & HB). split; [reflexivity|]. exists (S n). split; [cbn [length]; lia|].
      change (firstn (S (S n)) (l :: ls)) with (l :: firstn (S n) ls). unfold dims in *. cbn [fold_right] in *. rewrite Z.mul_assoc. exact HB.
    + exact IH.
Qed.

Lemma product_right : forall l ls,
  match product l ls with
  | Ok x => x = cart (l :: ls)
  | Err e => e = ERange /\ exists n, (n < length ls)%nat /\ PRODUCT_MAX < dims (l :: firstn (S n) ls)
  | Panic => False
  end.
Proof.
  intros l ls. unfold product. pose proof (total_right ls (zlen l) ltac:(zs; apply size_nn)) as T.
  destruct (product_total (zlen l) ls) as [x|e|]; cbn [bind].
  - destruct (existsb (fun a => zlen a =? 0) (l :: ls)) eqn:E.
    + cbn [Z.to_nat product_from]. symmetry. apply cart_empty. exact E.
    + apply nonempty_all in E. unfold dims_product. rewrite dims_fold. rewrite Z.mul_1_l. fold (dims (l :: ls)).
      pose proof (dims_pos _ E). rewrite product_from_right; [|exact E|lia|lia]. cbn [Z.to_nat skipn].
      pose proof (cart_len (l :: ls)) as C. fold (dims (l :: ls)) in C. rewrite <- C, Nat2Z.id. apply firstn_all.
  - exact T.
  - exact T.
Qed.

Lemma dims_firstn : forall ls n, Forall (fun a => a <> []) ls -> dims (firstn n ls) <= dims ls.
Proof.
  induction ls as [|l ls IH]; intros n H; [rewrite firstn_nil; lia|].
  inversion H; subst. pose proof (dims_pos ls H3). destruct n.
  - cbn [firstn]. pose proof (dims_pos (l :: ls) H). cbn [dims fold_right] in *. lia.
  - cbn [firstn dims fold_right]. fold (dims ls). fold (dims (firstn n ls)). specialize (IH n H3).
    pose proof (size_nn l). nia.
Qed.
Lemma product_small : forall l ls, Forall (fun a => a <> []) (l :: ls) ->
  Z.of_nat (length (cart (l :: ls))) <= PRODUCT_MAX -> product l ls = Ok (cart (l :: ls)).
Proof.
  intros l ls Hne Hs. pose proof (product_right l ls) as P. destruct (product l ls) as [x|e|].
  - congruence.
  - destruct P as (_ & n & _ & HB). exfalso. pose proof (dims_firstn (l :: ls) (S (S n)) Hne) as D.
    cbn [firstn] in D, HB. rewrite (cart_len (l :: ls)) in Hs. fold (dims (l :: ls)) in Hs. lia.
  - destruct P.
Qed.

(** ** bsearch *)
Lemma bs_loop : forall n f low high len, 0 <= low <= high -> high <= len -> high - low < Z.of_nat n ->
  (forall i, 0 <= i < low -> f i = false) -> (forall i, high <= i < len -> f i = true) ->
  (forall i j, 0 <= i -> i <= j -> j < len -> f i = true -> f j = true) ->
  let r := bsearch_loop n f low high in
  0 <= r <= len /\ (forall i, 0 <= i < r -> f i = false) /\ (forall i, r <= i < len -> f i = true).
Proof.
  induction n; intros f low high len H1 H2 H3 Hlo Hhi Hm; cbn [bsearch_loop]; [lia|].
  destruct (Z.ltb_spec low high).
  - assert (Hmid : low <= (low + high) / 2 < high).
    { split; [apply Z.div_le_lower_bound; lia | apply Z.div_lt_upper_bound; lia]. }
    destruct (f ((low + high) / 2)) eqn:E.
    + apply IHn; try lia; try assumption. intros i Hi. apply (Hm ((low + high) / 2) i); lia || assumption.
    + apply IHn; try lia; try assumption. intros i Hi. destruct (f i) eqn:E1; [|reflexivity].
      rewrite (Hm i ((low + high) / 2)) in E; try lia; assumption.
  - cbv zeta. split; [lia|]. split; [exact Hlo|]. intros i Hi. apply Hhi. lia.
Qed.

Lemma find_char : forall p l (r : nat), (forall i x, (i < r)%nat -> nth_error l i = Some x -> p x = false) ->
  (forall x, nth_error l r = Some x -> p x = true) -> (r <= length l)%nat ->
  find p l = nth_error l r /\ find_pos p l = if (r <? length l)%nat then Some (Z.of_nat r) else None.
Proof.
  induction l as [|v l IH]; intros r Hlo Hhi Hr.
  - cbn [length] in Hr. assert (r = O) as -> by lia. split; reflexivity.
  - cbn [find find_pos]. destruct r.
    + rewrite (Hhi v eq_refl). split; reflexivity.
    + rewrite (Hlo O v ltac:(lia) eq_refl). cbn [length] in *.
      destruct (IH r) as [I1 I2]; [intros i x Hi Hx; apply (Hlo (S i) x); [lia | exact Hx] | exact Hhi | lia |].
      split; [exact I1|]. rewrite I2. change (S r <? S (length l))%nat with (r <? length l)%nat.
      destruct (r <? length l)%nat; [f_equal; lia | reflexivity].
Qed.

Lemma bsearch_right : forall p l, monotone p l ->
  bsearch p l = find p l /\ bsearch_index p l = find_pos p l.
Proof.
  intros p l Hm. unfold bsearch, bsearch_index. destruct l as [|v0 l0] eqn:El; [split; reflexivity|]. rewrite <- El in *.
  set (f := fun i => match at_ l i with Some v => p v | None => false end).
  pose proof (bs_loop (S (length l)) f 0 (zlen l) (zlen l) ltac:(zs; unfold size; lia) ltac:(lia) ltac:(zs; unfold size; lia)
    ltac:(intros; lia) ltac:(intros; lia)) as B. zs.
  destruct B as (B1 & B2 & B3).
  { intros i j Hi Hij Hj. unfold f. rewrite !get_at by lia. intros Hp.
    destruct (get_in l i ltac:(lia)) as (x & Ex). destruct (get_in l j ltac:(lia)) as (y & Ey). rewrite Ex in Hp. rewrite Ey.
    unfold get in Ex, Ey. destruct (Z.ltb_spec i 0); [lia|]. destruct (Z.ltb_spec j 0); [lia|].
    exact (Hm (Z.to_nat i) (Z.to_nat j) x y ltac:(lia) Ex Ey Hp). }
  set (r := bsearch_loop (S (length l)) f 0 (size l)) in *.
  destruct (find_char p l (Z.to_nat r)) as [F1 F2].
  - intros i x Hi Hx. specialize (B2 (Z.of_nat i) ltac:(lia)). unfold f in B2. unfold at_ in B2. rewrite Nat2Z.id, Hx in B2. exact B2.
  - intros x Hx. assert (r < size l) by (apply nth_error_Some_lt in Hx || (assert (Z.to_nat r < length l)%nat by (apply nth_error_Some; congruence); unfold size; lia)).
    specialize (B3 r ltac:(lia)). unfold f, at_ in B3. rewrite Hx in B3. exact B3.
  - unfold size in B1. lia.
  - rewrite F1, F2. split; [reflexivity|]. unfold size in *. destruct (Z.ltb_spec r (Z.of_nat (length l))); destruct (Nat.ltb_spec (Z.to_nat r) (length l)); try lia; [f_equal; lia | reflexivity].
Qed.

End P2.

(** ** flatten *)
Scheme flat_ind2 := Induction for flat Sort Prop with flats_ind2 := Induction for flats Sort Prop.
Combined Scheme flat_both from flat_ind2, flats_ind2.

Lemma flat_fun : forall h,
  (forall lv a xs, flat h lv a xs -> forall ys, flat h lv a ys -> xs = ys) /\
  (forall lv vs xs, flats h lv vs xs -> forall ys, flats h lv vs ys -> xs = ys).
Proof.
  intros h. apply flat_both with
    (P := fun lv a xs _ => forall ys, flat h lv a ys -> xs = ys)
    (P0 := fun lv vs xs _ => forall ys, flats h lv vs ys -> xs = ys).
  - intros lv a xs H IH ys H1. inversion H1; subst. apply IH. assumption.
  - intros lv ys H. inversion H. reflexivity.
  - intros lv z vs xs H IH ys H1. inversion H1; subst. f_equal. apply IH. assumption.
  - intros b vs xs H IH ys H1. inversion H1; subst. f_equal. apply IH. assumption.
  - intros b vs xs ys H IH H1 IH1 zs Hz. inversion Hz; subst. f_equal; [apply IH | apply IH1]; assumption.
  - intros k b vs xs ys H IH H1 IH1 zs Hz. inversion Hz; subst. f_equal; [apply IH | apply IH1]; assumption.
Qed.

Lemma flat_go_right : forall h rec lv vs,
  (forall b k xs, rec b k = Some (Ok xs) -> flat h k b xs) ->
  (forall b k, rec b k <> Some Panic) ->
  match flat_go rec lv vs with
  | Some (Ok xs) => flats h lv vs xs
  | Some (Err e) => exists b k, In (Ref b) vs /\ rec b k = Some (Err e)
  | Some Panic => False
  | None => exists b k, In (Ref b) vs /\ rec b k = None
  end.
Proof.
  intros h rec lv vs Hok Hp. induction vs as [|v vs IH]; cbn [flat_go]; [constructor|].
  assert (STEP : forall one : option (res (list el)),
    (forall xs, one = Some (Ok xs) -> forall ys, flats h lv vs ys -> flats h lv (v :: vs) (xs ++ ys)) ->
    (forall e, one = Some (Err e) -> exists b k, In (Ref b) (v :: vs) /\ rec b k = Some (Err e)) ->
    (one <> Some Panic) -> (one = None -> exists b k, In (Ref b) (v :: vs) /\ rec b k = None) ->
    match (match one with None => None | Some (Ok xs) =>
             match flat_go rec lv vs with Some (Ok ys) => Some (Ok (xs ++ ys)) | o => o end | o => o end) with
    | Some (Ok xs) => flats h lv (v :: vs) xs
    | Some (Err e) => exists b k, In (Ref b) (v :: vs) /\ rec b k = Some (Err e)
    | Some Panic => False
    | None => exists b k, In (Ref b) (v :: vs) /\ rec b k = None
    end).
  { intros one H1 H2 H3 H4. destruct one as [[xs|e|]|].
    - destruct (flat_go rec lv vs) as [[ys|e|]|].
      + apply H1; [reflexivity | exact IH].
      + destruct IH as (b & k & I1 & I2). exists b, k. split; [right; exact I1 | exact I2].
      + exact IH.
      + destruct IH as (b & k & I1 & I2). exists b, k. split; [right; exact I1 | exact I2].
    - apply H2. reflexivity.
    - apply H3. reflexivity.
    - apply H4. reflexivity. }
  assert (LEAF : forall z, v = Leaf z -> forall xs, Some (Ok [v]) = Some (Ok xs) ->
    forall ys, flats h lv vs ys -> flats h lv (v :: vs) (xs ++ ys)).
  { intros z -> xs E ys Hy. injection E as <-. cbn [app]. constructor. exact Hy. }
  destruct lv as [[|k]|]; destruct v as [z|b].
  - apply (STEP (Some (Ok [Leaf z]))); [exact (LEAF z eq_refl) | discriminate | discriminate | discriminate].
  - apply (STEP (Some (Ok [Ref b]))); [| discriminate | discriminate | discriminate].
    intros xs E ys Hy. injection E as <-. cbn [app]. constructor. exact Hy.
  - apply (STEP (Some (Ok [Leaf z]))); [exact (LEAF z eq_refl) | discriminate | discriminate | discriminate].
  - apply (STEP (rec b (Some k))).
    + intros xs E ys Hy. apply flats_lv; [apply Hok; exact E | exact Hy].
    + intros e E. exists b, (Some k). split; [left; reflexivity | exact E].
    + apply Hp.
    + intros E. exists b, (Some k). split; [left; reflexivity | exact E].
  - apply (STEP (Some (Ok [Leaf z]))); [exact (LEAF z eq_refl) | discriminate | discriminate | discriminate].
  - apply (STEP (rec b None)).
    + intros xs E ys Hy. apply flats_all; [apply Hok; exact E | exact Hy].
    + intros e E. exists b, None. split; [left; reflexivity | exact E].
    + apply Hp.
    + intros E. exists b, None. split; [left; reflexivity | exact E].
Qed.

Lemma path_trans : forall h a b c, path h a b -> path h b c -> path h a c.
Proof. intros h a b c H. induction H; intros H1; [eapply path_S; eassumption | eapply path_S; [eassumption | auto]]. Qed.

Definition refs_below (h : aheap) (n : nat) : Prop := forall a b, In (Ref b) (h a) -> (b < n)%nat.

Lemma seen_bound : forall n (seen : list nat), NoDup seen -> (forall x, In x seen -> (x < n)%nat) -> (length seen <= n)%nat.
Proof.
  intros n seen Hn Hb. rewrite <- (seq_length n 0). apply NoDup_incl_length; [exact Hn|].
  intros x Hx. apply in_seq. specialize (Hb x Hx). lia.
Qed.

Definition el_dec : forall x y : el, {x = y} + {x <> y}.
Proof. decide equality; [apply Z.eq_dec | apply Nat.eq_dec]. Defined.

Lemma flatten_inner_right : forall h n a lv seen,
  (forall s, In s seen -> path h s a) ->
  match flatten_inner n h a lv seen with
  | Some (Ok xs) => flat h lv a xs
  | Some (Err e) => e = EArg /\ cyclic h a
  | Some Panic => False
  | None => forall N, refs_below h N -> (a < N)%nat -> NoDup seen ->
            (forall s, In s seen -> (s < N)%nat) -> (n + length seen <= N)%nat
  end.
Proof.
  intros h. induction n as [|n IH]; intros a lv seen Hs; cbn [flatten_inner].
  - intros N HN Ha Hd Hb. cbn [Nat.add]. apply seen_bound; assumption.
  - destruct (existsb (Nat.eqb a) seen) eqn:E.
    + apply existsb_exists in E. destruct E as (x & Hx & Ex). apply Nat.eqb_eq in Ex. subst x.
      split; [reflexivity|]. exists a. split; [left; reflexivity | apply Hs; exact Hx].
    + assert (Hnin : ~ In a seen).
      { intros Hx. assert (existsb (Nat.eqb a) seen = true); [|congruence]. apply existsb_exists. exists a. split; [exact Hx | apply Nat.eqb_refl]. }
      assert (Hs' : forall b, In (Ref b) (h a) -> forall s, In s (seen ++ [a]) -> path h s b).
      { intros b Hb s Hin. apply in_app_or in Hin. destruct Hin as [Hin|[<-|[]]].
        - eapply path_trans; [apply Hs; exact Hin | apply path_1; exact Hb].
        - apply path_1. exact Hb. }
      pose (rec := fun b k => if in_dec el_dec (Ref b) (h a)
        then flatten_inner n h b k (seen ++ [a]) else Some (Err EArg)).
      assert (EQ : flat_go (fun b k => flatten_inner n h b k (seen ++ [a])) lv (h a) = flat_go rec lv (h a)).
      { assert (G : forall vs, incl vs (h a) -> flat_go (fun b k => flatten_inner n h b k (seen ++ [a])) lv vs = flat_go rec lv vs).
        { induction vs as [|v vs IHv]; intros Hi; [reflexivity|]. cbn [flat_go].
          rewrite IHv by (intros x Hx; apply Hi; right; exact Hx).
          destruct v as [z|b]; [reflexivity|].
          assert (R : forall k, rec b k = flatten_inner n h b k (seen ++ [a])).
          { intros k. unfold rec. destruct (in_dec el_dec (Ref b) (h a)) as [|C]; [reflexivity|]. destruct C. apply Hi. left. reflexivity. }
          rewrite !R. destruct lv as [[|k]|]; rewrite ?R; reflexivity. }
        apply G. apply incl_refl. }
      rewrite EQ. pose proof (flat_go_right h rec lv (h a)) as F.
      assert (F1 : forall b k xs, rec b k = Some (Ok xs) -> flat h k b xs).
      { intros b k xs. unfold rec. destruct (in_dec el_dec (Ref b) (h a)) as [Hin|]; [|discriminate]. intros H.
        specialize (IH b k (seen ++ [a]) (Hs' b Hin)). rewrite H in IH. exact IH. }
      assert (F2 : forall b k, rec b k <> Some Panic).
      { intros b k. unfold rec. destruct (in_dec el_dec (Ref b) (h a)) as [Hin|]; [|discriminate]. intros H.
        specialize (IH b k (seen ++ [a]) (Hs' b Hin)). rewrite H in IH. exact IH. }
      specialize (F F1 F2). destruct (flat_go rec lv (h a)) as [[xs|e|]|].
      * constructor. exact F.
      * destruct F as (b & k & Hb & Hr). unfold rec in Hr. destruct (in_dec el_dec (Ref b) (h a)) as [Hin|C]; [|destruct C; exact Hb].
        specialize (IH b k (seen ++ [a]) (Hs' b Hin)). rewrite Hr in IH. destruct IH as [-> (c & Hc & Hcc)].
        split; [reflexivity|]. exists c. split; [|exact Hcc]. right.
        destruct Hc as [->|Hc]; [apply path_1; exact Hb | eapply path_S; [exact Hb | exact Hc]].
      * exact F.
      * destruct F as (b & k & Hb & Hr). unfold rec in Hr. destruct (in_dec el_dec (Ref b) (h a)) as [Hin|C]; [|destruct C; exact Hb].
        specialize (IH b k (seen ++ [a]) (Hs' b Hin)). rewrite Hr in IH.
        intros N HN Ha Hd Hbn. specialize (IH N HN (HN a b Hb)). rewrite app_length in IH. cbn [length] in IH.
        assert (n + (length seen + 1) <= N)%nat; [|lia]. apply IH.
        -- apply NoDup_rev in Hd. rewrite <- (rev_involutive (seen ++ [a])). apply NoDup_rev. rewrite rev_app_distr. cbn [rev app].
           constructor; [|exact Hd]. intros C. apply Hnin. apply in_rev. exact C.
        -- intros s Hin2. apply in_app_or in Hin2. destruct Hin2 as [Hin2|[<-|[]]]; [apply Hbn; exact Hin2 | exact Ha].
Qed.

Definition level (lv : option Z) : option nat :=
  match lv with Some i => if 0 <=? i then Some (Z.to_nat i) else None | None => None end.

Lemma flatten_right : forall n h a lv,
  match flatten n h a lv with
  | Some (Ok xs) => flat h (level lv) a xs
  | Some (Err e) => e = EArg /\ cyclic h a
  | Some Panic => False
  | None => forall N, refs_below h N -> (a < N)%nat -> (n <= N)%nat
  end.
Proof.
  intros n h a lv. unfold flatten. fold (level lv).
  pose proof (flatten_inner_right h n a (level lv) [] ltac:(intros s [])) as F.
  destruct (flatten_inner n h a (level lv) []) as [[xs|e|]|]; try exact F.
  intros N HN Ha. specialize (F N HN Ha (NoDup_nil _) ltac:(intros s [])). cbn [length] in F. lia.
Qed.

Lemma flat_acc : forall h a xs, flat h None a xs -> Acc (fun b c => edge h c b) a.
Proof.
  intros h.
  assert (G : (forall lv a xs, flat h lv a xs -> lv = None -> Acc (fun b c => edge h c b) a) /\
              (forall lv vs xs, flats h lv vs xs -> lv = None -> forall b, In (Ref b) vs -> Acc (fun b c => edge h c b) b)).
  { apply flat_both with
      (P := fun lv a xs _ => lv = None -> Acc (fun b c => edge h c b) a)
      (P0 := fun lv vs xs _ => lv = None -> forall b, In (Ref b) vs -> Acc (fun b c => edge h c b) b).
    - intros lv a xs H IH E. constructor. intros b Hb. apply (IH E b Hb).
    - intros lv E b [].
    - intros lv z vs xs H IH E b [C|Hb]; [discriminate | auto].
    - intros b vs xs H IH E. discriminate.
    - intros b vs xs ys H IH H1 IH1 E c [C|Hc]; [injection C as <-; auto | auto].
    - intros k b vs xs ys H IH H1 IH1 E. discriminate. }
  intros a xs H. apply (proj1 G None a xs H eq_refl).
Qed.
Lemma acc_no_loop : forall h a, Acc (fun b c => edge h c b) a -> ~ cyclic h a.
Proof.
  intros h a H. induction H as [a _ IH]. intros (b & Hr & Hp).
  assert (S1 : forall c, edge h a c -> cyclic h c -> False) by (intros c Hc Hy; exact (IH c Hc Hy)).
  destruct Hr as [<-|Hr].
  - inversion Hp; subst.
    + apply (S1 a); [assumption|]. exists a. split; [left; reflexivity | exact Hp].
    + apply (S1 b); [assumption|]. exists a. split; [right; assumption | exact Hp].
  - inversion Hr; subst.
    + apply (S1 b); [assumption|]. exists b. split; [left; reflexivity | exact Hp].
    + apply (S1 b0); [assumption|]. exists b. split; [right; assumption | exact Hp].
Qed.
Lemma flatten_all : forall h a N, refs_below h N -> (a < N)%nat ->
  (cyclic h a /\ flatten (S N) h a None = Some (Err EArg)) \/
  (~ cyclic h a /\ exists xs, flatten (S N) h a None = Some (Ok xs) /\ flat h None a xs).
Proof.
  intros h a N HN Ha. pose proof (flatten_right (S N) h a None) as F.
  destruct (flatten (S N) h a None) as [[xs|e|]|].
  - right. cbn [level] in F. split; [eapply acc_no_loop, flat_acc; exact F|]. exists xs. split; [reflexivity | exact F].
  - left. destruct F as [-> F]. split; [exact F | reflexivity].
  - destruct F.
  - specialize (F N HN Ha). lia.
Qed.
Lemma flatten_level : forall h a N lv, refs_below h N -> (a < N)%nat -> ~ cyclic h a ->
  exists xs, flatten (S N) h a lv = Some (Ok xs) /\ flat h (level lv) a xs.
Proof.
  intros h a N lv HN Ha Hc. pose proof (flatten_right (S N) h a lv) as F.
  destruct (flatten (S N) h a lv) as [[xs|e|]|].
  - exists xs. split; [reflexivity | exact F].
  - destruct F as [_ F]. contradiction.
  - destruct F.
  - specialize (F N HN Ha). lia.
Qed.
