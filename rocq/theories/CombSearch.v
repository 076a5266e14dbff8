(** Proofs about product, the block, and binary search. *)
From Coq Require Import ZArith NArith Nnat List Bool Lia Sorted.
From Verif Require Import CombModel CombSpec CombProofs CombPerm.
Import ListNotations.
Local Open Scope nat_scope.

(* ------------------------------------------------------------------ *)
(** ** The elements *)

Lemma pick_ok {A} (pool : list A) r : Forall (fun i => i < length pool) r ->
  exists l, pick pool r = map Some l /\ length l = length r.
Proof.
  intros H. induction H as [|i r Hi H IH]; [exists []; split; reflexivity|].
  destruct IH as (l & Hl & Hn). destruct (nth_error pool i) as [x|] eqn:E.
  - exists (x :: l). unfold pick in *. cbn [map length]. rewrite E, Hl, Hn. split; reflexivity.
  - apply nth_error_None in E. lia.
Qed.

(* ------------------------------------------------------------------ *)
(** ** The block *)

(** Blocks that do not raise StopIteration see the rows up to where they
    raise, and what they raise leaves the method. *)
Lemma with_block_ok inside b rows : (forall r, In r rows -> b r <> Stop) ->
  with_block inside b rows = shows b rows.
Proof.
  induction rows as [|r rows IH]; intros H; [reflexivity|]. cbn [with_block shows].
  rewrite IH by (intros r' Hr; apply H; right; exact Hr).
  specialize (H r (or_introl eq_refl)). destruct (b r); try reflexivity. congruence.
Qed.

Lemma combination_block_ok fuel len n b rows :
  combination fuel len n = Some rows ->
  (forall r, In r rows -> b r <> Stop) ->
  combination_block fuel len n b = Some (shows b rows).
Proof.
  intros H Hb. unfold combination_block. rewrite H. cbn [option_map].
  rewrite with_block_ok by exact Hb. reflexivity.
Qed.

(** For at most one position a StopIteration leaves the method, too. *)
Lemma combination_block_small fuel len n b rows : (n <= 1)%Z ->
  combination fuel len n = Some rows ->
  combination_block fuel len n b = Some (shows b rows).
Proof.
  intros Hn H. unfold combination_block. rewrite H. cbn [option_map].
  replace (1 <? n)%Z with false by (symmetry; apply Z.ltb_ge; lia). f_equal.
  clear H. induction rows as [|r rows IH]; [reflexivity|]. cbn [with_block shows].
  rewrite IH. destruct (b r); reflexivity.
Qed.

(* ------------------------------------------------------------------ *)
(** ** product *)

Definition total (dims : list nat) : nat := fold_right Nat.mul 1 dims.

Lemma cartesian_length {A} (arrays : list (list A)) :
  length (cartesian arrays) = total (map (@length A) arrays).
Proof.
  induction arrays as [|a r IH]; [reflexivity|]. cbn [cartesian map total fold_right].
  fold (total (map (@length A) r)). rewrite <- IH.
  induction a as [|x a IHa]; [reflexivity|]. cbn [flat_map length Nat.mul].
  rewrite app_length, map_length, IHa. reflexivity.
Qed.

Lemma nth_cartesian {A} (a : list A) (r : list (list A)) :
  forall q m, m < length (cartesian r) ->
  nth_error (flat_map (fun x => map (cons x) (cartesian r)) a) (q * length (cartesian r) + m) =
    match nth_error (cartesian r) m, nth_error a q with
    | Some row, Some x => Some (x :: row)
    | _, _ => None
    end.
Proof.
  induction a as [|x a IH]; intros q m Hm.
  - cbn [flat_map]. rewrite (proj2 (nth_error_None (@nil A) q)) by (cbn; lia).
    rewrite (proj2 (nth_error_None (@nil (list A)) _)) by (cbn; lia).
    destruct (nth_error (cartesian r) m); reflexivity.
  - cbn [flat_map]. destruct q as [|q].
    + cbn [Nat.mul Nat.add nth_error]. rewrite nth_error_app1 by (rewrite map_length; exact Hm).
      rewrite nth_error_map. destruct (nth_error (cartesian r) m); reflexivity.
    + rewrite nth_error_app2 by (rewrite map_length; cbn [Nat.mul]; lia).
      rewrite map_length. cbn [Nat.mul nth_error].
      replace (length (cartesian r) + q * length (cartesian r) + m - length (cartesian r))
        with (q * length (cartesian r) + m) by lia.
      apply IH. exact Hm.
Qed.

Lemma product_row_ok {A} (arrays : list (list A)) : forall k,
  total (map (@length A) arrays) > 0 ->
  product_row arrays (map (@length A) arrays) k =
    (nth_error (cartesian arrays) (k mod total (map (@length A) arrays)),
     k / total (map (@length A) arrays)).
Proof.
  induction arrays as [|a r IH]; intros k Hk.
  - cbn [map product_row total fold_right cartesian]. rewrite Nat.mod_1_r, Nat.div_1_r. reflexivity.
  - cbn [map total fold_right] in Hk. fold (total (map (@length A) r)) in Hk.
    cbn [map product_row cartesian total fold_right]. fold (total (map (@length A) r)).
    set (T := total (map (@length A) r)) in *. set (d := length a) in *.
    assert (HT : T > 0) by nia. assert (Hd : d > 0) by nia.
    rewrite IH by exact HT. fold T.
    rewrite Nat.div_div by lia. rewrite (Nat.mul_comm T d).
    f_equal.
    assert (Hm : k mod (d * T) = ((k / T) mod d) * T + k mod T).
    { rewrite (Nat.mul_comm d T). rewrite Nat.mod_mul_r by lia. lia. }
    rewrite Hm.
    assert (HL : length (cartesian r) = T) by apply cartesian_length.
    rewrite <- HL at 3. rewrite nth_cartesian; [reflexivity|].
    rewrite HL. apply Nat.mod_upper_bound. lia.
Qed.

Lemma product_rows_ok {A} (arrays : list (list A)) :
  forall c k, k + c = length (cartesian arrays) ->
  product_rows (fun _ => arrays) (map (@length A) arrays) k c = Val (skipn k (cartesian arrays)).
Proof.
  induction c as [|c IH]; intros k Hk; cbn [product_rows].
  - rewrite skipn_all2 by lia. reflexivity.
  - pose proof (cartesian_length arrays) as HL.
    rewrite product_row_ok by lia. cbn [fst].
    rewrite Nat.mod_small by lia.
    destruct (nth_error (cartesian arrays) k) as [row0|] eqn:E.
    + rewrite IH by lia. f_equal.
      clear -E. revert k E. induction (cartesian arrays) as [|x l IHl]; intros [|k] E; cbn in *; try discriminate.
      * injection E as <-. reflexivity.
      * apply IHl. exact E.
    + apply nth_error_None in E. lia.
Qed.

Lemma product_check_ok dims : forall t, (t <= product_limit)%N ->
  (product_check t dims <> None <->
   forall a b, dims = a ++ b -> (fold_left (fun t d => t * N.of_nat d) a t <= product_limit)%N).
Proof.
  induction dims as [|d r IH]; intros t Ht; cbn [product_check].
  - split; [|discriminate]. intros _ a b H. destruct a; [exact Ht|discriminate].
  - destruct (N.ltb_spec product_limit (t * N.of_nat d)) as [H|H].
    + split; [congruence|]. intros G. specialize (G [d] r eq_refl). cbn in G. lia.
    + rewrite IH by exact H. split.
      * intros G [|x a] b E; [exact Ht|]. cbn in E. injection E as <- E. cbn [fold_left].
        apply (G a b E).
      * intros G a b E. apply (G (d :: a) b). cbn. rewrite E. reflexivity.
Qed.

(** As long as the block does not change the arrays, product yields the rows
    of the product in order, or raises RangeError. *)
Lemma product_sound {A} (arrays : list (list A)) :
  product (fun _ => arrays) = Val (cartesian arrays) \/ product (fun _ => arrays) = Err.
Proof.
  unfold product. destruct (product_check _ _); [|right; reflexivity]. left.
  fold (total (map (@length A) arrays)). rewrite <- cartesian_length.
  rewrite product_rows_ok by lia. reflexivity.
Qed.

Lemma check_total dims : forall t,
  (forall d, In d dims -> d > 0) ->
  (t * N.of_nat (total dims) <= product_limit)%N -> product_check t dims <> None.
Proof.
  induction dims as [|d r IH]; intros t Hp H; cbn [product_check]; [discriminate|].
  cbn [total fold_right] in H. fold (total r) in H.
  assert (Hd : d > 0) by (apply Hp; left; reflexivity).
  assert (Hr : total r > 0).
  { clear -Hp. assert (G : forall x, In x r -> x > 0) by (intros; apply Hp; right; assumption).
    clear Hp. induction r as [|x r IHr]; cbn [total fold_right]; [lia|]. fold (total r).
    assert (x > 0) by (apply G; left; reflexivity).
    assert (total r > 0) by (apply IHr; intros; apply G; right; assumption). nia. }
  destruct (N.ltb_spec product_limit (t * N.of_nat d)) as [G|G].
  - exfalso. rewrite Nat2N.inj_mul, N.mul_assoc in H. nia.
  - apply IH.
    + intros x Hx. apply Hp. right. exact Hx.
    + rewrite Nat2N.inj_mul, N.mul_assoc in H. exact H.
Qed.

(** It does not raise if no array is empty and there are at most a million
    rows. *)
Lemma product_small {A} (arrays : list (list A)) :
  arrays <> [] ->
  (forall a, In a arrays -> a <> []) ->
  (N.of_nat (length (cartesian arrays)) <= product_limit)%N ->
  product (fun _ => arrays) = Val (cartesian arrays).
Proof.
  intros H0 Hne Hl. destruct (product_sound arrays) as [H|H]; [exact H|].
  exfalso. unfold product in H. destruct arrays as [|a r]; [congruence|].
  cbn [map hd tl] in H.
  assert (G : product_check (N.of_nat (length a)) (map (@length A) r) <> None).
  { apply check_total.
    - intros d Hd. apply in_map_iff in Hd. destruct Hd as (x & <- & Hx).
      specialize (Hne x (or_intror Hx)). destruct x; [congruence|cbn; lia].
    - rewrite cartesian_length in Hl. cbn [map total fold_right] in Hl.
      rewrite Nat2N.inj_mul in Hl. exact Hl. }
  destruct (product_check _ _); [|congruence].
  fold (total (length a :: map (@length A) r)) in H.
  change (length a :: map (@length A) r) with (map (@length A) (a :: r)) in H.
  rewrite <- cartesian_length in H. rewrite product_rows_ok in H by lia. discriminate.
Qed.

(* ------------------------------------------------------------------ *)
(** ** Binary search *)

Lemma mid_bounds low high : low < high -> low <= (low + high) / 2 < high.
Proof.
  intros H. split.
  - apply Nat.div_le_lower_bound; lia.
  - apply Nat.div_lt_upper_bound; lia.
Qed.

(** The loop ends within its fuel, and looks only at elements of the array. *)
Lemma bs_total fuel size f : forall low high m, high <= size -> high - low < fuel ->
  bs_loop fuel size f low high m <> None /\ bs_loop fuel size f low high m <> Some Panic.
Proof.
  induction fuel as [|fuel IH]; intros low high m Hs Hf; [lia|]. cbn [bs_loop].
  destruct (Nat.ltb_spec low high) as [H|H]; [|split; discriminate].
  pose proof (mid_bounds low high H) as Hm. set (mid := (low + high) / 2) in *. clearbody mid.
  destruct (match m with Some m => Some m | None => mode_of (f mid) end) as [m'|]; [|split; discriminate].
  destruct (turn_of m' (f mid)); try (split; discriminate); apply IH; lia.
Qed.

Lemma bsearch_index_total size f :
  exists r, bsearch_index size f = Some r /\ r <> Panic.
Proof.
  unfold bsearch_index. destruct (bs_total (S size) size f 0 size None) as (H1 & H2); [lia|lia|].
  destruct (bs_loop (S size) size f 0 size None) as [r|]; [|congruence].
  exists r. split; [reflexivity|congruence].
Qed.

Lemma bs_min size f p : find_min_block size f p -> forall fuel low high m,
  low <= p <= high -> high <= size -> high - low < fuel ->
  (m = Some FindMin \/ (m = None /\ low < high)) ->
  bs_loop fuel size f low high m = Some (Val (if p <? size then Some p else None)).
Proof.
  intros (Hp & Hlo & Hhi). induction fuel as [|fuel IH]; intros low high m Hb Hs Hf Hm; [lia|].
  cbn [bs_loop]. destruct (Nat.ltb_spec low high) as [H|H].
  - pose proof (mid_bounds low high H) as Hmid. set (mid := (low + high) / 2) in *. clearbody mid.
    destruct (Nat.lt_ge_cases mid p) as [Hlt|Hge].
    + destruct (Hlo mid Hlt) as [E|E]; rewrite E;
        (destruct Hm as [->|(-> & _)]; cbn [mode_of turn_of truthy]; (apply IH; [lia|lia|lia|left; reflexivity])).
    + rewrite (Hhi mid Hge) by lia.
      destruct Hm as [->|(-> & _)]; cbn [mode_of turn_of truthy]; (apply IH; [lia|lia|lia|left; reflexivity]).
  - destruct Hm as [->|(-> & Hm)]; [|lia]. replace p with low by lia. reflexivity.
Qed.

(** Find-minimum: the first index from which the block is true. *)
Lemma bsearch_min_ok size f p : find_min_block size f p ->
  bsearch_index size f = Some (Val (if p <? size then Some p else None)).
Proof.
  intros H. unfold bsearch_index. destruct size as [|size].
  - destruct H as (Hp & _). replace p with 0 by lia. reflexivity.
  - apply (bs_min _ _ p); [exact H|destruct H; lia|lia|lia|].
    right. split; [reflexivity|lia].
Qed.

(** Find-any: an index found is one where the block answers 0. *)
Lemma bs_exact_sound size f i : (forall j, j < size -> exists z, f j = ANum z) ->
  forall fuel low high m, high <= size -> (m = Some FindExact \/ m = None) ->
  bs_loop fuel size f low high m = Some (Val (Some i)) -> i < size /\ f i = ANum 0.
Proof.
  intros Hn. induction fuel as [|fuel IH]; intros low high m Hs Hm H; [discriminate|].
  cbn [bs_loop] in H. destruct (Nat.ltb_spec low high) as [Hl|Hl].
  - pose proof (mid_bounds low high Hl) as Hmid. set (mid := (low + high) / 2) in *. clearbody mid.
    destruct (Hn mid ltac:(lia)) as (z & Ez). rewrite Ez in H.
    assert (Hm' : match m with Some m => Some m | None => mode_of (ANum z) end = Some FindExact)
      by (destruct Hm as [->| ->]; reflexivity).
    rewrite Hm' in H. cbn [turn_of] in H.
    destruct (Z.ltb_spec z 0); [apply IH in H; [exact H|lia|left; reflexivity]|].
    destruct (Z.ltb_spec 0 z); [apply IH in H; [exact H|lia|left; reflexivity]|].
    injection H as <-. split; [lia|]. rewrite Ez. f_equal. lia.
  - destruct Hm as [->| ->]; discriminate.
Qed.

Lemma bsearch_any_sound size f i : (forall j, j < size -> exists z, f j = ANum z) ->
  bsearch_index size f = Some (Val (Some i)) -> i < size /\ f i = ANum 0.
Proof.
  intros Hn H. eapply (bs_exact_sound size f i Hn); [| |exact H]; [lia|right; reflexivity].
Qed.

(** With the signs the other way round than in Ruby, something is found if
    there is something to find. *)
Lemma bs_mirrored size f p q : mirrored_block size f p q -> p < q ->
  forall fuel low high m, low <= p -> q <= high -> high <= size -> high - low < fuel ->
  (m = Some FindExact \/ m = None) ->
  exists i, p <= i < q /\ bs_loop fuel size f low high m = Some (Val (Some i)).
Proof.
  intros (Hb & H1 & H2 & H3) Hpq. induction fuel as [|fuel IH]; intros low high m Hl Hh Hs Hf Hm; [lia|].
  cbn [bs_loop]. destruct (Nat.ltb_spec low high) as [H|H]; [|lia].
  pose proof (mid_bounds low high H) as Hmid. set (mid := (low + high) / 2) in *. clearbody mid.
  destruct (Nat.lt_ge_cases mid p) as [Hlt|Hge].
  - destruct (H1 mid Hlt) as (z & Ez & Hz). rewrite Ez.
    assert (Hm' : match m with Some m => Some m | None => mode_of (ANum z) end = Some FindExact)
      by (destruct Hm as [->| ->]; reflexivity).
    rewrite Hm'. cbn [turn_of]. rewrite (proj2 (Z.ltb_lt z 0)) by exact Hz.
    apply IH; try lia. left. reflexivity.
  - destruct (Nat.lt_ge_cases mid q) as [Hlq|Hgq].
    + rewrite (H2 mid Hge Hlq). exists mid. split; [lia|].
      destruct Hm as [->| ->]; reflexivity.
    + destruct (H3 mid Hgq ltac:(lia)) as (z & Ez & Hz). rewrite Ez.
      assert (Hm' : match m with Some m => Some m | None => mode_of (ANum z) end = Some FindExact)
        by (destruct Hm as [->| ->]; reflexivity).
      rewrite Hm'. cbn [turn_of]. rewrite (proj2 (Z.ltb_ge z 0)) by lia.
      rewrite (proj2 (Z.ltb_lt 0 z)) by exact Hz. apply IH; try lia. left. reflexivity.
Qed.

Lemma bsearch_mirrored_ok size f p q : mirrored_block size f p q -> p < q ->
  exists i, p <= i < q /\ bsearch_index size f = Some (Val (Some i)).
Proof.
  intros H Hpq. unfold bsearch_index. pose proof H as (Hb & _).
  apply (bs_mirrored size f p q H Hpq); try lia. right. reflexivity.
Qed.

(** bsearch gives the element at the index bsearch_index gives. *)
Lemma bsearch_element {A} (l : list A) f :
  bsearch l f =
    match bsearch_index (length l)
            (fun i => match nth_error l i with Some x => f x | None => ANil end) with
    | Some (Val (Some i)) => Some (Val (nth_error l i))
    | Some (Val None) => Some (Val None)
    | Some Err => Some Err
    | Some Panic => Some Panic
    | None => None
    end.
Proof. reflexivity. Qed.

(** Find-minimum on the elements: the first element that satisfies the block,
    if all after it do, too. *)
Lemma bsearch_first {A} (l : list A) (P : A -> bool) a b :
  l = a ++ b -> (forall x, In x a -> P x = false) -> (forall x, In x b -> P x = true) ->
  bsearch l (fun x => if P x then ATrue else AFalse) = Some (Val (hd_error b)).
Proof.
  intros -> Ha Hb. unfold bsearch.
  rewrite (bsearch_min_ok _ _ (length a)).
  - rewrite app_length. destruct b as [|y b].
    + cbn [length]. rewrite Nat.add_0_r. rewrite Nat.ltb_irrefl. reflexivity.
    + rewrite (proj2 (Nat.ltb_lt _ _)) by (cbn; lia).
      rewrite nth_error_app2 by lia. rewrite Nat.sub_diag. reflexivity.
  - split; [rewrite app_length; lia|]. split.
    + intros i Hi. rewrite nth_error_app1 by exact Hi.
      destruct (nth_error a i) as [x|] eqn:E; [|right; reflexivity].
      left. rewrite (Ha x); [reflexivity|]. eapply nth_error_In. exact E.
    + intros i H1 H2. rewrite nth_error_app2 by exact H1. rewrite app_length in H2.
      destruct (nth_error b (i - length a)) as [x|] eqn:E.
      * rewrite (Hb x); [reflexivity|]. eapply nth_error_In. exact E.
      * apply nth_error_None in E. lia.
Qed.
