(** Proofs about the Array store. *)
From Coq Require Import ZArith List Bool Lia.
From Verif Require Import ArrModel ArrSpec.
Import ListNotations.
Open Scope Z_scope.

Section P.
Context {V : Type}.
Variable nil : V.
Implicit Types l vs : list V.

Lemma zlen_size : forall l, zlen l = size l. Proof. reflexivity. Qed.
Ltac zs := change (@zlen V) with (@size V) in *.
Lemma size_nn : forall l, 0 <= size l. Proof. intros; unfold size; lia. Qed.

Lemma get_neg : forall l k, k < 0 -> get l k = None.
Proof. intros l k H. unfold get. destruct (Z.ltb_spec k 0); [reflexivity | lia]. Qed.
Lemma get_out : forall l k, size l <= k -> get l k = None.
Proof.
  intros l k H. unfold get. destruct (Z.ltb_spec k 0); [reflexivity|].
  apply nth_error_None. unfold size in H. lia.
Qed.
Lemma get_at : forall l k, 0 <= k -> at_ l k = get l k.
Proof. intros l k H. unfold get, at_. destruct (Z.ltb_spec k 0); [lia | reflexivity]. Qed.
Lemma get_in : forall l k, 0 <= k < size l -> exists v, get l k = Some v.
Proof.
  intros l k H. unfold get. destruct (Z.ltb_spec k 0); [lia|].
  destruct (nth_error l (Z.to_nat k)) eqn:E; [eauto|].
  apply nth_error_None in E. unfold size in H. lia.
Qed.

Lemma nth_firstn : forall n l k, nth_error (firstn n l) k = if (k <? n)%nat then nth_error l k else None.
Proof.
  induction n; intros l k; cbn [firstn].
  - destruct k; reflexivity.
  - destruct l; [destruct k; cbn [nth_error]; [reflexivity | destruct (S k <? S n)%nat; reflexivity]|].
    destruct k; [reflexivity|]. cbn [nth_error]. rewrite IHn.
    change (S k <? S n)%nat with (k <? n)%nat. reflexivity.
Qed.
Lemma nth_skipn : forall n l k, nth_error (skipn n l) k = nth_error l (n + k).
Proof.
  induction n; intros l k; cbn [skipn]; [reflexivity|].
  destruct l; [destruct k; reflexivity|]. apply IHn.
Qed.

Lemma get_tk : forall n l k, get (tk n l) k = if k <? n then get l k else None.
Proof.
  intros n l k. unfold get, tk. destruct (Z.ltb_spec k 0).
  - destruct (k <? n); reflexivity.
  - rewrite nth_firstn. destruct (Nat.ltb_spec (Z.to_nat k) (Z.to_nat n)); destruct (Z.ltb_spec k n);
      try reflexivity; lia.
Qed.
Lemma get_dr : forall n l k, 0 <= n -> get (dr n l) k = if k <? 0 then None else get l (k + n).
Proof.
  intros n l k H. unfold get, dr. destruct (Z.ltb_spec k 0); [reflexivity|].
  destruct (Z.ltb_spec (k + n) 0); [lia|]. rewrite nth_skipn. f_equal. lia.
Qed.
Lemma get_app : forall a b k, get (a ++ b : list V) k = if k <? size a then get a k else get b (k - size a).
Proof.
  intros a b k. unfold get, size. destruct (Z.ltb_spec k 0).
  - destruct (Z.ltb_spec k (Z.of_nat (length a))); [reflexivity|].
    destruct (Z.ltb_spec (k - Z.of_nat (length a)) 0); [reflexivity | lia].
  - destruct (Z.ltb_spec k (Z.of_nat (length a))).
    + apply nth_error_app1. lia.
    + destruct (Z.ltb_spec (k - Z.of_nat (length a)) 0); [lia|].
      rewrite nth_error_app2 by lia. f_equal. lia.
Qed.
Lemma get_repeat : forall (v : V) n k, get (repeat v n) k = if (0 <=? k) && (k <? Z.of_nat n) then Some v else None.
Proof.
  intros v n k. unfold get. destruct (Z.ltb_spec k 0); destruct (Z.leb_spec 0 k); try lia; try reflexivity.
  destruct (Z.ltb_spec k (Z.of_nat n)); cbn [andb].
  - assert (E : (Z.to_nat k < n)%nat) by lia. revert E. generalize (Z.to_nat k).
    clear. induction n; intros m H; [lia|]. destruct m; [reflexivity|]. cbn. apply IHn. lia.
  - apply nth_error_None. rewrite repeat_length. lia.
Qed.
Lemma get_one : forall v k, get [v : V] k = if k =? 0 then Some v else None.
Proof.
  intros v k. unfold get. destruct (Z.ltb_spec k 0); destruct (Z.eqb_spec k 0); try lia; try reflexivity.
  - subst. reflexivity.
  - apply nth_error_None. cbn. lia.
Qed.
Lemma get_nil : forall k, get (@List.nil V) k = None.
Proof. intros k. unfold get. destruct (k <? 0); [reflexivity | apply nth_error_None; cbn; lia]. Qed.

Lemma size_tk : forall n l, 0 <= n -> size (tk n l) = Z.min n (size l).
Proof. intros n l H. unfold size, tk. rewrite firstn_length. lia. Qed.
Lemma size_dr : forall n l, 0 <= n -> size (dr n l) = Z.max 0 (size l - n).
Proof. intros n l H. unfold size, dr. rewrite skipn_length. lia. Qed.
Lemma size_app : forall a b, size (a ++ b : list V) = size a + size b.
Proof. intros. unfold size. rewrite app_length. lia. Qed.
Lemma size_one : forall v, size [v : V] = 1. Proof. reflexivity. Qed.
Lemma size_nil : size (@List.nil V) = 0. Proof. reflexivity. Qed.
Lemma size_repeat : forall (v : V) n, size (repeat v n : list V) = Z.of_nat n.
Proof. intros. unfold size. rewrite repeat_length. reflexivity. Qed.

Lemma get_ext : forall (a b : list V), (forall k, 0 <= k -> get a k = get b k) -> a = b.
Proof.
  induction a as [|x a IH]; intros b H.
  - destruct b as [|y b]; [reflexivity|]. specialize (H 0 ltac:(lia)). discriminate.
  - destruct b as [|y b]; [specialize (H 0 ltac:(lia)); discriminate|].
    pose proof (H 0 ltac:(lia)) as H0. injection H0 as ->. f_equal. apply IH. intros k Hk.
    specialize (H (k + 1) ltac:(lia)). unfold get in *.
    destruct (Z.ltb_spec (k + 1) 0); [lia|]. destruct (Z.ltb_spec k 0); [lia|].
    replace (Z.to_nat (k + 1)) with (S (Z.to_nat k)) in H by lia. exact H.
Qed.

(** Position-by-position reasoning: rewrite every read to reads of the
    original lists, split the comparisons, compare. *)
Ltac sz := repeat first
  [ rewrite size_app | rewrite size_one | rewrite size_nil | rewrite size_repeat
  | rewrite size_tk by lia | rewrite size_dr by lia ].
Ltac szin H := repeat first
  [ rewrite size_app in H | rewrite size_one in H | rewrite size_nil in H | rewrite size_repeat in H
  | rewrite size_tk in H by lia | rewrite size_dr in H by lia ].
Ltac getall := repeat first
  [ rewrite get_app | rewrite get_tk | rewrite get_dr by lia | rewrite get_one
  | rewrite get_repeat | rewrite get_nil ].
Ltac cases := repeat match goal with
  | |- context [ ?a <? ?b ] => destruct (Z.ltb_spec a b)
  | |- context [ ?a <=? ?b ] => destruct (Z.leb_spec a b)
  | |- context [ ?a =? ?b ] => destruct (Z.eqb_spec a b)
  end; cbn [andb orb negb].
Ltac fin := try lia; try reflexivity;
  first [ f_equal; lia | rewrite !get_out by lia; reflexivity
        | rewrite get_out by lia; reflexivity | symmetry; rewrite get_out by lia; reflexivity
        | rewrite get_neg by lia; reflexivity | symmetry; rewrite get_neg by lia; reflexivity | idtac ].
Ltac pw := intros; getall; sz; cases; fin.
Ltac nn := repeat match goal with
  | l : list V |- _ => lazymatch goal with H : 0 <= size l |- _ => fail | _ => pose proof (size_nn l) end
  end.

Lemma slice_ok : forall l a b, 0 <= a <= b -> b <= size l ->
  slice l a b = Ok (tk (b - a) (dr a l)).
Proof.
  intros l a b H H1. unfold slice. zs.
  destruct (Z.ltb_spec b a); [lia|]. destruct (Z.ltb_spec (size l) b); [lia|]. reflexivity.
Qed.
Lemma resize_ok : forall l n, 0 <= n <= CAPA_MAX -> exists l', resize l n nil = Ok l' /\
  size l' = n /\ is l' (fun k => if k <? n then (if k <? size l then get l k else Some nil) else None).
Proof.
  intros l n H. nn. unfold resize. zs. destruct (Z.ltb_spec CAPA_MAX n); [lia|].
  eexists. split; [reflexivity|]. split.
  - sz. lia.
  - intros k Hk. pw.
Qed.
Lemma put_ok : forall l i v, 0 <= i < size l -> exists l', put l i v = Ok l' /\ size l' = size l /\
  is l' (fun k => if k =? i then Some v else get l k).
Proof.
  intros l i v H. unfold put. zs. destruct (Z.ltb_spec i 0); [lia|].
  destruct (Z.leb_spec (size l) i); [lia|]. cbn [orb].
  eexists. split; [reflexivity|]. split; [sz; lia|]. intros k Hk. pw.
Qed.
Lemma push_ok : forall l v, size l + 1 <= CAPA_MAX -> push l v = Ok (l ++ [v]).
Proof. intros l v H. unfold push. zs. destruct (Z.ltb_spec CAPA_MAX (size l + 1)); [lia | reflexivity]. Qed.
Lemma copy_within_ok : forall l a b d, 0 <= a <= b -> b <= size l -> 0 <= d -> d + (b - a) <= size l ->
  exists l', copy_within l a b d = Ok l' /\ size l' = size l /\
  is l' (fun k => if (d <=? k) && (k <? d + (b - a)) then get l (k - d + a) else get l k).
Proof.
  intros l a b d H H1 H2 H3. unfold copy_within. zs.
  destruct (Z.ltb_spec b a); [lia|]. destruct (Z.ltb_spec (size l) b); [lia|].
  destruct (Z.ltb_spec (size l - (b - a)) d); [lia|]. cbn [orb].
  eexists. split; [reflexivity|]. split; [sz; lia|]. intros k Hk. pw.
Qed.
Lemma copy_from_ok : forall l a vs, 0 <= a -> a + size vs <= size l ->
  exists l', copy_from l a vs = Ok l' /\ size l' = size l /\
  is l' (fun k => if (a <=? k) && (k <? a + size vs) then get vs (k - a) else get l k).
Proof.
  intros l a vs H H1. nn. unfold copy_from. zs.
  destruct (Z.ltb_spec (size l) (a + size vs)); [lia|].
  eexists. split; [reflexivity|]. split; [sz; lia|]. intros k Hk. pw.
Qed.
Lemma drain_ok : forall l a b, 0 <= a <= b -> b <= size l ->
  exists l' vs, drain l a b = Ok (l', vs) /\ s_cut l a b l' /\
  is vs (fun k => if k <? b - a then get l (a + k) else None).
Proof.
  intros l a b H H1. unfold drain. zs.
  destruct (Z.ltb_spec b a); [lia|]. destruct (Z.ltb_spec (size l) b); [lia|]. cbn [orb].
  eexists _, _. split; [reflexivity|]. split; intros k Hk; pw.
Qed.
Lemma remove_ok : forall l i, 0 <= i < size l ->
  exists l' v, remove l i = Ok (l', v) /\ s_cut l i (i + 1) l' /\ get l i = Some v.
Proof.
  intros l i H. unfold remove. rewrite get_at by lia. destruct (get_in l i H) as (v & E). rewrite E.
  destruct (Z.ltb_spec i 0); [lia|]. eexists _, _. split; [reflexivity|]. split; [|reflexivity].
  intros k Hk. pw.
Qed.

(** ** reading *)

Lemma idx_norm : forall l i, get_array_index l i = if norm l i <? 0 then None else Some (norm l i).
Proof.
  intros l i. unfold get_array_index, norm. zs. fold (size l).
  destruct (Z.ltb_spec i 0).
  - rewrite (Z.add_comm i). reflexivity.
  - destruct (Z.ltb_spec i 0); [lia | reflexivity].
Qed.

Lemma at_right : forall l i, get_elem1 l i = Ok (ov (s_at l i)).
Proof.
  intros l i. unfold get_elem1, s_at. rewrite idx_norm. nn. f_equal. f_equal.
  destruct (Z.ltb_spec (norm l i) 0).
  - rewrite get_at by (zs; lia). rewrite get_out by (zs; lia).
    rewrite get_neg by lia. reflexivity.
  - apply get_at. lia.
Qed.

Lemma slice_right : forall l i n, exists r, get_elem2 l i n = Ok r /\ s_sub l (norm l i) n r.
Proof.
  intros l i n. nn. unfold get_elem2, s_sub. rewrite idx_norm. zs.
  destruct (Z.ltb_spec (norm l i) 0) as [Hn|Hn]; cbn [orb].
  - eexists. split; reflexivity.
  - rewrite (orb_comm (n <? 0)). destruct (Z.ltb_spec (size l) (norm l i)); cbn [orb].
    + eexists. split; reflexivity.
    + destruct (Z.ltb_spec n 0).
      * eexists. split; reflexivity.
      * destruct (Z.eqb_spec (norm l i) (size l)).
        -- eexists. split; [reflexivity|]. eexists. split; [reflexivity|]. intros k Hk. rewrite get_nil.
           destruct (k <? n); [rewrite get_out by lia|]; reflexivity.
        -- rewrite slice_ok by lia. cbn [bind]. eexists. split; [reflexivity|].
           eexists. split; [reflexivity|]. intros k Hk. pw.
Qed.

Lemma range_right : forall l r, exists x, get_range l r = Ok x /\ s_range l r x.
Proof.
  intros l r. nn. unfold get_range, s_range, s_sub.
  assert (Hb : match r_start r with None => 0 | Some i => if i <? 0 then zlen l + i else i end = s_beg l r).
  { unfold s_beg, norm. destruct (r_start r) as [i|]; [|reflexivity].
    rewrite (Z.add_comm (zlen l)). reflexivity. }
  rewrite Hb. clear Hb. zs.
  destruct (Z.ltb_spec (Z.max 0 (s_end l r - s_beg l r)) 0); [lia|]. rewrite orb_false_r.
  destruct (Z.ltb_spec (s_beg l r) 0); cbn [orb].
  - eexists. split; reflexivity.
  - destruct (Z.eqb_spec (size l) (s_beg l r)).
    + destruct (Z.ltb_spec (size l) (s_beg l r)); [lia|].
      eexists. split; [reflexivity|]. eexists. split; [reflexivity|]. intros k Hk. rewrite get_nil.
      destruct (k <? _); [rewrite get_out by lia|]; reflexivity.
    + destruct (Z.ltb_spec (size l) (s_beg l r)).
      * eexists. split; reflexivity.
      * set (e := match r_end r with None => _ | Some _ => _ end).
        assert (He : match e with None => s_end l r <= s_beg l r
                     | Some x => Z.min (size l) (s_end l r) = x \/ (x <= s_beg l r /\ s_end l r <= s_beg l r) end).
        { unfold e, s_end, norm. destruct (r_end r) as [x|]; [|left; lia]. zs.
          fold (size l).
          destruct (Z.leb_spec 0 x); destruct (Z.ltb_spec x 0); try lia; destruct (r_excl r).
          - destruct (Z.ltb_spec (size l) (x + 0)); left; lia.
          - destruct (Z.ltb_spec (size l) (x + 1)); left; lia.
          - destruct (Z.ltb_spec (size l + x + 0) 0); [lia|]. left. lia.
          - destruct (Z.ltb_spec (size l + x + 1) 0); [lia|]. left. lia. }
        destruct e as [x|].
        -- destruct (Z.leb_spec x (s_beg l r)).
           ++ eexists. split; [reflexivity|]. eexists. split; [reflexivity|]. intros k Hk. rewrite get_nil.
              destruct (Z.ltb_spec k (Z.max 0 (s_end l r - s_beg l r))); [|reflexivity].
              rewrite get_out by lia. reflexivity.
           ++ rewrite slice_ok by lia. cbn [bind]. eexists. split; [reflexivity|].
              eexists. split; [reflexivity|]. intros k Hk. pw.
        -- eexists. split; [reflexivity|]. eexists. split; [reflexivity|]. intros k Hk. rewrite get_nil.
           destruct (Z.ltb_spec k (Z.max 0 (s_end l r - s_beg l r))); [lia | reflexivity].
Qed.

Lemma first_right : forall l n, (n < 0 -> first_n l n = Err EArg) /\
  (0 <= n -> exists vs, first_n l n = Ok vs /\ is vs (fun k => if k <? n then get l k else None)).
Proof.
  intros l n. nn. unfold first_n. zs. split; intros Hsg; destruct (Z.ltb_spec n 0); try lia; [reflexivity|].
  destruct (Z.ltb_spec (size l) n); rewrite slice_ok by lia; eexists; (split; [reflexivity|]); intros k Hk; pw.
Qed.
Lemma last_right : forall l n, (n < 0 -> last_n l n = Err EArg) /\
  (0 <= n -> exists vs, last_n l n = Ok vs /\
     is vs (fun k => get l (Z.max 0 (size l - n) + k))).
Proof.
  intros l n. nn. unfold last_n. zs. split; intros Hsg; destruct (Z.ltb_spec n 0); try lia; [reflexivity|].
  destruct (Z.ltb_spec (size l) n); rewrite slice_ok by lia; eexists; (split; [reflexivity|]); intros k Hk; pw.
Qed.
Lemma take_right : forall l n, (n < 0 -> take l n = Err EArg) /\
  (0 <= n -> exists vs, take l n = Ok vs /\ is vs (fun k => if k <? n then get l k else None)).
Proof.
  intros l n. nn. unfold take. zs. split; intros Hsg; destruct (Z.ltb_spec n 0); try lia; [reflexivity|].
  destruct (Z.ltb_spec (size l) n).
  - eexists. split; [reflexivity|]. intros k Hk. destruct (Z.ltb_spec k n); fin.
  - rewrite slice_ok by lia; eexists; (split; [reflexivity|]); intros k Hk; pw.
Qed.
Lemma drop_right : forall l n, (n < 0 -> drop l n = Err EArg) /\
  (0 <= n -> exists vs, drop l n = Ok vs /\ is vs (fun k => get l (n + k))).
Proof.
  intros l n. nn. unfold drop. zs. split; intros Hsg; destruct (Z.ltb_spec n 0); try lia; [reflexivity|].
  destruct (Z.leb_spec (size l) n).
  - eexists. split; [reflexivity|]. intros k Hk. rewrite get_nil. rewrite get_out by lia. reflexivity.
  - rewrite slice_ok by lia; eexists; (split; [reflexivity|]); intros k Hk; pw.
Qed.
Lemma fetch_right : forall l i d, fetch l i d =
  match s_at l i with Some v => Ok v | None => match d with Some x => Ok x | None => Err EIndex end end.
Proof.
  intros l i d. unfold fetch, s_at. rewrite idx_norm. destruct (Z.ltb_spec (norm l i) 0).
  - rewrite get_neg by lia. reflexivity.
  - rewrite get_at by lia. reflexivity.
Qed.

Lemma rotate_right_ok : forall l i, exists l', rotate l i = Ok l' /\ size l' = size l /\
  forall k, 0 <= k < size l -> get l' k = get l ((k + i) mod size l).
Proof.
  intros l i. nn. unfold rotate. zs. destruct (Z.eqb_spec (size l) 0) as [Hz|Hz].
  - eexists. split; [reflexivity|]. split; [reflexivity|]. intros. lia.
  - set (n := size l) in *.
    assert (W : forall i, exists c, wrap_rotate_count i n = Ok c /\ 0 <= c < n /\
              (if 0 <=? i then c = i mod n else c = (- i) mod n)).
    { clear i. intros i. unfold wrap_rotate_count. destruct (Z.leb_spec 0 i).
      - assert (E : (if i <? n then i else Z.rem i n) = i mod n).
        { destruct (Z.ltb_spec i n); [rewrite Z.mod_small; lia | apply Z.rem_mod_nonneg; lia]. }
        rewrite E. pose proof (Z.mod_pos_bound i n ltac:(lia)).
        destruct (Z.ltb_spec (i mod n) 0); [lia|]. eexists. split; [reflexivity|]. lia.
      - assert (E : (if - n <? i then - i else - Z.rem i n) = (- i) mod n).
        { destruct (Z.ltb_spec (- n) i).
          - rewrite Z.mod_small; lia.
          - rewrite <- Z.rem_opp_l by lia. apply Z.rem_mod_nonneg; lia. }
        rewrite E. pose proof (Z.mod_pos_bound (- i) n ltac:(lia)).
        destruct (Z.ltb_spec ((- i) mod n) 0); [lia|]. eexists. split; [reflexivity|]. lia. }
    destruct (W i) as (c & Ew & Hc & Ec). rewrite Ew. cbn [bind].
    assert (M : forall k x, 0 <= k < n -> 0 <= x < n -> (k + i - x) mod n = 0 -> (k + i) mod n = x).
    { intros k x Hk Hx Hm. apply Z.mod_divide in Hm; [|lia]. destruct Hm as (q & Hm).
      replace (k + i) with (x + q * n) by lia. rewrite Z.mod_add by lia. apply Z.mod_small. lia. }
    destruct (Z.ltb_spec 0 i) as [Hi|Hi].
    + destruct (Z.leb_spec 0 i); [|lia]. unfold rotate_left. zs. fold n.
      destruct (Z.ltb_spec n c); [lia|]. eexists. split; [reflexivity|]. split; [sz; fold n; lia|].
      pose proof (Z.div_mod i n ltac:(lia)) as D. rewrite <- Ec in D.
      intros k Hk. getall. sz. fold n.
      destruct (Z.ltb_spec k (Z.max 0 (n - c))).
      * destruct (Z.ltb_spec k 0); [lia|]. f_equal. symmetry. apply M; [lia | lia |].
        replace (k + i - (k + c)) with (i / n * n) by lia. apply Z.mod_mul. lia.
      * destruct (Z.ltb_spec (k - Z.max 0 (n - c)) c); [|lia]. f_equal. symmetry. apply M; [lia | lia |].
        replace (k + i - (k - Z.max 0 (n - c))) with ((i / n + 1) * n) by lia. apply Z.mod_mul. lia.
    + assert (Ec' : c = (- i) mod n).
      { destruct (Z.leb_spec 0 i); [|exact Ec]. assert (i = 0) as -> by lia. exact Ec. }
      unfold rotate_right. zs. fold n.
      destruct (Z.ltb_spec n c); [lia|]. eexists. split; [reflexivity|]. split; [sz; fold n; lia|].
      pose proof (Z.div_mod (- i) n ltac:(lia)) as D. rewrite <- Ec' in D.
      intros k Hk. getall. sz. fold n.
      destruct (Z.ltb_spec k (Z.max 0 (n - (n - c)))).
      * destruct (Z.ltb_spec k 0); [lia|]. f_equal. symmetry. apply M; [lia | lia |].
        replace (k + i - (k + (n - c))) with ((- (- i / n) - 1) * n) by lia. apply Z.mod_mul. lia.
      * destruct (Z.ltb_spec (k - Z.max 0 (n - (n - c))) (n - c)); [|lia]. f_equal. symmetry. apply M; [lia | lia |].
        replace (k + i - (k - Z.max 0 (n - (n - c)))) with ((- (- i / n)) * n) by lia. apply Z.mod_mul. lia.
Qed.

Lemma size_rep : forall n l, size (rep n l) = Z.of_nat n * size l.
Proof. induction n; intros l; [reflexivity|]. cbn [rep]. rewrite size_app, IHn. lia. Qed.
Lemma get_rep : forall n l k, 0 <= k < Z.of_nat n * size l -> get (rep n l) k = get l (k mod size l).
Proof.
  induction n; intros l k H; [lia|]. nn. cbn [rep]. rewrite get_app.
  destruct (Z.ltb_spec k (size l)).
  - rewrite Z.mod_small by lia. reflexivity.
  - assert (0 < size l) by lia. rewrite IHn by lia. f_equal.
    replace (k - size l) with (k + (-1) * size l) by lia. apply Z.mod_add. lia.
Qed.
Lemma mul_right : forall l n, (n < 0 -> mul l n = Err EArg) /\
  (0 <= n -> size l * n <= VEC_MAX -> exists l', mul l n = Ok l' /\ size l' = n * size l /\
     forall k, 0 <= k < n * size l -> get l' k = get l (k mod size l)).
Proof.
  intros l n. unfold mul. zs. split; intros Hsg; destruct (Z.ltb_spec n 0); try lia; [reflexivity|].
  intros H1. destruct (Z.ltb_spec VEC_MAX (size l * n)); [lia|]. eexists. split; [reflexivity|].
  split; [rewrite size_rep, Z2Nat.id by lia; lia|]. intros k Hk. apply get_rep. rewrite Z2Nat.id by lia. lia.
Qed.

(** ** writing *)

Definition fits (n : Z) : Prop := n <= CAPA_MAX.

Lemma is_trans : forall l f g, is l f -> (forall k, 0 <= k -> f k = g k) -> is l g.
Proof. intros l f g H H1 k Hk. rewrite H by lia. apply H1. lia. Qed.

Lemma store_right : forall l i v, fits (size l) -> fits (norm l i + 1) ->
  match set_index nil l i v with
  | Ok l' => 0 <= norm l i /\ s_put nil l (norm l i) v l'
  | Err e => norm l i < 0 /\ e = EIndex
  | Panic => False
  end.
Proof.
  intros l i v Hf Hf1. nn. unfold fits in *. unfold set_index. rewrite idx_norm; zs.
  destruct (Z.leb_spec 0 i).
  - assert (En : norm l i = i) by (unfold norm; destruct (Z.ltb_spec i 0); lia). rewrite En in *.
    destruct (Z.ltb_spec i (size l)).
    + destruct (put_ok l i v ltac:(lia)) as (l' & -> & Hs & Hg). split; [lia|].
      eapply is_trans; [exact Hg|]. intros k Hk. cbn beta. cases; fin.
    + destruct (resize_ok l i ltac:(lia)) as (l1 & -> & Hs & Hg). cbn [bind].
      rewrite push_ok by lia. split; [lia|]. intros k Hk. getall. rewrite Hs.
      destruct (Z.ltb_spec k i).
      * rewrite Hg by lia. cases; fin.
      * cases; fin.
  - destruct (Z.ltb_spec (norm l i) 0); [split; [lia | reflexivity]|].
    assert (norm l i < size l) by (unfold norm in *; unfold size in *; destruct (Z.ltb_spec i 0); lia).
    destruct (put_ok l (norm l i) v ltac:(lia)) as (l' & -> & Hs & Hg). split; [lia|].
    eapply is_trans; [exact Hg|]. intros k Hk. cbn beta. cases; fin.
Qed.

Lemma splice_ary : forall l b n vs, 0 <= b -> 0 <= n -> fits (size l) -> fits (b + size vs) ->
  fits (size l + size vs) -> exists l', set_index2_ary nil l b n vs = Ok l' /\ s_splice nil l b n vs l'.
Proof.
  intros l b n vs Hb Hn F1 F2 F3. nn. unfold fits in *. unfold set_index2_ary. zs.
  destruct (Z.leb_spec (size l) b); [|destruct (Z.ltb_spec (size l) (b + n))]; cbn [orb].
  - destruct (resize_ok l (b + size vs) ltac:(lia)) as (l1 & -> & Hs & Hg). cbn [bind].
    destruct (copy_from_ok l1 b vs ltac:(lia) ltac:(lia)) as (l2 & -> & Hs2 & Hg2).
    eexists. split; [reflexivity|]. eapply is_trans; [exact Hg2|]. intros k Hk. cbn beta.
    rewrite Hg by lia. cases; fin.
  - destruct (resize_ok l (b + size vs) ltac:(lia)) as (l1 & -> & Hs & Hg). cbn [bind].
    destruct (copy_from_ok l1 b vs ltac:(lia) ltac:(lia)) as (l2 & -> & Hs2 & Hg2).
    eexists. split; [reflexivity|]. eapply is_trans; [exact Hg2|]. intros k Hk. cbn beta.
    rewrite Hg by lia. cases; fin.
  - destruct (Z.ltb_spec n (size vs)).
    + destruct (resize_ok l (size l + size vs - n) ltac:(lia)) as (l1 & -> & Hs & Hg). cbn [bind].
      destruct (copy_within_ok l1 (b + n) (size l) (b + size vs) ltac:(lia) ltac:(lia) ltac:(lia) ltac:(lia))
        as (l2 & -> & Hs2 & Hg2). cbn [bind].
      destruct (copy_from_ok l2 b vs ltac:(lia) ltac:(lia)) as (l3 & -> & Hs3 & Hg3).
      eexists. split; [reflexivity|]. eapply is_trans; [exact Hg3|]. intros k Hk. cbn beta.
      rewrite Hg2 by lia.
      destruct (Z.leb_spec b k); destruct (Z.ltb_spec k (b + size vs)); cbn [andb];
        destruct (Z.ltb_spec k b); try lia; try reflexivity.
      * destruct (Z.leb_spec (b + size vs) k); [|lia]. cbn [andb].
        destruct (Z.ltb_spec k (b + size vs + (size l - (b + n)))).
        -- rewrite Hg by lia. cases; fin.
        -- rewrite Hg by lia. cases; fin.
      * destruct (Z.leb_spec (b + size vs) k); [lia|]. cbn [andb]. rewrite Hg by lia. cases; fin.
    + destruct (copy_within_ok l (b + n) (size l) (b + size vs) ltac:(lia) ltac:(lia) ltac:(lia) ltac:(lia))
        as (l1 & -> & Hs & Hg). cbn [bind].
      destruct (resize_ok l1 (size l + size vs - n) ltac:(lia)) as (l2 & -> & Hs2 & Hg2). cbn [bind].
      destruct (copy_from_ok l2 b vs ltac:(lia) ltac:(lia)) as (l3 & -> & Hs3 & Hg3).
      eexists. split; [reflexivity|]. eapply is_trans; [exact Hg3|]. intros k Hk. cbn beta.
      rewrite Hg2 by lia. rewrite Hs.
      destruct (Z.leb_spec b k); destruct (Z.ltb_spec k (b + size vs)); cbn [andb];
        destruct (Z.ltb_spec k b); try lia; try reflexivity.
      * destruct (Z.ltb_spec k (size l + size vs - n)); [|fin].
        destruct (Z.ltb_spec k (size l)); [|fin]. rewrite Hg by lia. cases; fin.
      * destruct (Z.ltb_spec k (size l + size vs - n)); [|fin].
        destruct (Z.ltb_spec k (size l)); [|fin]. rewrite Hg by lia. cases; fin.
Qed.

Lemma splice_val : forall l b n v, 0 <= b -> 0 <= n -> fits (size l + 1) -> fits (b + 1) ->
  exists l', set_index2_val nil l b n v = Ok l' /\ s_splice nil l b n [v] l'.
Proof.
  intros l b n v Hb Hn F1 F2. nn. unfold fits in *. unfold set_index2_val, s_splice. zs.
  rewrite size_one.
  destruct (Z.leb_spec (size l) b).
  - destruct (resize_ok l (b + 1) ltac:(lia)) as (l1 & -> & Hs & Hg). cbn [bind].
    destruct (put_ok l1 b v ltac:(lia)) as (l2 & -> & Hs2 & Hg2).
    eexists. split; [reflexivity|]. eapply is_trans; [exact Hg2|]. intros k Hk. cbn beta.
    rewrite Hg by lia. rewrite get_one. cases; fin.
  - destruct (Z.eqb_spec n 0).
    + rewrite push_ok by lia. cbn [bind].
      destruct (copy_within_ok (l ++ [nil]) b (size l) (b + 1) ltac:(lia) ltac:(sz; lia) ltac:(lia) ltac:(sz; lia))
        as (l1 & -> & Hs & Hg). cbn [bind]. szin Hs.
      destruct (put_ok l1 b v ltac:(lia)) as (l2 & -> & Hs2 & Hg2).
      eexists. split; [reflexivity|]. eapply is_trans; [exact Hg2|]. intros k Hk. cbn beta.
      rewrite Hg by lia. getall. cases; fin.
    + destruct (Z.ltb_spec (b + n) (size l)).
      * destruct (copy_within_ok l (b + n) (size l) (b + 1) ltac:(lia) ltac:(lia) ltac:(lia) ltac:(lia))
          as (l1 & -> & Hs & Hg). cbn [bind]. unfold truncate.
        destruct (put_ok (tk (size l + 1 - n) l1) b v ltac:(sz; lia)) as (l2 & -> & Hs2 & Hg2).
        eexists. split; [reflexivity|]. eapply is_trans; [exact Hg2|]. intros k Hk. cbn beta.
        getall. rewrite Hg by lia. cases; fin.
      * unfold truncate. cbn [bind].
        destruct (put_ok (tk (b + 1) l) b v ltac:(sz; lia)) as (l2 & -> & Hs2 & Hg2).
        eexists. split; [reflexivity|]. eapply is_trans; [exact Hg2|]. intros k Hk. cbn beta.
        getall. cases; fin.
Qed.

(** The elements a right-hand side makes of itself when [to_ary] is not
    asked. *)
Definition plain (l : list V) (h : rhs) : list V :=
  match h with HSelf => l | HArr vs => vs | HVal v => [v] | HConv v _ => [v] end.

Lemma splice_right : forall l b n h, 0 <= b -> 0 <= n ->
  fits (size l + size (plain l h)) -> fits (b + size (plain l h)) ->
  exists l', set_index2 nil l b n h = Ok l' /\ s_splice nil l b n (plain l h) l'.
Proof.
  intros l b n h Hb Hn F1 F2. unfold fits in *.
  destruct h; cbn [set_index2 plain] in *; nn.
  - apply splice_ary; unfold fits; lia.
  - apply splice_ary; unfold fits; lia.
  - rewrite size_one in *. apply splice_val; unfold fits; lia.
  - rewrite size_one in *. apply splice_val; unfold fits; lia.
Qed.

Lemma slice_assign_right : forall l i n h, (forall v, h <> HConv v None) ->
  fits (size l + size (s_rhs l h)) -> fits (norm l i + size (s_rhs l h)) ->
  match slice_assign nil false l i n h with
  | Ok l' => 0 <= n /\ 0 <= norm l i /\ s_splice nil l (norm l i) n (s_rhs l h) l'
  | Err e => (n < 0 \/ norm l i < 0) /\ e = EIndex
  | Panic => False
  end.
Proof.
  intros l i n h Hc F1 F2. unfold slice_assign, guard. fold (norm l i). zs.
  change (if i <? 0 then i + size l else i) with (norm l i).
  destruct (Z.ltb_spec n 0); [split; [lia | reflexivity]|].
  destruct (Z.ltb_spec (norm l i) 0); [split; [lia | reflexivity]|].
  assert (E : plain l (conv_rhs nil h) = s_rhs l h).
  { destruct h as [| | |v [vs|]]; try reflexivity. destruct (Hc v). reflexivity. }
  destruct (splice_right l (norm l i) n (conv_rhs nil h)) as (l' & -> & Hs); try lia; try (rewrite E; assumption).
  rewrite E in Hs. split; [lia|]. split; [lia | exact Hs].
Qed.

Lemma wrap_id : forall x, i64 x -> wrap64 x = x.
Proof. intros x [H H1]. unfold wrap64. rewrite Z.mod_small; lia. Qed.
Lemma wrap_low : forall x, - 2 ^ 64 <= x < - 2 ^ 63 -> wrap64 x = x + 2 ^ 64.
Proof.
  intros x H. unfold wrap64. replace (x + 2 ^ 63) with (x + 2 ^ 64 + 2 ^ 63 + (-1) * 2 ^ 64) by lia.
  rewrite Z.mod_add by lia. rewrite Z.mod_small; lia.
Qed.

Lemma s_splice_far : forall l b n m vs l', size l <= b -> 0 <= n -> 0 <= m ->
  s_splice nil l b n vs l' -> s_splice nil l b m vs l'.
Proof.
  intros l b n m vs l' H Hn Hm H1 k Hk. nn. rewrite H1 by lia. cbn beta. cases; fin.
Qed.

Lemma range_assign_right : forall l r h, (forall v o, h <> HConv v o) ->
  i64o (r_start r) -> i64o (r_end r) ->
  ~ (s_beg l r = 0 /\ r_end r = Some (2 ^ 63 - 1) /\ r_excl r = false) ->
  fits (size l + size (s_rhs l h)) -> fits (s_beg l r + size (s_rhs l h)) ->
  match range_assign nil false l r h with
  | Ok l' => 0 <= s_beg l r /\
             s_splice nil l (s_beg l r) (Z.max 0 (s_end l r - s_beg l r)) (s_rhs l h) l'
  | Err e => s_beg l r < 0 /\ e = ERange
  | Panic => False
  end.
Proof.
  intros l r h Hc Is Ie Hx F1 F2. nn. unfold range_assign, guard.
  change (match r_start r with None => 0 | Some s => if s <? 0 then s + zlen l else s end) with (s_beg l r).
  destruct (Z.ltb_spec (s_beg l r) 0) as [Hb|Hb]; [split; [lia | reflexivity]|].
  assert (E : plain l h = s_rhs l h).
  { destruct h as [| | |v [vs|]]; try reflexivity; destruct (Hc v _ eq_refl). }
  zs.
  set (n := range_len (size l) (s_beg l r) r).
  assert (Hn : 0 <= n /\ (n = Z.max 0 (s_end l r - s_beg l r) \/ size l <= s_beg l r \/
                 (size l <= s_beg l r + n /\ size l <= s_end l r))).
  { unfold n, range_len, s_end. unfold fits, CAPA_MAX in F1, F2.
    assert (Hl : 0 <= size l <= 2 ^ 59) by (unfold size in *; lia).
    destruct (r_end r) as [e|] eqn:Ee.
    2:{ destruct (Z.leb_spec (s_beg l r) (size l)); lia. }
    cbn [i64o] in Ie. unfold i64 in Ie.
    assert (En : (if e <? 0 then e + size l else e) = norm l e) by reflexivity. rewrite En.
    assert (Hne : - 2 ^ 63 <= norm l e < 2 ^ 63) by (unfold norm, size in *; destruct (Z.ltb_spec e 0); lia).
    assert (Hbb : s_beg l r <= 2 ^ 59).
    { destruct h; cbn [s_rhs] in F2; unfold size in *; lia. }
    destruct (r_excl r).
    - destruct (Z.leb_spec (size l) (s_beg l r)).
      + destruct (Z.ltb_spec (wrap64 (norm l e - s_beg l r)) 0); lia.
      + assert (Hd : i64 (norm l e - s_beg l r)).
        { unfold i64. unfold norm in *. fold (size l) in *. destruct (Z.ltb_spec e 0); lia. }
        rewrite (wrap_id _ Hd). destruct (Z.ltb_spec (norm l e - s_beg l r) 0); lia.
    - destruct (Z.leb_spec (size l) (s_beg l r)).
      + destruct (Z.ltb_spec (wrap64 (wrap64 (norm l e + 1) - s_beg l r)) 0); lia.
      + destruct (Z.eq_dec (norm l e) (2 ^ 63 - 1)) as [Em|Em].
        * assert (e = 2 ^ 63 - 1).
          { unfold norm in Em. fold (size l) in Em. destruct (Z.ltb_spec e 0); lia. }
          subst e. assert (s_beg l r <> 0) by (intros Z0; apply Hx; repeat split; assumption).
          rewrite Em. change (wrap64 (2 ^ 63 - 1 + 1)) with (- 2 ^ 63).
          rewrite wrap_low by lia. destruct (Z.ltb_spec (- 2 ^ 63 - s_beg l r + 2 ^ 64) 0); lia.
        * rewrite (wrap_id (norm l e + 1)) by (unfold i64; lia).
          assert (Hd : i64 (norm l e + 1 - s_beg l r)).
          { unfold i64. unfold norm in *. fold (size l) in *. destruct (Z.ltb_spec e 0); lia. }
          rewrite (wrap_id _ Hd). destruct (Z.ltb_spec (norm l e + 1 - s_beg l r) 0); lia. }
  destruct Hn as [Hn0 Hn].
  destruct (splice_right l (s_beg l r) n h) as (l' & -> & Hs); try lia; try (rewrite E; assumption).
  rewrite E in Hs. split; [lia|].
  destruct Hn as [<-|[Hfar|[Hn1 Hn2]]].
  - exact Hs.
  - eapply s_splice_far; [exact Hfar | exact Hn0 | lia | exact Hs].
  - intros k Hk. rewrite Hs by lia. cbn beta. pose proof (size_nn (s_rhs l h)). cases; fin.
Qed.

Lemma pop_right : forall l, exists l' r, pop false l None = Ok (l', r) /\
  r = ov (get l (size l - 1)) /\ is l' (fun k => if k <? size l - 1 then get l k else None).
Proof.
  intros l. nn. unfold pop, guard. zs. eexists _, _. split; [reflexivity|]. split.
  - destruct l as [|a l0]; [reflexivity|]. rewrite get_at; [reflexivity|]. unfold size. cbn [length]. lia.
  - intros k Hk. pw.
Qed.
Lemma pop_n_right : forall l n, (n < 0 -> pop false l (Some n) = Err EArg) /\
  (0 <= n -> exists l' vs, pop false l (Some n) = Ok (l', RA vs) /\
     is l' (fun k => if k <? size l - n then get l k else None) /\
     is vs (fun k => get l (Z.max 0 (size l - n) + k))).
Proof.
  intros l n. nn. unfold pop, guard. zs. split; intros Hsg; destruct (Z.ltb_spec n 0); try lia; [reflexivity|].
  destruct (Z.leb_spec (size l) n); rewrite slice_ok by lia; cbn [bind]; eexists _, _;
    (split; [reflexivity|]); unfold truncate; split; intros k Hk; pw.
Qed.
Lemma shift_right : forall l, exists l' r, shift false l None = Ok (l', r) /\
  r = ov (get l 0) /\ is l' (fun k => get l (k + 1)).
Proof.
  intros l. unfold shift, guard. destruct l as [|a l0].
  - eexists _, _. split; [reflexivity|]. split; [reflexivity|]. intros k Hk. rewrite !get_nil. reflexivity.
  - pose proof (size_nn l0). destruct (drain_ok (a :: l0) 0 1 ltac:(lia) ltac:(unfold size in *; cbn [length]; lia)) as (l' & vs & -> & Hc & Hv).
    cbn [bind fst]. eexists _, _. split; [reflexivity|]. split; [reflexivity|].
    eapply is_trans; [exact Hc|]. intros k Hk. cbn beta. cases; fin.
Qed.
Lemma shift_n_right : forall l n, (n < 0 -> shift false l (Some n) = Err EArg) /\
  (0 <= n -> exists l' vs, shift false l (Some n) = Ok (l', RA vs) /\
     is l' (fun k => get l (k + n)) /\ is vs (fun k => if k <? n then get l k else None)).
Proof.
  intros l n. nn. unfold shift, guard. zs. split; intros Hsg; destruct (Z.ltb_spec n 0); try lia; [reflexivity|].
  destruct (drain_ok l 0 (Z.min n (size l)) ltac:(lia) ltac:(lia)) as (l' & vs & -> & Hc & Hv).
  cbn [bind fst snd]. eexists _, _. split; [reflexivity|]. split.
  - eapply is_trans; [exact Hc|]. intros k Hk. cbn beta. cases; fin.
    destruct (Z.leb_spec (size l) n); [|f_equal; lia]. rewrite !get_out by lia. reflexivity.
  - eapply is_trans; [exact Hv|]. intros k Hk. cbn beta. cases; fin.
Qed.

Lemma unshift_right : forall l vs, fits (size l + size vs) -> unshift false l vs = Ok (vs ++ l).
Proof.
  intros l vs F. nn. unfold fits in F. unfold unshift, guard, insert_many. zs.
  destruct (Z.ltb_spec (size l) 0); [lia|]. destruct (Z.ltb_spec CAPA_MAX (size l + size vs)); [lia|].
  reflexivity.
Qed.
Lemma append_right : forall l vs, fits (size l + size vs) -> append false l vs = Ok (l ++ vs).
Proof.
  intros l vs F. unfold fits in F. unfold append, guard. zs.
  destruct (Z.ltb_spec CAPA_MAX (size l + size vs)); [lia | reflexivity].
Qed.
Lemma replace_right : forall l vs, fits (size vs) -> replace false l vs = Ok vs.
Proof.
  intros l vs F. unfold fits in F. unfold replace, guard. zs.
  destruct (Z.ltb_spec CAPA_MAX (size vs)); [lia | reflexivity].
Qed.

(** insert(nth, ...): a negative index counts the gaps between elements. *)
Definition gap (l : list V) (i : Z) : Z := if i <? 0 then i + size l + 1 else i.

Lemma insert_right : forall l i vs, vs <> [] -> fits (size l + size vs) -> fits (gap l i + size vs) ->
  match insert nil false l i vs with
  | Ok l' => 0 <= gap l i /\ s_splice nil l (gap l i) 0 vs l'
  | Err e => gap l i < 0 /\ e = EIndex
  | Panic => False
  end.
Proof.
  intros l i vs Hv F1 F2. nn. unfold fits in *. unfold insert, guard.
  destruct vs as [|v0 vs0] eqn:Ev; [destruct (Hv eq_refl)|]. rewrite <- Ev in *. clear Hv.
  zs. change (if i <? 0 then i + size l + 1 else i) with (gap l i).
  destruct (Z.ltb_spec (gap l i) 0); [split; [lia | reflexivity]|].
  assert (E : exists l1, (if size l <=? gap l i then resize l (gap l i) nil else Ok l) = Ok l1 /\
            gap l i <= size l1 /\ size l1 = Z.max (size l) (gap l i) /\
            is l1 (fun k => if k <? size l then get l k else if k <? gap l i then Some nil else None)).
  { destruct (Z.leb_spec (size l) (gap l i)).
    - destruct (resize_ok l (gap l i) ltac:(lia)) as (l1 & E1 & Hs & Hg). exists l1. split; [exact E1|].
      split; [lia|]. split; [lia|]. eapply is_trans; [exact Hg|]. intros k Hk. cbn beta. cases; fin.
    - exists l. split; [reflexivity|]. split; [lia|]. split; [lia|]. intros k Hk. cases; fin. }
  destruct E as (l1 & Er & G1 & G2 & G3). rewrite Er. cbn [bind]. unfold insert_many. zs.
  destruct (Z.ltb_spec (size l1) (gap l i)); [lia|].
  destruct (Z.ltb_spec CAPA_MAX (size l1 + size vs)); [lia|].
  split; [lia|]. intros k Hk. getall. sz.
  destruct (Z.ltb_spec k (Z.min (gap l i) (size l1))).
  - destruct (Z.ltb_spec k (gap l i)); [|lia]. rewrite G3 by lia. cases; fin.
  - destruct (Z.ltb_spec k (gap l i)); [lia|].
    destruct (Z.ltb_spec (k - Z.min (gap l i) (size l1)) (size vs)).
    + destruct (Z.ltb_spec k (gap l i + size vs)); [|lia]. f_equal. lia.
    + destruct (Z.ltb_spec k (gap l i + size vs)); [lia|].
      destruct (Z.ltb_spec (k - Z.min (gap l i) (size l1) - size vs) 0); [lia|].
      rewrite G3 by lia. cases; fin.
Qed.

Lemma delete_at_right : forall l i, exists l' r, delete_at false l i = Ok (l', r) /\
  match s_at l i with
  | Some v => r = RV v /\ s_cut l (norm l i) (norm l i + 1) l'
  | None => r = RNil /\ l' = l
  end.
Proof.
  intros l i. nn. unfold delete_at, guard, s_at. zs.
  change (if i <? 0 then i + size l else i) with (norm l i).
  assert (R : norm l i < 0 \/ size l <= norm l i \/ 0 <= norm l i < size l) by lia.
  assert (N : i < 0 -> norm l i < size l) by (unfold norm, size; destruct (Z.ltb_spec i 0); lia).
  assert (M : 0 <= i -> norm l i = i) by (unfold norm; destruct (Z.ltb_spec i 0); lia).
  destruct (Z.ltb_spec i 0).
  - destruct (Z.ltb_spec (norm l i) 0).
    + rewrite get_neg by lia. eexists _, _. split; [reflexivity|]. split; reflexivity.
    + destruct (remove_ok l (norm l i) ltac:(lia)) as (l' & v & -> & Hc & Hg). rewrite Hg. cbn [bind fst snd].
      eexists _, _. split; [reflexivity|]. split; [reflexivity | exact Hc].
  - rewrite M by lia. destruct (Z.leb_spec (size l) i).
    + rewrite get_out by lia. eexists _, _. split; [reflexivity|]. split; reflexivity.
    + destruct (remove_ok l i ltac:(lia)) as (l' & v & -> & Hc & Hg). rewrite Hg. cbn [bind fst snd].
      eexists _, _. split; [reflexivity|]. split; [reflexivity | exact Hc].
Qed.

Lemma slice_bang1_right : forall l i, exists l' r, slice_bang1 false l i = Ok (l', r) /\
  match s_at l i with
  | Some v => r = RV v /\ s_cut l (norm l i) (norm l i + 1) l'
  | None => r = RNil /\ l' = l
  end.
Proof.
  intros l i. nn. unfold slice_bang1, guard, s_at. rewrite idx_norm; zs.
  destruct (Z.ltb_spec (norm l i) 0).
  - rewrite get_neg by lia. eexists _, _. split; [reflexivity|]. split; reflexivity.
  - destruct (Z.ltb_spec (norm l i) (size l)).
    + destruct (remove_ok l (norm l i) ltac:(lia)) as (l' & v & -> & Hc & Hg). rewrite Hg. cbn [bind fst snd].
      eexists _, _. split; [reflexivity|]. split; [reflexivity | exact Hc].
    + rewrite get_out by lia. eexists _, _. split; [reflexivity|]. split; reflexivity.
Qed.

(** Taking out the [n] elements from [b]. *)
Definition s_take_out (l : list V) (b n : Z) (l' : list V) (r : ret) : Prop :=
  s_sub l b n r /\
  if (b <? 0) || (size l <? b) || (n <? 0) then l' = l else s_cut l b (b + n) l'.

Lemma slice_inner_right : forall l b n, 0 <= b -> 0 <= n ->
  exists l' r, slice_inner l b n = Ok (l', r) /\ s_take_out l b n l' r.
Proof.
  intros l b n Hb Hn. nn. unfold slice_inner, s_take_out, s_sub. zs.
  destruct (Z.ltb_spec b 0); [lia|]. destruct (Z.ltb_spec n 0); [lia|]. rewrite orb_false_r. cbn [orb].
  destruct (Z.ltb_spec (size l) b).
  - eexists _, _. split; [reflexivity|]. split; reflexivity.
  - destruct (Z.leb_spec (size l) b); [|destruct (Z.eqb_spec n 0)]; cbn [orb].
    + eexists _, _. split; [reflexivity|]. split.
      * eexists. split; [reflexivity|]. intros k Hk. rewrite get_nil. destruct (k <? n); fin.
      * intros k Hk. cases; fin.
    + eexists _, _. split; [reflexivity|]. split.
      * eexists. split; [reflexivity|]. intros k Hk. rewrite get_nil. cases; fin.
      * intros k Hk. cases; fin.
    + set (e := if size l <? b + n then size l else b + n).
      assert (He : e = Z.min (size l) (b + n)) by (unfold e; destruct (Z.ltb_spec (size l) (b + n)); lia).
      clearbody e.
      destruct (drain_ok l b e ltac:(lia) ltac:(lia)) as (l' & vs & -> & Hc & Hv). cbn [bind fst snd].
      eexists _, _. split; [reflexivity|]. split.
      * eexists. split; [reflexivity|]. eapply is_trans; [exact Hv|]. intros k Hk. cbn beta. cases; fin.
      * eapply is_trans; [exact Hc|]. intros k Hk. cbn beta. cases; fin.
        destruct (Z.leb_spec (b + n) (size l)); [f_equal; lia|]. rewrite !get_out by lia. reflexivity.
Qed.

Lemma slice_bang2_right : forall l i n, exists l' r, slice_bang2 false l i n = Ok (l', r) /\
  s_take_out l (norm l i) n l' r.
Proof.
  intros l i n. unfold slice_bang2, guard. rewrite idx_norm.
  destruct (Z.ltb_spec (norm l i) 0) as [H|H].
  - eexists _, _. split; [reflexivity|]. unfold s_take_out, s_sub.
    destruct (Z.ltb_spec (norm l i) 0); [|lia]. split; reflexivity.
  - destruct (Z.ltb_spec n 0) as [H1|H1].
    + eexists _, _. split; [reflexivity|]. unfold s_take_out, s_sub.
      destruct (Z.ltb_spec n 0); [|lia]. rewrite !orb_true_r. split; reflexivity.
    + apply slice_inner_right; lia.
Qed.

Lemma slice_bang_range_right : forall l r,
  s_beg l r <= size l -> exists l' x, slice_bang_range false l r = Ok (l', x) /\
  s_take_out l (s_beg l r) (Z.max 0 (s_end l r - s_beg l r)) l' x.
Proof.
  intros l r Hle. nn. unfold slice_bang_range, guard.
  assert (Eb : match r_start r with None => Some 0 | Some s => get_array_index l s end
             = if s_beg l r <? 0 then None else Some (s_beg l r)).
  { unfold s_beg. destruct (r_start r); [apply idx_norm | reflexivity]. }
  rewrite Eb. destruct (Z.ltb_spec (s_beg l r) 0) as [Hb|Hb].
  - eexists _, _. split; [reflexivity|]. unfold s_take_out, s_sub.
    destruct (Z.ltb_spec (s_beg l r) 0); [|lia]. split; reflexivity.
  - assert (None0 : s_end l r <= s_beg l r ->
      s_take_out l (s_beg l r) (Z.max 0 (s_end l r - s_beg l r)) l (RA [])).
    { intros Hend. rewrite Z.max_l by lia. unfold s_take_out, s_sub.
      destruct (Z.ltb_spec (s_beg l r) 0); [lia|]. destruct (Z.ltb_spec (size l) (s_beg l r)); [lia|].
      cbn [orb]. destruct (Z.ltb_spec 0 0); [lia|]. split.
      - eexists. split; [reflexivity|]. intros k Hk. rewrite get_nil. cases; fin.
      - intros k Hk. cases; fin. }
    destruct (r_end r) as [e|] eqn:Ee.
    + rewrite idx_norm. assert (En : s_end l r = norm l e + (if r_excl r then 0 else 1)).
      { unfold s_end. rewrite Ee. destruct (r_excl r); lia. }
      destruct (Z.ltb_spec (norm l e) 0).
      * eexists _, _. split; [reflexivity|]. apply None0. destruct (r_excl r); lia.
      * destruct (Z.ltb_spec (norm l e) (s_beg l r)).
        -- eexists _, _. split; [reflexivity|]. apply None0. destruct (r_excl r); lia.
        -- replace (Z.max 0 (s_end l r - s_beg l r)) with (norm l e - s_beg l r + (if r_excl r then 0 else 1))
             by (destruct (r_excl r); lia).
           apply slice_inner_right; [lia | destruct (r_excl r); lia].
    + zs. assert (En : s_end l r = size l) by (unfold s_end; rewrite Ee; reflexivity).
      destruct (Z.ltb_spec (Z.max 0 (size l - 1)) (s_beg l r)).
      * eexists _, _. split; [reflexivity|]. apply None0. lia.
      * replace (Z.max 0 (s_end l r - s_beg l r)) with (size l - s_beg l r) by lia.
        apply slice_inner_right; lia.
Qed.

Lemma put_range_right : forall n l a v, 0 <= a -> a + Z.of_nat n <= size l ->
  exists l', put_from n l a v = Ok l' /\ size l' = size l /\
  is l' (fun k => if (a <=? k) && (k <? a + Z.of_nat n) then Some v else get l k).
Proof.
  induction n; intros l a v Ha Hn; cbn [put_from].
  - eexists. split; [reflexivity|]. split; [reflexivity|]. intros k Hk. cases; fin.
  - destruct (put_ok l a v ltac:(lia)) as (l1 & -> & Hs & Hg). cbn [bind].
    destruct (IHn l1 (a + 1) v ltac:(lia) ltac:(lia)) as (l2 & -> & Hs2 & Hg2).
    eexists. split; [reflexivity|]. split; [lia|]. eapply is_trans; [exact Hg2|]. intros k Hk. cbn beta.
    rewrite Hg by lia. cases; fin.
Qed.

(** Filling from [b] to before [e]. *)
Definition s_fill (l : list V) (b e : Z) (v : V) (l' : list V) : Prop :=
  is l' (fun k => if (b <=? k) && (k <? e) then Some v
                  else if k <? size l then get l k
                  else if k <? e then Some nil else None).

Lemma fill_right : forall l b e v, 0 <= b -> b <= e -> size l <= CAPA_MAX -> e <= FILL_MAX ->
  exists l', (l1 <- (if zlen l <? e then fill_resize nil l e else Ok l) ;; put_range l1 b e v) = Ok l' /\
  s_fill l b e v l'.
Proof.
  intros l b e v Hb He Hl Hf. nn. zs. unfold put_range.
  assert (FILL_MAX <= CAPA_MAX) by (unfold FILL_MAX, CAPA_MAX; lia).
  destruct (Z.ltb_spec (size l) e).
  - unfold fill_resize. destruct (Z.ltb_spec FILL_MAX e); [lia|].
    destruct (resize_ok l e ltac:(lia)) as (l1 & -> & Hs & Hg). cbn [bind].
    destruct (put_range_right (Z.to_nat (e - b)) l1 b v ltac:(lia) ltac:(lia)) as (l2 & -> & Hs2 & Hg2).
    eexists. split; [reflexivity|]. eapply is_trans; [exact Hg2|]. intros k Hk. cbn beta.
    rewrite Hg by lia. rewrite Z2Nat.id by lia. cases; fin.
  - cbn [bind].
    destruct (put_range_right (Z.to_nat (e - b)) l b v ltac:(lia) ltac:(lia)) as (l2 & -> & Hs2 & Hg2).
    eexists. split; [reflexivity|]. eapply is_trans; [exact Hg2|]. intros k Hk. cbn beta.
    rewrite Z2Nat.id by lia. cases; fin.
Qed.

Lemma fill_len_right : forall l v i n, size l <= CAPA_MAX -> 0 < n -> Z.max 0 (norm l i) + n <= FILL_MAX ->
  exists l', fill_len nil false l v i n = Ok l' /\
  s_fill l (Z.max 0 (norm l i)) (Z.max 0 (norm l i) + n) v l'.
Proof.
  intros l v i n Hl Hn Hf. nn. unfold fill_len, guard.
  assert (E : (if i <? 0 then Z.max 0 (zlen l + i) else i) = Z.max 0 (norm l i)).
  { unfold norm. zs. fold (size l). destruct (Z.ltb_spec i 0); lia. }
  rewrite E. destruct (Z.leb_spec n 0); [lia|]. apply fill_right; lia.
Qed.
Lemma fill_none : forall l v i n, n <= 0 -> fill_len nil false l v i n = Ok l.
Proof. intros l v i n H. unfold fill_len, guard. destruct (Z.leb_spec n 0); [reflexivity | lia]. Qed.
Lemma fill_from_right : forall l v i, exists l', fill_from false l v i = Ok l' /\
  is l' (fun k => if (Z.max 0 (norm l i) <=? k) && (k <? size l) then Some v else get l k).
Proof.
  intros l v i. nn. unfold fill_from, guard, put_range.
  assert (E : (if i <? 0 then Z.max 0 (zlen l + i) else i) = Z.max 0 (norm l i)).
  { unfold norm. zs. fold (size l). destruct (Z.ltb_spec i 0); lia. }
  rewrite E; zs.
  destruct (Z.leb_spec (size l) (Z.max 0 (norm l i))).
  - replace (Z.to_nat (size l - Z.max 0 (norm l i))) with O by lia. eexists. split; [reflexivity|].
    intros k Hk. cases; fin.
  - destruct (put_range_right (Z.to_nat (size l - Z.max 0 (norm l i))) l (Z.max 0 (norm l i)) v ltac:(lia) ltac:(lia))
      as (l2 & -> & Hs2 & Hg2).
    eexists. split; [reflexivity|]. eapply is_trans; [exact Hg2|]. intros k Hk. cbn beta.
    rewrite Z2Nat.id by lia. cases; fin.
Qed.
Lemma fill_range_right : forall l v r, size l <= CAPA_MAX -> i64o (r_end r) ->
  ~ (r_end r = Some (2 ^ 63 - 1) /\ r_excl r = false) ->
  Z.max (s_beg l r) (s_end l r) <= FILL_MAX ->
  match fill_range nil false l v r with
  | Ok l' => 0 <= s_beg l r /\
             s_fill l (s_beg l r) (if s_end l r <? s_beg l r then s_beg l r else s_end l r) v l'
  | Err e => s_beg l r < 0 /\ e = ERange
  | Panic => False
  end.
Proof.
  intros l v r Hl Ie Hx Hf. nn. unfold fill_range, guard, fill_range_indices.
  assert (Eb : (let s0 := match r_start r with None => 0 | Some s => s end in
                if s0 <? 0 then s0 + zlen l else s0) = s_beg l r).
  { unfold s_beg, norm. destruct (r_start r); reflexivity. }
  cbv zeta in Eb. cbv zeta. rewrite Eb.
  destruct (Z.ltb_spec (s_beg l r) 0); [cbn [bind]; split; [lia | reflexivity]|].
  assert (Ee : match r_end r with
               | None => zlen l
               | Some e => if r_excl r then if e <? 0 then e + zlen l else e
                           else wrap64 ((if e <? 0 then e + zlen l else e) + 1)
               end = s_end l r).
  { unfold s_end. destruct (r_end r) as [e|] eqn:E; [|reflexivity].
    change (if e <? 0 then e + zlen l else e) with (norm l e). destruct (r_excl r) eqn:X; [reflexivity|].
    cbn [i64o] in Ie. unfold i64 in Ie. unfold CAPA_MAX in Hl. apply wrap_id. unfold i64.
    assert (e <> 2 ^ 63 - 1) by (intros ->; apply Hx; split; reflexivity).
    unfold norm. fold (size l). destruct (Z.ltb_spec e 0); lia. }
  rewrite Ee. destruct (Z.ltb_spec (s_end l r) (s_beg l r)); cbn [bind fst snd].
  - destruct (fill_right l (s_beg l r) (s_beg l r) v) as (l' & E & Hs); try lia. rewrite E. split; [lia | exact Hs].
  - destruct (fill_right l (s_beg l r) (s_end l r) v) as (l' & E & Hs); try lia. rewrite E. split; [lia | exact Hs].
Qed.

(** ** retain *)
Lemma app_inv_get : forall (a : list V) x b, get (a ++ x :: b) (size a) = Some x.
Proof. intros. rewrite get_app. destruct (Z.ltb_spec (size a) (size a)); [lia|].
  replace (size a - size a) with 0 by lia. reflexivity. Qed.
Lemma tk_app : forall (a b : list V), tk (size a) (a ++ b) = a.
Proof. intros. unfold tk, size. rewrite Nat2Z.id. rewrite firstn_app. rewrite Nat.sub_diag.
  cbn [firstn]. rewrite app_nil_r. apply firstn_all. Qed.
Lemma dr_app : forall (a b : list V), dr (size a) (a ++ b) = b.
Proof. intros. unfold dr, size. rewrite Nat2Z.id. rewrite skipn_app. rewrite Nat.sub_diag.
  rewrite skipn_all. reflexivity. Qed.
Lemma put_app : forall (a : list V) x b v, put (a ++ x :: b) (size a) v = Ok (a ++ v :: b).
Proof.
  intros a x b v. nn. unfold put. zs. rewrite size_app.
  assert (size (x :: b) = 1 + size b) by (unfold size; cbn [length]; lia).
  destruct (Z.ltb_spec (size a) 0); [lia|].
  destruct (Z.leb_spec (size a + size (x :: b)) (size a)); [lia|]. cbn [orb]. rewrite tk_app.
  replace (a ++ x :: b) with ((a ++ [x]) ++ b) by (rewrite <- app_assoc; reflexivity).
  replace (size a + 1) with (size (a ++ [x])) by (rewrite size_app; reflexivity).
  rewrite dr_app. reflexivity.
Qed.
Lemma swap_app : forall (a : list V) x b y c,
  swap (a ++ x :: b ++ y :: c) (size a) (size a + 1 + size b) = Ok (a ++ y :: b ++ x :: c).
Proof.
  intros a x b y c. nn. unfold swap. rewrite !get_at by lia. rewrite app_inv_get.
  replace (a ++ x :: b ++ y :: c) with ((a ++ x :: b) ++ y :: c) by (rewrite <- app_assoc; reflexivity).
  replace (size a + 1 + size b) with (size (a ++ x :: b)) by (rewrite size_app; unfold size; cbn [length]; lia).
  rewrite app_inv_get. rewrite <- app_assoc. cbn [app]. rewrite put_app. cbn [bind].
  replace (a ++ y :: b ++ y :: c) with ((a ++ y :: b) ++ y :: c) by (rewrite <- app_assoc; reflexivity).
  replace (size (a ++ x :: b)) with (size (a ++ y :: b)) by (rewrite !size_app; reflexivity).
  rewrite put_app. rewrite <- app_assoc. reflexivity.
Qed.

Lemma retain_inv : forall keep rest done gone removed,
  Forall (fun v => keep v = false) gone ->
  exists l' rem, retain_loop (length rest) keep (done ++ gone ++ rest) (size done + size gone) (size gone) removed
    = Ok (l', rem) /\
  l' = done ++ filter keep rest /\
  rem = match last_such (fun v => negb (keep v)) rest with Some v => Some v | None => removed end.
Proof.
  intros keep. induction rest as [|v rest IH]; intros done gone removed Hg; cbn [length retain_loop].
  - nn. zs. rewrite !app_nil_r. destruct (Z.ltb_spec 0 (size gone)).
    + eexists _, _. split; [reflexivity|]. split; [|reflexivity]. unfold truncate. rewrite size_app.
      replace (size done + size gone - size gone) with (size done) by lia. rewrite tk_app.
      cbn [filter]. rewrite ?app_nil_r. reflexivity.
    + eexists _, _. split; [reflexivity|]. split; [|reflexivity].
      destruct gone; [cbn [filter]; rewrite ?app_nil_r; reflexivity|]. unfold size in *. cbn [length] in *. lia.
  - nn. rewrite get_at by lia.
    replace (get (done ++ gone ++ v :: rest) (size done + size gone)) with (Some v).
    2:{ rewrite app_assoc, <- size_app. rewrite app_inv_get. reflexivity. }
    cbn [filter]. destruct (keep v) eqn:K; cbn [negb].
    + assert (EL : last_such (fun v => negb (keep v)) (v :: rest) = last_such (fun v => negb (keep v)) rest).
      { unfold last_such. cbn [rev].
        assert (FA : forall a b, find (fun v => negb (keep v)) (a ++ b) =
          match find (fun v => negb (keep v)) a with Some x => Some x | None => find (fun v => negb (keep v)) b end).
        { induction a as [|y a IHa]; intros b; [reflexivity|]. cbn [app find]. destruct (negb (keep y)); [reflexivity | apply IHa]. }
        rewrite FA. cbn [find]. rewrite K. cbn [negb]. destruct (find _ (rev rest)); reflexivity. }
      rewrite EL.
      destruct (Z.ltb_spec 0 (size gone)) as [Hp|Hp].
      * destruct gone as [|g gone0] eqn:Eg; [unfold size in Hp; cbn in Hp; lia|].
        assert (Hsz : size (g :: gone0) = 1 + size gone0) by (unfold size; cbn [length]; lia).
        replace (size done + size (g :: gone0) - size (g :: gone0)) with (size done) by lia.
        replace (size done + size (g :: gone0)) with (size done + 1 + size gone0) by lia.
        cbn [app]. rewrite swap_app. cbn [bind].
        specialize (IH (done ++ [v]) (gone0 ++ [g]) removed).
        replace ((done ++ [v]) ++ (gone0 ++ [g]) ++ rest) with (done ++ v :: gone0 ++ g :: rest) in IH
          by (rewrite <- !app_assoc; reflexivity).
        rewrite !size_app, !size_one in IH.
        replace (size done + 1 + size gone0 + 1) with (size done + 1 + (size gone0 + 1)) by lia.
        replace (size (g :: gone0)) with (size gone0 + 1) by lia.
        destruct IH as (l' & rem & E1 & E2 & E3).
        { inversion Hg; subst. apply Forall_app. split; [assumption | repeat constructor; assumption]. }
        exists l', rem. split; [exact E1|]. split; [rewrite E2, <- app_assoc; reflexivity | exact E3].
      * assert (gone = []) as -> by (destruct gone; [reflexivity | unfold size in Hp; cbn [length] in Hp; lia]).
        specialize (IH (done ++ [v]) [] removed Hg). rewrite size_nil in *. rewrite size_app, size_one in IH.
        cbn [app] in *. rewrite <- app_assoc in IH. cbn [app] in IH.
        replace (size done + 0 + 1) with (size done + 1 + 0) by lia.
        destruct IH as (l' & rem & E1 & E2 & E3).
        exists l', rem. split; [exact E1|]. split; [rewrite E2, <- app_assoc; reflexivity | exact E3].
    + specialize (IH done (gone ++ [v]) (Some v)).
      rewrite size_app, size_one in IH. rewrite <- app_assoc in IH. cbn [app] in IH.
      replace (size done + size gone + 1) with (size done + (size gone + 1)) by lia.
      destruct IH as (l' & rem & E1 & E2 & E3).
      { apply Forall_app. split; [assumption | repeat constructor; assumption]. }
      exists l', rem. split; [exact E1|]. split; [exact E2|]. rewrite E3.
      unfold last_such. cbn [rev].
      assert (FA : forall a b, find (fun v => negb (keep v)) (a ++ b) =
          match find (fun v => negb (keep v)) a with Some x => Some x | None => find (fun v => negb (keep v)) b end).
      { induction a as [|y a IHa]; intros b; [reflexivity|]. cbn [app find]. destruct (negb (keep y)); [reflexivity | apply IHa]. }
      rewrite FA. cbn [find]. rewrite K. cbn [negb]. destruct (find _ (rev rest)); reflexivity.
Qed.

Lemma retain_right : forall keep l,
  retain keep l = Ok (filter keep l, last_such (fun v => negb (keep v)) l).
Proof.
  intros keep l. unfold retain. destruct (retain_inv keep l [] [] None (Forall_nil _)) as (l' & rem & E1 & E2 & E3).
  cbn [app] in E1. rewrite !size_nil in E1. rewrite Z.add_0_l in E1. rewrite E1, E2, E3. cbn [app].
  destruct (last_such _ l); reflexivity.
Qed.

Lemma delete_right : forall eq l,
  delete false eq l = Ok (filter (fun v => negb (eq v)) l, ov (last_such eq l)).
Proof.
  intros eq l. unfold delete, guard. destruct (existsb eq l) eqn:E.
  - rewrite retain_right. cbn [bind fst snd]. f_equal. f_equal. f_equal.
    unfold last_such. assert (X : forall a, find (fun v => negb (negb (eq v))) a = find eq a).
    { induction a as [|x a IH]; [reflexivity|]. cbn [find]. rewrite negb_involutive. destruct (eq x); [reflexivity | exact IH]. }
    apply X.
  - assert (F : forall v, In v l -> eq v = false).
    { intros v H. destruct (eq v) eqn:X; [|reflexivity]. assert (existsb eq l = true) by (apply existsb_exists; eauto). congruence. }
    f_equal. f_equal.
    + assert (G : forall a, (forall v, In v a -> eq v = false) -> filter (fun v => negb (eq v)) a = a).
      { induction a as [|x a IH]; intros Ha; [reflexivity|]. cbn [filter]. rewrite (Ha x (or_introl eq_refl)). cbn [negb].
        f_equal. apply IH. intros v H. apply Ha. right. exact H. }
      symmetry. apply G. exact F.
    + unfold last_such. destruct (find eq (rev l)) eqn:X; [|reflexivity].
      apply find_some in X. destruct X as [X Y]. apply in_rev in X. rewrite (F _ X) in Y. discriminate.
Qed.
Lemma compact_right : forall p l, compact p l = Ok (filter (fun v => negb (p v)) l).
Proof. intros p l. unfold compact. rewrite retain_right. reflexivity. Qed.
Lemma compact_bang_right : forall p l, compact_bang false p l =
  Ok (filter (fun v => negb (p v)) l, if existsb p l then RSelf else RNil).
Proof.
  intros p l. unfold compact_bang, guard. rewrite retain_right. cbn [bind fst snd]. f_equal. f_equal.
  unfold last_such. destruct (find (fun v => negb (negb (p v))) (rev l)) eqn:X.
  - apply find_some in X. destruct X as [X Y]. rewrite negb_involutive in Y. apply in_rev in X.
    assert (existsb p l = true) as -> by (apply existsb_exists; eauto). reflexivity.
  - destruct (existsb p l) eqn:E; [|reflexivity]. apply existsb_exists in E. destruct E as (v & H & Hv).
    apply in_rev in H. pose proof (find_none _ _ X v H) as N. cbn beta in N. rewrite Hv in N. discriminate.
Qed.

(** ** transpose *)
Lemma trans_row_ok : forall (rows : list (list V)) len i, (forall r, In r rows -> size r = len) -> 0 <= i < len ->
  exists t, trans_row rows len i = Ok t /\ length t = length rows /\
  forall k row, nth_error rows k = Some row -> nth_error t k = nth_error row (Z.to_nat i).
Proof.
  induction rows as [|r rows IH]; intros len i H Hi; cbn [trans_row].
  - eexists. split; [reflexivity|]. split; [reflexivity|]. intros k row E. destruct k; discriminate.
  - zs; rewrite (H r (or_introl eq_refl)). rewrite Z.eqb_refl. cbn [negb].
    rewrite get_at by lia. destruct (get_in r i) as (v & Ev); [rewrite (H r (or_introl eq_refl)); lia|]. rewrite Ev.
    destruct (IH len i) as (t & -> & Hl & Ht); [intros; apply H; right; assumption | lia |]. cbn [bind].
    eexists. split; [reflexivity|]. split; [cbn [length]; lia|]. intros k row E. destruct k.
    + cbn in E. injection E as <-. cbn [nth_error]. unfold get in Ev. destruct (Z.ltb_spec i 0); [lia|]. congruence.
    + cbn [nth_error] in *. apply Ht. exact E.
Qed.
Lemma trans_from_ok : forall n (rows : list (list V)) len i, (forall r, In r rows -> size r = len) -> 0 <= i ->
  i + Z.of_nat n <= len -> exists ts, trans_from n rows len i = Ok ts /\ length ts = n /\
  forall j col, nth_error ts j = Some col -> length col = length rows /\
    forall k row, nth_error rows k = Some row -> nth_error col k = nth_error row (Z.to_nat i + j).
Proof.
  induction n; intros rows len i H Hi Hn; cbn [trans_from].
  - eexists. split; [reflexivity|]. split; [reflexivity|]. intros j col E. destruct j; discriminate.
  - destruct (trans_row_ok rows len i H ltac:(lia)) as (t & -> & Hl & Ht). cbn [bind].
    destruct (IHn rows len (i + 1) H ltac:(lia) ltac:(lia)) as (ts & -> & Hls & Hts). cbn [bind].
    eexists. split; [reflexivity|]. split; [cbn [length]; lia|]. intros j col E. destruct j.
    + cbn in E. injection E as <-. split; [exact Hl|]. intros k row Er. rewrite Nat.add_0_r. apply Ht. exact Er.
    + cbn [nth_error] in E. destruct (Hts j col E) as [H1 H2]. split; [exact H1|]. intros k row Er.
      rewrite (H2 k row Er). f_equal. lia.
Qed.
Lemma trans_bad : forall n (rows : list (list V)) len i, (exists r, In r rows /\ size r <> len) -> (0 < n)%nat ->
  0 <= i < len -> trans_from n rows len i = Err EIndex.
Proof.
  intros n rows len i Hr Hn Hi. destruct n; [lia|]. cbn [trans_from].
  assert (E : trans_row rows len i = Err EIndex); [|rewrite E; reflexivity].
  destruct Hr as (r & Hin & Hne). induction rows as [|r0 rows IH]; [destruct Hin|]. cbn [trans_row].
  zs. destruct (Z.eqb_spec (size r0) len); cbn [negb]; [|reflexivity].
  rewrite get_at by lia. destruct (get_in r0 i ltac:(lia)) as (v & ->).
  rewrite IH; [reflexivity|]. destruct Hin as [->|Hin]; [contradiction | exact Hin].
Qed.

Lemma transpose_right : forall (rows : list (list V)) r0 rest, rows = r0 :: rest ->
  (r0 <> [] \/ forall r, In r rows -> r = []) ->
  match transpose rows with
  | Ok cols => (forall r, In r rows -> length r = length r0) /\ length cols = length r0 /\
               s_transpose rows cols /\ (forall c, In c cols -> length c = length rows)
  | Err e => (exists r, In r rows /\ length r <> length r0) /\ e = EIndex
  | Panic => False
  end.
Proof.
  intros rows r0 rest E Hc. subst rows. cbn [transpose].
  assert (D : (forall r, In r (r0 :: rest) -> size r = size r0) \/ exists r, In r (r0 :: rest) /\ size r <> size r0).
  { generalize (r0 :: rest). induction l as [|x l IH]; [left; intros r []|].
    destruct (Z.eq_dec (size x) (size r0)); [|right; exists x; split; [left; reflexivity | assumption]].
    destruct IH as [IH|(r & H & H1)]; [left; intros r [<-|H]; auto | right; exists r; split; [right; assumption | assumption]]. }
  zs. destruct D as [D|(r & H & H1)].
  - destruct (trans_from_ok (length r0) (r0 :: rest) (size r0) 0 D ltac:(lia) ltac:(unfold size; lia)) as (ts & -> & Hl & Ht).
    split; [intros r H; specialize (D r H); unfold size in D; lia|]. split; [exact Hl|]. split.
    + intros i j row Er col Ec. destruct (Ht j col Ec) as [_ H2]. apply (H2 i row Er).
    + intros c Hin. destruct (In_nth_error _ _ Hin) as (j & Ej). apply (Ht j c Ej).
  - assert (r0 <> []).
    { destruct Hc as [Hc|Hc]; [exact Hc|]. rewrite (Hc r H) in H1. rewrite (Hc r0 (or_introl eq_refl)) in H1. congruence. }
    assert (0 < size r0) by (destruct r0; [congruence | unfold size; cbn [length]; lia]).
    rewrite trans_bad; [| exists r; split; assumption | unfold size in *; lia | lia].
    split; [|reflexivity]. exists r. split; [exact H|]. unfold size in H1. lia.
Qed.

(** ** product *)
Lemma flat_map_app' : forall {A B} (f : A -> list B) a b, flat_map f (a ++ b) = flat_map f a ++ flat_map f b.
Proof. induction a; intros b; [reflexivity|]. cbn [app flat_map]. rewrite IHa. apply app_assoc. Qed.

Lemma cart_len : forall (ls : list (list V)), Z.of_nat (length (cart ls)) = fold_right (fun a p => size a * p) 1 ls.
Proof.
  induction ls as [|l ls IH]; [reflexivity|]. cbn [cart fold_right]. rewrite <- IH. clear.
  unfold size. generalize (cart ls). intros c. induction l as [|v l IHl]; [reflexivity|].
  cbn [flat_map length]. rewrite app_length, map_length. lia.
Qed.
Lemma dims_fold : forall ls p, fold_left (fun p (a : list V) => p * zlen a) ls p = p * fold_right (fun a p => size a * p) 1 ls.
Proof.
  induction ls as [|l ls IH]; intros p; cbn [fold_left fold_right]; [lia|]. rewrite IH; zs. lia.
Qed.

Lemma nth_flat_uniform : forall {A B} (f : A -> list B) (l : list A) (m k : nat) x,
  (0 < m)%nat -> (forall a, In a l -> length (f a) = m) -> (k < length l * m)%nat ->
  nth_error l (k / m) = Some x -> nth_error (flat_map f l) k = nth_error (f x) (k mod m).
Proof.
  induction l as [|a l IH]; intros m k x Hm Hf Hk Hx; cbn [length flat_map] in *; [lia|].
  destruct (Nat.lt_ge_cases k m) as [H|H].
  - rewrite nth_error_app1 by (rewrite Hf by (left; reflexivity); lia).
    rewrite Nat.div_small in Hx by lia. injection Hx as ->. rewrite Nat.mod_small by lia. reflexivity.
  - rewrite nth_error_app2 by (rewrite Hf by (left; reflexivity); lia). rewrite Hf by (left; reflexivity).
    replace k with ((k - m) + 1 * m)%nat in Hx by lia. rewrite Nat.div_add in Hx by lia.
    rewrite Nat.add_1_r in Hx. cbn [nth_error] in Hx.
    rewrite (IH m (k - m)%nat x Hm); [| intros; apply Hf; right; assumption | lia | exact Hx].
    f_equal. replace k with ((k - m) + 1 * m)%nat at 2 by lia. rewrite Nat.mod_add by lia. reflexivity.
Qed.

End P.
