(** Proofs about the binding of positional arguments. *)

From Coq Require Import ZArith List Bool Lia.
From Verif Require Import ArgModel ArgSpec.
Import ListNotations.

Local Open Scope nat_scope.

(** ** Frames *)

Lemma set_at_nth : forall f i c f',
  set_at f i c = Some f' ->
  length f' = length f /\
  forall j, nth_error f' j = if j =? i then Some c else nth_error f j.
Proof.
  induction f as [|x f IH]; intros i c f' H; destruct i; cbn in H; try discriminate.
  - injection H as <-. split; [reflexivity|]. intros [|j]; reflexivity.
  - destruct (set_at f i c) as [g|] eqn:E; [|discriminate]. injection H as <-.
    apply IH in E as [L N]. split; [cbn; lia|].
    intros [|j]; [reflexivity|]. cbn [nth_error Nat.eqb]. apply N.
Qed.

Lemma set_at_some : forall f i c, i < length f -> exists f', set_at f i c = Some f'.
Proof.
  induction f as [|x f IH]; intros i c H; cbn in H; [lia|].
  destruct i; cbn; [eauto|].
  destruct (IH i c) as [g E]; [lia|]. rewrite E. cbn. eauto.
Qed.

Lemma put_ok : forall f i c, i < length f ->
  exists f', put f i c = Ok f' /\ length f' = length f /\
  forall j, nth_error f' j = if j =? i then Some c else nth_error f j.
Proof.
  intros f i c H. unfold put. destruct (set_at_some f i c H) as [g E]. rewrite E.
  exists g. split; [reflexivity|]. now apply set_at_nth.
Qed.

Definition within (j s e : nat) : bool := (s <=? j) && (j <? e).

Lemma put_range_ok : forall n f s g,
  s + n <= length f -> (forall j, s <= j < s + n -> exists c, g j = Some c) ->
  exists f', put_range f s n g = Ok f' /\ length f' = length f /\
  forall j, nth_error f' j = if within j s (s + n) then g j else nth_error f j.
Proof.
  induction n as [|n IH]; intros f s g L G.
  - exists f. cbn. split; [reflexivity|]. split; [reflexivity|]. intros j.
    unfold within. replace (s + 0) with s by lia.
    destruct (s <=? j) eqn:A, (j <? s) eqn:B; try reflexivity.
    apply Nat.leb_le in A. apply Nat.ltb_lt in B. lia.
  - cbn [put_range]. destruct (G s) as [c Ec]; [lia|]. rewrite Ec.
    destruct (put_ok f s c) as (f1 & E1 & L1 & N1); [lia|]. rewrite E1. cbn [bind].
    destruct (IH f1 (S s) g) as (f2 & E2 & L2 & N2); [lia| |].
    + intros j Hj. apply G. lia.
    + exists f2. split; [exact E2|]. split; [lia|]. intros j. rewrite N2, N1.
      unfold within.
      destruct (Nat.eqb_spec j s) as [->|D].
      * replace (S s <=? s) with false by (symmetry; apply Nat.leb_gt; lia).
        replace (s <=? s) with true by (symmetry; apply Nat.leb_le; lia).
        replace (s <? s + S n) with true by (symmetry; apply Nat.ltb_lt; lia).
        cbn. now rewrite Ec.
      * replace (S s + n) with (s + S n) by lia.
        destruct (S s <=? j) eqn:A.
        -- apply Nat.leb_le in A. now replace (s <=? j) with true by (symmetry; apply Nat.leb_le; lia).
        -- apply Nat.leb_gt in A. now replace (s <=? j) with false by (symmetry; apply Nat.leb_gt; lia).
Qed.

Lemma fill_ok : forall f s e c, s <= e <= length f ->
  exists f', fill f s e c = Ok f' /\ length f' = length f /\
  forall j, nth_error f' j = if within j s e then Some c else nth_error f j.
Proof.
  intros f s e c H. unfold fill.
  replace (e <? s) with false by (symmetry; apply Nat.ltb_ge; lia).
  destruct (put_range_ok (e - s) f s (fun _ => Some c)) as (f' & E & L & N); [lia|eauto|].
  exists f'. split; [exact E|]. split; [exact L|]. intros j. rewrite N.
  now replace (s + (e - s)) with e by lia.
Qed.

(** ** The argument area *)

Definition src_of (upward : bool) (l : list value) : memory := if upward then up l else down l.

Lemma read_src : forall u l i, read (src_of u l) u i = nth_error l i.
Proof.
  intros [|] l i; unfold read, src_of, up, down.
  - replace (Z.of_nat i <? 0)%Z with false by (symmetry; apply Z.ltb_ge; lia).
    now rewrite Nat2Z.id.
  - replace (0 <? - Z.of_nat i)%Z with false by (symmetry; apply Z.ltb_ge; lia).
    now rewrite Z.opp_involutive, Nat2Z.id.
Qed.

Lemma read_down : forall l i, read (down l) false i = nth_error l i.
Proof. exact (read_src false). Qed.

Definition slice (l : list value) (s e : nat) : list value := firstn (e - s) (skipn s l).

Lemma slice_step : forall l s e, s < e -> e <= length l ->
  exists v, nth_error l s = Some v /\ slice l s e = v :: slice l (S s) e.
Proof.
  intros l s e H L. unfold slice. destruct (nth_error l s) as [v|] eqn:E.
  - exists v. split; [reflexivity|].
    replace (e - s) with (S (e - S s)) by lia.
    assert (K : skipn s l = v :: skipn (S s) l).
    { clear -E. revert l E. induction s as [|s IH]; intros [|x l] E; cbn in E; try discriminate.
      - now injection E as ->.
      - cbn [skipn]. rewrite (IH l E). reflexivity. }
    rewrite K. reflexivity.
  - apply nth_error_None in E. lia.
Qed.

Lemma slice_nil : forall l s e, e <= s -> slice l s e = [].
Proof. intros l s e H. unfold slice. now replace (e - s) with 0 by lia. Qed.

Lemma read_seq_up : forall n l s, s + n <= length l ->
  read_seq (up l) (Z.of_nat s) n = Some (slice l s (s + n)).
Proof.
  induction n as [|n IH]; intros l s H.
  - cbn. now rewrite slice_nil by lia.
  - cbn [read_seq]. change (up l (Z.of_nat s)) with (read (src_of true l) true s).
    rewrite read_src.
    replace (Z.of_nat s + 1)%Z with (Z.of_nat (S s)) by lia. rewrite IH by lia.
    destruct (slice_step l s (s + S n)) as (v & E & S1); [lia|lia|].
    rewrite E, S1. now replace (S s + n) with (s + S n) by lia.
Qed.

Lemma slice_last : forall l s e, s <= e -> e < length l ->
  exists v, nth_error l e = Some v /\ slice l s (S e) = slice l s e ++ [v].
Proof.
  intros l s e H L. destruct (nth_error l e) as [v|] eqn:E.
  2:{ apply nth_error_None in E. lia. }
  exists v. split; [reflexivity|]. remember (e - s) as n.
  revert s H Heqn. induction n as [|n IH]; intros s H Hn.
  - assert (s = e) by lia. subst s. rewrite (slice_nil l e e) by lia.
    destruct (slice_step l e (S e)) as (w & E' & S'); [lia|lia|].
    rewrite S', slice_nil by lia. cbn. congruence.
  - destruct (slice_step l s (S e)) as (w & E' & S'); [lia|lia|].
    destruct (slice_step l s e) as (w' & E'' & S''); [lia|lia|].
    assert (w = w') by congruence. subst w'.
    rewrite S', S'', (IH (S s)) by lia. reflexivity.
Qed.

Lemma read_seq_down : forall n l s, s + n <= length l ->
  read_seq (down l) (- Z.of_nat (s + n) + 1)%Z n = Some (rev (slice l s (s + n))).
Proof.
  induction n as [|n IH]; intros l s H.
  - cbn. now rewrite slice_nil by lia.
  - cbn [read_seq].
    replace (- Z.of_nat (s + S n) + 1)%Z with (- Z.of_nat (s + n))%Z by lia.
    change (down l (- Z.of_nat (s + n))%Z) with (read (src_of false l) false (s + n)).
    rewrite read_src, IH by lia.
    destruct (slice_last l s (s + n)) as (v & E & S1); [lia|lia|].
    rewrite E. replace (s + S n) with (S (s + n)) by lia.
    now rewrite S1, rev_app_distr.
Qed.

Lemma read_rest_ok : forall u l s e, s <= e <= length l ->
  read_rest (src_of u l) s e u = Some (slice l s e).
Proof.
  intros u l s e H. unfold read_rest. destruct u; unfold src_of.
  - rewrite read_seq_up by lia. now replace (s + (e - s)) with e by lia.
  - replace (Z.of_nat e) with (Z.of_nat (s + (e - s))) by lia.
    rewrite read_seq_down by lia. cbn. rewrite rev_involutive.
    now replace (s + (e - s)) with e by lia.
Qed.

Lemma memcpy_ok : forall u f ofs l s e, s <= e <= length l -> ofs + (e - s) <= length f ->
  exists f', memcpy f ofs (src_of u l) s e u = Ok f' /\ length f' = length f /\
  forall j, nth_error f' j =
    if within j ofs (ofs + (e - s)) then option_map Val (nth_error l (s + (j - ofs)))
    else nth_error f j.
Proof.
  intros u f ofs l s e H L. unfold memcpy.
  destruct (put_range_ok (e - s) f ofs
    (fun j => option_map Val (read (src_of u l) u (s + (j - ofs))))) as (f' & E & L' & N).
  - exact L.
  - intros j Hj. rewrite read_src. destruct (nth_error l (s + (j - ofs))) as [v|] eqn:X; [cbn; eauto|].
    apply nth_error_None in X. lia.
  - exists f'. split; [exact E|]. split; [exact L'|]. intros j. rewrite N, read_src. reflexivity.
Qed.

(** ** The layout, slot by slot *)

Lemma nth_slice : forall l s e j, e <= length l ->
  nth_error (slice l s e) j = if j <? e - s then nth_error l (s + j) else None.
Proof.
  intros l s e j L. unfold slice.
  destruct (j <? e - s) eqn:E.
  - apply Nat.ltb_lt in E.
    rewrite <- (firstn_skipn (s) l) at 2.
    assert (K : forall (k m : nat) (x : list value), m < k -> nth_error (firstn k x) m = nth_error x m).
    { induction k as [|k IH]; intros m x H; [lia|]. destruct x; [now destruct m|].
      destruct m; [reflexivity|]. cbn. apply IH. lia. }
    rewrite K by lia.
    rewrite nth_error_app2; rewrite firstn_length, Nat.min_l by lia; [|lia].
    f_equal. lia.
  - apply Nat.ltb_ge in E. apply nth_error_None. rewrite firstn_length. lia.
Qed.

Lemma slice_length : forall l s e, e <= length l -> length (slice l s e) = e - s.
Proof. intros l s e H. unfold slice. rewrite firstn_length, skipn_length. lia. Qed.

Lemma nth_app : forall {A} (a b : list A) j,
  nth_error (a ++ b) j = if j <? length a then nth_error a j else nth_error b (j - length a).
Proof.
  intros A a b j. destruct (j <? length a) eqn:E.
  - apply nth_error_app1. now apply Nat.ltb_lt.
  - apply nth_error_app2. now apply Nat.ltb_ge.
Qed.

Lemma nth_map : forall {A B} (g : A -> B) l j, nth_error (map g l) j = option_map g (nth_error l j).
Proof. intros A B g l. induction l as [|x l IH]; intros [|j]; cbn; auto. Qed.

Lemma nth_repeat : forall {A} (c : A) n j, nth_error (repeat c n) j = if j <? n then Some c else None.
Proof.
  intros A c n. induction n as [|n IH]; intros [|j]; cbn; try reflexivity. apply IH.
Qed.

Lemma nth_skip : forall {A} (l : list A) n j, nth_error (skipn n l) j = nth_error l (n + j).
Proof. intros A l n. revert l. induction n as [|n IH]; intros [|x l] j; cbn; auto. now destruct j. Qed.

Lemma ext : forall {A} (a b : list A), (forall j, nth_error a j = nth_error b j) -> a = b.
Proof.
  induction a as [|x a IH]; intros [|y b] H.
  - reflexivity.
  - specialize (H 0); discriminate.
  - specialize (H 0); discriminate.
  - f_equal; [specialize (H 0); now injection H|]. apply IH. intros j. exact (H (S j)).
Qed.

(** ** Deciding comparisons *)

Ltac cmp :=
  repeat match goal with
  | |- context [?a <=? ?b] => destruct (Nat.leb_spec a b)
  | |- context [?a <? ?b] => destruct (Nat.ltb_spec a b)
  | |- context [?a =? ?b] => destruct (Nat.eqb_spec a b)
  end; cbn [andb orb negb option_map].

Ltac cmp1 :=
  match goal with
  | |- context [?a <=? ?b] => destruct (Nat.leb_spec a b); try (exfalso; lia)
  | |- context [?a <? ?b] => destruct (Nat.ltb_spec a b); try (exfalso; lia)
  | |- context [?a =? ?b] => destruct (Nat.eqb_spec a b); try (exfalso; lia)
  end; cbn [andb orb negb option_map].

Definition given (p : params) (n : nat) : nat := Nat.min (p_opt p) (n - min_args p).

Definition cutA (p : params) (l : list value) := slice l 0 (p_req p).
Definition cutB (p : params) (l : list value) := slice l (p_req p) (p_req p + given p (length l)).
Definition cutC (p : params) (l : list value) :=
  slice l (p_req p + given p (length l)) (length l - p_post p).
Definition cutD (p : params) (l : list value) := slice l (length l - p_post p) (length l).

Lemma slice_app : forall l a b c, a <= b -> b <= c -> c <= length l ->
  slice l a b ++ slice l b c = slice l a c.
Proof.
  intros l a b c H1 H2 H3. apply ext. intros j. rewrite nth_app, slice_length, !nth_slice by lia.
  cmp; try lia; try reflexivity. f_equal; lia.
Qed.

Lemma slice_all : forall l, slice l 0 (length l) = l.
Proof. intros l. unfold slice. rewrite Nat.sub_0_r. cbn. apply firstn_all. Qed.

Lemma cut_canonical : forall p l, min_args p <= length l ->
  (length l <= max_args p \/ is_rest p = true) ->
  cut p l (cutA p l) (cutB p l) (cutC p l) (cutD p l).
Proof.
  intros p l H M. unfold cut, cutA, cutB, cutC, cutD. unfold given, min_args, max_args in *.
  repeat split; try (rewrite slice_length by lia; lia).
  - rewrite !slice_app by lia. rewrite slice_all. reflexivity.
  - rewrite slice_length by lia. destruct (Nat.le_gt_cases (length l) (p_req p + p_opt p + p_post p)).
    + exfalso. apply H0. apply slice_nil. lia.
    + lia.
  - destruct M as [M|M].
    + exfalso. apply H0. apply slice_nil. lia.
    + unfold is_rest in M. now destruct (p_rest p).
Qed.

Lemma app_same : forall {A} (a b c d : list A), length a = length c -> a ++ b = c ++ d -> a = c /\ b = d.
Proof.
  induction a as [|x a IH]; intros b [|y c] d L E; cbn in *; try discriminate; [auto|].
  injection E as -> E. apply IH in E as [-> ->]; [auto|lia].
Qed.

(** A list has at most one cut. *)
Lemma cut_unique : forall p l A B C D A' B' C' D',
  cut p l A B C D -> cut p l A' B' C' D' -> A = A' /\ B = B' /\ C = C' /\ D = D'.
Proof.
  intros p l A B C D A' B' C' D' (E & LA & LD & LB & HC) (E' & LA' & LD' & LB' & HC').
  rewrite E in E'. assert (LL := f_equal (@length value) E'). rewrite !app_length in LL.
  apply app_same in E' as [-> E']; [|lia].
  assert (length B = length B').
  { destruct C as [|c C], C' as [|c' C'].
    - cbn in LL. lia.
    - destruct HC' as [X _]; [discriminate|]. cbn in LL. lia.
    - destruct HC as [X _]; [discriminate|]. cbn in LL. lia.
    - destruct HC' as [X _]; [discriminate|]. destruct HC as [Y _]; [discriminate|]. lia. }
  apply app_same in E' as [-> E']; [|lia].
  apply app_same in E' as [-> ->]; [auto|lia].
Qed.

Lemma positional_fun : forall p l cs cs', positional p l cs -> positional p l cs' -> cs = cs'.
Proof.
  intros p l cs cs' H H'. inversion H; subst; inversion H'; subst; try congruence.
  - destruct (cut_unique _ _ _ _ _ _ _ _ _ _ H2 H5) as (-> & -> & -> & ->). reflexivity.
  - destruct (cut_unique _ _ _ _ _ _ _ _ _ _ H1 H3) as (-> & -> & -> & ->). reflexivity.
Qed.

Lemma layout_length : forall p l A B C D, cut p l A B C D -> length (layout p A B C D) = total_pos p.
Proof.
  intros p l A B C D (E & LA & LD & LB & HC). unfold layout, total_pos, max_args, is_rest.
  rewrite !app_length, !map_length, repeat_length. destruct (p_rest p); cbn; lia.
Qed.

Lemma positional_length : forall p l cs, positional p l cs -> length cs = total_pos p.
Proof. intros p l cs H. inversion H; subst; eapply layout_length; eassumption. Qed.

Lemma layout_nth : forall p l j, min_args p <= length l ->
  (length l <= max_args p \/ is_rest p = true) ->
  nth_error (layout p (cutA p l) (cutB p l) (cutC p l) (cutD p l)) j =
    if j <? p_req p + given p (length l) then option_map Val (nth_error l j)
    else if j <? reqopt p then Some Unset
    else if j <? reqopt p + (if is_rest p then 1 else 0) then Some (Val (VArr (cutC p l)))
    else if j <? total_pos p then
      option_map Val (nth_error l (length l - p_post p + (j - (reqopt p + (if is_rest p then 1 else 0)))))
    else None.
Proof.
  intros p l j H M. unfold layout.
  assert (G : given p (length l) <= p_opt p) by (unfold given; lia).
  assert (G2 : p_req p + given p (length l) <= length l - p_post p)
    by (unfold given, min_args in *; lia).
  assert (X : match p_rest p with Some _ => [Val (VArr (cutC p l))] | None => [] end
              = repeat (Val (VArr (cutC p l))) (if is_rest p then 1 else 0)).
  { unfold is_rest. now destruct (p_rest p). }
  rewrite X. clear X. set (r := if is_rest p then 1 else 0).
  assert (R : r <= 1) by (subst r; destruct (is_rest p); lia).
  generalize (cutC p l). intros C. unfold cutA, cutB, cutD, total_pos, max_args, reqopt.
  unfold min_args in *. fold r. clearbody r. clear M. revert G G2. generalize (given p (length l)).
  intros g G G2.
  rewrite !nth_app, !map_length, !slice_length, !repeat_length by lia.
  rewrite !nth_map, !nth_repeat, !nth_slice by lia.
  cmp; try lia; try reflexivity; do 2 f_equal; lia.
Qed.

(** ** Filling the positional slots *)

Lemma loosen_nth : forall p l j,
  nth_error (loosen p l) j =
    if negb (is_rest p) && (max_args p <=? j) then None
    else if j <? length l then nth_error l j
    else if j <? min_args p then Some VNil else None.
Proof.
  intros p l j. unfold loosen.
  assert (F : forall (k : nat) (x : list value) m,
    nth_error (firstn k x) m = if k <=? m then None else nth_error x m).
  { induction k as [|k IH]; intros x m; [now destruct m|]. destruct x, m; cbn; auto.
    now destruct (k <=? m). }
  assert (E : nth_error (l ++ repeat VNil (min_args p - length l)) j =
    if j <? length l then nth_error l j else if j <? min_args p then Some VNil else None).
  { rewrite nth_app, nth_repeat. cmp; try lia; reflexivity. }
  destruct (is_rest p); cbn [negb andb]; [exact E|]. rewrite F, E. reflexivity.
Qed.

Lemma loosen_length : forall p l,
  length (loosen p l) =
    if is_rest p then Nat.max (length l) (min_args p)
    else Nat.min (max_args p) (Nat.max (length l) (min_args p)).
Proof.
  intros p l. unfold loosen. destruct (is_rest p).
  - rewrite app_length, repeat_length. lia.
  - rewrite firstn_length, app_length, repeat_length. lia.
Qed.

Lemma loosen_same : forall p l, min_args p <= length l ->
  (length l <= max_args p \/ is_rest p = true) -> loosen p l = l.
Proof.
  intros p l H M. apply ext. intros j. rewrite loosen_nth.
  assert (Z : length l <= j -> nth_error l j = None) by (intros; now apply nth_error_None).
  destruct (is_rest p); cbn [negb andb].
  - cmp; try lia; try reflexivity. now rewrite Z.
  - destruct M as [M|M]; [|discriminate].
    cmp; try lia; try reflexivity; now rewrite Z by lia.
Qed.

(** What the filling code does, in one formula. *)
Lemma fill_total : forall p f l u, total_pos p <= length f ->
  (p_block p = false -> accepts p (length l)) ->
  let L := loosen p l in
  fill_positional p f (src_of u l) (length l) u =
    Ok (layout p (cutA p L) (cutB p L) (cutC p L) (cutD p L) ++ skipn (total_pos p) f).
Proof.
  intros p f l u H Acc L.
  assert (HL : min_args p <= length L).
  { subst L. rewrite loosen_length. unfold min_args, max_args. destruct (is_rest p); lia. }
  assert (HM : length L <= max_args p \/ is_rest p = true).
  { subst L. rewrite loosen_length. destruct (is_rest p); [now right|left; lia]. }
  assert (Q : forall f', length f' = length f ->
    (forall j, nth_error f' j =
       if j <? p_req p + given p (length L) then option_map Val (nth_error L j)
       else if j <? reqopt p then Some Unset
       else if j <? reqopt p + (if is_rest p then 1 else 0) then Some (Val (VArr (cutC p L)))
       else if j <? total_pos p then
         option_map Val (nth_error L (length L - p_post p + (j - (reqopt p + (if is_rest p then 1 else 0)))))
       else nth_error f j) ->
    Ok f' = Ok (layout p (cutA p L) (cutB p L) (cutC p L) (cutD p L) ++ skipn (total_pos p) f)).
  { intros f' Lf N. f_equal. apply ext. intros j. rewrite N, nth_app.
    rewrite (layout_length p L) by (now apply cut_canonical).
    rewrite layout_nth by assumption. rewrite nth_skip.
    assert (p_req p + given p (length L) <= reqopt p) by (unfold given, reqopt; lia).
    assert (reqopt p + (if is_rest p then 1 else 0) <= total_pos p)
      by (unfold reqopt, total_pos, max_args; lia).
    destruct (Nat.ltb_spec j (total_pos p)); [reflexivity|].
    cmp; try lia. f_equal. lia. }
  unfold fill_positional.
  assert (K : negb (p_block p) && ((length l <? min_args p)
                || ((max_args p <? length l) && negb (is_explicit_rest p))) = false).
  { destruct (p_block p); [reflexivity|]. destruct (Acc eq_refl) as [A1 A2].
    unfold is_explicit_rest. cbn [negb andb].
    replace (length l <? min_args p) with false by (symmetry; apply Nat.ltb_ge; lia).
    destruct A2 as [A2|A2].
    - now replace (max_args p <? length l) with false by (symmetry; apply Nat.ltb_ge; lia).
    - rewrite A2. now rewrite andb_false_r. }
  rewrite K. clear K.
  assert (T : total_pos p = reqopt p + (if is_rest p then 1 else 0) + p_post p).
  { unfold total_pos, max_args, reqopt. lia. }
  assert (Fin : forall f1 f2 f3 a b c d e g h i,
    plan p f (length l) = Ok (f1, (a, (b, c)), (d, (e, g)), (h, i)) ->
    memcpy f1 a (src_of u l) b c u = Ok f2 ->
    memcpy f2 d (src_of u l) e g u = Ok f3 ->
    h <= i <= length l -> length f3 = length f ->
    (if is_rest p then slice l h i = cutC p L else True) ->
    (forall j, (is_rest p = true -> j <> reqopt p) -> nth_error f3 j =
       if j <? p_req p + given p (length L) then option_map Val (nth_error L j)
       else if j <? reqopt p then Some Unset
       else if j <? total_pos p then
         option_map Val (nth_error L (length L - p_post p + (j - (reqopt p + (if is_rest p then 1 else 0)))))
       else nth_error f j) ->
    (let! (f, s0, s1, r) := plan p f (length l) in
     let! f := memcpy f (fst s0) (src_of u l) (fst (snd s0)) (snd (snd s0)) u in
     let! f := memcpy f (fst s1) (src_of u l) (fst (snd s1)) (snd (snd s1)) u in
     if is_rest p then
      match read_rest (src_of u l) (fst r) (snd r) u with
      | Some l => put f (reqopt p) (Val (VArr l))
      | None => UB
      end
     else Ok f) = Ok (layout p (cutA p L) (cutB p L) (cutC p L) (cutD p L) ++ skipn (total_pos p) f)).
  { intros f1 f2 f3 a b c d e g h i E1 E2 E3 Hh L3 HC N3. rewrite E1. cbn [bind fst snd].
    rewrite E2. cbn [bind]. rewrite E3. cbn [bind].
    assert (G1 : p_req p + given p (length L) <= reqopt p) by (unfold given, reqopt; lia).
    destruct (is_rest p) eqn:R.
    - rewrite read_rest_ok by assumption.
      destruct (put_ok f3 (reqopt p) (Val (VArr (slice l h i)))) as (f4 & E4 & L4 & N4); [lia|].
      rewrite E4. apply Q; [lia|]. intros j. rewrite N4.
      destruct (Nat.eqb_spec j (reqopt p)) as [->|D].
      + rewrite HC. cmp; try lia. reflexivity.
      + rewrite N3 by auto. cmp; try lia; reflexivity.
    - apply Q; [lia|]. intros j. rewrite N3 by discriminate. cmp; try lia; reflexivity. }
  assert (LN : forall j, nth_error L j =
    if negb (is_rest p) && (max_args p <=? j) then None
    else if j <? length l then nth_error l j
    else if j <? min_args p then Some VNil else None) by (intros; apply loosen_nth).
  assert (LL : length L = if is_rest p then Nat.max (length l) (min_args p)
    else Nat.min (max_args p) (Nat.max (length l) (min_args p))) by apply loosen_length.
  assert (LE : length l < min_args p -> length L = min_args p).
  { intros. rewrite LL. unfold min_args, max_args in *. destruct (is_rest p); lia. }
  set (rr := if is_rest p then 1 else 0) in *.
  assert (RR : rr <= 1) by (subst rr; destruct (is_rest p); lia).
  assert (MM : min_args p = p_req p + p_post p) by reflexivity.
  assert (MX : max_args p = reqopt p + p_post p) by reflexivity.
  assert (RO : reqopt p = p_req p + p_opt p) by reflexivity.
  destruct (Nat.le_gt_cases (length l) (p_req p)) as [C1|C1].
  { (* at most the required ones *)
    destruct (fill_ok f (length l) (p_req p) (Val VNil)) as (g1 & E1 & L1 & N1); [lia|].
    destruct (fill_ok g1 (p_req p) (reqopt p) Unset) as (g2 & E2 & L2 & N2); [lia|].
    destruct (fill_ok g2 (reqopt p + rr) (total_pos p) (Val VNil)) as (g3 & E3 & L3 & N3); [lia|].
    destruct (memcpy_ok u g3 0 l 0 (length l)) as (g4 & E4 & L4 & N4); [lia|lia|].
    destruct (memcpy_ok u g4 (length l) l (length l) (length l)) as (g5 & E5 & L5 & N5); [lia|lia|].
    assert (LX : length L = min_args p).
    { rewrite LL. unfold min_args, max_args in *. destruct (is_rest p); lia. }
    assert (GV : given p (length L) = 0) by (unfold given; lia).
    refine (Fin g3 g4 g5 _ _ _ _ _ _ (length l) (length l) _ E4 E5 _ _ _ _); [|lia|lia| |].
    - unfold plan. fold rr. replace (length l <=? p_req p) with true by (symmetry; apply Nat.leb_le; lia).
      rewrite E1. cbn [bind]. rewrite E2. cbn [bind]. rewrite E3. reflexivity.
    - destruct (is_rest p); [|exact I]. unfold cutC. rewrite GV, LX, !slice_nil by lia. reflexivity.
    - intros j NR. rewrite N5, N4, N3, N2, N1, GV, LX, !LN. unfold within.
      assert (NR' : rr = 1 -> j <> reqopt p).
      { subst rr. destruct (is_rest p); [auto|discriminate]. }
      assert (RB : is_rest p = true -> rr = 1) by (intros X; subst rr; now rewrite X).
      assert (RB' : is_rest p = false -> rr = 0) by (intros X; subst rr; now rewrite X).
      clear N1 N2 N3 N4 N5 E1 E2 E3 E4 E5 LL LE LN Q Fin Acc HM NR.
      clearbody rr. destruct (is_rest p); [specialize (RB eq_refl)|specialize (RB' eq_refl)]; subst rr;
      [specialize (NR' eq_refl)|]; cbn [negb andb].
      all: repeat cmp1; try reflexivity; try (do 2 f_equal; lia). }
  destruct (Nat.le_gt_cases (length l) (min_args p)) as [C2|C2].
  { (* no optional ones *)
    destruct (fill_ok f (p_req p) (reqopt p) Unset) as (g1 & E1 & L1 & N1); [lia|].
    destruct (fill_ok g1 (reqopt p + rr + (length l - p_req p)) (total_pos p) (Val VNil))
      as (g3 & E3 & L3 & N3); [lia|].
    destruct (memcpy_ok u g3 0 l 0 (p_req p)) as (g4 & E4 & L4 & N4); [lia|lia|].
    destruct (memcpy_ok u g4 (reqopt p + rr) l (p_req p) (length l)) as (g5 & E5 & L5 & N5); [lia|lia|].
    assert (LX : length L = min_args p).
    { rewrite LL. unfold min_args, max_args in *. destruct (is_rest p); lia. }
    assert (GV : given p (length L) = 0) by (unfold given; lia).
    refine (Fin g3 g4 g5 _ _ _ _ _ _ (length l) (length l) _ E4 E5 _ _ _ _); [|lia|lia| |].
    - unfold plan. fold rr. replace (length l <=? p_req p) with false by (symmetry; apply Nat.leb_gt; lia).
      replace (length l <=? min_args p) with true by (symmetry; apply Nat.leb_le; lia).
      rewrite E1. cbn [bind]. rewrite E3. reflexivity.
    - destruct (is_rest p); [|exact I]. unfold cutC. rewrite GV, LX, !slice_nil by lia. reflexivity.
    - intros j NR. rewrite N5, N4, N3, N1, GV, LX, !LN. unfold within.
      assert (NR' : rr = 1 -> j <> reqopt p).
      { subst rr. destruct (is_rest p); [auto|discriminate]. }
      assert (RB : is_rest p = true -> rr = 1) by (intros X; subst rr; now rewrite X).
      assert (RB' : is_rest p = false -> rr = 0) by (intros X; subst rr; now rewrite X).
      clear N1 N3 N4 N5 E1 E3 E4 E5 LL LE LN Q Fin Acc HM NR.
      clearbody rr. destruct (is_rest p); [specialize (RB eq_refl)|specialize (RB' eq_refl)]; subst rr;
      [specialize (NR' eq_refl)|]; cbn [negb andb].
      all: repeat cmp1; try reflexivity; try (do 2 f_equal; lia). }
  destruct (Nat.le_gt_cases (length l) (max_args p)) as [C3|C3].
  { (* some optional ones *)
    set (n := length l - p_req p - p_post p).
    destruct (fill_ok f (p_req p + n) (reqopt p) Unset) as (g3 & E3 & L3 & N3); [lia|].
    destruct (memcpy_ok u g3 0 l 0 (p_req p + n)) as (g4 & E4 & L4 & N4); [lia|lia|].
    destruct (memcpy_ok u g4 (reqopt p + rr) l (p_req p + n) (length l)) as (g5 & E5 & L5 & N5); [lia|lia|].
    assert (LX : length L = length l).
    { rewrite LL. destruct (is_rest p); lia. }
    assert (GV : given p (length L) = n) by (unfold given; lia).
    refine (Fin g3 g4 g5 _ _ _ _ _ _ (length l) (length l) _ E4 E5 _ _ _ _); [|lia|lia| |].
    - unfold plan. fold rr. replace (length l <=? p_req p) with false by (symmetry; apply Nat.leb_gt; lia).
      replace (length l <=? min_args p) with false by (symmetry; apply Nat.leb_gt; lia).
      replace (length l <=? max_args p) with true by (symmetry; apply Nat.leb_le; lia).
      fold n. rewrite E3. reflexivity.
    - destruct (is_rest p); [|exact I]. unfold cutC. rewrite GV, LX, !slice_nil by lia. reflexivity.
    - intros j NR. rewrite N5, N4, N3, GV, LX, !LN. unfold within.
      assert (NR' : rr = 1 -> j <> reqopt p).
      { subst rr. destruct (is_rest p); [auto|discriminate]. }
      assert (RB : is_rest p = true -> rr = 1) by (intros X; subst rr; now rewrite X).
      assert (RB' : is_rest p = false -> rr = 0) by (intros X; subst rr; now rewrite X).
      clear N3 N4 N5 E3 E4 E5 LL LE LN Q Fin Acc HM NR.
      clearbody rr. destruct (is_rest p); [specialize (RB eq_refl)|specialize (RB' eq_refl)]; subst rr;
      [specialize (NR' eq_refl)|]; cbn [negb andb].
      all: repeat cmp1; try reflexivity; try (do 2 f_equal; lia). }
  assert (GV : given p (length L) = p_opt p).
  { unfold given. rewrite LL. destruct (is_rest p); lia. }
  assert (P3 : plan p f (length l) =
    if is_rest p then
      if (length l + (reqopt p + rr) <? total_pos p)%nat then UB
      else Ok (f, (0, (0, reqopt p)), (reqopt p + rr,
             (length l + (reqopt p + rr) - total_pos p, length l)),
             (reqopt p, length l + (reqopt p + rr) - total_pos p))
    else Ok (f, (0, (0, reqopt p)), (reqopt p + rr, (reqopt p, total_pos p)), (reqopt p, reqopt p))).
  { unfold plan. fold rr. replace (length l <=? p_req p) with false by (symmetry; apply Nat.leb_gt; lia).
    replace (length l <=? min_args p) with false by (symmetry; apply Nat.leb_gt; lia).
    replace (length l <=? max_args p) with false by (symmetry; apply Nat.leb_gt; lia).
    reflexivity. }
  destruct (memcpy_ok u f 0 l 0 (reqopt p)) as (g4 & E4 & L4 & N4); [lia|lia|].
  destruct (is_rest p) eqn:R.
  { (* a non-empty rest *)
    set (m := length l + (reqopt p + rr) - total_pos p) in *.
    assert (Em : m = length l - p_post p) by lia.
    destruct (memcpy_ok u g4 (reqopt p + rr) l m (length l)) as (g5 & E5 & L5 & N5); [lia|lia|].
    assert (LX : length L = length l) by lia.
    refine (Fin f g4 g5 _ _ _ _ _ _ (reqopt p) m _ E4 E5 _ _ _ _); [|lia|lia| |].
    - rewrite P3. replace (length l + (reqopt p + rr) <? total_pos p) with false
        by (symmetry; apply Nat.ltb_ge; lia). reflexivity.
    - unfold cutC. rewrite GV, LX, Em.
      replace L with l by (symmetry; apply loosen_same; [lia|right; exact R]). reflexivity.
    - intros j NR. specialize (NR eq_refl). rewrite N5, N4, GV, LX, !LN. unfold within.
      clear N4 N5 E4 E5 LL LE LN Q Fin Acc HM P3. cbn [negb andb].
      subst rr. clearbody m. repeat cmp1; try reflexivity; try (do 2 f_equal; lia). }
  (* too many for a block *)
  destruct (memcpy_ok u g4 (reqopt p + rr) l (reqopt p) (total_pos p)) as (g5 & E5 & L5 & N5); [lia|lia|].
  assert (LX : length L = max_args p) by lia.
  refine (Fin f g4 g5 _ _ _ _ _ _ (reqopt p) (reqopt p) _ E4 E5 _ _ _ _); [|lia|lia|exact I|].
  - rewrite P3. reflexivity.
  - intros j NR. rewrite N5, N4, GV, LX, !LN. unfold within.
    clear N4 N5 E4 E5 LL LE LN Q Fin Acc HM P3. cbn [negb andb].
    subst rr. repeat cmp1; try reflexivity; try (do 2 f_equal; lia).
Qed.

Lemma fill_refuse : forall p f l u,
  p_block p = false -> ~ accepts p (length l) ->
  fill_positional p f (src_of u l) (length l) u = Err (EArity (length l)).
Proof.
  intros p f l u B A. unfold fill_positional. rewrite B. cbn [negb andb].
  destruct (Nat.ltb_spec (length l) (min_args p)); [reflexivity|].
  destruct (Nat.ltb_spec (max_args p) (length l)); cbn [orb andb].
  - unfold is_explicit_rest. destruct (p_rest p) as [[|]|] eqn:R; try reflexivity.
    exfalso. apply A. split; [lia|]. now right.
  - exfalso. apply A. split; [lia|]. left; lia.
Qed.

Lemma accepts_dec : forall p n, accepts p n \/ ~ accepts p n.
Proof.
  intros p n. unfold accepts.
  destruct (Nat.le_gt_cases (min_args p) n); [|right; lia].
  destruct (Nat.le_gt_cases n (max_args p)); [left; lia|].
  destruct (p_rest p) as [[|]|]; [right| |right]; intuition; try lia; discriminate.
Qed.

Theorem fill_positional_spec : forall p f l u,
  total_pos p <= length f ->
  (p_block p = false /\ ~ accepts p (length l) /\
   fill_positional p f (src_of u l) (length l) u = Err (EArity (length l)))
  \/ exists cs, positional p l cs /\
       fill_positional p f (src_of u l) (length l) u = Ok (cs ++ skipn (length cs) f).
Proof.
  intros p f l u H.
  assert (HL : min_args p <= length (loosen p l)).
  { rewrite loosen_length. unfold min_args, max_args. destruct (is_rest p); lia. }
  assert (HM : length (loosen p l) <= max_args p \/ is_rest p = true).
  { rewrite loosen_length. destruct (is_rest p); [now right|left; lia]. }
  assert (CC := cut_canonical p (loosen p l) HL HM).
  destruct (p_block p) eqn:B.
  - right. eexists. split; [apply pos_block; [exact B|exact CC]|].
    rewrite fill_total by (auto; congruence). now rewrite (layout_length _ _ _ _ _ _ CC).
  - destruct (accepts_dec p (length l)) as [A|A].
    + right. assert (S : loosen p l = l).
      { destruct A as [A1 A2]. apply loosen_same; [exact A1|]. destruct A2 as [A2|A2]; [now left|].
        right. unfold is_rest. now rewrite A2. }
      eexists. split; [apply pos_method; [exact B|exact A|]|].
      * rewrite S in CC. exact CC.
      * rewrite fill_total by auto. rewrite S in *. now rewrite (layout_length _ _ _ _ _ _ CC).
    + left. split; [reflexivity|]. split; [exact A|]. now apply fill_refuse.
Qed.
