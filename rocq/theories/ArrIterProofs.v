(** Proofs about the walking methods. *)
From Coq Require Import ZArith List Bool Lia.
From Verif Require Import ArrModel ArrSpec ArrProofs ArrIterModel.
Import ListNotations.
Open Scope Z_scope.

(** What a callback may do. *)
Definition keeps_array {S V} (cb : S -> list V -> V -> S * list V * ans) : Prop :=
  forall s l v s1 l1 a, cb s l v = (s1, l1, a) -> l1 = l.
Definition only_appends {S V} (cb : S -> list V -> V -> S * list V * ans) : Prop :=
  forall s l v s1 l1 a, cb s l v = (s1, l1, a) -> exists t, l1 = l ++ t.
Definition never_shortens {S V} (cb : S -> list V -> V -> S * list V * ans) : Prop :=
  forall s l v s1 l1 a, cb s l v = (s1, l1, a) -> (length l <= length l1)%nat.
Definition never_lengthens {S V} (cb : S -> list V -> V -> S * list V * ans) : Prop :=
  forall s l v s1 l1 a, cb s l v = (s1, l1, a) -> (length l1 <= length l)%nat.

(** delete_if and the others against the plain account: walk over the
    elements the array had, keep those the block says to keep; if the block
    raises, the rest stays.  The block sees the kept elements followed by
    what the array had after that many positions. *)
Inductive rend := Done | Stopped.
Section SR.
Context {S V : Type}.
Variable cb : S -> list V -> V -> S * list V * ans.
Variable negate : bool.
Variable l0 : list V.
Fixpoint s_retain (rest : list V) (s : S) (kept : list V) : S * list V * rend :=
  match rest with
  | [] => (s, kept, Done)
  | v :: r =>
    match cb s (kept ++ skipn (length kept) l0) v with
    | (s1, _, Raise) => (s1, kept ++ rest, Stopped)
    | (s1, _, Yes) => s_retain r s1 (if negate then kept else kept ++ [v])
    | (s1, _, No) => s_retain r s1 (if negate then kept ++ [v] else kept)
    end
  end.
End SR.

Section P.
Context {S V : Type}.
Variable cb : S -> list V -> V -> S * list V * ans.
Implicit Types l : list V.
Ltac zs := change (@zlen V) with (@size V) in *.

Lemma each_safe : forall n s l i log, 0 <= i -> each_loop cb n s l i log <> Panics.
Proof.
  induction n; intros s l i log Hi; cbn [each_loop]; [discriminate|]. zs.
  destruct (Z.leb_spec (size l) i); [discriminate|]. rewrite get_at by lia.
  destruct (get_in l i ltac:(lia)) as (v & ->). destruct (cb s l v) as [[s1 l1] []]; try discriminate; apply IHn; lia.
Qed.

Lemma each_same_gen : keeps_array cb -> forall n s done rest,
  (length rest < n)%nat ->
  match each_loop cb n s (done ++ rest) (size done) done with
  | Fin (_, l1, log) => l1 = done ++ rest /\ log = done ++ rest
  | Raised (_, l1, log) => l1 = done ++ rest /\ exists v r1 r2, rest = r1 ++ v :: r2 /\ log = done ++ r1 ++ [v]
  | _ => False
  end.
Proof.
  intros Hk. induction n; intros s done rest Hn; [lia|]. cbn [each_loop]. zs. rewrite size_app. pose proof (size_nn done).
  destruct rest as [|v rest].
  - rewrite size_nil. destruct (Z.leb_spec (size done + 0) (size done)); [|lia]. rewrite app_nil_r. split; reflexivity.
  - assert (0 < size (v :: rest)) by (unfold size; cbn [length]; lia).
    destruct (Z.leb_spec (size done + size (v :: rest)) (size done)); [lia|].
    rewrite get_at by lia. rewrite app_inv_get.
    destruct (cb s (done ++ v :: rest) v) as [[s1 l1] a] eqn:E. pose proof (Hk _ _ _ _ _ _ E) as ->.
    assert (R : match each_loop cb n s1 (done ++ v :: rest) (size done + 1) (done ++ [v]) with
      | Fin (_, l1, log) => l1 = done ++ v :: rest /\ log = done ++ v :: rest
      | Raised (_, l1, log) => l1 = done ++ v :: rest /\ exists v0 r1 r2, v :: rest = r1 ++ v0 :: r2 /\ log = done ++ r1 ++ [v0]
      | _ => False end).
    { specialize (IHn s1 (done ++ [v]) rest ltac:(cbn [length] in Hn; lia)). rewrite <- app_assoc in IHn. cbn [app] in IHn.
      rewrite size_app, size_one in IHn.
      destruct (each_loop cb n s1 (done ++ v :: rest) (size done + 1) (done ++ [v])) as [[[s2 l2] log]|[[s2 l2] log]| |]; try exact IHn.
      destruct IHn as (-> & w & r1 & r2 & -> & ->). split; [reflexivity|]. exists w, (v :: r1), r2. split; [reflexivity|].
      rewrite <- app_assoc. reflexivity. }
    destruct a; try exact R. split; [reflexivity|]. exists v, [], rest. split; reflexivity.
Qed.
Lemma each_same : keeps_array cb -> forall s l,
  match each_loop cb (Datatypes.S (length l)) s l 0 [] with
  | Fin (_, l1, log) => l1 = l /\ log = l
  | Raised (_, l1, log) => l1 = l /\ exists v r1 r2, l = r1 ++ v :: r2 /\ log = r1 ++ [v]
  | _ => False
  end.
Proof. intros Hk s l. exact (each_same_gen Hk (Datatypes.S (length l)) s [] l ltac:(lia)). Qed.

Lemma each_append : only_appends cb -> forall n s done rest s1 l1 log,
  each_loop cb n s (done ++ rest) (size done) done = Fin (s1, l1, log) ->
  log = l1 /\ exists t, l1 = (done ++ rest) ++ t.
Proof.
  intros Hk. induction n; intros s done rest s1 l1 log; cbn [each_loop]; [discriminate|]. zs. rewrite size_app. pose proof (size_nn done).
  destruct rest as [|v rest].
  - rewrite size_nil. destruct (Z.leb_spec (size done + 0) (size done)); [|lia]. rewrite app_nil_r. intros E. injection E as <- <- <-.
    split; [reflexivity|]. exists []. rewrite app_nil_r. reflexivity.
  - assert (0 < size (v :: rest)) by (unfold size; cbn [length]; lia).
    destruct (Z.leb_spec (size done + size (v :: rest)) (size done)); [lia|].
    rewrite get_at by lia. rewrite app_inv_get.
    destruct (cb s (done ++ v :: rest) v) as [[s2 l2] a] eqn:E. destruct (Hk _ _ _ _ _ _ E) as (t & ->).
    assert (R : each_loop cb n s2 ((done ++ v :: rest) ++ t) (size done + 1) (done ++ [v]) = Fin (s1, l1, log) ->
       log = l1 /\ exists t, l1 = (done ++ v :: rest) ++ t).
    { intros E1. specialize (IHn s2 (done ++ [v]) (rest ++ t) s1 l1 log). rewrite size_app, size_one in IHn.
      replace ((done ++ [v]) ++ rest ++ t) with ((done ++ v :: rest) ++ t) in IHn by (rewrite <- !app_assoc; reflexivity).
      destruct (IHn E1) as (I1 & t1 & I2). split; [exact I1|]. exists (t ++ t1). rewrite I2, <- !app_assoc. reflexivity. }
    destruct a; [exact R | exact R | discriminate].
Qed.

Lemma each_ends : never_lengthens cb -> forall n s l i log, 0 <= i -> (length l < n + Z.to_nat i)%nat -> (0 < n)%nat ->
  each_loop cb n s l i log <> Fuel.
Proof.
  intros Hk. induction n; intros s l i log Hi Hn H0; [lia|]. cbn [each_loop]. zs.
  destruct (Z.leb_spec (size l) i); [discriminate|]. rewrite get_at by lia.
  destruct (get_in l i ltac:(lia)) as (v & ->). destruct (cb s l v) as [[s1 l1] a] eqn:E.
  pose proof (Hk _ _ _ _ _ _ E). assert (each_loop cb n s1 l1 (i + 1) (log ++ [v]) <> Fuel).
  { apply IHn; unfold size in *; lia. }
  destruct a; [assumption | assumption | discriminate].
Qed.

(** ** delete_if, keep_if and the others *)
Lemma shift_down_ok : forall n l j del, 0 < del <= j -> j + Z.of_nat n = size l ->
  exists l', shift_down n l j del = Ok l' /\ size l' = size l /\
  forall k, 0 <= k < size l - del -> get l' k = if k <? j - del then get l k else get l (k + del).
Proof.
  induction n; intros l j del Hd Hn; cbn [shift_down].
  - eexists. split; [reflexivity|]. split; [reflexivity|]. intros k Hk. destruct (Z.ltb_spec k (j - del)); [reflexivity | lia].
  - rewrite get_at by lia. destruct (get_in l j ltac:(lia)) as (v & Ev). rewrite Ev.
    destruct (put_ok l (j - del) v ltac:(lia)) as (l1 & -> & Hs & Hg). cbn [bind].
    destruct (IHn l1 (j + 1) del ltac:(lia) ltac:(lia)) as (l2 & -> & Hs2 & Hg2).
    eexists. split; [reflexivity|]. split; [lia|]. intros k Hk. rewrite Hg2 by lia.
    destruct (Z.ltb_spec k (j + 1 - del)); rewrite Hg by lia; destruct (Z.ltb_spec k (j - del)).
    + destruct (Z.eqb_spec k (j - del)); [lia | reflexivity].
    + assert (k = j - del) as -> by lia. rewrite Z.eqb_refl. replace (j - del + del) with j by lia. symmetry. exact Ev.
    + lia.
    + destruct (Z.eqb_spec (k + del) (j - del)); [lia | reflexivity].
Qed.

Lemma get_skip : forall l m k, get (skipn m l) k = if k <? 0 then None else get l (k + Z.of_nat m).
Proof.
  intros l m k. pose proof (get_dr (Z.of_nat m) l k ltac:(lia)) as H. unfold dr in H. rewrite Nat2Z.id in H. exact H.
Qed.

Lemma retain_same_gen : keeps_array cb -> forall negate l0 rest n s kept pre,
  l0 = pre ++ rest -> (length kept <= length pre)%nat -> (length rest < n)%nat ->
  let '(s1, l1, e) := s_retain cb negate l0 rest s kept in
  match retain_block cb n negate s (kept ++ skipn (length kept) l0) (size pre) (size pre - size kept) with
  | Fin (s2, l2, b) => e = Done /\ s2 = s1 /\ l2 = l1 /\ b = (length l1 <? length l0)%nat
  | Raised (s2, l2, _) => e = Stopped /\ s2 = s1 /\ l2 = l1
  | _ => False
  end.
Proof.
  intros Hkeep negate l0. induction rest as [|v rest IH]; intros n s kept pre El Hle Hn.
  - cbn [s_retain]. destruct n; [cbn [length] in Hn; lia|]. cbn [retain_block]. zs. rewrite app_nil_r in El. subst pre.
    assert (Ec : size (kept ++ skipn (length kept) l0) = size l0).
    { unfold size. rewrite app_length, skipn_length. lia. }
    rewrite Ec. destruct (Z.leb_spec (size l0) (size l0)); [|lia].
    destruct (Z.ltb_spec 0 (size l0 - size kept)).
    + split; [reflexivity|]. split; [reflexivity|]. split.
      * unfold cut_back. zs. rewrite Ec. destruct (Z.ltb_spec (size l0) (size l0 - size kept)); [pose proof (size_nn kept); lia|].
        unfold truncate. replace (size l0 - (size l0 - size kept)) with (size kept) by lia. apply tk_app.
      * symmetry. apply Nat.ltb_lt. unfold size in *. lia.
    + split; [reflexivity|]. split; [reflexivity|].
      assert (length kept = length l0) by (unfold size in *; lia). split.
      * rewrite H1, skipn_all. apply app_nil_r.
      * symmetry. apply Nat.ltb_ge. lia.
  - cbn [s_retain]. destruct n; [lia|]. cbn [retain_block]. zs.
    set (cur := kept ++ skipn (length kept) l0).
    assert (Hlen : size l0 = size pre + 1 + size rest) by (subst l0; rewrite size_app; unfold size; cbn [length]; lia).
    assert (Ec : size cur = size l0).
    { unfold cur, size. rewrite app_length, skipn_length. unfold size in Hlen. lia. }
    assert (Hsk : size kept <= size pre) by (unfold size; lia). pose proof (size_nn kept). pose proof (size_nn rest).
    assert (Hget : forall k, size kept <= k -> get cur k = get l0 k).
    { intros k Hk. unfold cur. rewrite get_app, get_skip. destruct (Z.ltb_spec k (size kept)); [lia|].
      destruct (Z.ltb_spec (k - size kept) 0); [lia|]. f_equal. unfold size. lia. }
    rewrite Ec. destruct (Z.leb_spec (size l0) (size pre)); [lia|].
    rewrite get_at by lia. rewrite Hget by lia.
    assert (Ev : get l0 (size pre) = Some v) by (subst l0; apply app_inv_get). rewrite Ev.
    destruct (cb s cur v) as [[s1 l1] a] eqn:E. pose proof (Hkeep _ _ _ _ _ _ E) as ->.
    assert (KEEP : let '(s2, l1, e) := s_retain cb negate l0 rest s1 (kept ++ [v]) in
      match (if 0 <? size pre - size kept then
               match at_ cur (size pre) with
               | None => Panics
               | Some w => match put cur (size pre - (size pre - size kept)) w with
                           | Ok l2 => retain_block cb n negate s1 l2 (size pre + 1) (size pre - size kept)
                           | _ => Panics end end
             else retain_block cb n negate s1 cur (size pre + 1) (size pre - size kept)) with
      | Fin (s3, l2, b) => e = Done /\ s3 = s2 /\ l2 = l1 /\ b = (length l1 <? length l0)%nat
      | Raised (s3, l2, _) => e = Stopped /\ s3 = s2 /\ l2 = l1
      | _ => False end).
    { specialize (IH n s1 (kept ++ [v]) (pre ++ [v])). rewrite !size_app, !size_one in IH.
      replace (size pre + 1 - (size kept + 1)) with (size pre - size kept) in IH by lia.
      assert (Hput : exists l2, put cur (size kept) v = Ok l2 /\ l2 = (kept ++ [v]) ++ skipn (length (kept ++ [v])) l0).
      { destruct (put_ok cur (size kept) v ltac:(lia)) as (l2 & E2 & Hs2 & Hg2). exists l2. split; [exact E2|].
        apply get_ext. intros k Hk. rewrite Hg2 by lia. rewrite get_app, get_app, get_one, get_skip, size_app, size_one.
        unfold cur. rewrite get_app, get_skip. rewrite app_length. cbn [length].
        destruct (Z.eqb_spec k (size kept)).
        - subst k. destruct (Z.ltb_spec (size kept) (size kept + 1)); [|lia]. destruct (Z.ltb_spec (size kept) (size kept)); [lia|].
          replace (size kept - size kept) with 0 by lia. reflexivity.
        - destruct (Z.ltb_spec k (size kept)).
          + destruct (Z.ltb_spec k (size kept + 1)); [|lia]. reflexivity.
          + destruct (Z.ltb_spec k (size kept + 1)); [lia|]. destruct (Z.ltb_spec (k - size kept) 0); [lia|].
            destruct (Z.ltb_spec (k - (size kept + 1)) 0); [lia|]. f_equal. unfold size. lia. }
      assert (IH' := IH ltac:(subst l0; rewrite <- app_assoc; reflexivity) ltac:(rewrite !app_length; cbn; lia) ltac:(cbn [length] in Hn; lia)).
      clear IH. destruct (s_retain cb negate l0 rest s1 (kept ++ [v])) as [[s2 l2] e].
      destruct (Z.ltb_spec 0 (size pre - size kept)).
      - rewrite get_at by lia. rewrite Hget by lia. rewrite Ev.
        replace (size pre - (size pre - size kept)) with (size kept) by lia.
        destruct Hput as (l3 & -> & ->). exact IH'.
      - assert (length kept = length pre) by (unfold size in *; lia).
        replace cur with ((kept ++ [v]) ++ skipn (length (kept ++ [v])) l0); [exact IH'|].
        destruct Hput as (l3 & E3 & <-). unfold put in E3. zs.
        apply get_ext. intros k Hk. destruct (put_ok cur (size kept) v ltac:(lia)) as (l4 & E4 & _ & Hg4).
        unfold put in E4. zs. rewrite E3 in E4. injection E4 as <-. rewrite Hg4 by lia.
        destruct (Z.eqb_spec k (size kept)); [|reflexivity]. subst k. rewrite Hget by lia.
        replace (size kept) with (size pre) by lia. symmetry. exact Ev. }
    assert (DROP : let '(s2, l1, e) := s_retain cb negate l0 rest s1 kept in
      match retain_block cb n negate s1 cur (size pre + 1) (size pre - size kept + 1) with
      | Fin (s3, l2, b) => e = Done /\ s3 = s2 /\ l2 = l1 /\ b = (length l1 <? length l0)%nat
      | Raised (s3, l2, _) => e = Stopped /\ s3 = s2 /\ l2 = l1
      | _ => False end).
    { specialize (IH n s1 kept (pre ++ [v])). rewrite size_app, size_one in IH.
      replace (size pre + 1 - size kept) with (size pre - size kept + 1) in IH by lia.
      apply IH; [subst l0; rewrite <- app_assoc; reflexivity | rewrite app_length; cbn; lia | cbn [length] in Hn; lia]. }
    destruct a.
    + destruct negate; cbn [negb]; [exact DROP | exact KEEP].
    + destruct negate; cbn [negb]; [exact KEEP | exact DROP].
    + destruct (Z.ltb_spec 0 (size pre - size kept)).
      * rewrite Ec. destruct (shift_down_ok (Z.to_nat (size l0 - size pre)) cur (size pre) (size pre - size kept) ltac:(lia) ltac:(lia))
          as (l2 & -> & Hs2 & Hg2).
        split; [reflexivity|]. split; [reflexivity|]. unfold cut_back. zs.
        destruct (Z.ltb_spec (size l2) (size pre - size kept)); [lia|]. unfold truncate.
        apply get_ext. intros k Hk. rewrite get_tk. rewrite Hs2, Ec. rewrite get_app.
        assert (Hrest : forall k, 0 <= k -> get (v :: rest) k = get l0 (size pre + k)).
        { intros k0 Hk0. rewrite El, get_app. destruct (Z.ltb_spec (size pre + k0) (size pre)); [lia|]. f_equal. lia. }
        destruct (Z.ltb_spec k (size l0 - (size pre - size kept))).
        -- rewrite Hg2 by lia. replace (size pre - (size pre - size kept)) with (size kept) by lia.
           destruct (Z.ltb_spec k (size kept)).
           ++ unfold cur. rewrite get_app. destruct (Z.ltb_spec k (size kept)); [reflexivity | lia].
           ++ rewrite Hget by lia. rewrite Hrest by lia. f_equal. lia.
        -- destruct (Z.ltb_spec k (size kept)); [lia|]. rewrite Hrest by lia. rewrite get_out by lia. reflexivity.
      * split; [reflexivity|]. split; [reflexivity|]. assert (Hkp : length kept = length pre) by (unfold size in *; lia).
        unfold cur. f_equal. rewrite Hkp, El. rewrite skipn_app, skipn_all, Nat.sub_diag. reflexivity.
Qed.

Lemma retain_same : keeps_array cb -> forall negate l s,
  let '(s1, l1, e) := s_retain cb negate l l s [] in
  match retain_block cb (Datatypes.S (length l)) negate s l 0 0 with
  | Fin (s2, l2, b) => e = Done /\ s2 = s1 /\ l2 = l1 /\ b = (length l1 <? length l)%nat
  | Raised (s2, l2, _) => e = Stopped /\ s2 = s1 /\ l2 = l1
  | _ => False
  end.
Proof.
  intros Hk negate l s. exact (retain_same_gen Hk negate l l (Datatypes.S (length l)) s [] [] eq_refl (Nat.le_refl _) (Nat.lt_succ_diag_r _)).
Qed.

Lemma retain_safe : never_shortens cb -> forall n negate s l i del, 0 <= del <= i ->
  retain_block cb n negate s l i del <> Panics.
Proof.
  intros Hk. induction n; intros negate s l i del Hi; cbn [retain_block]; [discriminate|]. zs.
  destruct (Z.leb_spec (size l) i); [destruct (0 <? del); discriminate|].
  rewrite get_at by lia. destruct (get_in l i ltac:(lia)) as (v & ->).
  destruct (cb s l v) as [[s1 l1] a] eqn:E. pose proof (Hk _ _ _ _ _ _ E) as Hle.
  assert (Hle' : size l <= size l1) by (unfold size; lia).
  assert (K : (if 0 <? del then match at_ l1 i with None => Panics | Some w =>
                 match put l1 (i - del) w with Ok l2 => retain_block cb n negate s1 l2 (i + 1) del | _ => Panics end end
               else retain_block cb n negate s1 l1 (i + 1) del) <> Panics).
  { destruct (Z.ltb_spec 0 del); [|apply IHn; lia]. rewrite get_at by lia.
    destruct (get_in l1 i ltac:(lia)) as (w & ->). destruct (put_ok l1 (i - del) w ltac:(lia)) as (l2 & -> & _). apply IHn. lia. }
  assert (D : retain_block cb n negate s1 l1 (i + 1) (del + 1) <> Panics) by (apply IHn; lia).
  destruct a.
  - destruct (negb negate); assumption.
  - destruct negate; assumption.
  - destruct (Z.ltb_spec 0 del); [|discriminate].
    destruct (shift_down_ok (Z.to_nat (size l1 - i)) l1 i del ltac:(lia) ltac:(lia)) as (l2 & -> & _). discriminate.
Qed.

(** ** iterators held over the callbacks *)
Variable hcb : S -> @hary V -> V -> S * @hary V * bool.

Definition stays_put : Prop :=
  forall s a v s1 a1 b, hcb s a v = (s1, a1, b) ->
  h_id a1 = h_id a /\ (length (h_cont a) <= length (h_cont a1))%nat.

Lemma held_safe_gen : stays_put -> forall n s a i log, 0 <= i -> i + Z.of_nat n <= size (h_cont a) ->
  held_loop hcb n s a (h_id a) i log <> HUnsafe.
Proof.
  intros Hk. induction n; intros s a i log Hi Hn; cbn [held_loop]; [discriminate|].
  rewrite Nat.eqb_refl. cbn [negb]. rewrite get_at by lia. destruct (get_in (h_cont a) i ltac:(lia)) as (v & ->).
  destruct (hcb s a v) as [[s1 a1] b] eqn:E. destruct b; [discriminate|].
  destruct (Hk _ _ _ _ _ _ E) as [Hid Hle]. rewrite <- Hid. apply IHn; [lia|]. unfold size in *. lia.
Qed.
Lemma held_safe : stays_put -> forall s a start, held hcb s a start <> HUnsafe.
Proof.
  intros Hk s a start. unfold held. destruct (Nat.le_gt_cases (length (h_cont a)) start).
  - replace (length (h_cont a) - start)%nat with O by lia. discriminate.
  - apply held_safe_gen; [exact Hk | lia | unfold size; lia].
Qed.

Definition hkeeps : Prop := forall s a v s1 a1 b, hcb s a v = (s1, a1, b) -> a1 = a.
Lemma held_same_gen : hkeeps -> forall rest s a done log0, h_cont a = done ++ rest ->
  match held_loop hcb (length rest) s a (h_id a) (size done) log0 with
  | HFin (_, a1, log) => a1 = a /\ log = log0 ++ rest
  | HRaised (_, a1, log) => a1 = a /\ exists v r1 r2, rest = r1 ++ v :: r2 /\ log = log0 ++ r1 ++ [v]
  | HUnsafe => False
  end.
Proof.
  intros Hk. induction rest as [|v rest IH]; intros s a done log0 Ha; cbn [length held_loop].
  - rewrite app_nil_r. split; reflexivity.
  - rewrite Nat.eqb_refl. cbn [negb]. pose proof (size_nn done). rewrite get_at by lia. rewrite Ha, app_inv_get.
    destruct (hcb s a v) as [[s1 a1] b] eqn:E. pose proof (Hk _ _ _ _ _ _ E) as ->. destruct b.
    + split; [reflexivity|]. exists v, [], rest. split; reflexivity.
    + specialize (IH s1 a (done ++ [v]) (log0 ++ [v])). rewrite <- app_assoc in IH. cbn [app] in IH. specialize (IH Ha).
      rewrite size_app, size_one in IH.
      destruct (held_loop hcb (length rest) s1 a (h_id a) (size done + 1) (log0 ++ [v])) as [[[s2 a2] log]|[[s2 a2] log]|].
      * destruct IH as [-> ->]. split; [reflexivity|]. rewrite <- app_assoc. reflexivity.
      * destruct IH as (-> & w & r1 & r2 & -> & ->). split; [reflexivity|]. exists w, (v :: r1), r2. split; [reflexivity|].
        rewrite <- app_assoc. reflexivity.
      * exact IH.
Qed.
Lemma held_same : hkeeps -> forall s a start, (start <= length (h_cont a))%nat ->
  match held hcb s a start with
  | HFin (_, a1, log) => a1 = a /\ log = skipn start (h_cont a)
  | HRaised (_, a1, log) => a1 = a /\ exists v r1 r2, skipn start (h_cont a) = r1 ++ v :: r2 /\ log = r1 ++ [v]
  | HUnsafe => False
  end.
Proof.
  intros Hk s a start Hs. unfold held.
  pose proof (held_same_gen Hk (skipn start (h_cont a)) s a (firstn start (h_cont a)) [] (eq_sym (firstn_skipn _ _))) as H.
  rewrite skipn_length in H. unfold size in H. rewrite firstn_length, Nat.min_l in H by exact Hs. exact H.
Qed.
End P.

(** find_index with a block that only looks *)
Lemma index_same : forall {V} (p : V -> bool) rest done n, (length rest < n)%nat ->
  index_loop (fun (s : unit) l v => (s, l, if p v then Yes else No)) n tt (done ++ rest) (size done)
  = Fin (tt, done ++ rest, match find_pos p rest with Some k => Some (size done + k) | None => None end).
Proof.
  intros V p. induction rest as [|v rest IH]; intros done n Hn; (destruct n; [lia|]); cbn [index_loop find_pos];
    change (@zlen V) with (@size V); rewrite size_app; pose proof (size_nn done).
  - rewrite size_nil. destruct (Z.leb_spec (size done + 0) (size done)); [reflexivity | lia].
  - assert (0 < size (v :: rest)) by (unfold size; cbn [length]; lia).
    destruct (Z.leb_spec (size done + size (v :: rest)) (size done)); [lia|]. rewrite get_at by lia. rewrite app_inv_get.
    destruct (p v); [rewrite Z.add_0_r; reflexivity|].
    specialize (IH (done ++ [v]) n ltac:(cbn [length] in Hn; lia)). rewrite <- app_assoc in IH. cbn [app] in IH.
    rewrite size_app, size_one in IH. rewrite IH. f_equal. f_equal. destruct (find_pos p rest); [f_equal; lia | reflexivity].
Qed.

(** ** fill with a block *)
Section F.
Context {S V : Type}.
Variable fcb : S -> list V -> Z -> S * list V * option V.
Lemma fill_block_safe : (forall s l i s1 l1 o, fcb s l i = (s1, l1, o) -> (length l <= length l1)%nat) ->
  forall n s l i, 0 <= i -> i + Z.of_nat n <= size l -> fill_block fcb n s l i <> Panics.
Proof.
  intros Hk. induction n; intros s l i Hi Hn; cbn [fill_block]; [discriminate|].
  destruct (fcb s l i) as [[s1 l1] [v|]] eqn:E; [|discriminate]. pose proof (Hk _ _ _ _ _ _ E) as Hle.
  destruct (put_ok l1 i v) as (l2 & -> & Hs & _); [unfold size in *; lia|]. apply IHn; [lia|]. unfold size in *. lia.
Qed.
Lemma fill_block_same : forall f : Z -> V, (forall s l i, fcb s l i = (s, l, Some (f i))) ->
  forall n s l i, 0 <= i -> i + Z.of_nat n <= size l ->
  exists l', fill_block fcb n s l i = Fin (s, l') /\ size l' = size l /\
  is l' (fun k => if (i <=? k) && (k <? i + Z.of_nat n) then Some (f k) else get l k).
Proof.
  intros f Hf. induction n; intros s l i Hi Hn; cbn [fill_block].
  - eexists. split; [reflexivity|]. split; [reflexivity|]. intros k Hk.
    destruct (Z.leb_spec i k); destruct (Z.ltb_spec k (i + Z.of_nat 0)); cbn [andb]; lia || reflexivity.
  - rewrite Hf. destruct (put_ok l i (f i) ltac:(lia)) as (l2 & -> & Hs & Hg).
    destruct (IHn s l2 (i + 1) ltac:(lia) ltac:(lia)) as (l3 & -> & Hs3 & Hg3).
    eexists. split; [reflexivity|]. split; [lia|]. intros k Hk. rewrite Hg3 by lia. rewrite Hg by lia.
    destruct (Z.leb_spec (i + 1) k); destruct (Z.ltb_spec k (i + 1 + Z.of_nat n)); destruct (Z.leb_spec i k);
      destruct (Z.ltb_spec k (i + Z.of_nat (Datatypes.S n))); destruct (Z.eqb_spec k i); cbn [andb]; try lia; try reflexivity.
    subst k. reflexivity.
Qed.
End F.

(** ** product with a block *)
Section Pr.
Context {S V : Type}.
Variable pcb : S -> list (list V) -> list V -> S * list (list V) * bool.
Definition no_list_shortens : Prop := forall s ls row s1 ls1 b, pcb s ls row = (s1, ls1, b) ->
  Forall2 (fun a c => (length a <= length c)%nat) ls ls1.

Lemma prod_at_ok : forall ra rd k acc, 0 <= k -> Forall2 (fun (a : list V) d => 0 < d <= size a) ra rd ->
  exists row, prod_at ra rd k acc = Ok row.
Proof.
  induction ra as [|a ra IH]; intros rd k acc Hk H; inversion H; subst; cbn [prod_at]; [eauto|].
  pose proof (Z.mod_pos_bound k y ltac:(lia)). rewrite get_at by lia.
  destruct (get_in a (k mod y) ltac:(lia)) as (v & ->). apply IH; [apply Z.div_pos; lia | assumption].
Qed.
Lemma prod_block_safe : no_list_shortens -> forall n s ls dims k, 0 <= k ->
  Forall2 (fun (a : list V) d => 0 < d <= size a) ls dims -> prod_block pcb n s ls dims k <> Panics.
Proof.
  intros Hk. induction n; intros s ls dims k H0 Hd; cbn [prod_block]; [discriminate|].
  destruct (prod_at_ok (rev ls) (rev dims) k [] H0) as (row & ->).
  { clear - Hd. induction Hd; [constructor|]. cbn [rev]. apply Forall2_app; [assumption|]. constructor; [assumption | constructor]. }
  destruct (pcb s ls row) as [[s1 ls1] b] eqn:E. destruct b; [discriminate|]. apply IHn; [lia|].
  pose proof (Hk _ _ _ _ _ _ E) as F. clear - Hd F. revert ls1 F. induction Hd; intros ls1 F; inversion F; subst; constructor.
  - unfold size in *. lia.
  - apply IHHd. assumption.
Qed.
Lemma product_block_safe : no_list_shortens -> forall s ls, product_block pcb s ls <> Panics.
Proof.
  intros Hk s ls. unfold product_block. destruct (existsb (fun d => d =? 0) (map zlen ls)) eqn:E.
  - cbn [Z.to_nat prod_block]. discriminate.
  - apply prod_block_safe; [exact Hk | lia |]. clear - E. induction ls as [|a ls IH]; cbn [map existsb] in *; constructor.
    + apply orb_false_elim in E. destruct E as [E _]. apply Z.eqb_neq in E. change (@zlen V) with (@size V) in *. pose proof (size_nn a). lia.
    + apply IH. apply orb_false_elim in E. tauto.
Qed.
End Pr.
