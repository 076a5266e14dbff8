(** Sharing of buffers is not seen. *)
From Coq Require Import ZArith List Bool Arith Lia.
From Verif Require Import StrShareModel StrShareSpec.
Import ListNotations.

Definition val_of (m : mem) (i : nat) : option val :=
  match objs m i with Some o => match read m (o_c o) with Some b => Some (b, o_f o) | None => None end | None => None end.
Definition vok (m : mem) (r a off len : nat) : Prop :=
  objs m r = Some (mkO (Heap a) true) /\ exists b, bufs m a = Some b /\ off + len <= length b.
Record core (m : mem) : Prop := mkCore {
  c_obj : forall i o, objs m i = Some o -> i < nobj m;
  c_buf : forall a b, bufs m a = Some b -> a < nbuf m;
  c_heap : forall i a f, objs m i = Some (mkO (Heap a) f) -> exists b, bufs m a = Some b;
  c_own : forall i j a f g, objs m i = Some (mkO (Heap a) f) -> objs m j = Some (mkO (Heap a) g) -> i = j;
  c_view : forall i r a off len f, objs m i = Some (mkO (View r a off len) f) -> vok m r a off len }.

Lemma upd_same : forall A (f : nat -> A) i v, upd f i v i = v.
Proof. intros; unfold upd; rewrite Nat.eqb_refl; reflexivity. Qed.
Lemma upd_other : forall A (f : nat -> A) i j v, j <> i -> upd f i v j = f j.
Proof. intros A f i j v h; unfold upd; destruct (j =? i) eqn:e; [apply Nat.eqb_eq in e; congruence | reflexivity]. Qed.

Lemma core_read : forall m i o, core m -> objs m i = Some o -> exists b, read m (o_c o) = Some b.
Proof.
  intros m i [c f] h e. cbn. destruct c as [b | a | r a off len]; cbn.
  - eauto.
  - exact (c_heap m h i a f e).
  - destruct (c_view m h i r a off len f e) as [_ [b [hb hl]]]. rewrite hb.
    destruct (Nat.leb_spec (off + len) (length b)); [eauto | lia].
Qed.
Lemma core_val : forall m i o, core m -> objs m i = Some o -> exists b, read m (o_c o) = Some b /\ val_of m i = Some (b, o_f o).
Proof. intros m i o h e. destruct (core_read m i o h e) as [b hb]. exists b. unfold val_of. rewrite e, hb. auto. Qed.

Lemma val_lt : forall m i v, core m -> val_of m i = Some v -> i < nobj m.
Proof. intros m i v h e. unfold val_of in e. destruct (objs m i) as [o|] eqn:eo; [exact (c_obj m h i o eo) | discriminate]. Qed.

(** A new object. *)
Definition fits (m : mem) (c : cont) : Prop :=
  match c with
  | Inl _ => True
  | Heap a => (exists b, bufs m a = Some b) /\ forall i f, objs m i <> Some (mkO (Heap a) f)
  | View r a off len => vok m r a off len
  end.
Lemma new_obj_ok : forall m c f, core m -> fits m c ->
  let m' := fst (new_obj m (mkO c f)) in
  core m' /\ (forall i, i < nobj m -> objs m' i = objs m i /\ val_of m' i = val_of m i)
  /\ objs m' (nobj m) = Some (mkO c f) /\ val_of m' (nobj m) = match read m c with Some b => Some (b, f) | None => None end
  /\ env m' = env m /\ nobj m' = S (nobj m).
Proof.
  intros m c f h hf m'.
  assert (hn : objs m' (nobj m) = Some (mkO c f)) by (cbn; apply upd_same).
  assert (ho : forall i, i <> nobj m -> objs m' i = objs m i) by (intros i hi; cbn; apply upd_other; exact hi).
  assert (hl : forall i o, objs m i = Some o -> objs m' i = Some o).
  { intros i o e. rewrite ho; [exact e|]. pose proof (c_obj m h i o e). lia. }
  assert (hr : forall x, read m' x = read m x) by (intros [| |]; reflexivity).
  assert (hvok : forall r a off len, vok m r a off len -> vok m' r a off len).
  { intros r a off len [h1 h2]. split; [apply hl; exact h1 | exact h2]. }
  assert (hcase : forall i o, objs m' i = Some o -> (i = nobj m /\ o = mkO c f) \/ (i <> nobj m /\ objs m i = Some o)).
  { intros i o e. destruct (Nat.eq_dec i (nobj m)) as [-> | hi].
    - left. rewrite hn in e. injection e as <-. auto.
    - right. rewrite ho in e by exact hi. auto. }
  split; [constructor|].
  - intros i o e. destruct (hcase i o e) as [[-> _] | [_ e2]]; [cbn; lia | pose proof (c_obj m h i o e2); cbn; lia].
  - exact (c_buf m h).
  - intros i a g e. destruct (hcase i _ e) as [[_ e2] | [_ e2]].
    + injection e2 as <- _. exact (proj1 hf).
    + exact (c_heap m h i a g e2).
  - intros i j a g1 g2 e1 e2. destruct (hcase i _ e1) as [[-> q1] | [_ q1]], (hcase j _ e2) as [[-> q2] | [_ q2]].
    + reflexivity.
    + injection q1 as <- _. exfalso. exact (proj2 hf j g2 q2).
    + injection q2 as <- _. exfalso. exact (proj2 hf i g1 q1).
    + exact (c_own m h i j a g1 g2 q1 q2).
  - intros i r a off len g e. apply hvok. destruct (hcase i _ e) as [[_ e2] | [_ e2]].
    + injection e2 as <- _. exact hf.
    + exact (c_view m h i r a off len g e2).
  - split; [|split; [exact hn|split; [|split; reflexivity]]].
    + intros i hi. assert (q : objs m' i = objs m i) by (apply ho; lia). split; [exact q|].
      unfold val_of. rewrite q. destruct (objs m i) as [o|]; [rewrite hr|]; reflexivity.
    + unfold val_of. rewrite hn. cbn [o_c o_f]. rewrite hr. reflexivity.
Qed.

(** A new buffer. *)
Lemma new_buf_ok : forall m b, core m ->
  let m' := fst (new_buf m b) in
  core m' /\ (forall i, val_of m' i = val_of m i) /\ fits m' (Heap (nbuf m)) /\ read m' (Heap (nbuf m)) = Some b.
Proof.
  intros m b h m'.
  assert (hn : bufs m' (nbuf m) = Some b) by (cbn; apply upd_same).
  assert (hl : forall a x, bufs m a = Some x -> bufs m' a = Some x).
  { intros a x e. cbn. rewrite upd_other; [exact e|]. pose proof (c_buf m h a x e). lia. }
  assert (hvok : forall r a off len, vok m r a off len -> vok m' r a off len).
  { intros r a off len [h1 [x [h2 h3]]]. split; [exact h1 | exists x; split; [apply hl; exact h2 | exact h3]]. }
  split; [constructor|split; [|split]].
  - exact (c_obj m h).
  - intros a x e. cbn in e |- *. destruct (Nat.eq_dec a (nbuf m)) as [-> | ha]; [lia|].
    rewrite upd_other in e by exact ha. pose proof (c_buf m h a x e). lia.
  - intros i a f e. destruct (c_heap m h i a f e) as [x hx]. exists x. apply hl; exact hx.
  - exact (c_own m h).
  - intros i r a off len f e. apply hvok. exact (c_view m h i r a off len f e).
  - intros i. unfold val_of. change (objs m' i) with (objs m i). destruct (objs m i) as [[c f]|] eqn:e; [|reflexivity].
    cbn [o_c o_f]. destruct c as [x | a | r a off len]; cbn [read].
    + reflexivity.
    + destruct (c_heap m h i a f e) as [x hx]. rewrite hx, (hl a x hx). reflexivity.
    + destruct (c_view m h i r a off len f e) as [_ [x [hx _]]]. rewrite hx, (hl a x hx). reflexivity.
  - split; [eauto|]. intros i f e. change (objs m' i) with (objs m i) in e.
    destruct (c_heap m h i _ f e) as [x hx]. pose proof (c_buf m h _ x hx). lia.
  - exact hn.
Qed.
Lemma from_slice_ok : forall m b sp m' c, core m -> from_slice m b sp = (m', c) ->
  core m' /\ (forall i, val_of m' i = val_of m i) /\ fits m' c /\ read m' c = Some b
  /\ objs m' = objs m /\ env m' = env m /\ nobj m' = nobj m.
Proof.
  intros m b sp m' c h e. unfold from_slice in e.
  destruct ((length b <=? cap) && negb sp).
  - injection e as <- <-. split; [exact h|]. cbn. repeat split; auto.
  - cbn [new_buf] in e. injection e as <- <-. destruct (new_buf_ok m b h) as [h1 [h2 [h3 h4]]].
    split; [exact h1|]. split; [exact h2|]. split; [exact h3|]. split; [exact h4|]. repeat split; reflexivity.
Qed.

(** The object [i] gets new content. *)
Definition fits_at (m : mem) (i : nat) (m' : mem) (c : cont) : Prop :=
  match c with
  | Inl _ => True
  | Heap a => (exists b, bufs m' a = Some b) /\ forall j f, j <> i -> objs m j <> Some (mkO (Heap a) f)
  | View r a off len => vok m r a off len
  end.
Lemma change_ok : forall m i o c f m', core m -> objs m i = Some o -> o_f o = false ->
  objs m' i = Some (mkO c f) -> (forall j, j <> i -> objs m' j = objs m j) -> nobj m' = nobj m ->
  (forall a b, bufs m' a = Some b -> a < nbuf m') ->
  (forall a b j g, bufs m a = Some b -> j <> i -> objs m j = Some (mkO (Heap a) g) -> bufs m' a = Some b) ->
  fits_at m i m' c ->
  core m' /\ (forall j, j <> i -> val_of m' j = val_of m j).
Proof.
  intros m i o c f m' h e hf hi hj hn hb hk hc.
  assert (hri : forall r a off len, vok m r a off len -> r <> i).
  { intros r a off len [h1 _] ->. rewrite e in h1. injection h1 as ->. discriminate. }
  assert (hvok : forall r a off len, vok m r a off len -> vok m' r a off len).
  { intros r a off len hv. pose proof (hri _ _ _ _ hv) as hr. destruct hv as [h1 [x [h2 h3]]].
    split; [rewrite hj by exact hr; exact h1|]. exists x. split; [|exact h3]. exact (hk a x r true h2 hr h1). }
  assert (hcase : forall j q, objs m' j = Some q -> (j = i /\ q = mkO c f) \/ (j <> i /\ objs m j = Some q)).
  { intros j q eq. destruct (Nat.eq_dec j i) as [-> | hne].
    - left. rewrite hi in eq. injection eq as <-. auto.
    - right. rewrite hj in eq by exact hne. auto. }
  split; [constructor|].
  - intros j q eq. rewrite hn. destruct (hcase j q eq) as [[-> _] | [_ e2]]; [exact (c_obj m h i o e) | exact (c_obj m h j q e2)].
  - exact hb.
  - intros j a g eq. destruct (hcase j _ eq) as [[_ e2] | [hne e2]].
    + injection e2 as <- _. exact (proj1 hc).
    + destruct (c_heap m h j a g e2) as [x hx]. exists x. exact (hk a x j g hx hne e2).
  - intros j k a g1 g2 e1 e2. destruct (hcase j _ e1) as [[-> q1] | [n1 q1]], (hcase k _ e2) as [[-> q2] | [n2 q2]].
    + reflexivity.
    + injection q1 as <- _. exfalso. exact (proj2 hc k g2 n2 q2).
    + injection q2 as <- _. exfalso. exact (proj2 hc j g1 n1 q1).
    + exact (c_own m h j k a g1 g2 q1 q2).
  - intros j r a off len g eq. apply hvok. destruct (hcase j _ eq) as [[_ e2] | [_ e2]].
    + injection e2 as <- _. exact hc.
    + exact (c_view m h j r a off len g e2).
  - intros j hne. unfold val_of. rewrite hj by exact hne. destruct (objs m j) as [[x g]|] eqn:ej; [|reflexivity].
    cbn [o_c o_f]. destruct x as [x | a | r a off len]; cbn [read].
    + reflexivity.
    + destruct (c_heap m h j a g ej) as [x hx]. rewrite hx, (hk a x j g hx hne ej). reflexivity.
    + pose proof (c_view m h j r a off len g ej) as hv. pose proof (hri _ _ _ _ hv) as hr.
      destruct hv as [h1 [x [hx _]]]. rewrite hx, (hk a x r true hx hr h1). reflexivity.
Qed.

Lemma drop_bufs : forall m c a, bufs (drop m c) a = match c with Heap x => if a =? x then None else bufs m a | _ => bufs m a end.
Proof. intros m c a; destruct c; reflexivity. Qed.
Lemma from_slice_bufs : forall m b sp m' c, from_slice m b sp = (m', c) ->
  match c with
  | Inl x => x = b /\ m' = m
  | Heap a => a = nbuf m /\ m' = fst (new_buf m b)
  | View _ _ _ _ => False
  end.
Proof.
  intros m b sp m' c e. unfold from_slice in e. destruct ((length b <=? cap) && negb sp).
  - injection e as <- <-. auto.
  - cbn [new_buf] in e. injection e as <- <-. auto.
Qed.

(** New owned content in place of the old. *)
Lemma replace_ok : forall m i o c m1, core m -> objs m i = Some o -> o_f o = false ->
  (forall a b, bufs m1 a = Some b -> a < nbuf m1) -> objs m1 = objs m -> nobj m1 = nobj m ->
  (forall a b j g, bufs m a = Some b -> j <> i -> objs m j = Some (mkO (Heap a) g) -> bufs m1 a = Some b) ->
  fits_at m i m1 c ->
  let m' := set_obj m1 i (mkO c (o_f o)) in
  core m' /\ (forall j, j <> i -> val_of m' j = val_of m j)
  /\ val_of m' i = match read m1 c with Some b => Some (b, false) | None => None end.
Proof.
  intros m i o c m1 h e hf hb ho hn hk hc m'.
  assert (hi : objs m' i = Some (mkO c (o_f o))) by (cbn; apply upd_same).
  destruct (change_ok m i o c (o_f o) m' h e hf hi) as [h1 h2].
  - intros j hj. cbn. rewrite upd_other by exact hj. rewrite ho. reflexivity.
  - exact hn.
  - exact hb.
  - exact hk.
  - exact hc.
  - split; [exact h1|]. split; [exact h2|]. unfold val_of. rewrite hi. cbn [o_c o_f].
    replace (read m' c) with (read m1 c) by (destruct c; reflexivity). rewrite hf. reflexivity.
Qed.

(** A buffer only [i] can use, or nobody. *)
Definition mine (m : mem) (i : nat) (a : nat) : Prop := forall j g, j <> i -> objs m j <> Some (mkO (Heap a) g).

Lemma write_ok : forall m i o b f h, core m -> objs m i = Some o -> o_f o = false -> read m (o_c o) = Some b ->
  exists m', write m i f h = Some m' /\ core m' /\ env m' = env m
    /\ (forall j, j <> i -> val_of m' j = val_of m j) /\ val_of m' i = Some (f b, false).
Proof.
  intros m i o b f h hc e hf hb. unfold write. rewrite e, hb.
  set (p := match o_c o with View _ _ _ _ => from_slice m b false | c => (m, c) end).
  (* the buffer after [owned_mut] *)
  assert (P : exists m1 c1, p = (m1, c1) /\ core m1 /\ objs m1 = objs m /\ env m1 = env m /\ nobj m1 = nobj m
              /\ (forall a x j g, bufs m a = Some x -> objs m j = Some (mkO (Heap a) g) -> bufs m1 a = Some x)
              /\ match c1 with Heap a => mine m i a /\ a < nbuf m1 | View _ _ _ _ => False | Inl _ => True end).
  { subst p. destruct (o_c o) as [x | a | r a off len] eqn:ec.
    - exists m, (Inl x). split; [reflexivity|]. split; [exact hc|]. repeat split; auto.
    - exists m, (Heap a). split; [reflexivity|]. split; [exact hc|]. repeat split; auto.
      + intros j g hj ej. apply hj. destruct o as [oc of]. cbn in ec, hf. subst oc.
        exact (c_own m hc j i a g of ej e).
      + cbn in hb. exact (c_buf m hc a b hb).
    - destruct (from_slice m b false) as [m1 c1] eqn:es. exists m1, c1. split; [reflexivity|].
      destruct (from_slice_ok m b false m1 c1 hc es) as [h1 [h2 [h3 [h4 [h5 [h6 h7]]]]]].
      split; [exact h1|]. split; [exact h5|]. split; [exact h6|]. split; [exact h7|].
      pose proof (from_slice_bufs _ _ _ _ _ es) as q. destruct c1 as [x | a1 |]; [| |destruct q].
      + destruct q as [_ ->]. auto.
      + destruct q as [-> ->]. split; [|split].
        * intros a0 x j g hx _. cbn. rewrite upd_other; [exact hx|]. pose proof (c_buf m hc a0 x hx). lia.
        * intros j g _ ej. destruct (c_heap m hc j _ g ej) as [x hx]. pose proof (c_buf m hc _ x hx). lia.
        * cbn. lia. }
  destruct P as [m1 [c1 [ep [h1 [ho [he [hn [hk hm]]]]]]]]. rewrite ep. cbv zeta.
  (* the fresh content *)
  assert (F : forall m2 c2 m0, core m1 -> (m0 = m1 \/ m0 = drop m1 c1) ->
            (exists sp, from_slice m0 (f b) sp = (m2, c2)) \/ (m2 = fst (new_buf m0 (f b)) /\ c2 = Heap (nbuf m0)) ->
            objs m2 = objs m /\ nobj m2 = nobj m /\ env m2 = env m /\ (forall a x, bufs m2 a = Some x -> a < nbuf m2)
            /\ (forall a x j g, bufs m a = Some x -> j <> i -> objs m j = Some (mkO (Heap a) g) -> bufs m2 a = Some x)
            /\ fits_at m i m2 c2 /\ read m2 c2 = Some (f b)).
  { intros m2 c2 m0 _ h0 hs.
    assert (H0 : objs m0 = objs m /\ nobj m0 = nobj m /\ env m0 = env m /\ nbuf m0 = nbuf m1
                 /\ (forall a x, bufs m0 a = Some x -> a < nbuf m0)
                 /\ (forall a x j g, bufs m a = Some x -> j <> i -> objs m j = Some (mkO (Heap a) g) -> bufs m0 a = Some x)).
    { destruct h0 as [-> | ->].
      - split; [exact ho|]. split; [exact hn|]. split; [exact he|]. split; [reflexivity|]. split; [exact (c_buf m1 h1)|].
        intros a x j g hx _ ej. exact (hk a x j g hx ej).
      - split; [destruct c1; exact ho|]. split; [destruct c1; exact hn|]. split; [destruct c1; exact he|].
        split; [destruct c1; reflexivity|]. split.
        + intros a x hx. rewrite drop_bufs in hx. replace (nbuf (drop m1 c1)) with (nbuf m1) by (destruct c1; reflexivity).
          apply (c_buf m1 h1 a x). destruct c1; try exact hx. destruct (a =? a0); [discriminate | exact hx].
        + intros a x j g hx hj ej. rewrite drop_bufs. pose proof (hk a x j g hx ej) as q. destruct c1 as [y | y |]; try exact q.
          destruct (a =? y) eqn:ea; [|exact q]. apply Nat.eqb_eq in ea. subst y. exfalso. exact (proj1 hm j g hj ej). }
    destruct H0 as [a1 [a2 [a3 [a4 [a5 a6]]]]].
    assert (G : m2 = fst (new_buf m0 (f b)) /\ c2 = Heap (nbuf m0) \/ m2 = m0 /\ c2 = Inl (f b)).
    { destruct hs as [[sp hs] | hs]; [|left; exact hs]. pose proof (from_slice_bufs _ _ _ _ _ hs) as q.
      destruct c2; [right | left | destruct q]; destruct q as [-> ->]; auto. }
    destruct G as [[-> ->] | [-> ->]].
    - split; [exact a1|]. split; [exact a2|]. split; [exact a3|]. split; [|split; [|split]].
      + intros a x hx. cbn in hx |- *. destruct (Nat.eq_dec a (nbuf m0)) as [-> | ha]; [lia|].
        rewrite upd_other in hx by exact ha. pose proof (a5 a x hx). lia.
      + intros a x j g hx hj ej. cbn. pose proof (a6 a x j g hx hj ej) as q. rewrite upd_other; [exact q|].
        pose proof (a5 a x q). lia.
      + split; [exists (f b); cbn; apply upd_same|]. intros j g hj ej.
        destruct (c_heap m hc j _ g ej) as [x hx]. pose proof (a5 _ x (a6 _ x j g hx hj ej)). lia.
      + cbn. apply upd_same.
    - repeat split; auto. }
  assert (E : exists m2 c2, match h, c1 with
            | InPlace, Heap a => (set_buf m1 a (Some (f b)), Heap a)
            | InPlace, _ => from_slice m1 (f b) false
            | Moved, _ => let '(m', a) := new_buf (drop m1 c1) (f b) in (m', Heap a)
            | Fresh sp, _ => from_slice (drop m1 c1) (f b) sp
            end = (m2, c2)
            /\ objs m2 = objs m /\ nobj m2 = nobj m /\ env m2 = env m /\ (forall a x, bufs m2 a = Some x -> a < nbuf m2)
            /\ (forall a x j g, bufs m a = Some x -> j <> i -> objs m j = Some (mkO (Heap a) g) -> bufs m2 a = Some x)
            /\ fits_at m i m2 c2 /\ read m2 c2 = Some (f b)).
  { destruct h as [| | sp].
    - destruct c1 as [x | a | r a off len]; [| |destruct hm].
      + destruct (from_slice m1 (f b) false) as [m2 c2] eqn:es. exists m2, c2. split; [reflexivity|].
        apply (F m2 c2 m1 h1); eauto.
      + eexists; eexists; split; [reflexivity|]. split; [exact ho|]. split; [exact hn|]. split; [exact he|]. split; [|split; [|split]].
        * intros a0 x hx. cbn in hx |- *. destruct (Nat.eq_dec a0 a) as [-> | ha]; [exact (proj2 hm)|].
          rewrite upd_other in hx by exact ha. exact (c_buf m1 h1 a0 x hx).
        * intros a0 x j g hx hj ej. cbn. rewrite upd_other; [exact (hk a0 x j g hx ej)|]. intros ->. exact (proj1 hm j g hj ej).
        * split; [exists (f b); cbn; apply upd_same | exact (proj1 hm)].
        * cbn. apply upd_same.
    - cbn [new_buf]. eexists; eexists; split; [destruct c1; reflexivity|]. apply (F _ _ (drop m1 c1) h1); auto.
    - destruct (from_slice (drop m1 c1) (f b) sp) as [m2 c2] eqn:es. exists m2, c2. split; [destruct c1; reflexivity|].
      apply (F m2 c2 (drop m1 c1) h1); eauto. }
  destruct E as [m2 [c2 [ee [b1 [b2 [b3 [b4 [b5 [b6 b7]]]]]]]]].
  eexists. split; [rewrite ee; reflexivity|].
  destruct (replace_ok m i o c2 m2 hc e hf b4 b1 b2 b5 b6) as [g1 [g2 g3]].
  split; [exact g1|]. split; [exact b3|]. split; [exact g2|]. rewrite g3, b7. reflexivity.
Qed.

(** [assign] of content that fits. *)
Lemma assign_ok : forall m i o c b, core m -> objs m i = Some o -> o_f o = false -> fits m c -> read m c = Some b ->
  exists m', assign m i c = Some m' /\ core m' /\ env m' = env m
    /\ (forall j, j <> i -> val_of m' j = val_of m j) /\ val_of m' i = Some (b, false).
Proof.
  intros m i o c b h e hf hc hr. unfold assign. rewrite e. eexists. split; [reflexivity|].
  assert (K : forall a x j g, bufs m a = Some x -> j <> i -> objs m j = Some (mkO (Heap a) g) -> bufs (drop m (o_c o)) a = Some x).
  { intros a x j g hx hj ej. rewrite drop_bufs. destruct o as [[y | y | r y off len] of]; cbn in *; try exact hx.
    destruct (a =? y) eqn:ea; [|exact hx]. apply Nat.eqb_eq in ea. subst y. exfalso. apply hj. exact (c_own m h j i a g of ej e). }
  assert (Q : read (drop m (o_c o)) c = Some b /\ fits_at m i (drop m (o_c o)) c).
  { destruct c as [y | a | r a off len]; cbn [read fits_at] in *.
    - auto.
    - destruct hc as [_ hu].
      assert (q : bufs (drop m (o_c o)) a = Some b).
      { rewrite drop_bufs. destruct o as [[y | y | r y off len] of]; cbn in *; try exact hr.
        destruct (a =? y) eqn:ea; [|exact hr]. apply Nat.eqb_eq in ea. subst y. exfalso. exact (hu i of e). }
      split; [exact q|]. split; [eauto|]. intros j g _. apply hu.
    - split; [|exact hc]. destruct hc as [h1 [x [h2 h3]]]. rewrite h2 in hr.
      assert (hri : r <> i). { intros ->. rewrite e in h1. injection h1 as ->. discriminate. }
      rewrite (K a x r true h2 hri h1). exact hr. }
  destruct (replace_ok m i o c (drop m (o_c o)) h e hf) as [g1 [g2 g3]].
  - intros a x hx. rewrite drop_bufs in hx. replace (nbuf (drop m (o_c o))) with (nbuf m) by (destruct (o_c o); reflexivity).
    apply (c_buf m h a x). destruct (o_c o); try exact hx. destruct (a =? a0); [discriminate | exact hx].
  - destruct (o_c o); reflexivity.
  - destruct (o_c o); reflexivity.
  - exact K.
  - exact (proj2 Q).
  - split; [exact g1|]. split; [destruct (o_c o); reflexivity|]. split; [exact g2|]. rewrite g3, (proj1 Q). reflexivity.
Qed.

Lemma clone_ok : forall m i o, core m -> objs m i = Some o ->
  exists m' c b, clone m (o_c o) = Some (m', c) /\ core m' /\ fits m' c /\ read m' c = Some b /\ read m (o_c o) = Some b
    /\ (forall j, val_of m' j = val_of m j) /\ env m' = env m /\ objs m' = objs m /\ nobj m' = nobj m.
Proof.
  intros m i o h e. destruct (core_read m i o h e) as [b hb]. unfold clone.
  destruct (o_c o) as [x | a | r a off len] eqn:ec.
  - rewrite hb. destruct (from_slice m b false) as [m' c] eqn:es.
    destruct (from_slice_ok m b false m' c h es) as [h1 [h2 [h3 [h4 [h5 [h6 h7]]]]]]. exists m', c, b. auto 10.
  - rewrite hb. destruct (from_slice m b false) as [m' c] eqn:es.
    destruct (from_slice_ok m b false m' c h es) as [h1 [h2 [h3 [h4 [h5 [h6 h7]]]]]]. exists m', c, b. auto 10.
  - exists m, (View r a off len), b. split; [reflexivity|]. split; [exact h|]. split.
    + destruct o as [oc of]. cbn in ec. subst oc. exact (c_view m h i r a off len of e).
    + auto 10.
Qed.

(** [ensure_shared_root]: nobody sees it, and the root holds the bytes. *)
Lemma ensure_ok : forall m i o, core m -> objs m i = Some o -> (forall x, o_c o <> Inl x) ->
  exists m' r a off b, ensure_root m i o = Some (m', r, a, off) /\ core m' /\ env m' = env m /\ read m (o_c o) = Some b
    /\ (forall j v, val_of m j = Some v -> val_of m' j = Some v)
    /\ objs m' r = Some (mkO (Heap a) true)
    /\ exists rb, bufs m' a = Some rb /\ off + length b <= length rb /\ b = part rb off (length b).
Proof.
  intros m i o h e hi. destruct (core_read m i o h e) as [b hb]. unfold ensure_root.
  destruct o as [c of]. cbn [o_c o_f] in *. destruct c as [x | a | r a off len].
  - destruct (hi x eq_refl).
  - cbn in hb. assert (hp : b = part b 0 (length b)) by (unfold part; cbn; rewrite firstn_all; reflexivity).
    destruct of.
    + exists m, i, a, 0, b. split; [reflexivity|]. split; [exact h|]. split; [reflexivity|]. split; [exact hb|].
      split; [auto|]. split; [exact e|]. exists b. split; [exact hb|]. split; [lia | exact hp].
    + rewrite hb. cbn [new_obj].
      set (m' := set_obj _ i _).
      assert (hin : i < nobj m) by exact (c_obj m h i _ e).
      assert (oi : objs m' i = Some (mkO (View (nobj m) a 0 (length b)) false)) by (cbn; apply upd_same).
      assert (or : objs m' (nobj m) = Some (mkO (Heap a) true)).
      { cbn. rewrite upd_other by lia. apply upd_same. }
      assert (oj : forall j, j <> i -> j <> nobj m -> objs m' j = objs m j).
      { intros j h1 h2. cbn. rewrite !upd_other by assumption. reflexivity. }
      assert (hcase : forall j q, objs m' j = Some q ->
                (j = i /\ q = mkO (View (nobj m) a 0 (length b)) false) \/ (j = nobj m /\ q = mkO (Heap a) true)
                \/ (j <> i /\ j <> nobj m /\ objs m j = Some q)).
      { intros j q eq. destruct (Nat.eq_dec j i) as [-> | n1]; [left; rewrite oi in eq; injection eq as <-; auto|].
        destruct (Nat.eq_dec j (nobj m)) as [-> | n2]; [right; left; rewrite or in eq; injection eq as <-; auto|].
        right; right. rewrite oj in eq by assumption. auto. }
      assert (hvok : forall r0 a0 off len, vok m r0 a0 off len -> vok m' r0 a0 off len).
      { intros r0 a0 off len [h1 h2]. split; [|exact h2]. rewrite oj; [exact h1| |].
        - intros ->. rewrite e in h1. discriminate.
        - pose proof (c_obj m h r0 _ h1). lia. }
      exists m', (nobj m), a, 0, b. split; [reflexivity|]. split; [constructor|].
      * intros j q eq. change (nobj m') with (S (nobj m)).
        destruct (hcase j q eq) as [[-> _] | [[-> _] | [_ [_ q2]]]]; [lia | lia | pose proof (c_obj m h j q q2); lia].
      * exact (c_buf m h).
      * intros j a0 g eq. destruct (hcase j _ eq) as [[_ q2] | [[_ q2] | [_ [_ q2]]]].
        -- discriminate.
        -- injection q2 as -> _. exists b. exact hb.
        -- exact (c_heap m h j a0 g q2).
      * intros j k a0 g1 g2 e1 e2.
        destruct (hcase j _ e1) as [[_ q1] | [[j1 q1] | [j1 [j2 q1]]]]; [discriminate | |];
          (destruct (hcase k _ e2) as [[_ q2] | [[k1 q2] | [k1 [k2 q2]]]]; [discriminate | |]).
        -- congruence.
        -- injection q1 as -> _. exfalso. apply k1. exact (c_own m h k i a g2 false q2 e).
        -- injection q2 as -> _. exfalso. apply j1. exact (c_own m h j i a g1 false q1 e).
        -- exact (c_own m h j k a0 g1 g2 q1 q2).
      * intros j r0 a0 off len g eq. destruct (hcase j _ eq) as [[_ q2] | [[_ q2] | [_ [_ q2]]]].
        -- injection q2 as -> -> -> -> _. split; [exact or|]. exists b. split; [exact hb | lia].
        -- discriminate.
        -- apply hvok. exact (c_view m h j r0 a0 off len g q2).
      * split; [reflexivity|]. split; [exact hb|]. split; [|split; [exact or|]].
        -- intros j v hv. destruct (Nat.eq_dec j i) as [-> | n1].
           ++ unfold val_of in *. rewrite e in hv. cbn [o_c read o_f] in hv. rewrite hb in hv. rewrite oi. cbn [o_c o_f read].
              change (bufs m' a) with (bufs m a). rewrite hb. cbn. rewrite Nat.leb_refl. unfold part. cbn. rewrite firstn_all. exact hv.
           ++ assert (n2 : j <> nobj m).
              { intros ->. unfold val_of in hv. destruct (objs m (nobj m)) as [q|] eqn:eq; [|discriminate]. pose proof (c_obj m h _ q eq). lia. }
              unfold val_of in *. rewrite oj by assumption. destruct (objs m j) as [[c g]|]; [|discriminate]. destruct c; exact hv.
        -- exists b. split; [exact hb|]. split; [lia | exact hp].
  - destruct (c_view m h i r a off len of e) as [h1 [x [h2 h3]]].
    exists m, r, a, off, b. split; [reflexivity|]. split; [exact h|]. split; [reflexivity|]. split; [exact hb|].
    split; [auto|]. split; [exact h1|]. exists x. split; [exact h2|].
    cbn in hb. rewrite h2 in hb. destruct (Nat.leb_spec (off + len) (length x)); [|lia]. injection hb as <-.
    assert (hl : length (part x off len) = len) by (unfold part; rewrite firstn_length, skipn_length; lia).
    rewrite hl. auto.
Qed.

Lemma part_part : forall b off len s k, s + k <= len -> part (part b off len) s k = part b (off + s) k.
Proof.
  intros b off len s k h. unfold part. rewrite skipn_firstn_comm, firstn_firstn, Nat.min_l by lia.
  f_equal. generalize b. clear. induction off as [|off IH]; intros b; [reflexivity|].
  destruct b as [|z b]; cbn; [destruct s; reflexivity | apply IH].
Qed.
Lemma part_len : forall b off len, off + len <= length b -> length (part b off len) = len.
Proof. intros b off len h. unfold part. rewrite firstn_length, skipn_length. lia. Qed.

Lemma substring_ok : forall m i o b s e, core m -> objs m i = Some o -> read m (o_c o) = Some b -> s <= e -> e <= length b ->
  exists m' k, substring m i s e = Some (m', k) /\ core m' /\ env m' = env m
    /\ (forall j v, val_of m j = Some v -> val_of m' j = Some v)
    /\ val_of m k = None /\ val_of m' k = Some (part b s (e - s), false).
Proof.
  intros m i o b s e h ho hb h1 h2. unfold substring. rewrite ho.
  assert (fresh : forall m0, core m0 -> val_of m0 (nobj m0) = None).
  { intros m0 h0. unfold val_of. destruct (objs m0 (nobj m0)) as [q|] eqn:eq; [|reflexivity]. pose proof (c_obj m0 h0 _ q eq). lia. }
  destruct ((cap <? e - s) && match o_c o with Inl _ => false | _ => true end) eqn:et.
  - apply andb_true_iff in et. destruct et as [_ et].
    destruct (ensure_ok m i o h ho) as [m1 [r [a [off [b1 [ee [g1 [g2 [g3 [g4 [g5 [rb [g6 [g7 g8]]]]]]]]]]]]]].
    { intros x ex. rewrite ex in et. discriminate. }
    rewrite ee. rewrite hb in g3. injection g3 as <-.
    assert (hv : vok m1 r a (off + s) (e - s)) by (split; [exact g5 | exists rb; split; [exact g6 | lia]]).
    destruct (new_obj_ok m1 (View r a (off + s) (e - s)) false g1 hv) as [k1 [k2 [k3 [k4 [k5 k6]]]]].
    eexists. eexists. split; [reflexivity|]. split; [exact k1|]. split; [rewrite <- g2; exact k5|].
    assert (mono : forall j v, val_of m1 j = Some v -> val_of (fst (new_obj m1 (mkO (View r a (off + s) (e - s)) false))) j = Some v).
    { intros j v hj. etransitivity; [exact (proj2 (k2 j (val_lt m1 j v g1 hj))) | exact hj]. }
    split; [intros j v hj; apply mono, g4, hj|]. split.
    + destruct (val_of m (nobj m1)) as [v|] eqn:ev; [|reflexivity]. pose proof (g4 _ _ ev) as q. rewrite (fresh m1 g1) in q. discriminate.
    + cbn [snd new_obj]. etransitivity; [exact k4|]. cbn [read]. rewrite g6.
      destruct (Nat.leb_spec (off + s + (e - s)) (length rb)); [|lia]. rewrite g8, part_part by lia. reflexivity.
  - rewrite hb. destruct (from_slice m (part b s (e - s)) false) as [m1 c] eqn:es.
    destruct (from_slice_ok _ _ _ _ _ h es) as [g1 [g2 [g3 [g4 [g5 [g6 g7]]]]]].
    destruct (new_obj_ok m1 c false g1 g3) as [k1 [k2 [k3 [k4 [k5 k6]]]]].
    eexists. eexists. split; [reflexivity|]. split; [exact k1|]. split; [rewrite <- g6; exact k5|]. split; [|split].
    + intros j v hj. rewrite <- g2 in hj.
      etransitivity; [exact (proj2 (k2 j (val_lt m1 j v g1 hj))) | exact hj].
    + cbn [snd new_obj]. rewrite g7. apply fresh; exact h.
    + cbn [snd new_obj]. etransitivity; [exact k4|]. rewrite g4. reflexivity.
Qed.

Lemma set_frozen_ok : forall m i o b, core m -> objs m i = Some o -> read m (o_c o) = Some b ->
  core (set_frozen m i) /\ env (set_frozen m i) = env m
  /\ (forall j, j <> i -> val_of (set_frozen m i) j = val_of m j) /\ val_of (set_frozen m i) i = Some (b, true).
Proof.
  intros m i o b h e hb. unfold set_frozen. rewrite e.
  set (m' := set_obj m i (mkO (o_c o) true)).
  assert (oi : objs m' i = Some (mkO (o_c o) true)) by (cbn; apply upd_same).
  assert (oj : forall j, j <> i -> objs m' j = objs m j) by (intros j hj; cbn; apply upd_other; exact hj).
  assert (hcase : forall j q, objs m' j = Some q -> exists f, objs m j = Some (mkO (o_c q) f)).
  { intros j q eq. destruct (Nat.eq_dec j i) as [-> | hj].
    - rewrite oi in eq. injection eq as <-. exists (o_f o). rewrite e. destruct o; reflexivity.
    - rewrite oj in eq by exact hj. exists (o_f q). rewrite eq. destruct q; reflexivity. }
  assert (hvok : forall r a off len, vok m r a off len -> vok m' r a off len).
  { intros r a off len [h1 h2]. split; [|exact h2]. destruct (Nat.eq_dec r i) as [-> | hr].
    - rewrite oi. rewrite e in h1. injection h1 as ->. reflexivity.
    - rewrite oj by exact hr. exact h1. }
  split; [constructor|].
  - intros j q eq. destruct (hcase j q eq) as [f ef]. exact (c_obj m h j _ ef).
  - exact (c_buf m h).
  - intros j a g eq. destruct (hcase j _ eq) as [f ef]. exact (c_heap m h j a f ef).
  - intros j k a g1 g2 e1 e2. destruct (hcase j _ e1) as [f1 f2], (hcase k _ e2) as [f3 f4]. exact (c_own m h j k a f1 f3 f2 f4).
  - intros j r a off len g eq. apply hvok. destruct (hcase j _ eq) as [f ef]. exact (c_view m h j r a off len f ef).
  - split; [reflexivity|]. split.
    + intros j hj. unfold val_of. rewrite oj by exact hj. destruct (objs m j) as [[c f]|]; [destruct c|]; reflexivity.
    + unfold val_of. rewrite oi. cbn [o_c o_f]. replace (read m' (o_c o)) with (read m (o_c o)) by (destruct (o_c o); reflexivity).
      rewrite hb. reflexivity.
Qed.

Lemma snapshot_ok : forall m i o b, core m -> objs m i = Some o -> read m (o_c o) = Some b ->
  exists m' k, snapshot m i = Some (m', k) /\ core m' /\ env m' = env m
    /\ (forall j v, val_of m j = Some v -> val_of m' j = Some v) /\ val_of m' k = Some (b, true).
Proof.
  intros m i o b h e hb. unfold snapshot. rewrite e.
  destruct (o_f o) eqn:ef.
  - exists m, i. split; [reflexivity|]. split; [exact h|]. split; [reflexivity|]. split; [auto|]. unfold val_of. rewrite e, hb, ef. reflexivity.
  - destruct (o_c o) as [x | a | r a off len] eqn:ec.
    + injection hb as ->.
      destruct (new_obj_ok m (Inl b) true h I) as [k1 [k2 [k3 [k4 [k5 k6]]]]].
      eexists. eexists. split; [reflexivity|]. split; [exact k1|]. split; [exact k5|]. split; [|exact k4].
      intros j v hj. etransitivity; [exact (proj2 (k2 j (val_lt m j v h hj))) | exact hj].
    + rewrite hb. destruct (ensure_ok m i o h e) as [m1 [r [a' [off [b1 [ee [g1 [g2 [g3 [g4 [g5 [rb [g6 [g7 g8]]]]]]]]]]]]]].
      { intros x. rewrite ec. discriminate. }
      rewrite ee. rewrite ec, hb in g3. injection g3 as <-. rewrite g5. cbn [o_c read]. rewrite g6.
      destruct ((off =? 0) && (length b =? length rb)) eqn:et.
      * apply andb_true_iff in et. destruct et as [t1 t2]. apply Nat.eqb_eq in t1, t2. subst off.
        exists m1, r. split; [reflexivity|]. split; [exact g1|]. split; [exact g2|]. split; [exact g4|].
        unfold val_of. rewrite g5. cbn [o_c o_f read]. rewrite g6. rewrite g8, t2. unfold part. cbn. rewrite firstn_all. reflexivity.
      * assert (hrd : read m1 (o_c (mkO (Heap a') true)) = Some rb) by exact g6.
        destruct (substring_ok m1 r _ rb off (off + length b) g1 g5 hrd ltac:(lia) g7) as [m2 [k [s1 [s2 [s3 [s4 [s5 s6]]]]]]].
        rewrite s1. replace (off + length b - off) with (length b) in s6 by lia. rewrite <- g8 in s6.
        unfold val_of in s6. destruct (objs m2 k) as [ok|] eqn:eo; [|discriminate].
        destruct (read m2 (o_c ok)) as [bk|] eqn:er; [|discriminate]. injection s6 as -> _.
        destruct (set_frozen_ok m2 k ok b s2 eo er) as [z1 [z2 [z3 z4]]].
        eexists. eexists. split; [reflexivity|]. split; [exact z1|]. split; [congruence|]. split; [|exact z4].
        intros j v hj. destruct (Nat.eq_dec j k) as [-> | hjk].
        -- pose proof (g4 k v hj) as q. rewrite s5 in q. discriminate.
        -- rewrite z3 by exact hjk. apply s4, g4, hj.
    + rewrite hb. destruct (ensure_ok m i o h e) as [m1 [r' [a' [off' [b1 [ee [g1 [g2 [g3 [g4 [g5 [rb [g6 [g7 g8]]]]]]]]]]]]]].
      { intros x. rewrite ec. discriminate. }
      rewrite ee. rewrite ec, hb in g3. injection g3 as <-. rewrite g5. cbn [o_c read]. rewrite g6.
      destruct ((off' =? 0) && (length b =? length rb)) eqn:et.
      * apply andb_true_iff in et. destruct et as [t1 t2]. apply Nat.eqb_eq in t1, t2. subst off'.
        exists m1, r'. split; [reflexivity|]. split; [exact g1|]. split; [exact g2|]. split; [exact g4|].
        unfold val_of. rewrite g5. cbn [o_c o_f read]. rewrite g6. rewrite g8, t2. unfold part. cbn. rewrite firstn_all. reflexivity.
      * assert (hrd : read m1 (o_c (mkO (Heap a') true)) = Some rb) by exact g6.
        destruct (substring_ok m1 r' _ rb off' (off' + length b) g1 g5 hrd ltac:(lia) g7) as [m2 [k [s1 [s2 [s3 [s4 [s5 s6]]]]]]].
        rewrite s1. replace (off' + length b - off') with (length b) in s6 by lia. rewrite <- g8 in s6.
        unfold val_of in s6. destruct (objs m2 k) as [ok|] eqn:eo; [|discriminate].
        destruct (read m2 (o_c ok)) as [bk|] eqn:er; [|discriminate]. injection s6 as -> _.
        destruct (set_frozen_ok m2 k ok b s2 eo er) as [z1 [z2 [z3 z4]]].
        eexists. eexists. split; [reflexivity|]. split; [exact z1|]. split; [congruence|]. split; [|exact z4].
        intros j v hj. destruct (Nat.eq_dec j k) as [-> | hjk].
        -- pose proof (g4 k v hj) as q. rewrite s5 in q. discriminate.
        -- rewrite z3 by exact hjk. apply s4, g4, hj.
Qed.

(** The collector. *)
Lemma drop_names_nth : forall l k keep n,
  nth n (drop_names k l keep) None = if existsb (Nat.eqb (k + n)) keep then nth n l None else None.
Proof.
  induction l as [|e l IH]; intros k keep n.
  - cbn. destruct n; destruct (existsb _ keep); reflexivity.
  - destruct n; cbn; [rewrite Nat.add_0_r; reflexivity | rewrite IH; rewrite Nat.add_succ_r; reflexivity].
Qed.
Lemma drop_names_len : forall l k keep, length (drop_names k l keep) = length l.
Proof. induction l as [|e l IH]; intros; cbn; [|rewrite IH]; reflexivity. Qed.
Lemma kill_nth : forall l k keep n,
  nth n (kill k l keep) None = if existsb (Nat.eqb (k + n)) keep then nth n l None else None.
Proof.
  induction l as [|e l IH]; intros k keep n.
  - cbn. destruct n; destruct (existsb _ keep); reflexivity.
  - destruct n; cbn; [rewrite Nat.add_0_r; reflexivity | rewrite IH; rewrite Nat.add_succ_r; reflexivity].
Qed.
Lemma kill_len : forall l k keep, length (kill k l keep) = length l.
Proof. induction l as [|e l IH]; intros; cbn; [|rewrite IH]; reflexivity. Qed.
Lemma gc_ok : forall m keep, core m ->
  core (gc m keep) /\ forall i v, In (Some i) (drop_names 0 (env m) keep) -> val_of m i = Some v -> val_of (gc m keep) i = Some v.
Proof.
  intros m keep h. set (l := drop_names 0 (env m) keep). set (m' := gc m keep).
  assert (ho : forall i, objs m' i = if marked m l i then objs m i else None) by reflexivity.
  assert (hlive : forall i o, objs m' i = Some o -> marked m l i = true /\ objs m i = Some o).
  { intros i o e. rewrite ho in e. destruct (marked m l i); [auto | discriminate]. }
  assert (hkeep : forall i a f b, objs m i = Some (mkO (Heap a) f) -> marked m l i = true -> bufs m a = Some b -> bufs m' a = Some b).
  { intros i a f b e hm hb. cbn. fold l.
    destruct (existsb (fun i0 => negb (marked m l i0) && owns m a i0) (seq 0 (nobj m))) eqn:ee; [|exact hb].
    apply existsb_exists in ee. destruct ee as [j [_ hj]]. apply andb_true_iff in hj. destruct hj as [h1 h2].
    unfold owns in h2. destruct (objs m j) as [[c g]|] eqn:ej; [|discriminate]. destruct c as [| a' |]; try discriminate.
    apply Nat.eqb_eq in h2. subst a'. rewrite (c_own m h j i a g f ej e), hm in h1. discriminate. }
  assert (hnamed : forall i, In (Some i) l -> marked m l i = true).
  { intros i hi. apply existsb_exists. exists (Some i). split; [exact hi|]. rewrite Nat.eqb_refl. reflexivity. }
  assert (hroot : forall i r a off len f, In (Some i) l -> objs m i = Some (mkO (View r a off len) f) -> marked m l r = true).
  { intros i r a off len f hi e. apply existsb_exists. exists (Some i). split; [exact hi|]. rewrite e, Nat.eqb_refl. apply orb_true_r. }
  assert (hvm : forall i r a off len f, marked m l i = true -> objs m i = Some (mkO (View r a off len) f) -> In (Some i) l).
  { intros i r a off len f hm e. apply existsb_exists in hm. destruct hm as [[j|] [hj hc]]; [|discriminate].
    apply orb_true_iff in hc. destruct hc as [hc | hc].
    - apply Nat.eqb_eq in hc. subst j. exact hj.
    - destruct (objs m j) as [[c g]|] eqn:ej; [|discriminate]. destruct c as [| | r' a' off' len']; try discriminate.
      apply Nat.eqb_eq in hc. subst r'. destruct (c_view m h j i a' off' len' g ej) as [q _]. rewrite e in q. discriminate. }
  assert (hvok : forall r a off len, marked m l r = true -> vok m r a off len -> vok m' r a off len).
  { intros r a off len hm [h1 [x [h2 h3]]]. split; [rewrite ho, hm; exact h1|]. exists x. split; [|exact h3].
    exact (hkeep r a true x h1 hm h2). }
  split; [constructor|].
  - intros i o e. destruct (hlive i o e) as [_ q]. exact (c_obj m h i o q).
  - intros a b e. cbn in e. destruct (existsb _ _) in e; [discriminate | exact (c_buf m h a b e)].
  - intros i a f e. destruct (hlive i _ e) as [hm q]. destruct (c_heap m h i a f q) as [b hb]. exists b. exact (hkeep i a f b q hm hb).
  - intros i j a f g e1 e2. exact (c_own m h i j a f g (proj2 (hlive i _ e1)) (proj2 (hlive j _ e2))).
  - intros i r a off len f e. destruct (hlive i _ e) as [hm q]. apply hvok; [|exact (c_view m h i r a off len f q)].
    exact (hroot i r a off len f (hvm i r a off len f hm q) q).
  - intros i v hi hv. unfold val_of in *. rewrite ho, (hnamed i hi). destruct (objs m i) as [[c f]|] eqn:e; [|discriminate].
    cbn [o_c o_f] in *. destruct c as [x | a | r a off len]; cbn [read] in *.
    + exact hv.
    + destruct (bufs m a) as [b|] eqn:eb; [|discriminate]. rewrite (hkeep i a f b e (hnamed i hi) eb). exact hv.
    + destruct (c_view m h i r a off len f e) as [q1 [x [q2 q3]]]. rewrite q2 in hv.
      rewrite (hkeep r a true x q1 (hroot i r a off len f hi e) q2). exact hv.
Qed.

(** Names and values. *)
Definition rel (m : mem) (s : vals) : Prop :=
  length (env m) = length s /\
  forall n, match name m n with None => nth n s None = None | Some i => exists v, nth n s None = Some v /\ val_of m i = Some v end.
Definition uniq (m : mem) : Prop := forall n k i b, name m n = Some i -> name m k = Some i -> val_of m i = Some (b, false) -> n = k.
Definition inv (m : mem) (s : vals) : Prop := core m /\ rel m s /\ uniq m.

Lemma keep_inv : forall m m' s, inv m s -> core m' -> env m' = env m ->
  (forall j v, val_of m j = Some v -> val_of m' j = Some v) -> inv m' s.
Proof.
  intros m m' s [h1 [[h2 h3] h4]] c e hv. split; [exact c|]. unfold rel, uniq, name in *. rewrite e. split; [split; [exact h2|]|].
  - intros n. specialize (h3 n). destruct (nth n (env m) None) as [i|]; [|exact h3]. destruct h3 as [v [q1 q2]]. exists v. auto.
  - intros n k i b e1 e2 e3. apply (h4 n k i b e1 e2). specialize (h3 n). rewrite e1 in h3. destruct h3 as [v [_ q2]].
    pose proof (hv i v q2) as q. rewrite e3 in q. injection q as <-. exact q2.
Qed.
Lemma bind_val : forall m k j, val_of (bind m k) j = val_of m j.
Proof. intros m k j. unfold val_of. cbn [bind objs]. destruct (objs m j) as [[c f]|]; [destruct c|]; reflexivity. Qed.
Lemma bind_inv : forall m m' s k v, inv m s -> core m' -> env m' = env m ->
  (forall j w, val_of m j = Some w -> val_of m' j = Some w) -> val_of m' k = Some v ->
  (snd v = true \/ val_of m k = None) -> inv (bind m' k) (s ++ [Some v]).
Proof.
  intros m m' s k v hi c e hv hk hu. destruct hi as [h1 [[h2 h3] h4]].
  assert (hnm : forall n, name (bind m' k) n = if n <? length s then name m n else if n =? length s then Some k else None).
  { intros n. unfold name. cbn [bind env]. rewrite e. destruct (Nat.ltb_spec n (length s)) as [hl | hl].
    - rewrite app_nth1 by lia. reflexivity.
    - rewrite app_nth2 by lia. rewrite h2. destruct (Nat.eqb_spec n (length s)) as [-> | hn]; [rewrite Nat.sub_diag; reflexivity|].
      apply nth_overflow. cbn. lia. }
  assert (hold : forall n i, n < length s -> name m n = Some i -> exists w, val_of m i = Some w).
  { intros n i _ en. specialize (h3 n). rewrite en in h3. destruct h3 as [w [_ q]]. eauto. }
  split; [|split; [split|]].
  - destruct c as [c1 c2 c3 c4 c5]. constructor; assumption.
  - cbn [bind env]. rewrite e, !app_length, h2. reflexivity.
  - intros n. rewrite hnm. destruct (Nat.ltb_spec n (length s)) as [hl | hl].
    + rewrite app_nth1 by exact hl. specialize (h3 n). destruct (name m n) as [i|]; [|exact h3]. destruct h3 as [w [q1 q2]].
      exists w. rewrite bind_val. auto.
    + rewrite app_nth2 by exact hl. destruct (Nat.eqb_spec n (length s)) as [-> | hn].
      * rewrite Nat.sub_diag. exists v. rewrite bind_val. auto.
      * apply nth_overflow. cbn. lia.
  - intros n1 n2 i b e1 e2 e3. rewrite bind_val in e3. rewrite hnm in e1, e2.
    assert (Hnew : i = k -> forall n, n < length s -> name m n = Some i -> False).
    { intros -> n hn en. destruct (hold n k hn en) as [w hw]. rewrite hk in e3. injection e3 as ->. destruct hu as [hu | hu]; [discriminate | congruence]. }
    destruct (Nat.ltb_spec n1 (length s)) as [l1 | l1], (Nat.ltb_spec n2 (length s)) as [l2 | l2].
    + destruct (hold n1 i l1 e1) as [w hw]. pose proof (hv i w hw) as q. rewrite e3 in q. injection q as <-. exact (h4 n1 n2 i b e1 e2 hw).
    + destruct (n2 =? length s); [|discriminate]. injection e2 as <-. destruct (Hnew eq_refl n1 l1 e1).
    + destruct (n1 =? length s); [|discriminate]. injection e1 as <-. destruct (Hnew eq_refl n2 l2 e2).
    + destruct (Nat.eqb_spec n1 (length s)); [|discriminate]. destruct (Nat.eqb_spec n2 (length s)); [|discriminate]. lia.
Qed.
Lemma vset_len : forall s n v, length (vset s n v) = length s.
Proof. induction s as [|x s IH]; intros [|n] v; cbn; [reflexivity..|]. rewrite IH. reflexivity. Qed.
Lemma vset_nth : forall s n v k, nth k (vset s n v) None = if (k =? n) && (n <? length s) then Some v else nth k s None.
Proof.
  induction s as [|x s IH]; intros n v k.
  - cbn. rewrite andb_false_r. destruct n; reflexivity.
  - destruct n as [|n], k as [|k]; cbn; [reflexivity..|]. rewrite IH. reflexivity.
Qed.
Lemma set_inv : forall m m' s n i b v, inv m s -> core m' -> env m' = env m -> name m n = Some i ->
  val_of m i = Some (b, false) -> (forall j, j <> i -> val_of m' j = val_of m j) -> val_of m' i = Some v -> inv m' (vset s n v).
Proof.
  intros m m' s n i b v [h1 [[h2 h3] h4]] c e en hb hj hi.
  assert (hn : forall k, name m' k = name m k) by (intros k; unfold name; rewrite e; reflexivity).
  assert (hlen : n < length s).
  { destruct (Nat.lt_ge_cases n (length s)) as [|q]; [assumption|]. unfold name in en. rewrite nth_overflow in en by lia. discriminate. }
  split; [exact c|]. split; [split|].
  - rewrite e, vset_len. exact h2.
  - intros k. rewrite hn, vset_nth. destruct (Nat.ltb_spec n (length s)); [|lia]. rewrite andb_true_r.
    destruct (Nat.eqb_spec k n) as [-> | hk].
    + rewrite en. eauto.
    + specialize (h3 k). destruct (name m k) as [j|] eqn:ek; [|exact h3]. destruct h3 as [w [q1 q2]]. exists w. split; [exact q1|].
      rewrite hj; [exact q2|]. intros ->. apply hk. exact (h4 k n i b ek en hb).
  - intros k1 k2 j x e1 e2 e3. rewrite hn in e1, e2. destruct (Nat.eq_dec j i) as [-> | hne].
    + exact (h4 k1 k2 i b e1 e2 hb).
    + rewrite hj in e3 by exact hne. exact (h4 k1 k2 j x e1 e2 e3).
Qed.

Lemma vset_same : forall s n v, nth n s None = Some v -> vset s n v = s.
Proof. induction s as [|x s IH]; intros [|n] v e; cbn in *; [reflexivity..| congruence | rewrite IH by exact e; reflexivity]. Qed.

Lemma named : forall m s n i, inv m s -> name m n = Some i ->
  exists o b, objs m i = Some o /\ read m (o_c o) = Some b /\ val_of m i = Some (b, o_f o) /\ nth n s None = Some (b, o_f o).
Proof.
  intros m s n i [h1 [[h2 h3] h4]] e. specialize (h3 n). rewrite e in h3. destruct h3 as [v [q1 q2]].
  pose proof q2 as q3. unfold val_of in q3. destruct (objs m i) as [o|] eqn:eo; [|discriminate].
  destruct (read m (o_c o)) as [b|] eqn:er; [|discriminate]. injection q3 as <-. exists o, b. auto.
Qed.
Lemma unnamed : forall m s n, inv m s -> name m n = None -> nth n s None = None.
Proof. intros m s n [_ [[_ h3] _]] e. specialize (h3 n). rewrite e in h3. exact h3. Qed.
Lemma fresh_obj : forall m m', core m -> nobj m' = nobj m -> val_of m (nobj m') = None.
Proof.
  intros m m' h ->. unfold val_of. destruct (objs m (nobj m)) as [q|] eqn:eq; [|reflexivity]. pose proof (c_obj m h _ q eq). lia.
Qed.

Lemma step_ok : forall m s o, inv m s -> match o with ORead n _ | OCall n _ => match nth n s None with Some (_, true) => False | _ => True end | _ => True end ->
  exists m', step m o = Some m' /\ inv m' (sstep s o).
Proof.
  intros m s o hi hr. pose proof hi as [hc _].
  destruct o as [b sp | n st e | n | n fr | n | n f h | n k | n | keep | n b | n gr]; cbn [step sstep].
  - destruct (from_slice m b sp) as [m1 c] eqn:es. destruct (from_slice_ok m b sp m1 c hc es) as [g1 [g2 [g3 [g4 [g5 [g6 g7]]]]]].
    destruct (new_obj_ok m1 c false g1 g3) as [k1 [k2 [k3 [k4 [k5 k6]]]]]. eexists. split; [reflexivity|].
    refine (bind_inv m _ s _ (b, false) hi k1 _ _ _ _).
    + etransitivity; [exact k5 | exact g6].
    + intros j w hj. rewrite <- g2 in hj. etransitivity; [exact (proj2 (k2 j (val_lt m1 j w g1 hj))) | exact hj].
    + etransitivity; [exact k4|]. rewrite g4. reflexivity.
    + right. exact (fresh_obj m m1 hc g7).
  - destruct (name m n) as [i|] eqn:en; [|rewrite (unnamed m s n hi en); eauto].
    destruct (named m s n i hi en) as [o [b [eo [eb [ev es]]]]]. rewrite eo, eb, es.
    destruct ((st <=? e) && (e <=? length b)) eqn:et; [|eauto].
    apply andb_true_iff in et. destruct et as [t1 t2]. apply Nat.leb_le in t1, t2.
    destruct (substring_ok m i o b st e hc eo eb t1 t2) as [m1 [k [s1 [s2 [s3 [s4 [s5 s6]]]]]]]. rewrite s1. eexists. split; [reflexivity|].
    exact (bind_inv m m1 s k _ hi s2 s3 s4 s6 (or_intror s5)).
  - destruct (name m n) as [i|] eqn:en; [|rewrite (unnamed m s n hi en); eauto].
    destruct (named m s n i hi en) as [o [b [eo [eb [ev es]]]]]. rewrite es.
    destruct (snapshot_ok m i o b hc eo eb) as [m1 [k [s1 [s2 [s3 [s4 s5]]]]]]. rewrite s1. eexists. split; [reflexivity|].
    exact (bind_inv m m1 s k (b, true) hi s2 s3 s4 s5 (or_introl eq_refl)).
  - destruct (name m n) as [i|] eqn:en; [|rewrite (unnamed m s n hi en); eauto].
    destruct (named m s n i hi en) as [o [b [eo [eb [ev es]]]]]. rewrite eo, es.
    destruct (clone_ok m i o hc eo) as [m1 [c [b1 [d1 [d2 [d3 [d4 [d5 [d6 [d7 [d8 d9]]]]]]]]]]]. rewrite d1.
    rewrite eb in d5. injection d5 as <-.
    destruct (new_obj_ok m1 c fr d2 d3) as [k1 [k2 [k3 [k4 [k5 k6]]]]]. eexists. split; [reflexivity|].
    refine (bind_inv m _ s _ (b, fr) hi k1 _ _ _ _).
    + etransitivity; [exact k5 | exact d7].
    + intros j w hj. rewrite <- d6 in hj. etransitivity; [exact (proj2 (k2 j (val_lt m1 j w d2 hj))) | exact hj].
    + etransitivity; [exact k4|]. rewrite d4. reflexivity.
    + right. exact (fresh_obj m m1 hc d9).
  - destruct (name m n) as [i|] eqn:en; [|eauto].
    destruct (named m s n i hi en) as [o [b [eo [eb [ev es]]]]]. rewrite eo.
    destruct (o_c o) as [x | a | r a off len] eqn:ec; [eauto | |].
    + destruct (ensure_ok m i o hc eo) as [m1 [r [a' [off [b1 [ee [g1 [g2 [g3 [g4 _]]]]]]]]]]; [rewrite ec; discriminate|].
      rewrite ee. eexists. split; [reflexivity|]. exact (keep_inv m m1 s hi g1 g2 g4).
    + destruct (ensure_ok m i o hc eo) as [m1 [r' [a' [off' [b1 [ee [g1 [g2 [g3 [g4 _]]]]]]]]]]; [rewrite ec; discriminate|].
      rewrite ee. eexists. split; [reflexivity|]. exact (keep_inv m m1 s hi g1 g2 g4).
  - destruct (name m n) as [i|] eqn:en; [|rewrite (unnamed m s n hi en); eauto].
    destruct (named m s n i hi en) as [o [b [eo [eb [ev es]]]]]. rewrite es. unfold frozen. rewrite eo.
    destruct (o_f o) eqn:ef; [eauto|].
    destruct (write_ok m i o b f h hc eo ef eb) as [m1 [w1 [w2 [w3 [w4 w5]]]]]. exists m1. split; [exact w1|].
    exact (set_inv m m1 s n i b _ hi w2 w3 en ev w4 w5).
  - destruct (name m n) as [i|] eqn:en; [|rewrite (unnamed m s n hi en); eauto].
    destruct (named m s n i hi en) as [o [b [eo [eb [ev es]]]]]. rewrite es.
    destruct (name m k) as [j|] eqn:ek.
    2:{ rewrite (unnamed m s k hi ek). exists m. split; [reflexivity|]. destruct (o_f o); exact hi. }
    destruct (named m s k j hi ek) as [o2 [b2 [eo2 [eb2 [ev2 es2]]]]]. rewrite es2. unfold frozen. rewrite eo.
    destruct (o_f o) eqn:ef; [eauto|]. rewrite eo2.
    destruct (clone_ok m j o2 hc eo2) as [m1 [c [b1 [d1 [d2 [d3 [d4 [d5 [d6 [d7 [d8 d9]]]]]]]]]]]. rewrite d1.
    rewrite eb2 in d5. injection d5 as <-.
    assert (eo' : objs m1 i = Some o) by (rewrite d8; exact eo).
    destruct (assign_ok m1 i o c b2 d2 eo' ef d3 d4) as [m2 [w1 [w2 [w3 [w4 w5]]]]]. exists m2. split; [exact w1|].
    refine (set_inv m m2 s n i b _ hi w2 _ en ev _ w5); [congruence|]. intros x hx. rewrite w4 by exact hx. apply d6.
  - destruct (name m n) as [i|] eqn:en; [|rewrite (unnamed m s n hi en); eauto].
    destruct (named m s n i hi en) as [o [b [eo [eb [ev es]]]]]. rewrite es. eexists. split; [reflexivity|].
    destruct (set_frozen_ok m i o b hc eo eb) as [f1 [f2 [f3 f4]]].
    destruct (o_f o) eqn:ef.
    + rewrite (vset_same s n (b, true) es). refine (keep_inv m _ s hi f1 f2 _). intros j v hj.
      destruct (Nat.eq_dec j i) as [-> | hne]; [congruence | rewrite f3 by exact hne; exact hj].
    + exact (set_inv m _ s n i b _ hi f1 f2 en ev f3 f4).
  - eexists. split; [reflexivity|]. destruct (gc_ok m keep hc) as [g1 g2]. destruct hi as [_ [[h2 h3] h4]].
    assert (hn : forall n, name (gc m keep) n = if existsb (Nat.eqb n) keep then name m n else None).
    { intros n. unfold name. cbn [gc env]. rewrite drop_names_nth. reflexivity. }
    assert (hin : forall n i, name (gc m keep) n = Some i -> In (Some i) (drop_names 0 (env m) keep)).
    { intros n i en. unfold name in en. cbn [gc env] in en.
      destruct (Nat.lt_ge_cases n (length (drop_names 0 (env m) keep))) as [hl | hl]; [|rewrite nth_overflow in en by exact hl; discriminate].
      rewrite <- en. apply nth_In. exact hl. }
    assert (hold : forall n i, name (gc m keep) n = Some i -> name m n = Some i).
    { intros n i en. rewrite hn in en. destruct (existsb (Nat.eqb n) keep); [exact en | discriminate]. }
    split; [exact g1|]. split; [split|].
    + cbn [gc env]. rewrite drop_names_len, kill_len. exact h2.
    + intros n. rewrite kill_nth. cbn [Nat.add]. pose proof (hin n) as q. rewrite hn in *.
      destruct (existsb (Nat.eqb n) keep); [|reflexivity]. specialize (h3 n). destruct (name m n) as [i|]; [|exact h3].
      destruct h3 as [v [q1 q2]]. exists v. split; [exact q1|]. exact (g2 i v (q i eq_refl) q2).
    + intros n k i b e1 e2 e3. apply (h4 n k i b (hold n i e1) (hold k i e2)). specialize (h3 n). rewrite (hold n i e1) in h3.
      destruct h3 as [v [_ q2]]. pose proof (g2 i v (hin n i e1) q2) as q. rewrite e3 in q. injection q as <-. exact q2.
  - destruct (name m n) as [i|] eqn:en; [|rewrite (unnamed m s n hi en); eauto].
    destruct (named m s n i hi en) as [o [b0 [eo [eb [ev es]]]]]. rewrite es in hr |- *.
    destruct (o_f o) eqn:ef; [destruct hr|].
    destruct (from_slice m b false) as [m1 c] eqn:ec. destruct (from_slice_ok m b false m1 c hc ec) as [g1 [g2 [g3 [g4 [g5 [g6 g7]]]]]].
    assert (eo' : objs m1 i = Some o) by (rewrite g5; exact eo).
    destruct (assign_ok m1 i o c b g1 eo' ef g3 g4) as [m2 [w1 [w2 [w3 [w4 w5]]]]]. exists m2. split; [exact w1|].
    refine (set_inv m m2 s n i b0 _ hi w2 _ en ev _ w5); [congruence|]. intros x hx. rewrite w4 by exact hx. apply g2.
  - destruct (name m n) as [i|] eqn:en; [|eauto].
    destruct (named m s n i hi en) as [o [b [eo [eb [ev es]]]]]. rewrite es in hr.
    destruct (o_f o) eqn:ef; [destruct hr|].
    destruct (write_ok m i o b (fun x => x) (if gr then Moved else InPlace) hc eo ef eb) as [m1 [w1 [w2 [w3 [w4 w5]]]]].
    exists m1. split; [exact w1|]. rewrite <- (vset_same s n (b, false) es).
    exact (set_inv m m1 s n i b _ hi w2 w3 en ev w4 w5).
Qed.

Lemma inv_seen : forall m s, inv m s -> seen m = map Some s.
Proof.
  intros m s [_ [[h2 h3] _]]. unfold seen. apply (nth_ext _ _ None None).
  - rewrite !map_length. exact h2.
  - intros n hn. rewrite map_length in hn.
    rewrite (nth_indep _ None (look m None)) by (rewrite map_length; exact hn). rewrite map_nth.
    rewrite (nth_indep (map Some s) None (Some None)) by (rewrite map_length; lia). rewrite (map_nth Some s None).
    specialize (h3 n). unfold name in h3. destruct (nth n (env m) None) as [i|]; [|rewrite h3; reflexivity].
    destruct h3 as [v [-> q]]. unfold val_of in q. cbn. destruct (objs m i) as [o|]; [|discriminate].
    destruct (read m (o_c o)) as [b|]; [injection q as <-; reflexivity | discriminate].
Qed.
Lemma run_inv : forall l m s, inv m s -> respects s l -> exists m', run m l = Some m' /\ inv m' (srun s l).
Proof.
  induction l as [|o l IH]; intros m s hi hr; [exists m; split; [reflexivity | exact hi]|].
  destruct hr as [h1 h2]. destruct (step_ok m s o hi h1) as [m1 [e1 h3]]. cbn [run srun]. rewrite e1. exact (IH m1 _ h3 h2).
Qed.
Lemma empty_inv : inv empty_mem [].
Proof.
  split; [constructor; cbn; try discriminate|]. split; [split; [reflexivity|]|].
  - intros n. unfold name. cbn. destruct n; reflexivity.
  - intros n k i b e. unfold name in e. cbn in e. destruct n; discriminate.
Qed.
Lemma share_run : forall l, respects [] l -> exists m, run empty_mem l = Some m /\ seen m = map Some (srun [] l).
Proof. intros l h. destruct (run_inv l empty_mem [] empty_inv h) as [m [e hi]]. exists m. split; [exact e | apply inv_seen; exact hi]. Qed.
