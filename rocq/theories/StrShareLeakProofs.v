(** Buffers without an owner, and slices that copy nothing. *)
From Coq Require Import ZArith List Bool Arith Lia.
From Verif Require Import StrShareModel StrShareSpec StrShareProofs.
Import ListNotations.

Definition lk (m : mem) (i : option nat) (c : cont) : Prop :=
  forall a b, bufs m a = Some b -> c = Heap a \/ exists j f, Some j <> i /\ objs m j = Some (mkO (Heap a) f).
Definition bnd (m : mem) : Prop := forall i o, objs m i = Some o -> i < nobj m.
Definition nl (m : mem) : Prop := bnd m /\ lk m None (Inl []).

Lemma lk_from_slice : forall m b sp m' c i x, lk m i (Inl x) -> from_slice m b sp = (m', c) -> lk m' i c.
Proof.
  intros m b sp m' c i x h e. pose proof (from_slice_bufs m b sp m' c e) as q. destruct c as [y | a |]; [| |destruct q].
  - destruct q as [_ ->]. intros a b0 ha. destruct (h a b0 ha) as [q | q]; [discriminate | right; exact q].
  - destruct q as [-> ->]. intros a b0 ha. cbn in ha. destruct (Nat.eq_dec a (nbuf m)) as [-> | hn]; [left; reflexivity|].
    rewrite upd_other in ha by exact hn. destruct (h a b0 ha) as [q | q]; [discriminate | right; exact q].
Qed.
Lemma from_slice_same : forall m b sp m' c, from_slice m b sp = (m', c) -> objs m' = objs m /\ nobj m' = nobj m /\ env m' = env m.
Proof.
  intros m b sp m' c e. pose proof (from_slice_bufs m b sp m' c e) as q.
  destruct c; [destruct q as [_ ->]; auto | destruct q as [_ ->]; auto | destruct q].
Qed.
Lemma lk_drop : forall m i c x, lk m i c -> lk (drop m c) i (Inl x).
Proof.
  intros m i c x h a b ha. rewrite drop_bufs in ha. right.
  assert (K : bufs m a = Some b /\ c <> Heap a).
  { destruct c as [| y |]; [split; [exact ha | discriminate] | | split; [exact ha | discriminate]].
    destruct (Nat.eqb_spec a y); [discriminate|]. split; [exact ha | congruence]. }
  destruct K as [k1 k2]. destruct (h a b k1) as [q | [j [f [q1 q2]]]]; [contradiction|]. exists j, f. split; [exact q1|].
  destruct c; exact q2.
Qed.
Lemma lk_set : forall m i c f, bnd m -> lk m (Some i) c -> i < nobj m -> nl (set_obj m i (mkO c f)).
Proof.
  intros m i c f hb h hi. split.
  - intros j o e. cbn in e |- *. destruct (Nat.eq_dec j i) as [-> | hn]; [exact hi|]. rewrite upd_other in e by exact hn. exact (hb j o e).
  - intros a b ha. right. destruct (h a b ha) as [-> | [j [g [q1 q2]]]].
    + exists i, f. split; [discriminate|]. cbn. apply upd_same.
    + exists j, g. split; [discriminate|]. cbn. rewrite upd_other by congruence. exact q2.
Qed.
Lemma lk_new : forall m c f, bnd m -> lk m None c -> nl (fst (new_obj m (mkO c f))).
Proof.
  intros m c f hb h. split.
  - intros j o e. cbn in e |- *. destruct (Nat.eq_dec j (nobj m)) as [-> | hn]; [lia|]. rewrite upd_other in e by exact hn. pose proof (hb j o e). lia.
  - intros a b ha. right. destruct (h a b ha) as [-> | [j [g [q1 q2]]]].
    + exists (nobj m), f. split; [discriminate|]. cbn. apply upd_same.
    + exists j, g. split; [discriminate|]. cbn. rewrite upd_other; [exact q2|]. pose proof (hb j _ q2). lia.
Qed.
Lemma nl_split : forall m i o, nl m -> objs m i = Some o -> lk m (Some i) (o_c o).
Proof.
  intros m i o [_ h] e a b ha. destruct (h a b ha) as [q | [j [f [_ q]]]]; [discriminate|].
  destruct (Nat.eq_dec j i) as [-> | hn]; [left; rewrite e in q; injection q as ->; reflexivity|].
  right. exists j, f. split; [congruence | exact q].
Qed.
Lemma lk_view : forall m i r a off len x, lk m i (View r a off len) -> lk m i (Inl x).
Proof. intros m i r a off len x h a' b ha. destruct (h a' b ha) as [q | q]; [discriminate | right; exact q]. Qed.
Lemma nl_bind : forall m k, nl m -> nl (bind m k).
Proof. intros m k [h1 h2]. split; [exact h1 | exact h2]. Qed.

Lemma write_nl : forall m i f h m', nl m -> write m i f h = Some m' -> nl m'.
Proof.
  intros m i f h m' hn e. unfold write in e. destruct (objs m i) as [o|] eqn:eo; [|discriminate].
  destruct (read m (o_c o)) as [b|]; [|discriminate]. pose proof (nl_split m i o hn eo) as hl. destruct hn as [hb _].
  pose proof (hb i o eo) as hi.
  destruct (match o_c o with View _ _ _ _ => from_slice m b false | c => (m, c) end) as [m1 c1] eqn:e1.
  assert (H1 : lk m1 (Some i) c1 /\ objs m1 = objs m /\ nobj m1 = nobj m).
  { destruct (o_c o) as [x | a | r a off len].
    - injection e1 as <- <-. auto.
    - injection e1 as <- <-. auto.
    - destruct (from_slice_same _ _ _ _ _ e1) as [q1 [q2 _]]. split; [|auto].
      exact (lk_from_slice m b false m1 c1 (Some i) [] (lk_view _ _ _ _ _ _ [] hl) e1). }
  destruct H1 as [l1 [o1 n1]].
  cbv zeta in e.
  destruct (match h, c1 with
            | InPlace, Heap a => (set_buf m1 a (Some (f b)), Heap a)
            | InPlace, _ => from_slice m1 (f b) false
            | Moved, _ => let '(m', a) := new_buf (drop m1 c1) (f b) in (m', Heap a)
            | Fresh sp, _ => from_slice (drop m1 c1) (f b) sp
            end) as [m2 c2] eqn:e2.
  injection e as <-.
  assert (H2 : lk m2 (Some i) c2 /\ objs m2 = objs m /\ nobj m2 = nobj m).
  { assert (D : objs (drop m1 c1) = objs m /\ nobj (drop m1 c1) = nobj m) by (destruct c1; auto).
    pose proof (lk_drop m1 (Some i) c1 [] l1) as dl.
    destruct h as [| | sp].
    - destruct c1 as [x | a | r a off len].
      + destruct (from_slice_same _ _ _ _ _ e2) as [q1 [q2 _]]. split; [exact (lk_from_slice _ _ _ _ _ _ _ l1 e2)|]. split; congruence.
      + injection e2 as <- <-. split; [|auto]. intros a' b' ha. cbn in ha. destruct (Nat.eq_dec a' a) as [-> | hne]; [left; reflexivity|].
        rewrite upd_other in ha by exact hne. exact (l1 a' b' ha).
      + destruct (from_slice_same _ _ _ _ _ e2) as [q1 [q2 _]].
        split; [exact (lk_from_slice _ _ _ _ _ _ [] (lk_view _ _ _ _ _ _ [] l1) e2)|]. split; congruence.
    - assert (e3 : (fst (new_buf (drop m1 c1) (f b)), Heap (nbuf (drop m1 c1))) = (m2, c2)) by (rewrite <- e2; destruct c1; reflexivity).
      injection e3 as <- <-. split; [|exact D]. intros a' b' ha. cbn in ha.
      destruct (Nat.eq_dec a' (nbuf (drop m1 c1))) as [-> | hne]; [left; reflexivity|].
      rewrite upd_other in ha by exact hne. destruct (dl a' b' ha) as [q | q]; [discriminate | right; exact q].
    - assert (e3 : from_slice (drop m1 c1) (f b) sp = (m2, c2)) by (rewrite <- e2; destruct c1; reflexivity).
      destruct (from_slice_same _ _ _ _ _ e3) as [q1 [q2 _]]. split; [exact (lk_from_slice _ _ _ _ _ _ _ dl e3)|].
      destruct D. split; congruence. }
  destruct H2 as [l2 [o2 n2]]. apply lk_set; [|exact l2 | rewrite n2; exact hi].
  intros j q. rewrite o2, n2. exact (hb j q).
Qed.
Lemma ensure_nl : forall m i o m' r a off, nl m -> objs m i = Some o -> ensure_root m i o = Some (m', r, a, off) -> nl m'.
Proof.
  intros m i o m' r a off hn eo e. unfold ensure_root in e. destruct o as [[x | x | r' a' off' len'] f]; cbn [o_c o_f] in e; [discriminate | |].
  - destruct f; [injection e as <- _ _ _; exact hn|]. destruct (bufs m x) as [b|]; [|discriminate].
    cbn [new_obj] in e. injection e as <- _ _ _. destruct hn as [hb hl]. pose proof (hb i _ eo) as hi. split.
    + intros j q eq. cbn in eq |- *. destruct (Nat.eq_dec j i) as [-> | n1]; [lia|]. rewrite upd_other in eq by exact n1.
      destruct (Nat.eq_dec j (nobj m)) as [-> | n2]; [lia|]. rewrite !upd_other in eq by assumption. pose proof (hb j q eq). lia.
    + intros a' b' ha. right. destruct (hl a' b' ha) as [q | [j [g [_ q]]]]; [discriminate|].
      destruct (Nat.eq_dec j i) as [-> | hne].
      * rewrite eo in q. injection q as <- _. exists (nobj m), true. split; [discriminate|]. cbn. rewrite upd_other by lia. apply upd_same.
      * exists j, g. split; [discriminate|]. cbn. pose proof (hb j _ q). rewrite !upd_other by lia. exact q.
  - injection e as <- _ _ _. exact hn.
Qed.
Lemma substring_nl : forall m i s e m' k, nl m -> substring m i s e = Some (m', k) -> nl m'.
Proof.
  intros m i s e m' k hn h. unfold substring in h. destruct (objs m i) as [o|] eqn:eo; [|discriminate].
  destruct ((cap <? e - s) && _).
  - destruct (ensure_root m i o) as [[[[m1 r] a] off]|] eqn:ee; [|discriminate]. injection h as <- _.
    destruct (ensure_nl m i o m1 r a off hn eo ee) as [h1 h2].
    refine (lk_new m1 (View r a (off + s) (e - s)) false h1 _). intros a' b' ha. destruct (h2 a' b' ha) as [q | q]; [discriminate | right; exact q].
  - destruct (read m (o_c o)) as [b|]; [|discriminate]. destruct (from_slice m (part b s (e - s)) false) as [m1 c] eqn:ef.
    injection h as <- _. destruct hn as [h1 h2]. destruct (from_slice_same _ _ _ _ _ ef) as [q1 [q2 _]].
    refine (lk_new m1 c false _ (lk_from_slice _ _ _ _ _ _ _ h2 ef)). intros j q. rewrite q1, q2. exact (h1 j q).
Qed.
Lemma set_frozen_nl : forall m i, nl m -> nl (set_frozen m i).
Proof.
  intros m i hn. unfold set_frozen. destruct (objs m i) as [o|] eqn:eo; [|exact hn].
  apply lk_set; [exact (proj1 hn) | exact (nl_split m i o hn eo) | exact (proj1 hn i o eo)].
Qed.
Lemma snapshot_nl : forall m i m' k, nl m -> snapshot m i = Some (m', k) -> nl m'.
Proof.
  intros m i m' k hn h. unfold snapshot in h. destruct (objs m i) as [o|] eqn:eo; [|discriminate].
  destruct (o_f o); [injection h as <- _; exact hn|].
  assert (G : match read m (o_c o), ensure_root m i o with
              | Some b, Some (m1, r, a, off) =>
                   match objs m1 r with
                   | None => None
                   | Some ro => match read m1 (o_c ro) with
                       | None => None
                       | Some rb => if (off =? 0) && (length b =? length rb) then Some (m1, r)
                           else match substring m1 r off (off + length b) with Some (m2, k) => Some (set_frozen m2 k, k) | None => None end
                       end
                   end
              | _, _ => None end = Some (m', k) -> nl m').
  { clear h. intros h. destruct (read m (o_c o)) as [b|]; [|discriminate].
    destruct (ensure_root m i o) as [[[[m1 r] a] off]|] eqn:ee; [|discriminate].
    pose proof (ensure_nl m i o m1 r a off hn eo ee) as h1.
    destruct (objs m1 r) as [ro|]; [|discriminate]. destruct (read m1 (o_c ro)) as [rb|]; [|discriminate].
    destruct ((off =? 0) && (length b =? length rb)); [injection h as <- _; exact h1|].
    destruct (substring m1 r off (off + length b)) as [[m2 k2]|] eqn:es; [|discriminate].
    injection h as <- _. apply set_frozen_nl. exact (substring_nl _ _ _ _ _ _ h1 es). }
  destruct (o_c o) as [x | a | r a off len] eqn:ec.
  - injection h as <- _. refine (lk_new m (Inl x) true (proj1 hn) _).
    intros a' b' ha. destruct (proj2 hn a' b' ha) as [q | q]; [discriminate | right; exact q].
  - exact (G h).
  - exact (G h).
Qed.
Lemma clone_lk : forall m c m' c' i, lk m i (Inl []) -> clone m c = Some (m', c') -> lk m' i c' /\ objs m' = objs m /\ nobj m' = nobj m.
Proof.
  intros m c m' c' i h e. unfold clone in e. destruct c as [x | a | r a off len].
  - cbn [read] in e. injection e as e. destruct (from_slice_same _ _ _ _ _ e) as [q1 [q2 _]]. split; [exact (lk_from_slice _ _ _ _ _ _ _ h e) | auto].
  - destruct (read m (Heap a)) as [b|]; [|discriminate]. injection e as e.
    destruct (from_slice_same _ _ _ _ _ e) as [q1 [q2 _]]. split; [exact (lk_from_slice _ _ _ _ _ _ _ h e) | auto].
  - injection e as <- <-. split; [|auto]. intros a' b' ha. destruct (h a' b' ha) as [q | q]; [discriminate | right; exact q].
Qed.
(** [m1] has the objects of [m], and one buffer more, for [c]. *)
Lemma assign_nl : forall m m1 i c m', nl m -> objs m1 = objs m -> nobj m1 = nobj m -> lk m1 None c ->
  assign m1 i c = Some m' -> nl m'.
Proof.
  intros m m1 i c m' hn h1 h2 hl e. unfold assign in e. destruct (objs m1 i) as [o|] eqn:eo; [|discriminate]. injection e as <-.
  assert (hb : bnd m1) by (intros j q; rewrite h1, h2; exact (proj1 hn j q)).
  apply lk_set.
  - intros j q eq. apply (hb j q) || (destruct (o_c o); exact (hb j q eq)).
    all: destruct (o_c o); exact eq.
  - intros a b ha. rewrite drop_bufs in ha.
    assert (K : bufs m1 a = Some b /\ o_c o <> Heap a).
    { destruct (o_c o) as [| y |]; [split; [exact ha | discriminate] | | split; [exact ha | discriminate]].
      destruct (Nat.eqb_spec a y); [discriminate|]. split; [exact ha | congruence]. }
    destruct K as [k1 k2]. destruct (hl a b k1) as [q | [j [f [_ q]]]]; [left; exact q|]. right. exists j, f. split.
    + intros ej. injection ej as ->. rewrite eo in q. injection q as ->. apply k2. reflexivity.
    + destruct (o_c o); exact q.
  - destruct (o_c o); exact (hb i o eo).
Qed.
Lemma gc_nl : forall m keep, nl m -> nl (gc m keep).
Proof.
  intros m keep [h1 h2]. set (l := drop_names 0 (env m) keep). split.
  - intros i o e. cbn in e |- *. fold l in e. destruct (marked m l i); [exact (h1 i o e) | discriminate].
  - intros a b ha. cbn in ha. fold l in ha.
    destruct (existsb (fun i => negb (marked m l i) && owns m a i) (seq 0 (nobj m))) eqn:ee; [discriminate|].
    destruct (h2 a b ha) as [q | [j [f [_ q]]]]; [discriminate|]. right. exists j, f. split; [discriminate|]. cbn. fold l.
    destruct (marked m l j) eqn:em; [exact q|]. exfalso.
    assert (existsb (fun i => negb (marked m l i) && owns m a i) (seq 0 (nobj m)) = true); [|congruence].
    apply existsb_exists. exists j. split; [apply in_seq; pose proof (h1 j _ q); lia|]. rewrite em. unfold owns. rewrite q, Nat.eqb_refl. reflexivity.
Qed.
Lemma step_nl : forall m o m', nl m -> step m o = Some m' -> nl m'.
Proof.
  intros m o m' hn e.
  destruct o as [b sp | n st en | n | n fr | n | n f h | n k | n | keep | n b | n gr]; cbn [step] in e.
  - destruct (from_slice m b sp) as [m1 c] eqn:es. injection e as <-. apply nl_bind.
    destruct (from_slice_same _ _ _ _ _ es) as [q1 [q2 _]].
    refine (lk_new m1 c false _ (lk_from_slice _ _ _ _ _ _ _ (proj2 hn) es)). intros j q. rewrite q1, q2. exact (proj1 hn j q).
  - destruct (name m n) as [i|]; [|injection e as <-; exact hn]. destruct (objs m i) as [o|]; [|discriminate].
    destruct (read m (o_c o)) as [b|]; [|discriminate]. destruct ((st <=? en) && _); [|injection e as <-; exact hn].
    destruct (substring m i st en) as [[m1 k]|] eqn:es; [|discriminate]. injection e as <-. apply nl_bind. exact (substring_nl _ _ _ _ _ _ hn es).
  - destruct (name m n) as [i|]; [|injection e as <-; exact hn].
    destruct (snapshot m i) as [[m1 k]|] eqn:es; [|discriminate]. injection e as <-. apply nl_bind. exact (snapshot_nl _ _ _ _ hn es).
  - destruct (name m n) as [i|]; [|injection e as <-; exact hn]. destruct (objs m i) as [o|]; [|discriminate].
    destruct (clone m (o_c o)) as [[m1 c]|] eqn:es; [|discriminate]. injection e as <-. apply nl_bind.
    destruct (clone_lk _ _ _ _ _ (proj2 hn) es) as [q1 [q2 q3]].
    refine (lk_new m1 c fr _ q1). intros j q. rewrite q2, q3. exact (proj1 hn j q).
  - destruct (name m n) as [i|]; [|injection e as <-; exact hn]. destruct (objs m i) as [o|] eqn:eo; [|discriminate].
    destruct (o_c o) eqn:ec; [injection e as <-; exact hn | |].
    + destruct (ensure_root m i o) as [[[[m1 r] x] off]|] eqn:ee; [|discriminate]. injection e as <-. exact (ensure_nl _ _ _ _ _ _ _ hn eo ee).
    + destruct (ensure_root m i o) as [[[[m1 r] x] y]|] eqn:ee; [|discriminate]. injection e as <-. exact (ensure_nl _ _ _ _ _ _ _ hn eo ee).
  - destruct (name m n) as [i|]; [|injection e as <-; exact hn]. destruct (frozen m i); [injection e as <-; exact hn|].
    exact (write_nl _ _ _ _ _ hn e).
  - destruct (name m n) as [i|]; [|injection e as <-; exact hn]. destruct (name m k) as [j|]; [|injection e as <-; exact hn].
    destruct (frozen m i); [injection e as <-; exact hn|]. destruct (objs m j) as [o|]; [|discriminate].
    destruct (clone m (o_c o)) as [[m1 c]|] eqn:es; [|discriminate].
    destruct (clone_lk _ _ _ _ _ (proj2 hn) es) as [q1 [q2 q3]]. exact (assign_nl m m1 i c m' hn q2 q3 q1 e).
  - destruct (name m n) as [i|]; injection e as <-; [apply set_frozen_nl|]; exact hn.
  - injection e as <-. apply gc_nl. exact hn.
  - destruct (name m n) as [i|]; [|injection e as <-; exact hn].
    destruct (from_slice m b false) as [m1 c] eqn:es. destruct (from_slice_same _ _ _ _ _ es) as [q1 [q2 _]].
    exact (assign_nl m m1 i c m' hn q1 q2 (lk_from_slice _ _ _ _ _ _ _ (proj2 hn) es) e).
  - destruct (name m n) as [i|]; [|injection e as <-; exact hn]. exact (write_nl _ _ _ _ _ hn e).
Qed.
Lemma run_nl : forall l m m', nl m -> run m l = Some m' -> nl m'.
Proof.
  induction l as [|o l IH]; intros m m' hn e; cbn [run] in e; [injection e as <-; exact hn|].
  destruct (step m o) as [m1|] eqn:es; [|discriminate]. exact (IH m1 m' (step_nl m o m1 hn es) e).
Qed.
(** What the collector keeps is used. *)
Lemma no_leak : forall l m keep a b, run empty_mem l = Some m -> bufs (gc m keep) a = Some b ->
  exists n i, In n keep /\ name m n = Some i /\
    exists o, objs m i = Some o /\ match o_c o with Heap a' => a' = a | View r _ _ _ => exists f, objs m r = Some (mkO (Heap a) f) | Inl _ => False end.
Proof.
  intros l m keep a b e ha.
  assert (hn : nl m).
  { apply (run_nl l empty_mem m); [|exact e]. split; [intros i o q; discriminate | intros x y q; discriminate]. }
  destruct (proj2 (gc_nl m keep hn) a b ha) as [q | [j [f [_ q]]]]; [discriminate|].
  cbn in q. set (ll := drop_names 0 (env m) keep) in q. destruct (marked m ll j) eqn:em; [|discriminate].
  unfold marked in em. apply existsb_exists in em. destruct em as [[i|] [hin hc]]; [|discriminate].
  apply (In_nth _ _ None) in hin. destruct hin as [n [hlen hnth]]. subst ll. rewrite drop_names_nth in hnth. cbn [Nat.add] in hnth.
  destruct (existsb (Nat.eqb n) keep) eqn:ek; [|discriminate]. apply existsb_exists in ek. destruct ek as [n' [hk1 hk2]].
  apply Nat.eqb_eq in hk2. subst n'. exists n, i. split; [exact hk1|]. split; [exact hnth|].
  apply orb_true_iff in hc. destruct hc as [hc | hc].
  - apply Nat.eqb_eq in hc. subst i. exists (mkO (Heap a) f). split; [exact q | reflexivity].
  - destruct (objs m i) as [[c g]|] eqn:ei; [|discriminate]. destruct c as [| | r a' off len]; try discriminate.
    apply Nat.eqb_eq in hc. subst r. eexists. split; [reflexivity|]. cbn. exists f. exact q.
Qed.

(** A long slice of a string outside its object copies no bytes. *)
Lemma slice_shares : forall m n i o s e m', name m n = Some i -> objs m i = Some o -> (forall x, o_c o <> Inl x) -> cap < e - s ->
  step m (OSub n s e) = Some m' -> nbuf m' = nbuf m /\ bufs m' = bufs m.
Proof.
  intros m n i o s e m' en eo hi hl h. cbn [step] in h. rewrite en, eo in h.
  destruct (read m (o_c o)) as [b|]; [|discriminate]. destruct ((s <=? e) && (e <=? length b)); [|injection h as <-; auto].
  unfold substring in h. rewrite eo in h. apply Nat.ltb_lt in hl. rewrite hl in h.
  destruct o as [[x | a | r a off len] f]; cbn [o_c andb] in h.
  - destruct (hi x eq_refl).
  - unfold ensure_root in h. cbn [o_c o_f] in h. destruct f; [injection h as <-; auto|].
    destruct (bufs m a); [|discriminate]. injection h as <-. auto.
  - injection h as <-. auto.
Qed.
