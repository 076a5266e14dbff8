(** Proofs about lazy chains. *)
From Coq Require Import ZArith List Bool Lia.
From Verif Require Import LazyModel LazySpec.
Import ListNotations.
Local Open Scope Z_scope.

(* ------------------------------------------------------------------ *)
(** ** Batches: what a chain pushes for each element of the source *)

(** A batch through a stage. *)
Fixpoint through {V} (st : stage V) (q : vars V) (vs : list V) : vars V * list V * bool :=
  match vs with
  | [] => (q, [], false)
  | v :: r =>
      let '(q', o, brk) := body st q v in
      if brk then (q', o, true)
      else let '(q'', o', b) := through st q' r in (q'', o ++ o', b)
  end.

Fixpoint relay {V} (st : stage V) (q : vars V) (bs : list (list V)) : list (list V) :=
  match bs with
  | [] => []
  | b :: r =>
      let '(q', o, brk) := through st q b in
      if brk then [o] else o :: relay st q' r
  end.

Fixpoint batches {V} (p : list (stage V)) (l : list V) : list (list V) :=
  match p with
  | [] => map (fun v => [v]) l
  | st :: up => if idle st then [] else relay st (init st) (batches up l)
  end.

Fixpoint drive {V S} (k : S -> V -> S * bool) (s : S) (bs : list (list V)) : S * bool * nat :=
  match bs with
  | [] => (s, false, O)
  | b :: r =>
      let '(s', stop) := push k s b in
      if stop then (s', true, 1%nat)
      else let '(s'', f, n) := drive k s' r in (s'', f, Datatypes.S n)
  end.

Lemma push_app {V S} (k : S -> V -> S * bool) : forall a b s,
  push k s (a ++ b) = let '(s', stop) := push k s a in if stop then (s', true) else push k s' b.
Proof.
  induction a as [|x r IH]; intros b s; [reflexivity|]. cbn. destruct (k s x) as (s', [|]); [reflexivity|]. apply IH.
Qed.

Definition blk {V S} (st : stage V) (k : S -> V -> S * bool) : vars V * S * bool -> V -> (vars V * S * bool) * bool :=
  fun '(q, s, out) v =>
    let '(q', vs, brk) := body st q v in
    let '(s', stop) := push k s vs in
    if stop then ((q', s', true), true) else ((q', s', false), brk).

(** A batch through the block of a stage. *)
Lemma push_blk {V S} (st : stage V) (k : S -> V -> S * bool) : forall vs q s,
  let '((q1, s1, out), stop1) := push (blk st k) (q, s, false) vs in
  let '(q2, o, brk) := through st q vs in
  let '(s2, stop2) := push k s o in
  s1 = s2 /\ out = stop2 /\ stop1 = stop2 || brk /\ (stop2 = false -> q1 = q2).
Proof.
  induction vs as [|v r IH]; intros q s; [cbn; auto|]. cbn [push through]. unfold blk at 1.
  destruct (body st q v) as ((q', o), brk) eqn:B. destruct (push k s o) as (s', stop) eqn:P.
  destruct stop.
  - destruct brk.
    + rewrite P. cbn. repeat split; auto; discriminate.
    + destruct (through st q' r) as ((q'', o'), b). rewrite push_app, P. cbn. repeat split; auto; discriminate.
  - destruct brk.
    + rewrite P. cbn. auto.
    + specialize (IH q' s'). destruct (push (blk st k) (q', s', false) r) as (((q1, s1), out), stop1).
      destruct (through st q' r) as ((q'', o'), b). rewrite push_app, P. exact IH.
Qed.

Lemma drive_blk {V S} (st : stage V) (k : S -> V -> S * bool) : forall bs q s,
  (let '((_, s', out), _, n) := drive (blk st k) (q, s, false) bs in (s', out, n)) = drive k s (relay st q bs).
Proof.
  induction bs as [|b r IH]; intros q s; [reflexivity|]. cbn [drive relay].
  pose proof (push_blk st k b q s) as H.
  destruct (push (blk st k) (q, s, false) b) as (((q1, s1), out), stop1).
  destruct (through st q b) as ((q2, o), brk). destruct (push k s o) as (s2, stop2) eqn:P.
  destruct H as (-> & -> & -> & Hq). destruct stop2; cbn [orb].
  - destruct brk; cbn [drive]; rewrite P; reflexivity.
  - destruct brk; cbn [drive]; rewrite P; [reflexivity|].
    rewrite (Hq eq_refl). specialize (IH q2 s2). rewrite <- IH.
    destruct (drive (blk st k) (q2, s2, false) r) as ((((q3, s3), l3), st3), n3). reflexivity.
Qed.

Lemma each_src_drive {V S} (k : S -> V -> S * bool) : forall l s,
  each_src k s l = drive k s (map (fun v => [v]) l).
Proof.
  induction l as [|v r IH]; intros s; [reflexivity|]. cbn. destruct (k s v) as (s', [|]); [reflexivity|].
  rewrite IH. reflexivity.
Qed.

(** each is a walk over the batches. *)
Lemma each_drive {V} : forall (p : list (stage V)) (S : Type) (k : S -> V -> S * bool) s l,
  each p S k s l = drive k s (batches p l).
Proof.
  induction p as [|st up IH]; intros S k s l; [apply each_src_drive|]. cbn [each batches].
  destruct (idle st); [reflexivity|]. rewrite <- drive_blk.
  rewrite (IH (vars V * S * bool)%type). reflexivity.
Qed.

(* ------------------------------------------------------------------ *)
(** ** The batches together are the eager elements *)

Lemma through_app {V} (st : stage V) : forall a b q,
  through st q (a ++ b) =
    let '(q', o, brk) := through st q a in
    if brk then (q', o, true) else let '(q'', o', b') := through st q' b in (q'', o ++ o', b').
Proof.
  induction a as [|v r IH]; intros b q; cbn [app through].
  - destruct (through st q b) as ((q'', o'), b'). reflexivity.
  - destruct (body st q v) as ((q', o), brk). destruct brk; [reflexivity|]. rewrite IH.
    destruct (through st q' r) as ((q1, o1), b1). destruct b1; [reflexivity|].
    destruct (through st q1 b) as ((q2, o2), b2). rewrite app_assoc. reflexivity.
Qed.

Lemma relay_concat {V} (st : stage V) : forall bs q,
  concat (relay st q bs) = snd (fst (through st q (concat bs))).
Proof.
  induction bs as [|b r IH]; intros q; [reflexivity|]. cbn [relay concat]. rewrite through_app.
  destruct (through st q b) as ((q', o), brk). destruct brk; [cbn; apply app_nil_r|].
  cbn [concat]. rewrite IH. destruct (through st q' (concat r)) as ((q'', o'), b'). reflexivity.
Qed.

Lemma through_take {V} n : forall l (q : vars V), 0 <= count q < n ->
  snd (fst (through (Take n) q l)) = firstn (Z.to_nat (n - count q)) l.
Proof.
  induction l as [|v r IH]; intros q H; [rewrite firstn_nil; reflexivity|]. cbn [through body].
  replace (Z.to_nat (n - count q)) with (Datatypes.S (Z.to_nat (n - (count q + 1)))) by lia.
  cbn [firstn]. destruct (n <=? count q + 1) eqn:E.
  - apply Z.leb_le in E. replace (Z.to_nat (n - (count q + 1))) with O by lia. reflexivity.
  - apply Z.leb_gt in E.
    specialize (IH (mkV (count q + 1) (dropping q) (keys q))). cbn [count] in IH. rewrite <- IH by lia.
    destruct (through _ _ r) as ((q', o), b). reflexivity.
Qed.

Lemma through_drop {V} n : forall l (q : vars V), 0 <= count q -> 0 <= n ->
  snd (fst (through (Drop n) q l)) = skipn (Z.to_nat (n - count q)) l.
Proof.
  induction l as [|v r IH]; intros q H Hn; [rewrite skipn_nil; reflexivity|]. cbn [through body].
  specialize (IH (mkV (count q + 1) (dropping q) (keys q))). cbn [count] in IH.
  destruct (through _ _ r) as ((q', o), b). cbn [fst snd] in *. rewrite IH by lia.
  destruct (n <=? count q) eqn:E.
  - apply Z.leb_le in E. replace (Z.to_nat (n - count q)) with O by lia.
    replace (Z.to_nat (n - (count q + 1))) with O by lia. reflexivity.
  - apply Z.leb_gt in E.
    replace (Z.to_nat (n - count q)) with (Datatypes.S (Z.to_nat (n - (count q + 1)))) by lia. reflexivity.
Qed.

Ltac plain := 
  match goal with |- snd (fst (through ?st ?q ?l)) = _ =>
    generalize q; induction l as [|v r IH]; intros q0; [reflexivity|]; cbn [through body];
    specialize (IH q0); destruct (through st q0 r) as ((q', o), b); cbn [fst snd] in *; subst o end.

Lemma through_uniq {V} (key : V -> V) eqk : forall l (q : vars V),
  snd (fst (through (Uniq key eqk) q l)) = uniq key eqk (keys q) l.
Proof.
  induction l as [|v r IH]; intros q; [reflexivity|]. cbn [through body uniq].
  destruct (existsb _ (keys q)).
  - rewrite <- IH. destruct (through _ q r) as ((q', o), b). reflexivity.
  - specialize (IH (mkV (count q) (dropping q) (keys q ++ [key v]))). cbn [keys] in IH. rewrite <- IH.
    destruct (through _ _ r) as ((q', o), b). reflexivity.
Qed.

Lemma through_number {V} (st : stage V) (f : V -> Z -> V) :
  (forall q v, body st q v = (mkV (count q + 1) (dropping q) (keys q), [f v (count q)], false)) ->
  forall l q, snd (fst (through st q l)) = number f (count q) l.
Proof.
  intros B. induction l as [|v r IH]; intros q; [reflexivity|]. cbn [through number]. rewrite B.
  specialize (IH (mkV (count q + 1) (dropping q) (keys q))). cbn [count] in IH. rewrite <- IH.
  destruct (through _ _ r) as ((q', o), b). reflexivity.
Qed.

Lemma through_dropped {V} (p : V -> bool) : forall l (q : vars V), dropping q = false ->
  snd (fst (through (DropWhile p) q l)) = l.
Proof.
  induction l as [|v r IH]; intros q H; [reflexivity|]. cbn [through body]. rewrite H. cbn [andb].
  specialize (IH (mkV (count q) false (keys q)) eq_refl).
  destruct (through _ _ r) as ((q', o), b). cbn [fst snd] in *. subst o. reflexivity.
Qed.

Lemma through_drop_while {V} (p : V -> bool) : forall l (q : vars V), dropping q = true ->
  snd (fst (through (DropWhile p) q l)) = drop_while p l.
Proof.
  induction l as [|v r IH]; intros q H; [reflexivity|]. cbn [through body drop_while]. rewrite H. cbn [andb].
  destruct (p v).
  - rewrite <- (IH q H). destruct (through _ _ r) as ((q', o), b). reflexivity.
  - pose proof (through_dropped p r (mkV (count q) false (keys q)) eq_refl) as G.
    destruct (through _ _ r) as ((q', o), b). cbn [fst snd] in *. subst o. reflexivity.
Qed.

Lemma through_eager {V} (st : stage V) l : ok1 st -> idle st = false ->
  snd (fst (through st (init st) l)) = eager1 st l.
Proof.
  intros Hok Hi. destruct st; cbn [eager1 init].
  - plain. reflexivity.
  - plain. reflexivity.
  - plain. cbn [filter]. destruct (p v); reflexivity.
  - plain. cbn [filter]. destruct (p v); reflexivity.
  - plain. reflexivity.
  - plain. cbn [filter]. destruct (p v); reflexivity.
  - plain. cbn [filter]. destruct (p v); reflexivity.
  - plain. cbn [filter]. destruct (nilp v); reflexivity.
  - apply through_uniq.
  - cbn in Hok, Hi. apply Z.eqb_neq in Hi. rewrite through_take by (cbn; lia). cbn [count]. rewrite Z.sub_0_r. reflexivity.
  - generalize (mkV 0 true (@nil V)). induction l as [|v r IH]; intros q; [reflexivity|]. cbn [through body take_while].
    destruct (p v); [|reflexivity]. rewrite <- (IH q). destruct (through _ q r) as ((q', o), b). reflexivity.
  - cbn in Hok. rewrite through_drop by (cbn; lia). cbn [count]. rewrite Z.sub_0_r. reflexivity.
  - apply through_drop_while. reflexivity.
  - apply (through_number (WithIndex off mk) mk). reflexivity.
  - apply (through_number (Zip row others) (fun v i => row v (map (fun c => c (Z.to_nat i)) others))). reflexivity.
Qed.

Lemma batches_eager {V} : forall (p : list (stage V)) l, ok p -> concat (batches p l) = eager p l.
Proof.
  induction p as [|st up IH]; intros l H; cbn [batches eager].
  - induction l as [|v r IHl]; [reflexivity|]. cbn. rewrite IHl. reflexivity.
  - inversion H as [|? ? H1 H2]; subst. destruct (idle st) eqn:E.
    + destruct st; try discriminate E. cbn in E. apply Z.eqb_eq in E. subst n. reflexivity.
    + rewrite relay_concat, (IH l H2). apply through_eager; assumption.
Qed.

(* ------------------------------------------------------------------ *)
(** ** Force *)

Lemma push_all {V} : forall vs acc : list V, push (fun acc v => (acc ++ [v], false)) acc vs = (acc ++ vs, false).
Proof.
  induction vs as [|v r IH]; intros acc; [rewrite app_nil_r; reflexivity|]. cbn. rewrite IH, <- app_assoc. reflexivity.
Qed.

Lemma drive_all {V} : forall (bs : list (list V)) acc,
  drive (fun acc v => (acc ++ [v], false)) acc bs = (acc ++ concat bs, false, length bs).
Proof.
  induction bs as [|b r IH]; intros acc; [cbn; rewrite app_nil_r; reflexivity|]. cbn [drive]. rewrite push_all, IH.
  cbn. rewrite <- app_assoc. reflexivity.
Qed.

Lemma force_batches {V} (p : list (stage V)) l : force p l = (concat (batches p l), length (batches p l)).
Proof. unfold force. rewrite each_drive, drive_all. reflexivity. Qed.

Lemma force_ok {V} (p : list (stage V)) l : ok p -> fst (force p l) = eager p l.
Proof. intros H. rewrite force_batches. apply batches_eager. exact H. Qed.

(* ------------------------------------------------------------------ *)
(** ** Only so much of the source *)

Lemma relay_firstn {V} (st : stage V) : forall bs q k, relay st q (firstn k bs) = firstn k (relay st q bs).
Proof.
  induction bs as [|b r IH]; intros q k; [rewrite !firstn_nil; reflexivity|]. destruct k; [reflexivity|].
  cbn [firstn relay]. destruct (through st q b) as ((q', o), brk). destruct brk.
  - cbn. rewrite firstn_nil. reflexivity.
  - cbn [firstn]. rewrite IH. reflexivity.
Qed.

Lemma batches_firstn {V} : forall (p : list (stage V)) l k, batches p (firstn k l) = firstn k (batches p l).
Proof.
  induction p as [|st up IH]; intros l k; cbn [batches].
  - symmetry; apply firstn_map.
  - destruct (idle st); [rewrite firstn_nil; reflexivity|]. rewrite IH. apply relay_firstn.
Qed.

Lemma relay_length {V} (st : stage V) : forall bs q, (length (relay st q bs) <= length bs)%nat.
Proof.
  induction bs as [|b r IH]; intros q; [cbn; lia|]. cbn [relay]. destruct (through st q b) as ((q', o), brk).
  destruct brk; cbn; [lia|]. specialize (IH q'). lia.
Qed.

Lemma batches_length {V} : forall (p : list (stage V)) l, (length (batches p l) <= length l)%nat.
Proof.
  induction p as [|st up IH]; intros l; cbn [batches]; [rewrite map_length; lia|].
  destruct (idle st); [cbn; lia|]. pose proof (relay_length st (batches up l) (init st)). specialize (IH l). lia.
Qed.

(** The elements of a part of the source are a part of the elements. *)
Lemma eager_prefix {V} (p : list (stage V)) l k : ok p ->
  exists r, eager p l = eager p (firstn k l) ++ r.
Proof.
  intros H. rewrite <- !batches_eager by exact H. rewrite batches_firstn.
  exists (concat (skipn k (batches p l))). rewrite <- concat_app, firstn_skipn. reflexivity.
Qed.

(* ------------------------------------------------------------------ *)
(** ** first *)

Definition upto {V} (n : nat) : list V -> V -> list V * bool :=
  fun acc v => let acc := acc ++ [v] in (acc, Nat.leb n (length acc)).

Lemma push_upto {V} n : forall (vs acc : list V), (length acc < n)%nat ->
  push (upto n) acc vs = (acc ++ firstn (n - length acc) vs, Nat.leb n (length acc + length vs)).
Proof.
  induction vs as [|v r IH]; intros acc H.
  - cbn. rewrite firstn_nil, app_nil_r, Nat.add_0_r. destruct (Nat.leb_spec n (length acc)); [lia|reflexivity].
  - cbn [push]. unfold upto at 1. rewrite app_length. cbn [length].
    replace (n - length acc)%nat with (Datatypes.S (n - (length acc + 1))) by lia. cbn [firstn].
    destruct (Nat.leb_spec n (length acc + 1)).
    + replace (n - (length acc + 1))%nat with O by lia. cbn.
      destruct (Nat.leb_spec n (length acc + Datatypes.S (length r))); [reflexivity|lia].
    + rewrite IH by (rewrite app_length; cbn; lia). rewrite app_length. cbn [length].
      rewrite <- app_assoc. cbn [app].
      replace (length acc + Datatypes.S (length r))%nat with (length acc + 1 + length r)%nat by lia. reflexivity.
Qed.

Lemma drive_upto {V} n : forall (bs : list (list V)) acc, (length acc < n)%nat ->
  exists m, drive (upto n) acc bs = (acc ++ firstn (n - length acc) (concat bs), Nat.leb n (length acc + length (concat bs)), m) /\
    (m <= length bs)%nat /\
    (forall j, (j < m)%nat -> (length acc + length (concat (firstn j bs)) < n)%nat) /\
    ((n <= length acc + length (concat (firstn m bs)))%nat \/ m = length bs).
Proof.
  induction bs as [|b r IH]; intros acc H.
  - exists O. cbn. rewrite firstn_nil, app_nil_r, Nat.add_0_r.
    destruct (Nat.leb_spec n (length acc)); [lia|]. repeat split; auto. intros j Hj. lia.
  - cbn [drive concat]. rewrite push_upto by exact H.
    destruct (Nat.leb_spec n (length acc + length b)) as [L|L].
    + exists 1%nat. rewrite app_length. rewrite firstn_app.
      replace (n - length acc - length b)%nat with O by lia. cbn [firstn]. rewrite app_nil_r.
      destruct (Nat.leb_spec n (length acc + (length b + length (concat r)))); [|lia].
      split; [reflexivity|]. split; [cbn; lia|]. split.
      * intros j Hj. assert (j = O) by lia. subst j. cbn. lia.
      * left. cbn. rewrite app_nil_r. exact L.
    + assert (F : firstn (n - length acc) b = b) by (apply firstn_all2; lia). rewrite F.
      destruct (IH (acc ++ b)) as (m & E & M & Hj & Hm); [rewrite app_length; lia|].
      exists (Datatypes.S m). rewrite E. rewrite app_length in *. split.
      * rewrite firstn_app, F, <- app_assoc.
        replace (n - length acc - length b)%nat with (n - (length acc + length b))%nat by lia.
        rewrite app_length, Nat.add_assoc. reflexivity.
      * split; [cbn; lia|]. split.
        -- intros j Lj. destruct j; [cbn; lia|]. cbn [firstn concat]. rewrite app_length.
           specialize (Hj j). lia.
        -- cbn [firstn concat length]. rewrite app_length. destruct Hm as [Hm|Hm]; [left|right]; lia.
Qed.

(** first(n) gives the first n elements, and no shorter part of the source has
    them. *)
Lemma first_n_ok {V} (p : list (stage V)) n l : ok p ->
  fst (first_n p n l) = firstn n (eager p l) /\
  (snd (first_n p n l) <= length l)%nat /\
  forall j, (j < snd (first_n p n l))%nat -> (length (eager p (firstn j l)) < n)%nat.
Proof.
  intros H. unfold first_n. destruct (Nat.eqb_spec n 0) as [->|Hn].
  - cbn. repeat split; [lia|]. intros j Hj. lia.
  - rewrite each_drive. change (fun acc v => _) with (@upto V n).
    destruct (drive_upto n (batches p l) []) as (m & E & M & Hj & _); [cbn; lia|]. rewrite E. cbn [fst snd].
    cbn [app length]. rewrite Nat.sub_0_r, batches_eager by exact H. split; [reflexivity|]. split.
    + pose proof (batches_length p l). lia.
    + intros j L. specialize (Hj j L). cbn [length] in Hj. rewrite <- batches_firstn, batches_eager in Hj by exact H. exact Hj.
Qed.

Lemma first_ok {V} (p : list (stage V)) l : ok p ->
  fst (first p l) = hd_error (eager p l) /\ snd (first p l) = snd (first_n p 1 l).
Proof.
  intros H. unfold first, first_n. cbn [Nat.eqb]. rewrite !each_drive, <- batches_eager by exact H.
  induction (batches p l) as [|b r IH]; [auto|]. cbn [drive concat]. destruct b as [|v b]; [|cbn; auto].
  cbn [push app]. destruct IH as (A & B).
  destruct (drive _ None r) as ((o, f), m). destruct (drive _ [] r) as ((o', f'), m'). cbn in *. auto.
Qed.

(** take(n) asks for as much as first(n). *)
Lemma relay_take {V} n : forall (bs : list (list V)) q acc, 0 <= count q < n -> length acc = Z.to_nat (count q) ->
  length (relay (Take n) q bs) = snd (drive (upto (Z.to_nat n)) acc bs).
Proof.
  assert (T : forall (b : list V) (q : vars V) acc, 0 <= count q < n -> length acc = Z.to_nat (count q) ->
    let '(q', o, brk) := through (Take n) q b in
    let '(acc', stop) := push (upto (Z.to_nat n)) acc b in
    brk = stop /\ (brk = false -> 0 <= count q' < n /\ length acc' = Z.to_nat (count q'))).
  { induction b as [|v r IH]; intros q acc H L; [cbn; auto|]. cbn [through body push]. unfold upto at 1.
    rewrite app_length. cbn [length].
    destruct (Nat.leb_spec (Z.to_nat n) (length acc + 1)); destruct (n <=? count q + 1) eqn:E;
      try apply Z.leb_le in E; try apply Z.leb_gt in E; try (exfalso; lia); [split; [reflexivity|discriminate]|].
    specialize (IH (mkV (count q + 1) (dropping q) (keys q)) (acc ++ [v])). cbn [count] in IH.
    rewrite app_length in IH. cbn [length] in IH. specialize (IH ltac:(lia) ltac:(lia)).
    destruct (through (Take n) _ r) as ((q', o), brk). exact IH. }
  induction bs as [|b r IH]; intros q acc H L; [reflexivity|]. cbn [relay drive].
  specialize (T b q acc H L). destruct (through (Take n) q b) as ((q', o), brk).
  destruct (push (upto (Z.to_nat n)) acc b) as (acc', stop). destruct T as (-> & T).
  destruct stop; [reflexivity|]. destruct (T eq_refl) as (T1 & T2). specialize (IH q' acc' T1 T2).
  destruct (drive _ acc' r) as ((s, f), m). cbn in *. rewrite IH. reflexivity.
Qed.

Lemma take_asks {V} n (up : list (stage V)) l : 0 <= n ->
  snd (force (Take n :: up) l) = snd (first_n up (Z.to_nat n) l).
Proof.
  intros H. rewrite force_batches. cbn [snd batches idle]. unfold first_n. destruct (n =? 0) eqn:E.
  - apply Z.eqb_eq in E. subst n. reflexivity.
  - apply Z.eqb_neq in E. destruct (Nat.eqb_spec (Z.to_nat n) 0); [lia|]. rewrite each_drive.
    change (fun acc v => _) with (@upto V (Z.to_nat n)).
    rewrite (relay_take n (batches up l) (init (Take n)) []) by (cbn; lia).
    destruct (drive _ [] (batches up l)) as ((s, f), m). reflexivity.
Qed.

(** take_while asks up to the first element that fails, and not further. *)
Lemma take_while_asks {V} (p : V -> bool) l :
  snd (force [TakeWhile p] l) = if forallb p l then length l else Datatypes.S (length (take_while p l)).
Proof.
  rewrite force_batches. cbn [snd batches idle]. generalize (init (TakeWhile p)).
  induction l as [|v r IH]; intros q; [reflexivity|]. cbn [map relay through body forallb take_while].
  destruct (p v) eqn:E; [|reflexivity]. cbn [app length]. rewrite (IH q). destruct (forallb p r); reflexivity.
Qed.

(* ------------------------------------------------------------------ *)
(** ** Endless sources *)

Lemma drive_firstn {V S} (k : S -> V -> S * bool) : forall bs s j,
  snd (fst (drive k s (firstn j bs))) = true -> drive k s bs = drive k s (firstn j bs).
Proof.
  induction bs as [|b r IH]; intros s j H; [rewrite firstn_nil; reflexivity|]. destruct j; [discriminate H|].
  cbn [firstn drive] in *. destruct (push k s b) as (s', [|]); [reflexivity|].
  specialize (IH s' j). destruct (drive k s' (firstn j r)) as ((s2, f), m). cbn in H.
  rewrite (IH H). reflexivity.
Qed.

Lemma drive_short {V S} (k : S -> V -> S * bool) : forall bs s,
  snd (fst (drive k s bs)) = true \/ snd (drive k s bs) = length bs.
Proof.
  induction bs as [|b r IH]; intros s; [right; reflexivity|]. cbn [drive]. destruct (push k s b) as (s', [|]); [left; reflexivity|].
  specialize (IH s'). destruct (drive k s' r) as ((s2, f), m). cbn in *. destruct IH; [left|right]; auto.
Qed.

(** If a walk is left, or ends before the end of the source is reached, the
    rest of the source does not matter. *)
Lemma endless {V} (p : list (stage V)) (S : Type) (k : S -> V -> S * bool) s l r :
  snd (fst (each p S k s l)) = true \/ (snd (each p S k s l) < length l)%nat ->
  each p S k s (l ++ r) = each p S k s l.
Proof.
  rewrite !each_drive. intros H.
  assert (F : batches p l = firstn (length l) (batches p (l ++ r))).
  { rewrite <- batches_firstn, firstn_app, Nat.sub_diag, firstn_all. cbn. rewrite app_nil_r. reflexivity. }
  destruct (drive_short k (batches p l) s) as [D|D].
  - rewrite F in D |- *. apply drive_firstn. exact D.
  - destruct H as [H|H]; [rewrite F in H |- *; apply drive_firstn; exact H|].
    rewrite D in H. rewrite F in H. rewrite firstn_length in H.
    rewrite F. rewrite firstn_all2 by lia. reflexivity.
Qed.

(* ------------------------------------------------------------------ *)
(** ** Sizes *)

Lemma number_length {A B} (f : A -> Z -> B) : forall l i, length (number f i l) = length l.
Proof. induction l as [|x r IH]; intros i; [reflexivity|]. cbn. rewrite IH. reflexivity. Qed.

(** A size that is known is right. *)
Lemma size_ok {V} : forall (p : list (stage V)) l z, ok p ->
  lsize p (Some (Count (Z.of_nat (length l)))) = Some z -> z = Count (Z.of_nat (length (eager p l))).
Proof.
  induction p as [|st up IH]; intros l z H E; [cbn in E; injection E as <-; reflexivity|].
  inversion H as [|? ? H1 H2]; subst. cbn [lsize eager] in *. specialize (IH l).
  destruct (lsize up _) as [z0|]; [|destruct st; discriminate E]. specialize (IH z0 H2 eq_refl). subst z0.
  destruct st; try discriminate E; cbn [eager1] in *.
  - injection E as <-. rewrite map_length. reflexivity.
  - cbn in H1. rewrite firstn_length. destruct (Z.of_nat (length (eager up l)) <? n) eqn:L.
    + apply Z.ltb_lt in L. injection E as <-. f_equal. lia.
    + apply Z.ltb_ge in L. injection E as <-. f_equal. lia.
  - cbn in H1. rewrite skipn_length. injection E as <-. f_equal.
    destruct (Z.of_nat (length (eager up l)) - n <? 0) eqn:L; [apply Z.ltb_lt in L|apply Z.ltb_ge in L]; lia.
  - injection E as <-. rewrite number_length. reflexivity.
Qed.

(** Without with_index the sizes are Ruby's. *)
Lemma size_ruby {V} : forall (p : list (stage V)) src,
  (forall off mk, ~ In (WithIndex off mk) p) -> lsize p src = ruby_size p src.
Proof.
  induction p as [|st up IH]; intros src H; [reflexivity|].
  assert (G : lsize up src = ruby_size up src) by (apply IH; intros off mk I; apply (H off mk); right; exact I).
  destruct st; cbn [lsize ruby_size] in *; rewrite ?G; try reflexivity.
  exfalso. apply (H off mk). left. reflexivity.
Qed.

(* ------------------------------------------------------------------ *)
(** ** Disagreements *)

(** flat_map does not ask for to_ary. *)
Lemma flat_map_bad : ~ (forall (V : Type) (f : V -> answer V) l,
  fst (force [FlatMap f] l) = flat_map (fun v => ruby_flat (f v)) l).
Proof. intros H. specialize (H Z (fun v => AToAry v [1; 2]) [0]). discriminate H. Qed.

(** The size of with_index is nil. *)
Lemma with_index_bad : ~ (forall (V : Type) (p : list (stage V)) src, lsize p src = ruby_size p src).
Proof. intros H. specialize (H Z [WithIndex 0 Z.add] (Some (Count 3))). discriminate H. Qed.
