(** Proofs about Struct. *)
From Coq Require Import ZArith List Bool Lia.
From Verif Require Import StructModel StructSpec.
Import ListNotations.
Local Open Scope Z_scope.

(* ------------------------------------------------------------------ *)
(** ** new *)

Lemma get_named : forall h, symbols h -> forall m, get h m = named h m.
Proof.
  intros h H m; unfold get, named; induction h as [|[k v] r IH]; [reflexivity|].
  destruct (H k v (or_introl eq_refl)) as [x Hx]; subst k; cbn.
  destruct (x =? m); [reflexivity|]. apply IH; intros k' v' Hi; exact (H k' v' (or_intror Hi)).
Qed.

Lemma known_named : forall ms h, symbols h ->
  forallb (fun e => known_sym ms (fst e)) h
  = forallb (fun e : key * val => existsb (fun m => names_member m (fst e)) ms) h.
Proof.
  intros ms h H; induction h as [|[k v] r IH]; [reflexivity|].
  destruct (H k v (or_introl eq_refl)) as [x Hx]; subst k; cbn.
  f_equal. apply IH; intros k' v' Hi; exact (H k' v' (or_intror Hi)).
Qed.

Lemma unknown_named : forall ms h, symbols h ->
  existsb (fun e => unknown_sym ms (fst e)) h
  = negb (forallb (fun e : key * val => existsb (fun m => names_member m (fst e)) ms) h).
Proof.
  intros ms h H; induction h as [|[k v] r IH]; [reflexivity|].
  destruct (H k v (or_introl eq_refl)) as [x Hx]; subst k; cbn.
  rewrite negb_andb; f_equal. apply IH; intros k' v' Hi; exact (H k' v' (or_intror Hi)).
Qed.

Lemma from_hash_ok : forall ms h, symbols h ->
  (if forallb (fun e => known_sym ms (fst e)) h then Val (map (get h) ms) else Raise ArgErr)
  = (if forallb (fun e : key * val => existsb (fun m => names_member m (fst e)) ms) h
     then Val (map (named h) ms) else Raise ArgErr).
Proof.
  intros ms h H; rewrite (known_named ms h H), (map_ext _ _ (get_named h H) ms); reflexivity.
Qed.

Lemma new_ok : forall c pos kw, (kwinit c = Some true /\ direct c = true) \/ kwinit c = None -> symbol_args pos kw ->
  initialize c pos kw = ruby_new c pos kw.
Proof.
  intros c pos kw K [S1 S2]; unfold initialize, ruby_new, is_keyword_init, by_keywords.
  destruct K as [[K D]|K]; rewrite K; [rewrite D | rewrite andb_false_r]; cbn [andb].
  - destruct pos as [|a [|b r]].
    + destruct kw as [|e kw]; [reflexivity|]. cbn [app]. apply from_hash_ok, S1.
    + destruct kw as [|e kw]; cbn [app].
      * destruct a; try reflexivity. apply from_hash_ok, S2; left; reflexivity.
      * destruct a; reflexivity.
    + destruct a; destruct kw; reflexivity.
  - destruct kw as [|e kw].
    + rewrite app_nil_r. destruct pos as [|a r]; [|reflexivity].
      cbn; unfold pad; cbn; rewrite Nat.sub_0_r; reflexivity.
    + destruct pos as [|a r].
      * cbn [app]. rewrite (unknown_named (members c) (e :: kw) S1), (map_ext _ _ (get_named (e :: kw) S1) (members c)).
        destruct (forallb _ _); reflexivity.
      * cbn [app]. change (a :: r ++ [VHash (e :: kw)]) with ((a :: r) ++ [VHash (e :: kw)]).
        rewrite app_length; reflexivity.
Qed.

Lemma new_false_ok : forall c pos kw, kwinit c = Some false -> kw = [] \/ pos <> [] ->
  initialize c pos kw = ruby_new c pos kw.
Proof.
  intros c pos kw K H; unfold initialize, ruby_new, is_keyword_init, by_keywords; rewrite K, andb_false_r.
  destruct kw as [|e kw].
  - rewrite app_nil_r. destruct pos as [|a r]; [|reflexivity].
    cbn; unfold pad; cbn; rewrite Nat.sub_0_r; reflexivity.
  - destruct pos as [|a r]; [destruct H as [H|H]; congruence|]. cbn [app].
    change (a :: r ++ [VHash (e :: kw)]) with ((a :: r) ++ [VHash (e :: kw)]).
    rewrite app_length; reflexivity.
Qed.

(** As many slots as members, whatever the class. *)
Lemma new_length : forall c pos kw vs, initialize c pos kw = Val vs -> length vs = length (members c).
Proof.
  assert (P : forall n vs, Nat.ltb n (length vs) = false -> length (pad n vs) = n).
  { intros n vs H; apply Nat.ltb_ge in H; unfold pad; rewrite app_length, repeat_length; lia. }
  assert (F : forall c h vs, (if forallb (fun e => known_sym (members c) (fst e)) h
      then Val (map (get h) (members c)) else Raise ArgErr) = Val vs -> length vs = length (members c)).
  { intros c h vs H; destruct (forallb _ h); inversion H; apply map_length. }
  intros c pos kw vs; unfold initialize. destruct (is_keyword_init c).
  - destruct pos as [|a [|b r]].
    + destruct kw; [intros H; inversion H; apply repeat_length|]. apply F.
    + destruct a; try discriminate. destruct kw; [apply F | discriminate].
    + destruct a; discriminate.
  - destruct kw as [|e kw].
    + destruct (Nat.ltb _ _) eqn:E; [discriminate|]. intros H; injection H as <-; apply (P _ pos E).
    + destruct pos as [|a r].
      * destruct (existsb _ _); [discriminate|]. intros H; inversion H; apply map_length.
      * destruct (Nat.ltb _ _) eqn:E; [discriminate|]. intros H; injection H as <-.
        apply (P (length (members c)) ((a :: r) ++ [VHash (e :: kw)])). rewrite app_length; exact E.
Qed.

(* ------------------------------------------------------------------ *)
(** ** Places *)

Lemma place_nth : forall ms i m, NoDup ms -> nth_error ms i = Some m -> place m ms = i.
Proof.
  induction ms as [|x r IH]; intros i m N H; [destruct i; discriminate|].
  inversion N as [|? ? Hx N']; subst. destruct i as [|i]; cbn in H |- *.
  - inversion H; rewrite Z.eqb_refl; reflexivity.
  - destruct (Z.eqb_spec x m) as [->|_]; [exfalso; apply Hx, (nth_error_In _ i H)|].
    f_equal; apply IH; assumption.
Qed.

Lemma is_member_in : forall ms m, is_member ms m = true <-> In m ms.
Proof.
  intros ms m; unfold is_member; rewrite existsb_exists; split.
  - intros [x [H E]]; apply Z.eqb_eq in E; subst; exact H.
  - intros H; exists m; split; [exact H | apply Z.eqb_refl].
Qed.

Lemma place_lt : forall ms m, In m ms -> (place m ms < length ms)%nat.
Proof.
  induction ms as [|x r IH]; intros m H; [destruct H|]. cbn.
  destruct (Z.eqb_spec x m) as [_|n]; [lia|].
  destruct H as [H|H]; [contradiction|]. specialize (IH m H); lia.
Qed.

Lemma plain_size : forall s, plain s -> size s = VInt (Z.of_nat (length (names s))).
Proof.
  intros s [_ H]; unfold size. destruct (is_member (names s) 0) eqn:E; [|reflexivity].
  apply is_member_in in E; contradiction.
Qed.

Lemma plain_send : forall s m, plain s -> send s m = nth (place m (names s)) (slots s) VNil.
Proof. intros s m [H _]; unfold send; rewrite H; reflexivity. Qed.

Lemma checked_ok : forall s i, plain s ->
  checked s i = bind (ruby_pos s (IInt i)) (fun p => Val (Z.of_nat p)).
Proof.
  intros s i P; unfold checked; rewrite (plain_size s P); cbn -[Z.of_nat].
  remember (Z.of_nat (length (names s))) as n eqn:En. assert (0 <= n) by lia. clear En.
  destruct (Z.ltb_spec i 0) as [L|L];
    [destruct (Z.ltb_spec (i + n) 0); [|destruct (Z.leb_spec n (i + n))]
    | destruct (Z.ltb_spec i 0); [|destruct (Z.leb_spec n i)]];
    destruct (Z.leb_spec (- n) i); destruct (Z.ltb_spec i n); cbn -[Z.of_nat]; try reflexivity;
    try (exfalso; lia); f_equal; lia.
Qed.

Lemma pos_lt : forall s i p, ruby_pos s (IInt i) = Val p -> (p < length (names s))%nat.
Proof.
  intros s i p; unfold ruby_pos.
  destruct (Z.leb_spec (- Z.of_nat (length (names s))) i); destruct (Z.ltb_spec i (Z.of_nat (length (names s))));
    cbn [andb]; try discriminate. intros E; inversion E; destruct (Z.ltb_spec i 0); lia.
Qed.

Lemma at_place : forall s p, wf s -> (p < length (names s))%nat ->
  exists m, member_at s (Z.of_nat p) = Val m /\ place m (names s) = p.
Proof.
  intros s p [N _] L; unfold member_at; rewrite Nat2Z.id.
  destruct (nth_error (names s) p) as [m|] eqn:E; [|apply nth_error_None in E; lia].
  exists m; split; [reflexivity | apply place_nth; assumption].
Qed.

(* ------------------------------------------------------------------ *)
(** ** Reading and writing *)

Lemma aref_ok : forall s k, wf s -> plain s -> not_float k -> aref s k = ruby_aref s k.
Proof.
  intros s k W P F; destruct k as [i|i|m|]; [|destruct F| |reflexivity].
  - unfold aref, ruby_aref; rewrite (checked_ok s i P).
    destruct (ruby_pos s (IInt i)) as [p|e] eqn:E; [|reflexivity]. cbn [bind].
    destruct (at_place s p W (pos_lt s i p E)) as [m [H1 H2]]; rewrite H1; cbn [bind].
    rewrite (plain_send s m P), H2; reflexivity.
  - unfold aref, ruby_aref, ruby_pos. destruct (is_member (names s) m); [|reflexivity].
    cbn [bind]; rewrite (plain_send s m P); reflexivity.
Qed.

Lemma put_split : forall (l : list val) n v, (n < length l)%nat -> firstn n l ++ [v] ++ skipn (S n) l = put n v l.
Proof.
  induction l as [|x r IH]; intros n v L; [cbn in L; lia|].
  destruct n as [|n]; [reflexivity|]. cbn in L |- *. f_equal; apply IH; lia.
Qed.

Lemma set_slot_ok : forall s m v, wf s -> (place m (names s) < length (names s))%nat ->
  set_slot s m v = mkO (names s) (put (place m (names s)) v (slots s)) (over s) (frozen s).
Proof. intros s m v [_ W] L; unfold set_slot; rewrite put_split by lia; reflexivity. Qed.

Lemma aset_ok : forall s k v, wf s -> plain s -> not_float k -> frozen s = false ->
  aset s k v = bind (ruby_aset s k v) (fun l => Val (mkO (names s) l (over s) (frozen s))).
Proof.
  intros s k v W P F Z; unfold aset, ruby_aset; rewrite Z. destruct k as [i|i|m|]; [|destruct F| |reflexivity].
  - rewrite (checked_ok s i P). destruct (ruby_pos s (IInt i)) as [p|e] eqn:E; [|reflexivity]. cbn [bind].
    pose proof (pos_lt s i p E) as L.
    destruct (at_place s p W L) as [m [H1 H2]]; rewrite H1; cbn [bind].
    rewrite set_slot_ok; rewrite ?H2, ?Z; auto.
  - unfold ruby_pos. destruct (is_member (names s) m) eqn:E; [|reflexivity]. cbn [bind].
    apply is_member_in, place_lt in E. rewrite set_slot_ok, Z; auto.
Qed.

Lemma aset_frozen : forall s k v, frozen s = true -> aset s k v = Raise FrozenErr.
Proof. intros s k v H; unfold aset; rewrite H; reflexivity. Qed.

Lemma nth_put : forall (l : list val) n k v, (n < length l)%nat ->
  nth k (put n v l) VNil = if Nat.eqb k n then v else nth k l VNil.
Proof.
  induction l as [|x r IH]; intros n k v L; [cbn in L; lia|].
  destruct n as [|n]; destruct k as [|k]; try reflexivity. cbn in L |- *. apply IH; lia.
Qed.

Lemma put_length : forall (l : list val) n v, length (put n v l) = length l.
Proof.
  induction l as [|x r IH]; intros n v; destruct n; cbn; try reflexivity. rewrite IH; reflexivity.
Qed.

(** What was written is read, by every index of the same place; the rest stays. *)
Lemma aset_aref : forall s k v s' k', wf s -> plain s -> not_float k -> not_float k' -> aset s k v = Val s' ->
  aref s' k' = bind (ruby_pos s k') (fun q =>
    match ruby_pos s k with
    | Val p => Val (if Nat.eqb q p then v else nth q (slots s) VNil)
    | Raise e => Raise e
    end).
Proof.
  intros s k v s' k' W P F F' H.
  assert (Z : frozen s = false).
  { destruct (frozen s) eqn:E; [|reflexivity]. rewrite (aset_frozen s k v E) in H; discriminate. }
  rewrite (aset_ok s k v W P F Z) in H; unfold ruby_aset in H. rewrite Z in H.
  destruct (ruby_pos s k) as [p|e] eqn:E; [|discriminate]. cbn [bind] in H. inversion H; subst s'; clear H.
  assert (L : (p < length (names s))%nat).
  { destruct k as [i|i|m|]; [exact (pos_lt s i p E) | destruct F | | discriminate].
    unfold ruby_pos in E. destruct (is_member (names s) m) eqn:M; [|discriminate].
    inversion E; apply place_lt, is_member_in, M. }
  rewrite aref_ok; [| | |exact F'].
  - unfold ruby_aref.
    change (ruby_pos (mkO (names s) (put p v (slots s)) (over s) false) k') with (ruby_pos s k').
    destruct (ruby_pos s k') as [q|e]; [|reflexivity]. cbn [bind slots].
    destruct W as [_ W]. rewrite nth_put by lia. reflexivity.
  - destruct W as [N W]; split; cbn; [exact N | rewrite put_length; exact W].
  - exact P.
Qed.

(* ------------------------------------------------------------------ *)
(** ** Lists *)

Lemma map_place : forall ms (l : list val), NoDup ms -> length l = length ms ->
  map (fun m => nth (place m ms) l VNil) ms = l.
Proof.
  induction ms as [|x r IH]; intros l N L; destruct l as [|v l]; try discriminate; [reflexivity|].
  inversion N as [|? ? Hx N']; subst. cbn [map]. f_equal.
  - cbn; rewrite Z.eqb_refl; reflexivity.
  - transitivity (map (fun m => nth (place m r) l VNil) r); [|apply IH; [exact N' | cbn in L; lia]].
    apply map_ext_in; intros m Hm. cbn.
    destruct (Z.eqb_spec x m) as [->|_]; [contradiction | reflexivity].
Qed.

Lemma to_a_ok : forall s, wf s -> plain s -> to_a s = slots s.
Proof.
  intros s [N L] P; unfold to_a. rewrite <- (map_place (names s) (slots s) N L) at 1.
  apply map_ext; intros m; apply plain_send, P.
Qed.

Lemma to_h_ok : forall s, wf s -> plain s -> to_h s = combine (names s) (slots s).
Proof.
  intros s W P. rewrite <- (to_a_ok s W P) at 1. unfold to_h, to_a.
  induction (names s) as [|x r IH]; [reflexivity|]. cbn; f_equal; exact IH.
Qed.

Lemma reader_at : forall s i, wf s -> plain s -> 0 <= i ->
  (if i <? Z.of_nat (length (names s)) then match nth_error (names s) (Z.to_nat i) with Some m => send s m | None => VNil end
   else VNil) = nth (Z.to_nat i) (slots s) VNil.
Proof.
  intros s i [N L] P H. destruct (Z.ltb_spec i (Z.of_nat (length (names s)))) as [C|C].
  - destruct (nth_error (names s) (Z.to_nat i)) as [m|] eqn:E; [|apply nth_error_None in E; lia].
    rewrite (plain_send s m P), (place_nth _ _ _ N E); reflexivity.
  - rewrite nth_overflow; [reflexivity | lia].
Qed.

Lemma window : forall (l : list val) a n k, (n <= length (skipn a l) + k)%nat ->
  map (fun i => nth (a + i) l VNil) (seq 0 n) = firstn n (skipn a l ++ repeat VNil k).
Proof.
  intros l a n k H. apply (nth_ext _ _ VNil VNil).
  - rewrite map_length, seq_length, firstn_length, app_length, repeat_length; lia.
  - intros i Hi. rewrite map_length, seq_length in Hi.
    rewrite (nth_indep _ VNil (nth (a + 0) l VNil)) by (rewrite map_length, seq_length; exact Hi).
    rewrite (map_nth (fun i => nth (a + i) l VNil)), seq_nth by exact Hi. cbn [Nat.add].
    assert (F : forall (m : list val) n i, (i < n)%nat -> nth i (firstn n m) VNil = nth i m VNil).
    { induction m as [|x r IH]; intros n' i' Q; destruct n'; try lia; [destruct i'; reflexivity|].
      destruct i' as [|i']; [reflexivity|]. cbn. apply IH; lia. }
    rewrite F by exact Hi.
    assert (S : forall (m : list val) a i, nth i (skipn a m) VNil = nth (a + i) m VNil).
    { induction m as [|x r IH]; intros a' i'; destruct a'; try reflexivity; [destruct i'; reflexivity|].
      cbn. apply IH. }
    rewrite <- S. destruct (Nat.lt_ge_cases i (length (skipn a l))) as [C|C].
    + rewrite app_nth1 by exact C; reflexivity.
    + rewrite (nth_overflow (skipn a l)) by exact C. rewrite app_nth2 by exact C.
      symmetry; apply nth_repeat.
Qed.

Lemma values_range_ok : forall s b e excl, wf s -> plain s -> (e = None -> excl = false) ->
  values_range s b e excl = ruby_range s b e excl.
Proof.
  intros s b e excl W P X; unfold values_range, ruby_range.
  assert (L : length (slots s) = length (names s)) by apply W.
  rewrite L. remember (Z.of_nat (length (names s))) as n eqn:En.
  replace (if match b with Some b0 => b0 | None => 0 end <? 0 then match b with Some b0 => b0 | None => 0 end + n
           else match b with Some b0 => b0 | None => 0 end)
    with (match b with Some b0 => if b0 <? 0 then b0 + n else b0 | None => 0 end)
    by (destruct b; reflexivity).
  remember (match b with Some b0 => if b0 <? 0 then b0 + n else b0 | None => 0 end) as first eqn:Ef.
  destruct (Z.ltb_spec first 0) as [C|C]; [reflexivity|].
  set (last := (if excl then _ else _)).
  set (stop := match e with None => n | Some _ => _ end).
  assert (Q : last + 1 = stop \/ (last < first /\ stop <= first)).
  { subst last stop. destruct e as [e|].
    - destruct excl; lia.
    - rewrite (X eq_refl). destruct (Z.ltb_spec (n - 1) 0); lia. }
  f_equal. unfold upto. rewrite map_map.
  rewrite (map_ext_in _ (fun i => nth (Z.to_nat first + i) (slots s) VNil)).
  2:{ intros i _. subst n. rewrite (reader_at s _ W P) by lia. f_equal; lia. }
  replace (Z.to_nat (last - first + 1)) with (Z.to_nat (stop - first)) by lia.
  apply window. rewrite skipn_length. lia.
Qed.
