From Coq Require Import List Bool ZArith Arith Lia Znumtheory.
From Verif Require Import BufModel BufSpec BufProofs BufHist.
Import ListNotations.
Local Open Scope nat_scope.

Lemma whole w i l : sound w -> read (strs w) (bufs w) i = Some l -> step w (GetString i 0 None) = (w, Val (ABytes l)).
Proof.
  intros Hf Hr. destruct (read_get _ _ _ _ Hf Hr) as (b & Hg & Hl). cbn [step]. unfold with_buf, with_bytes. rewrite Hg, Hr.
  assert (O : offset_length (size b) 0 None = Some (0, size b)).
  { unfold offset_length. destruct (Z.ltb_spec 0 0); [lia|]. destruct (Z.ltb_spec (Z.of_nat (size b)) 0); [lia|]. destruct (Z.ltb_spec (Z.of_nat (size b) - 0) 0); [lia|].
    destruct (Z.ltb_spec (Z.of_nat (size b)) (0 + (Z.of_nat (size b) - 0))); [lia|]. do 2 f_equal. lia. }
  rewrite O. unfold cut. cbn [skipn]. rewrite <- Hl, firstn_all. reflexivity.
Qed.
Lemma whole_inv w i l : snd (step w (GetString i 0 None)) = Val (ABytes l) -> sound w -> read (strs w) (bufs w) i = Some l.
Proof.
  intros H Hf. destruct (read (strs w) (bufs w) i) as [m|] eqn:E.
  - rewrite (whole w i m Hf E) in H. cbn in H. congruence.
  - cbn [step] in H. unfold with_buf, with_bytes in H. rewrite E in H. destruct (get (bufs w) i); discriminate.
Qed.
(** A write seen through every buffer *)
Lemma wrote_views w i o d a l : sound w -> read (strs w) (bufs w) i = Some l -> o + length d <= length l ->
  exists w', wrote w (write (strs w) (bufs w) i o d) a = (w', Val a) /\ map look (bufs w') = map look (bufs w) /\ read (strs w') (bufs w') i = Some (patch l o d) /\
  forall j m, read (strs w) (bufs w) j = Some m -> exists m', read (strs w') (bufs w') j = Some m' /\ length m' = length m /\ forall x, x < length m ->
    (forall k, k < length d -> place (bufs w) j x = place (bufs w) i (o + k) -> nth_error m' x = nth_error d k) /\
    ((forall k, k < length d -> place (bufs w) j x <> place (bufs w) i (o + k)) -> nth_error m' x = nth_error m x).
Proof.
  intros Hf Hr Ho. destruct (write_read _ _ _ _ _ _ Hf Hr Ho) as (ss' & h' & Hw & Hrd). rewrite Hw. exists (mkW ss' h'). split; [reflexivity|]. split; [apply (write_looks _ _ _ _ _ _ _ Hw)|]. split; [exact Hrd|].
  intros j m Hj. apply (views _ _ i o d ss' h' j m Hf Hw Hj).
Qed.
Lemma set_string_ok w i b l o d : reached w -> get (bufs w) i = Some b -> ro b = false -> read (strs w) (bufs w) i = Some l -> o + length d <= length l ->
  exists w', step w (SetString i (Bytes d) (Z.of_nat o) 0 None) = (w', Val (AInt (Z.of_nat (length d)))) /\ map look (bufs w') = map look (bufs w) /\ read (strs w') (bufs w') i = Some (patch l o d) /\
  forall j m, read (strs w) (bufs w) j = Some m -> exists m', snd (step w' (GetString j 0 None)) = Val (ABytes m') /\ length m' = length m /\ forall x, x < length m ->
    (forall k, k < length d -> place (bufs w) j x = place (bufs w) i (o + k) -> nth_error m' x = nth_error d k) /\
    ((forall k, k < length d -> place (bufs w) j x <> place (bufs w) i (o + k)) -> nth_error m' x = nth_error m x).
Proof.
  intros Hr Hg Hro Hrd Ho. pose proof (reached_sound w Hr) as Hf. pose proof (read_size _ _ _ _ _ Hf Hrd Hg) as Hl.
  assert (E : step w (SetString i (Bytes d) (Z.of_nat o) 0 None) = wrote w (write (strs w) (bufs w) i o d) (AInt (Z.of_nat (length d)))).
  { cbn [step]. unfold with_buf, with_bytes. rewrite Hg, Hro, Hrd. destruct (Z.ltb_spec (Z.of_nat o) 0); [lia|]. cbv zeta.
    assert (C : cut d (Z.to_nat (Z.min (Z.max 0 0) (Z.of_nat (length d)))) (Z.to_nat (Z.min (Z.max 0 0 + Z.max 0 (Z.of_nat (length d) - Z.max 0 0)) (Z.of_nat (length d))) - Z.to_nat (Z.min (Z.max 0 0) (Z.of_nat (length d)))) = d).
    { replace (Z.to_nat (Z.min (Z.max 0 0) (Z.of_nat (length d)))) with 0 by lia.
      replace (Z.to_nat (Z.min (Z.max 0 0 + Z.max 0 (Z.of_nat (length d) - Z.max 0 0)) (Z.of_nat (length d)))) with (length d) by lia. unfold cut. cbn [skipn]. rewrite Nat.sub_0_r. apply firstn_all. }
    rewrite C. destruct (Z.ltb_spec (Z.of_nat (size b)) (Z.of_nat o)); [lia|]. destruct (Z.ltb_spec (Z.of_nat (size b)) (Z.of_nat o + Z.of_nat (length d))); [lia|]. rewrite Nat2Z.id.
    destruct (sto b); reflexivity. }
  rewrite E. destruct (wrote_views w i o d (AInt (Z.of_nat (length d))) l Hf Hrd Ho) as (w' & W1 & W2 & W3 & W4). exists w'. split; [exact W1|]. split; [exact W2|]. split; [exact W3|].
  intros j m Hj. destruct (W4 j m Hj) as (m' & M1 & M2). exists m'. split; [|exact M2]. assert (Hf' : sound w') by (apply (looks_fits _ _ W2 Hf)). rewrite (whole w' j m' Hf' M1). reflexivity.
Qed.

(** * Bytes and numbers *)
Local Open Scope Z_scope.
Lemma fold_from l : fold_left (fun a b => 256 * a + b) (rev l) 0 = from_le l.
Proof. rewrite <- fold_left_rev_right, rev_involutive. induction l as [|b l IH]; cbn [fold_right from_le]; [reflexivity|]. rewrite IH. lia. Qed.
Lemma unsigned_from l big : unsigned_of l big = from_le (if big then rev l else l).
Proof. unfold unsigned_of. destruct big; [rewrite <- (rev_involutive l) at 1|]; apply fold_from. Qed.
Lemma pow8 n : 2 ^ (8 * Z.of_nat n) = 256 ^ Z.of_nat n.
Proof. rewrite Z.pow_mul_r by lia. reflexivity. Qed.
Lemma from_range l : Forall byte l -> 0 <= from_le l < 256 ^ Z.of_nat (length l).
Proof.
  induction 1 as [|b l Hb Hl IH]; cbn [from_le length]; [rewrite Z.pow_0_r; lia|]. unfold byte in Hb. rewrite Nat2Z.inj_succ, Z.pow_succ_r by lia. revert IH. generalize (256 ^ Z.of_nat (length l)). intros. lia.
Qed.
Lemma from_to n : forall v, from_le (to_le n v) = v mod 256 ^ Z.of_nat n.
Proof.
  induction n as [|n IH]; intros v; cbn [to_le from_le]; [rewrite Z.pow_0_r, Z.mod_1_r; reflexivity|]. rewrite IH, Nat2Z.inj_succ, Z.pow_succ_r by lia.
  rewrite Z.rem_mul_r by (try lia; apply Z.pow_pos_nonneg; lia). lia.
Qed.
Lemma to_bytes n : forall v, Forall byte (to_le n v).
Proof. induction n as [|n IH]; intros v; cbn; constructor; [apply Z.mod_pos_bound; lia|apply IH]. Qed.
Lemma decode_spec l k big : Forall byte l -> l <> [] -> decode l k big = match k with Signed => signed_of (length l) (unsigned_of l big) | _ => unsigned_of l big end.
Proof.
  intros Hb Hn. unfold decode. rewrite <- unsigned_from. destruct k; try reflexivity. unfold signed_of.
  assert (R : 0 <= unsigned_of l big < 2 ^ (8 * Z.of_nat (length l))).
  { rewrite unsigned_from, pow8. destruct big; [rewrite <- rev_length|]; apply from_range; [apply Forall_rev|]; assumption. }
  assert (L : (0 < length l)%nat) by (destruct l; [congruence|cbn; lia]).
  revert R. generalize (unsigned_of l big) as u. intros u R. replace (8 * Z.of_nat (length l)) with (Z.succ (8 * Z.of_nat (length l) - 1)) in R |- * by lia.
  replace (Z.succ (8 * Z.of_nat (length l) - 1) - 1) with (8 * Z.of_nat (length l) - 1) by lia.
  assert (E : 2 ^ Z.succ (8 * Z.of_nat (length l) - 1) = 2 * 2 ^ (8 * Z.of_nat (length l) - 1)) by (apply Z.pow_succ_r; lia). rewrite E in *. clear E.
  assert (P : 0 < 2 ^ (8 * Z.of_nat (length l) - 1)) by (apply Z.pow_pos_nonneg; lia). revert P R. generalize (2 ^ (8 * Z.of_nat (length l) - 1)) as p. intros p P R.
  destruct (Z.leb_spec p u).
  - rewrite <- (Z.mod_unique (u + p) (2 * p) 1 (u - p)); lia.
  - rewrite Z.mod_small; lia.
Qed.
Lemma encode_spec n k big v d : (n <= 8)%nat -> encode n k big v = Some d -> length d = n /\ Forall byte d /\ unsigned_of d big = v mod 2 ^ (8 * Z.of_nat n).
Proof.
  intros Hn H. split; [apply (encode_len _ _ _ _ _ H)|]. unfold encode in H.
  assert (E : d = if big then rev (to_le n (v mod 2 ^ 64)) else to_le n (v mod 2 ^ 64)) by (destruct k; try destruct (i64_fits v); congruence). clear H. split.
  - subst d. destruct big; [apply Forall_rev|]; apply to_bytes.
  - rewrite unsigned_from. replace (if big then rev d else d) with (to_le n (v mod 2 ^ 64)) by (subst d; destruct big; [rewrite rev_involutive|]; reflexivity).
    rewrite from_to, <- pow8. symmetry. apply Zmod_div_mod; [apply Z.pow_pos_nonneg; lia|reflexivity|]. exists (2 ^ (64 - 8 * Z.of_nat n)). rewrite <- Z.pow_add_r by lia. f_equal. lia.
Qed.
Lemma signed_mod n v : signed_of n (v mod 2 ^ (8 * Z.of_nat n)) = signed_of n v.
Proof. unfold signed_of. rewrite Zplus_mod_idemp_l. reflexivity. Qed.
Lemma cut_patch l o d : (o + length d <= length l)%nat -> cut (patch l o d) o (length d) = d.
Proof.
  intros H. apply list_ext; [apply cut_len; rewrite patch_len; assumption|]. intros x Hx. rewrite cut_len in Hx by (rewrite patch_len; assumption).
  rewrite nth_cut by exact Hx. rewrite nth_patch by exact H. replace ((o <=? o + x)%nat && (o + x <? o + length d)%nat) with true by (symmetry; apply andb_true_iff; rewrite Nat.leb_le, Nat.ltb_lt; lia). f_equal. lia.
Qed.
Lemma cut_bytes l o n : Forall byte l -> Forall byte (cut l o n).
Proof. intros H. unfold cut. rewrite <- (firstn_skipn o l) in H. apply Forall_app in H. destruct H as [_ H]. rewrite <- (firstn_skipn n (skipn o l)) in H. apply Forall_app in H. apply H. Qed.
Lemma get_value_ok w i l n k big o : sound w -> read (strs w) (bufs w) i = Some l -> Forall byte l -> (1 <= n)%nat ->
  step w (GetValue i n k big (Z.of_nat o)) =
  (w, if (o + n <=? length l)%nat then Val (AInt (match k with Signed => signed_of n (unsigned_of (cut l o n) big) | _ => unsigned_of (cut l o n) big end)) else Err).
Proof.
  intros Hf Hr Hb Hn. destruct (read_get _ _ _ _ Hf Hr) as (b & Hg & Hl). cbn [step]. unfold with_buf, with_bytes. rewrite Hg, Hr. cbv zeta. rewrite Z.max_r by lia. rewrite Nat2Z.id.
  destruct (Z.ltb_spec (Z.of_nat (size b)) (Z.of_nat o + Z.of_nat n)); destruct (Nat.leb_spec (o + n) (length l)); try lia; [reflexivity|].
  assert (L : length (cut l o n) = n) by (apply cut_len; lia).
  rewrite decode_spec; [rewrite L; reflexivity|apply cut_bytes, Hb|]. intros E. rewrite E in L. cbn in L. lia.
Qed.
Lemma set_value_ok w i b l n k big o v : reached w -> get (bufs w) i = Some b -> ro b = false -> read (strs w) (bufs w) i = Some l -> (1 <= n <= 8)%nat -> (o + n <= length l)%nat ->
  k = Bits \/ - 2 ^ 63 <= v < 2 ^ 63 ->
  exists w' d, step w (SetValue i n k big (Z.of_nat o) v) = (w', Val (AInt (Z.of_nat (o + n)))) /\
    read (strs w') (bufs w') i = Some (patch l o d) /\ length d = n /\ Forall byte d /\ unsigned_of d big = v mod 2 ^ (8 * Z.of_nat n) /\
    (forall k', snd (step w' (GetValue i n k' big (Z.of_nat o))) = Val (AInt (ruby_value k' n v))).
Proof.
  intros Hr Hg Hro Hrd Hn Ho Hk. pose proof (reached_sound w Hr) as Hf. pose proof (read_size _ _ _ _ _ Hf Hrd Hg) as Hl.
  assert (E : exists d, encode n k big v = Some d).
  { unfold encode. destruct k; eauto; destruct Hk as [Hk|Hk]; try discriminate; unfold i64_fits; destruct (Z.leb_spec (- 2 ^ 63) v), (Z.ltb_spec v (2 ^ 63)); cbn [andb]; eauto; lia. }
  destruct E as [d E]. destruct (encode_spec n k big v d ltac:(lia) E) as (D1 & D2 & D3).
  assert (S : step w (SetValue i n k big (Z.of_nat o) v) = wrote w (write (strs w) (bufs w) i o d) (AInt (Z.of_nat (o + n)))).
  { cbn [step]. unfold with_buf. rewrite Hg, Hro. cbv zeta. rewrite Z.max_r by lia. destruct (Z.ltb_spec (Z.of_nat (size b)) (Z.of_nat o + Z.of_nat n)); [lia|]. rewrite E, Nat2Z.id, Nat2Z.inj_add. reflexivity. }
  destruct (wrote_views w i o d (AInt (Z.of_nat (o + n))) l Hf Hrd ltac:(lia)) as (w' & W1 & W2 & W3 & _). exists w', d. split; [rewrite S; exact W1|]. split; [exact W3|]. split; [exact D1|]. split; [exact D2|]. split; [exact D3|].
  assert (Hf' : sound w') by (apply (looks_fits _ _ W2 Hf)).
  destruct (read_get _ _ _ _ Hf' W3) as (b' & Hg' & Hl'). intros k'. cbn [step]. unfold with_buf, with_bytes. rewrite Hg', W3. cbv zeta. rewrite Z.max_r by lia. rewrite Nat2Z.id. rewrite patch_len in Hl' by lia.
  destruct (Z.ltb_spec (Z.of_nat (size b')) (Z.of_nat o + Z.of_nat n)); [lia|]. cbn [snd]. rewrite <- D1 at 1. rewrite cut_patch by lia.
  rewrite decode_spec by (try assumption; intros X; rewrite X in D1; cbn in D1; lia). rewrite D1, D3. unfold ruby_value. destruct k'; rewrite ?signed_mod; reflexivity.
Qed.
Lemma set_value_refuses w i n k big off v b : get (bufs w) i = Some b -> ro b = true \/ Z.of_nat (size b) < off + Z.of_nat n \/ k <> Bits /\ ~ (- 2 ^ 63 <= v < 2 ^ 63) ->
  step w (SetValue i n k big off v) = (w, Err).
Proof.
  intros Hg H. cbn [step]. unfold with_buf. rewrite Hg. destruct (ro b) eqn:R; [reflexivity|]. destruct H as [H|H]; [discriminate|]. cbv zeta.
  destruct (Z.ltb_spec (Z.of_nat (size b)) (Z.max 0 off + Z.of_nat n)); [reflexivity|]. destruct H as [H|[Hk H]]; [lia|].
  assert (E : encode n k big v = None).
  { unfold encode. destruct k; try congruence; unfold i64_fits; destruct (Z.leb_spec (- 2 ^ 63) v), (Z.ltb_spec v (2 ^ 63)); cbn [andb]; try reflexivity; lia. }
  rewrite E. reflexivity.
Qed.
(** * Many values *)
Lemma each_spec n k big l : (1 <= n)%nat -> forall fuel off count, (off <= length l)%nat -> (Nat.div (length l - off) n < fuel)%nat ->
  each fuel l n k big off count = map (fun j => decode (cut l (off + j * n) n) k big) (seq 0 (match count with Some c => Nat.min c (Nat.div (length l - off) n) | None => Nat.div (length l - off) n end)).
Proof.
  intros Hn. induction fuel as [|fuel IH]; intros off count Ho Hf; [lia|]. cbn [each]. destruct (Nat.leb_spec (off + n) (length l)) as [L|L].
  - assert (D : Nat.div (length l - off) n = S (Nat.div (length l - (off + n)) n)).
    { replace (length l - off)%nat with (1 * n + (length l - (off + n)))%nat by lia. rewrite Nat.div_add_l by lia. lia. }
    assert (G : forall m, decode (cut l off n) k big :: map (fun j => decode (cut l (off + n + j * n) n) k big) (seq 0 m) = map (fun j => decode (cut l (off + j * n) n) k big) (seq 0 (S m))).
    { intros m. cbn [seq map]. f_equal; [do 2 f_equal; lia|]. rewrite <- seq_shift, map_map. apply map_ext. intros j. do 2 f_equal. lia. }
    destruct count as [[|c]|].
    + rewrite Nat.min_0_l. reflexivity.
    + rewrite IH by lia. rewrite D. cbn [Nat.min]. apply G.
    + rewrite IH by lia. rewrite D. apply G.
  - rewrite Nat.div_small by lia. destruct count; [rewrite Nat.min_0_r|]; reflexivity.
Qed.
Lemma values_ok w i l n k big o count : sound w -> read (strs w) (bufs w) i = Some l -> (1 <= n)%nat -> (o <= length l)%nat ->
  step w (Values i n k big (Z.of_nat o) (option_map Z.of_nat count)) =
  (w, Val (AInts (map (fun j => decode (cut l (o + j * n) n) k big) (seq 0 (match count with Some c => Nat.min c (Nat.div (length l - o) n) | None => Nat.div (length l - o) n end))))).
Proof.
  intros Hf Hr Hn Ho. cbn [step]. unfold with_bytes. rewrite Hr. cbv zeta. rewrite Z.max_r by lia. destruct (Z.ltb_spec (Z.of_nat (length l)) (Z.of_nat o)); [lia|]. rewrite Nat2Z.id.
  rewrite each_spec; [|exact Hn|exact Ho|pose proof (Nat.div_le_upper_bound (length l - o) n (length l) ltac:(lia) ltac:(nia)); lia].
  destruct count as [c|]; cbn [option_map]; [|reflexivity]. rewrite Z.max_r by lia. rewrite Nat2Z.id. reflexivity.
Qed.
(** * Masks and order *)
Lemma nth_map_seq {A} (f : nat * A -> Z) (l : list A) d : forall s x, (x < length l)%nat -> nth_error (map f (combine (seq s (length l)) l)) x = Some (f ((s + x)%nat, nth x l d)).
Proof.
  induction l as [|a l IH]; intros s x H; cbn in *; [lia|]. destruct x as [|x]; cbn; [do 3 f_equal; lia|]. rewrite IH by lia. do 3 f_equal. lia.
Qed.
Lemma bitwise_nth f l m x : (x < length l)%nat -> nth_error (bitwise f l m) x = Some (bit f (nth x l 0) (nth (Nat.modulo x (length m)) m 0)).
Proof. intros H. unfold bitwise. rewrite (nth_map_seq _ l 0 0 x H). reflexivity. Qed.
Lemma bit_ok w f i m l k : reached w -> read (strs w) (bufs w) i = Some l -> read (strs w) (bufs w) m = Some k -> k <> [] ->
  let w' := fst (step w (Bit f i m)) in let j := length (bufs w) in
  snd (step w (Bit f i m)) = Val (ABuf j) /\ exists r, read (strs w') (bufs w') j = Some r /\ length r = length l /\
  forall x, (x < length l)%nat -> nth_error r x = Some (bit f (nth x l 0) (nth (Nat.modulo x (length k)) k 0)).
Proof.
  intros Hr Hi Hm Hk. cbn [step]. unfold with_bytes, push. rewrite Hm, Hi. destruct (Nat.eqb_spec (length k) 0); [destruct k; [congruence|discriminate]|]. cbn [fst snd strs bufs]. split; [reflexivity|].
  exists (bitwise f l k). split; [cbn; rewrite Nat.eqb_refl; reflexivity|]. split; [apply bitwise_len|]. intros x Hx. apply bitwise_nth, Hx.
Qed.
Lemma bit_in_ok w f i m b l k : reached w -> get (bufs w) i = Some b -> ro b = false -> read (strs w) (bufs w) i = Some l -> read (strs w) (bufs w) m = Some k -> k <> [] ->
  let w' := fst (step w (BitIn f i m)) in
  snd (step w (BitIn f i m)) = Val (ABuf i) /\ exists r, read (strs w') (bufs w') i = Some r /\ length r = length l /\
  forall x, (x < length l)%nat -> nth_error r x = Some (bit f (nth x l 0) (nth (Nat.modulo x (length k)) k 0)).
Proof.
  intros Hr Hg Hro Hi Hm Hk. cbn [step]. unfold with_bytes, with_buf. rewrite Hm, Hi, Hg, Hro. destruct (Nat.eqb_spec (length k) 0); [destruct k; [congruence|discriminate]|].
  destruct (wrote_views w i 0 (bitwise f l k) (ABuf i) l (reached_sound w Hr) Hi) as (w' & W1 & W2 & W3 & _); [rewrite bitwise_len; lia|]. rewrite W1. cbn [fst snd]. split; [reflexivity|].
  exists (patch l 0 (bitwise f l k)). split; [exact W3|]. rewrite patch_len by (rewrite bitwise_len; lia). split; [reflexivity|]. intros x Hx. rewrite nth_patch by (rewrite bitwise_len; lia).
  rewrite bitwise_len. cbn [plus]. rewrite (proj2 (Nat.leb_le _ _) (Nat.le_0_l x)), (proj2 (Nat.ltb_lt _ _) Hx). cbn [andb]. rewrite Nat.sub_0_r. apply bitwise_nth, Hx.
Qed.
Lemma lex_less a : forall b, length a = length b -> (lex a b = -1 <-> exists p x y a' b', a = p ++ x :: a' /\ b = p ++ y :: b' /\ x < y).
Proof.
  induction a as [|x a IH]; intros [|y b] H; cbn in H; try discriminate.
  - split; [discriminate|]. intros (p & x & y & a' & b' & E & _). destruct p; discriminate.
  - cbn [lex]. destruct (Z.ltb_spec x y) as [L|L].
    + split; [|reflexivity]. intros _. exists [], x, y, a, b. auto.
    + destruct (Z.ltb_spec y x) as [M|M].
      * split; [discriminate|]. intros (p & x' & y' & a' & b' & E1 & E2 & E3). destruct p as [|z p]; cbn in E1, E2; [injection E1; injection E2; intros; lia|]. injection E1 as -> _. injection E2 as -> _. lia.
      * assert (x = y) by lia. subst y. rewrite (IH b ltac:(congruence)). split.
        -- intros (p & x' & y' & a' & b' & -> & -> & E). exists (x :: p), x', y', a', b'. auto.
        -- intros (p & x' & y' & a' & b' & E1 & E2 & E3). destruct p as [|z p]; cbn in E1, E2; [injection E1; injection E2; intros; lia|]. injection E1 as _ ->. injection E2 as _ ->. exists p, x', y', a', b'. auto.
Qed.
Lemma lex_zero a : forall b, lex a b = 0 <-> a = b.
Proof.
  induction a as [|x a IH]; intros [|y b]; cbn; try (split; [discriminate|discriminate]); [split; reflexivity|].
  destruct (Z.ltb_spec x y); [split; [discriminate|intros [= -> ->]; lia]|]. destruct (Z.ltb_spec y x); [split; [discriminate|intros [= -> ->]; lia]|].
  assert (x = y) by lia. subst. rewrite IH. split; [intros ->; reflexivity|intros [= ->]; reflexivity].
Qed.
Lemma compare_ok w i j a b : read (strs w) (bufs w) i = Some a -> read (strs w) (bufs w) j = Some b -> length a = length b ->
  exists z, step w (Compare i j) = (w, Val (AInt z)) /\ z = ruby_order a b /\ (z = 0 <-> a = b) /\ (z = -1 <-> exists p x y a' b', a = p ++ x :: a' /\ b = p ++ y :: b' /\ x < y).
Proof.
  intros Ha Hb L. exists (lex a b). cbn [step]. unfold with_bytes. rewrite Ha, Hb. split; [reflexivity|]. split; [|split; [apply lex_zero|apply lex_less, L]].
  unfold ruby_order. rewrite L, Nat.ltb_irrefl. reflexivity.
Qed.
