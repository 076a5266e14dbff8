(** Proofs about the formats pack writes. *)

From Coq Require Import ZArith Bool List Lia.
From Verif Require Import PackModel PackSpec PackProofs.
Import ListNotations.
Local Open Scope Z_scope.
Ltac Zify.zify_post_hook ::= Z.to_euclidean_division_equations.

(** ** Integers *)

Lemma le_nth n : forall x i, (i < n)%nat -> nth i (le_bytes n x) 0 = (x / 256 ^ Z.of_nat i) mod 256.
Proof.
  induction n as [|n IH]; intros x i L; [lia|]. cbn [le_bytes]. destruct i as [|i].
  - cbn. rewrite Z.div_1_r. reflexivity.
  - cbn [nth]. rewrite IH by lia. rewrite Nat2Z.inj_succ, Z.pow_succ_r by lia.
    rewrite Z.div_div by (try apply Z.pow_pos_nonneg; lia). reflexivity.
Qed.
Lemma digit_mod x i n : (i < n)%nat ->
  ((x mod 2 ^ (8 * Z.of_nat n)) / 256 ^ Z.of_nat i) mod 256 = (x / 256 ^ Z.of_nat i) mod 256.
Proof.
  intros L. assert (E : 2 ^ (8 * Z.of_nat n) = 256 ^ Z.of_nat i * (256 * 256 ^ (Z.of_nat n - Z.of_nat i - 1))).
  { change 256 with (2 ^ 8). rewrite <- !Z.pow_mul_r by lia. rewrite <- !Z.pow_add_r by lia. f_equal. lia. }
  rewrite E. set (a := 256 ^ Z.of_nat i). assert (A : 0 < a) by (apply Z.pow_pos_nonneg; lia).
  set (b := 256 ^ (Z.of_nat n - Z.of_nat i - 1)). assert (B : 0 < b) by (apply Z.pow_pos_nonneg; lia). clearbody a b. clear E.
  rewrite Z.rem_mul_r by lia. rewrite (Z.mul_comm a), Z.div_add by lia.
  rewrite (Z.div_small (x mod a)) by (apply Z.mod_pos_bound; exact A). cbn [Z.add].
  rewrite Z.rem_mul_r by lia. rewrite (Z.mul_comm 256), Z.mod_add, Z.mod_mod by lia. reflexivity.
Qed.
Lemma int_layout t nd sg size x b : parse_template t = Some [nd] -> tmpl nd = IntOf sg size -> count nd = Some 1%nat ->
  pack [VInt x] t = Some b ->
  length b = size /\ forall i, (i < size)%nat ->
    nth i b 0 = (x / 256 ^ Z.of_nat (if big nd then size - 1 - i else i)) mod 256.
Proof.
  intros P T C E. assert (G : good_size size).
  { pose proof (parse_sizes _ _ _ P) as F. inversion F as [|? ? H _]; subst. exact (H _ _ T). }
  unfold pack in E. rewrite P in E. cbn [pack_nodes] in E. unfold pack_node in E. rewrite T, C in E.
  cbn in E. rewrite app_nil_r in E. injection E as <-. split; [apply to_bytes_length|].
  intros i L. unfold int_bytes. rewrite pack_u64_ok.
  rewrite (mod_mod_pow x (8 * Z.of_nat size) 64) by (unfold good_size in G; lia).
  unfold to_bytes. destruct (big nd).
  - rewrite rev_nth by (rewrite le_bytes_length; exact L). rewrite le_bytes_length.
    replace (size - S i)%nat with (size - 1 - i)%nat by lia. rewrite le_nth by lia. apply digit_mod. lia.
  - rewrite le_nth by exact L. apply digit_mod. exact L.
Qed.

(** ** Lines *)

Definition short (k : Z) (l : list Z) : Prop := Forall (fun x => Z.of_nat (length x) <= k) (lines l).
Lemma lines_cons l : exists x xs, lines l = x :: xs.
Proof. destruct l as [|c l]; cbn; [eauto|]. destruct (lines l); [eauto|]. destruct (c =? 10); eauto. Qed.
(** [first l]: the length of the first line. *)
Definition first (l : list Z) : Z := Z.of_nat (length (hd [] (lines l))).
Definition other (k : Z) (l : list Z) : Prop := Forall (fun x => Z.of_nat (length x) <= k) (tl (lines l)).
Lemma first_nl l : first (10 :: l) = 0.
Proof. unfold first. cbn. destruct (lines_cons l) as (x & xs & ->). reflexivity. Qed.
Lemma other_nl k l : first l <= k -> other k l -> other k (10 :: l).
Proof. unfold first, other. cbn. destruct (lines_cons l) as (x & xs & ->). cbn. intros. constructor; assumption. Qed.
Lemma first_char c l : c <> 10 -> first (c :: l) = 1 + first l.
Proof.
  intros N. unfold first. cbn [lines]. destruct (lines_cons l) as (x & xs & ->). destruct (Z.eqb_spec c 10); [contradiction|].
  cbn [hd length]. lia.
Qed.
Lemma other_char k c l : c <> 10 -> other k l -> other k (c :: l).
Proof.
  intros N. unfold other. cbn [lines]. destruct (lines_cons l) as (x & xs & ->). destruct (Z.eqb_spec c 10); [contradiction|].
  auto.
Qed.
Lemma first_pre p l : ~ In 10 p -> first (p ++ l) = Z.of_nat (length p) + first l.
Proof.
  induction p as [|c p IH]; intros N; [cbn; lia|]. cbn [app]. rewrite first_char by (intros ->; apply N; left; reflexivity).
  rewrite IH by (intros Q; apply N; right; exact Q). cbn [length]. lia.
Qed.
Lemma other_pre k p l : ~ In 10 p -> other k l -> other k (p ++ l).
Proof.
  induction p as [|c p IH]; intros N O; [exact O|]. cbn [app]. apply other_char; [intros ->; apply N; left; reflexivity|].
  apply IH; [intros Q; apply N; right; exact Q|exact O].
Qed.
Lemma short_of k l : first l <= k -> other k l -> short k l.
Proof. unfold first, other, short. destruct (lines_cons l) as (x & xs & ->). cbn. intros. constructor; assumption. Qed.

(** ** Base64 *)

Lemma b64_char v : 0 <= v < 64 -> let c := b64 v in b64_text c /\ c <> 10.
Proof.
  intros V. pose proof (all_upto 64 (fun v => let c := b64 v in ((65 <=? c) && (c <=? 90)) || (((97 <=? c) && (c <=? 122)) ||
    (((48 <=? c) && (c <=? 57)) || ((c =? 43) || (c =? 47))))) ltac:(vm_compute; reflexivity) v V) as H.
  cbv zeta in *. unfold b64_text. rewrite !orb_true_iff, !andb_true_iff, !Z.leb_le, !Z.eqb_eq in H. lia.
Qed.
Lemma sextet_range t k : 0 <= sextet t k < 64.
Proof. unfold sextet. rewrite land_63. apply Z.mod_pos_bound. lia. Qed.
Lemma b64_group_text c : Forall b64_text (b64_group c) /\ ~ In 10 (b64_group c) /\ length (b64_group c) = 4%nat.
Proof.
  unfold b64_group. set (t := triple _ _ _).
  destruct (b64_char _ (sextet_range t 18)) as [A1 A2], (b64_char _ (sextet_range t 12)) as [B1 B2],
    (b64_char _ (sextet_range t 6)) as [C1 C2], (b64_char _ (sextet_range t 0)) as [D1 D2].
  split; [|split; [|reflexivity]].
  - apply Forall_cons; [exact A1|]. apply Forall_cons; [exact B1|].
    apply Forall_cons; [destruct (Nat.ltb 1 _); [exact C1|unfold b64_text; lia]|].
    apply Forall_cons; [destruct (Nat.ltb 2 _); [exact D1|unfold b64_text; lia]|]. apply Forall_nil.
  - intros [Q|[Q|[Q|[Q|[]]]]]; try congruence; destruct (Nat.ltb _ _); congruence.
Qed.
Lemma b64_lines_text cpl cs : forall col, Forall b64_text (b64_lines cpl col cs).
Proof.
  induction cs as [|c cs IH]; intros col; cbn [b64_lines].
  - destruct (_ && _); constructor; [unfold b64_text; lia|constructor].
  - destruct (_ && _); apply Forall_app; split; try apply (b64_group_text c); [|apply IH].
    constructor; [unfold b64_text; lia|apply IH].
Qed.
Lemma b64_lines_short cpl cs : 0 < cpl -> cpl mod 4 = 0 -> forall col, 0 <= col <= cpl -> col mod 4 = 0 -> (col = cpl -> cs = []) ->
  first (b64_lines cpl col cs) <= cpl - col /\ other cpl (b64_lines cpl col cs).
Proof.
  intros P M. induction cs as [|c cs IH]; intros col C K F; cbn [b64_lines].
  - assert (N : forall k, other k (@nil Z)) by (intros; constructor).
    destruct (_ && _); [split; [rewrite first_nl; lia|apply other_nl; [cbn; lia|apply N]]|split; [cbn; lia|apply N]].
  - assert (C' : col + 4 <= cpl) by (destruct (Z.eq_dec col cpl) as [Q|Q]; [discriminate (F Q)|lia]).
    destruct (b64_group_text c) as (_ & N & L).
    destruct (Z.ltb_spec 0 cpl) as [_|Q]; [|lia]. cbn [andb]. destruct (Z.leb_spec cpl (col + 4)) as [E|E].
    + destruct (IH 0 ltac:(lia) eq_refl ltac:(lia)) as [I1 I2].
      rewrite first_pre, first_nl, L by exact N. split; [lia|]. apply other_pre; [exact N|]. apply other_nl; [lia|exact I2].
    + destruct (IH (col + 4) ltac:(lia) ltac:(lia) ltac:(lia)) as [I1 I2].
      rewrite first_pre, L by exact N. split; [lia|]. apply other_pre; [exact N|exact I2].
Qed.
Lemma base64_format s n : Forall b64_text (base64_encode s n) /\
  (0 < n -> short (4 * ((n + 2) / 3)) (base64_encode s n)) /\ (n = 0 -> lines (base64_encode s n) = [base64_encode s n]).
Proof.
  unfold base64_encode. split; [apply b64_lines_text|]. split.
  - intros N. assert (E : chars_per_line n = 4 * ((n + 2) / 3)).
    { unfold chars_per_line. destruct (Z.eqb_spec n 0); [lia|]. destruct (Z.eqb_spec (n mod 3) 0); lia. }
    rewrite E. destruct (b64_lines_short (4 * ((n + 2) / 3)) (chunks (length s) 3 s) ltac:(lia) ltac:(lia) 0 ltac:(lia) eq_refl ltac:(lia)) as [A B].
    apply short_of; [lia|exact B].
  - intros ->. change (chars_per_line 0) with 0. generalize (chunks (length s) 3 s). intros cs.
    assert (N : forall col, ~ In 10 (b64_lines 0 col cs)).
    { induction cs as [|c cs IH]; intros col; [intros []|]. cbn [b64_lines]. change (0 <? 0) with false. cbn [andb].
      intros Q. apply in_app_iff in Q as [Q|Q]; [|exact (IH _ Q)].
      apply (proj1 (proj2 (b64_group_text c)) Q). }
    specialize (N 0). induction (b64_lines 0 0 cs) as [|c l IH]; [reflexivity|]. cbn [lines].
    rewrite IH by (intros Q; apply N; right; exact Q). destruct (Z.eqb_spec c 10) as [->|]; [exfalso; apply N; left; reflexivity|reflexivity].
Qed.

(** ** Quoted-printable *)

Lemma hexd v : 0 <= v < 16 -> 48 <= PackModel.hex_digit v <= 70.
Proof. unfold PackModel.hex_digit. destruct (Z.ltb_spec v 10); lia. Qed.
Lemma qp_loop_format limit : 1 < limit -> forall data, bytes data -> forall col last, 0 <= col <= limit + 3 ->
  Forall qp_text (qp_loop data limit col last) /\
  first (qp_loop data limit col last) <= limit + 4 - col /\ other (limit + 4) (qp_loop data limit col last).
Proof.
  intros L. induction data as [|b r IH]; intros B col last C; cbn [qp_loop].
  - destruct (last =? 10).
    + repeat split; [constructor|cbn; lia|constructor].
    + repeat split; [apply Forall_cons; [unfold qp_text; lia|apply Forall_cons; [unfold qp_text; lia|apply Forall_nil]]|cbn; lia|apply Forall_cons; [cbn; lia|apply Forall_nil]].
  - inversion B as [|? ? B1 B2]; subst. destruct (Z.eqb_spec b 10) as [->|NB].
    + destruct (IH B2 0 10 ltac:(lia)) as (A & F & O).
      assert (O1 : other (limit + 4) (10 :: qp_loop r limit 0 10)) by (apply other_nl; [lia|exact O]).
      assert (A1 : Forall qp_text (10 :: qp_loop r limit 0 10)) by (constructor; [unfold qp_text; lia|exact A]).
      destruct (_ && _); cbn [app].
      * split; [constructor; [unfold qp_text; lia|constructor; [unfold qp_text; lia|exact A1]]|].
        split; [rewrite first_char, first_nl by lia; lia|]. apply other_char; [lia|]. apply other_nl; [rewrite first_nl; lia|exact O1].
      * split; [exact A1|]. split; [rewrite first_nl; lia|exact O1].
    + set (col1 := if limit <? col then 0 else col).
      assert (C1 : 0 <= col1 <= limit /\ (limit <? col = false -> col1 = col)).
      { unfold col1. destruct (Z.ltb_spec limit col); lia. }
      set (tail := if qp_plain b then b :: qp_loop r limit (col1 + 1) b
         else 61 :: PackModel.hex_digit (b / 16) :: PackModel.hex_digit (b mod 16) :: qp_loop r limit (col1 + 3) (PackModel.hex_digit (b mod 16))).
      assert (T : Forall qp_text tail /\ first tail <= limit + 4 - col1 /\ other (limit + 4) tail).
      { unfold tail. destruct (qp_plain b) eqn:PL.
        - destruct (IH B2 (col1 + 1) b ltac:(lia)) as (A & F & O).
          assert (QB : qp_text b).
          { unfold qp_plain in PL. rewrite !orb_true_iff, !andb_true_iff, !Z.eqb_eq, !Z.leb_le in PL. unfold qp_text. lia. }
          split; [constructor; assumption|]. split; [rewrite first_char by exact NB; lia|apply other_char; assumption].
        - destruct (IH B2 (col1 + 3) (PackModel.hex_digit (b mod 16)) ltac:(lia)) as (A & F & O).
          pose proof (hexd (b / 16) ltac:(lia)) as H1. pose proof (hexd (b mod 16) ltac:(lia)) as H2.
          split; [repeat (constructor; [unfold qp_text; lia|]); exact A|].
          split; [rewrite !first_char by lia; lia|]. repeat (apply other_char; [lia|]). exact O. }
      clearbody tail. destruct T as (A & F & O). destruct (limit <? col) eqn:SF; cbn [app].
      * split; [constructor; [unfold qp_text; lia|constructor; [unfold qp_text; lia|exact A]]|].
        split; [rewrite first_char, first_nl by lia; lia|]. apply other_char; [lia|]. apply other_nl; [lia|exact O].
      * destruct C1 as [_ C1]. rewrite (C1 eq_refl) in F. auto.
Qed.
Lemma qp_format s n : bytes s -> Forall qp_text (qp_encode s n) /\
  short ((if 1 <? n then n else 72) + 4) (qp_encode s n).
Proof.
  intros B. unfold qp_encode. set (limit := if 1 <? n then n else 72).
  assert (L : 1 < limit) by (unfold limit; destruct (Z.ltb_spec 1 n); lia).
  destruct s as [|b r]; [split; [constructor|apply short_of; [cbn; lia|constructor]]|].
  destruct (qp_loop_format limit L (b :: r) B 0 0 ltac:(lia)) as (A & F & O). split; [exact A|apply short_of; [lia|exact O]].
Qed.

(** ** Uuencode *)

Lemma uu_char_text v : 0 <= v < 64 -> 32 <= uu_char v <= 96.
Proof. intros V. unfold uu_char, u8. destruct (Z.eqb_spec v 0); [lia|]. rewrite Z.mod_small; lia. Qed.
Lemma uu_groups_text l : Forall (fun c => 32 <= c <= 96) (flat_map uu_group l) /\
  length (flat_map uu_group l) = (4 * length l)%nat.
Proof.
  induction l as [|g l [A B]]; [split; [constructor|reflexivity]|]. cbn [flat_map]. split.
  - apply Forall_app. split; [|exact A]. unfold uu_group. set (t := triple _ _ _).
    repeat (apply Forall_cons; [apply uu_char_text; apply sextet_range|]). apply Forall_nil.
  - rewrite app_length, B. cbn. lia.
Qed.
Lemma chunks_len n : (0 < n)%nat -> forall f l, Forall (fun c => (0 < length c <= n)%nat) (chunks f n l).
Proof.
  intros N. induction f as [|f IH]; intros [|x l]; cbn [chunks]; try constructor.
  - rewrite firstn_length. cbn [length]. lia.
  - apply IH.
Qed.
Lemma chunks_count n : (0 < n)%nat -> forall f l, (length l <= f)%nat -> (n * length (chunks f n l) < length l + n)%nat.
Proof.
  intros N. induction f as [|f IH]; intros [|x l] L; cbn [chunks length] in *; try lia.
  destruct (Nat.le_gt_cases n (length (x :: l))) as [G|G].
  - specialize (IH (skipn n (x :: l))). rewrite skipn_length in IH. cbn [length] in *.
    assert (H : (S (length l) - n <= f)%nat) by lia. specialize (IH H). rewrite Nat.mul_succ_r. lia.
  - rewrite skipn_all2 by lia. destruct f; cbn [chunks length]; lia.
Qed.
Lemma uu_format s n : n = 0 \/ 3 <= n -> Forall uu_text (uu_encode s n) /\ short 61 (uu_encode s n).
Proof.
  intros H. unfold uu_encode. set (k := Z.to_nat (bytes_per_line n)).
  assert (K : (0 < k <= 45)%nat).
  { unfold k, bytes_per_line. destruct (Z.eqb_spec n 0); lia. }
  pose proof (chunks_len k (proj1 K) (length s) s) as C. generalize dependent (chunks (length s) k s). intros cs C.
  assert (LN : forall c, (0 < length c <= k)%nat -> exists p, uu_line c = p ++ [10] /\ Forall (fun c => 32 <= c <= 96) p /\ (length p <= 61)%nat).
  { intros c L. unfold uu_line. destruct (uu_groups_text (chunks (length c) 3 c)) as [A B].
    exists (u8 (Z.of_nat (length c) + 32) :: flat_map uu_group (chunks (length c) 3 c)). split; [reflexivity|]. split.
    - constructor; [unfold u8; rewrite Z.mod_small; lia|exact A].
    - cbn [length]. rewrite B. pose proof (chunks_count 3 ltac:(lia) (length c) c ltac:(lia)) as Q. lia. }
  assert (G : Forall uu_text (flat_map uu_line cs) /\ first (flat_map uu_line cs) <= 61 /\ other 61 (flat_map uu_line cs)).
  { induction cs as [|c cs IH]; [repeat split; [constructor|cbn; lia|constructor]|].
    inversion C; subst. destruct (IH ltac:(assumption)) as (A & F & O). cbn [flat_map].
    destruct (LN c ltac:(assumption)) as (p & -> & PT & PL). rewrite <- app_assoc. cbn [app].
    assert (N : ~ In 10 p) by (intros Q; rewrite Forall_forall in PT; apply PT in Q; lia).
    split; [apply Forall_app; split; [eapply Forall_impl; [|exact PT]; unfold uu_text; intros; lia|constructor; [unfold uu_text; lia|exact A]]|].
    rewrite first_pre, first_nl by exact N. split; [lia|]. apply other_pre; [exact N|]. apply other_nl; assumption. }
  destruct G as (A & F & O). split; [exact A|apply short_of; assumption].
Qed.

(** ** Groups of seven bits *)

Lemma lor_flag x : 0 <= x < 128 -> Z.lor x 128 = x + 128.
Proof.
  intros X. pose proof (all_upto 128 (fun x => Z.lor x 128 =? x + 128) ltac:(vm_compute; reflexivity) x X) as H.
  apply Z.eqb_eq in H. exact H.
Qed.
Lemma flagged_cons d r : r <> [] -> flagged (d :: r) = (d + 128) :: flagged r.
Proof. destruct r; [contradiction|reflexivity]. Qed.
Lemma uleb_groups f : forall v, 0 <= v < 128 ^ Z.of_nat f -> (0 < f)%nat ->
  exists ds, groups ds /\ uleb f v = flagged ds /\ le_value ds = v /\ (last ds 0 = 0 -> ds = [0]).
Proof.
  induction f as [|f IH]; intros v V F; [lia|]. cbn [uleb]. rewrite land_127, shiftr_div by lia. change (2 ^ 7) with 128.
  destruct (Z.eqb_spec (v / 128) 0) as [E|E].
  - exists [v mod 128]. repeat split; [discriminate|constructor; [lia|constructor]|cbn [le_value]; lia|].
    cbn [last]. intros ->. reflexivity.
  - rewrite Nat2Z.inj_succ, Z.pow_succ_r in V by lia.
    assert (V' : 0 <= v / 128 < 128 ^ Z.of_nat f) by (split; [lia|apply Z.div_lt_upper_bound; lia]).
    destruct (IH _ V') as (ds & [N G] & U & L & T); [destruct f; [cbn in V'; lia|lia]|].
    exists (v mod 128 :: ds). split; [split; [discriminate|constructor; [lia|exact G]]|].
    rewrite flagged_cons, lor_flag by (exact N || lia). rewrite U. split; [reflexivity|].
    cbn [le_value]. rewrite L. split; [lia|]. destruct ds as [|d ds]; [contradiction|]. cbn [last].
    intros Q. specialize (T Q). injection T as -> ->. cbn [le_value] in L. lia.
Qed.
Lemma uleb_format v : 0 <= v < 2 ^ 64 -> exists ds, groups ds /\ encode_uleb128 v = flagged ds /\ le_value ds = v /\
  (last ds 0 = 0 -> ds = [0]).
Proof.
  intros V. apply uleb_groups; [|lia]. split; [lia|]. apply Z.lt_trans with (2 ^ 64); [apply V|reflexivity].
Qed.
Lemma sleb_groups f : forall v, - 64 * 128 ^ (Z.of_nat f - 1) <= v < 64 * 128 ^ (Z.of_nat f - 1) -> (0 < f)%nat ->
  exists ds, groups ds /\ sleb f v = flagged ds /\
    v = le_value ds - (if 64 <=? last ds 0 then 128 ^ Z.of_nat (length ds) else 0).
Proof.
  induction f as [|f IH]; intros v V F; [lia|]. cbn [sleb]. rewrite land_127, shiftr_div by lia. change (2 ^ 7) with 128.
  rewrite low_byte by (apply Z.mod_pos_bound; lia).
  replace (Z.of_nat (S f) - 1) with (Z.of_nat f) in V by lia.
  destruct (((v / 128 =? 0) && negb (64 <=? v mod 128)) || ((v / 128 =? -1) && (64 <=? v mod 128))) eqn:E.
  - exists [v mod 128]. split; [split; [discriminate|constructor; [lia|constructor]]|]. split; [reflexivity|].
    cbn [le_value last length]. change (128 ^ Z.of_nat 1) with 128. destruct (Z.leb_spec 64 (v mod 128)); cbn [negb] in E;
    rewrite ?andb_false_r, ?andb_true_r, ?orb_false_r in E; cbn [orb] in E; apply Z.eqb_eq in E; lia.
  - assert (F' : (0 < f)%nat).
    { destruct f; [|lia]. exfalso. change (128 ^ Z.of_nat 0) with 1 in V. revert E.
      destruct (Z.leb_spec 64 (v mod 128)); cbn [negb]; rewrite ?andb_false_r, ?andb_true_r, ?orb_false_r; cbn [orb];
        intros E; apply Z.eqb_neq in E; lia. }
    assert (P : 128 ^ Z.of_nat f = 128 * 128 ^ (Z.of_nat f - 1)).
    { rewrite <- Z.pow_succ_r by lia. f_equal. lia. }
    assert (PP : 0 < 128 ^ (Z.of_nat f - 1)) by (apply Z.pow_pos_nonneg; lia).
    destruct (IH (v / 128)) as (ds & [N G] & U & L).
    { rewrite P in V. clear -V PP. generalize dependent (128 ^ (Z.of_nat f - 1)). intros p V PP.
      split; [apply Z.div_le_lower_bound; lia|apply Z.div_lt_upper_bound; lia]. }
    { exact F'. }
    exists (v mod 128 :: ds). split; [split; [discriminate|constructor; [lia|exact G]]|].
    rewrite flagged_cons, lor_flag by (exact N || lia). rewrite U. split; [reflexivity|].
    assert (LS : last (v mod 128 :: ds) 0 = last ds 0) by (destruct ds; [contradiction|reflexivity]).
    rewrite LS. cbn [le_value length]. rewrite Nat2Z.inj_succ, Z.pow_succ_r by lia.
    destruct (64 <=? last ds 0); lia.
Qed.
Lemma sleb_format v : - 2 ^ 63 <= v < 2 ^ 63 -> exists ds, groups ds /\ encode_sleb128 v = flagged ds /\
  v = le_value ds - (if 64 <=? last ds 0 then 128 ^ Z.of_nat (length ds) else 0).
Proof.
  intros V. apply sleb_groups; [|lia]. change (64 * 128 ^ (Z.of_nat 10 - 1)) with (2 ^ 69).
  change (-64 * 128 ^ (Z.of_nat 10 - 1)) with (- 2 ^ 69).
  assert (2 ^ 63 < 2 ^ 69) by reflexivity. lia.
Qed.

Lemma ber_high_groups f : forall v, 0 <= v < 128 ^ Z.of_nat f ->
  exists ds, Forall (fun d => 0 <= d < 128) ds /\ ber_high f v = map (fun d => d + 128) ds /\ le_value ds = v /\
    (last ds 1 = 0 -> False).
Proof.
  induction f as [|f IH]; intros v V; cbn [ber_high].
  - exists []. repeat split; [constructor|cbn in *; lia|cbn; lia].
  - destruct (Z.eqb_spec v 0) as [->|N]; [exists []; repeat split; [constructor|cbn; lia]|].
    rewrite Nat2Z.inj_succ, Z.pow_succ_r in V by lia.
    rewrite shiftr_div, land_127 by lia. change (2 ^ 7) with 128.
    destruct (IH (v / 128)) as (ds & G & U & L & T); [split; [lia|apply Z.div_lt_upper_bound; lia]|].
    exists (v mod 128 :: ds). split; [constructor; [lia|exact G]|]. cbn [map le_value]. rewrite U, L.
    rewrite lor_flag by lia. split; [reflexivity|]. split; [lia|].
    destruct ds as [|d ds]; [cbn [last le_value] in *; lia|exact T].
Qed.
Lemma flagged_app p d : flagged (p ++ [d]) = map (fun x => x + 128) p ++ [d].
Proof.
  induction p as [|x p IH]; [reflexivity|]. cbn [app map]. rewrite flagged_cons, IH by (destruct p; discriminate). reflexivity.
Qed.
Lemma ber_format z : 0 <= z -> exists ds, groups ds /\ ber_encode_value z = Some (flagged ds) /\ be_value ds = z /\
  (hd 0 ds = 0 -> ds = [0]).
Proof.
  intros Z0. rewrite ber_value by exact Z0. unfold ber_bytes. rewrite land_127, shiftr_div by lia. change (2 ^ 7) with 128.
  destruct (ber_high_groups (S (Z.to_nat (Z.log2 z))) (z / 128)) as (ds & G & U & L & T).
  { split; [lia|]. destruct (Z.eq_dec z 0) as [->|N]; [reflexivity|].
    rewrite Nat2Z.inj_succ, Z2Nat.id by apply Z.log2_nonneg.
    destruct (Z.log2_spec z ltac:(lia)) as [_ H]. pose proof (Z.log2_nonneg z) as Q.
    apply Z.le_lt_trans with z; [lia|]. apply Z.lt_le_trans with (1 := H). apply Z.pow_le_mono_l. lia. }
  exists (rev ds ++ [z mod 128]). cbn [rev]. rewrite U, <- map_rev, flagged_app. split; [split|split; [reflexivity|split]].
  - destruct (rev ds); discriminate.
  - apply Forall_app. split; [apply Forall_rev; exact G|constructor; [lia|constructor]].
  - unfold be_value. rewrite rev_app_distr, rev_involutive. cbn [rev app le_value]. rewrite L. lia.
  - clear U L G. destruct ds as [|x ds]; [cbn; intros ->; reflexivity|].
    destruct (exists_last (l := x :: ds) ltac:(discriminate)) as (p & d & E). rewrite E in *.
    rewrite rev_app_distr. cbn [rev app hd]. rewrite last_last in T. intros Q. destruct (T Q).
Qed.

(** The count of a directive is the number its digits write. *)
Lemma digits_value ds : forall k, Forall (fun c => 48 <= c <= 57) ds -> 0 <= k ->
  fold_left (fun a c => a * 10 + (c - 48)) ds k <= i64_max ->
  digits ds k = Some (fold_left (fun a c => a * 10 + (c - 48)) ds k, []).
Proof.
  assert (M : forall ds k, Forall (fun c => 48 <= c <= 57) ds -> 0 <= k ->
     k <= fold_left (fun a c => a * 10 + (c - 48)) ds k).
  { clear ds. induction ds as [|c ds IH]; intros k F P; cbn [fold_left]; [lia|]. inversion F; subst.
    pose proof (IH (k * 10 + (c - 48)) ltac:(auto) ltac:(lia)). lia. }
  induction ds as [|c ds IH]; intros k F P L; cbn [fold_left digits] in *; auto. inversion F; subst.
  replace (is_digit c) with true by (symmetry; apply andb_true_intro; split; apply Z.leb_le; lia).
  pose proof (M ds (k * 10 + (c - 48)) ltac:(auto) ltac:(lia)) as Q.
  destruct (Z.leb_spec (k * 10 + (c - 48)) i64_max); [|lia]. apply IH; auto; lia.
Qed.
Lemma count_value c ds : Forall (fun c => 48 <= c <= 57) (c :: ds) -> decimal (c :: ds) <= i64_max ->
  parse_template (67 :: c :: ds) = Some [Node (IntOf false 1) false (Some (decimal (c :: ds))) true].
Proof.
  intros F L. unfold decimal in *. cbn [fold_left] in *. change (0 * 10 + (c - 48)) with (c - 48) in *.
  inversion F as [|? ? B F']; subst. unfold parse_template. cbn [length parse].
  replace (mem 67 blanks) with false by reflexivity. cbn [Z.eqb Pos.eqb]. change (directive 67) with (Some (IntOf false 1, false)).
  cbn [andb negb].
  assert (Hm : modifiers (c :: ds) false false false = (c :: ds, false, false, false)).
  { cbn [modifiers]. repeat match goal with |- context [?x =? ?y] => destruct (Z.eqb_spec x y); [exfalso; lia|] end.
    cbn [orb]. reflexivity. }
  rewrite Hm. cbn [andb negb]. destruct (Z.eqb_spec c 42); [exfalso; lia|].
  replace (is_digit c) with true by (symmetry; apply andb_true_intro; split; apply Z.leb_le; lia).
  rewrite digits_value by (auto; lia). reflexivity.
Qed.

(** [A] removes exactly the trailing spaces and NULs. *)
Lemma strip_spec l : exists t, l = strip l ++ t /\ Forall (fun c => c = 32 \/ c = 0) t /\
  (forall p c, strip l = p ++ [c] -> c <> 32 /\ c <> 0).
Proof.
  induction l as [|c l (t & E & F & L)]; cbn [strip].
  - exists []. repeat split; auto; destruct p; discriminate.
  - destruct (strip l) as [|d s] eqn:S.
    + destruct ((c =? 32) || (c =? 0)) eqn:D.
      * exists (c :: l). rewrite E. cbn [app]. repeat split; auto; try (destruct p; discriminate).
        constructor; auto. apply orb_true_iff in D as [D|D]; apply Z.eqb_eq in D; auto.
      * exists t. apply orb_false_iff in D as [D1 D2]. apply Z.eqb_neq in D1, D2.
        split; [now rewrite E at 1|]. split; auto. intros p x Ex. destruct p as [|y [|]]; inversion Ex; subst; auto.
    + exists t. split; [rewrite E at 1; reflexivity|]. split; auto. intros p x Ex. destruct p as [|y p]; [discriminate|].
      injection Ex as -> Ex. now apply (L p x).
Qed.
