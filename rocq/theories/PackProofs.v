(** Proofs about PackModel. *)

From Coq Require Import ZArith Bool List Lia Arith.
From Verif Require Import PackModel PackSpec.
Import ListNotations.
Local Open Scope Z_scope.
Ltac Zify.zify_post_hook ::= Z.to_euclidean_division_equations.

(** ** Bits *)

Lemma lor_add a b k : 0 <= k -> 0 <= b < 2 ^ k -> Z.lor (Z.shiftl a k) b = a * 2 ^ k + b.
Proof.
  intros K B. rewrite Z.shiftl_mul_pow2 by exact K.
  symmetry. rewrite Z.add_nocarry_lxor; [apply Z.lxor_lor|];
    apply Z.bits_inj'; intros n N; rewrite Z.land_spec, Z.bits_0;
    (destruct (Z.lt_ge_cases n k) as [L|L];
     [rewrite Z.mul_pow2_bits_low by exact L; reflexivity
     |replace (Z.testbit b n) with false; [apply andb_false_r|];
      symmetry; destruct (Z.eq_dec b 0) as [->|NZ]; [apply Z.bits_0|];
      apply Z.bits_above_log2; [lia|]; apply Z.log2_lt_pow2; [lia|];
      apply Z.lt_le_trans with (2 ^ k); [lia|apply Z.pow_le_mono_r; lia]]).
Qed.
Lemma land_127 x : Z.land x 127 = x mod 128.
Proof. apply (Z.land_ones x 7); lia. Qed.
Lemma land_63 x : Z.land x 63 = x mod 64.
Proof. apply (Z.land_ones x 6); lia. Qed.
Lemma shiftr_div x k : 0 <= k -> Z.shiftr x k = x / 2 ^ k.
Proof. intros. apply Z.shiftr_div_pow2. exact H. Qed.

(** A fact about all bytes below a bound, by looking at them. *)
Definition upto (n : nat) : list Z := map Z.of_nat (seq 0 n).
Lemma all_upto n (f : Z -> bool) : forallb f (upto n) = true -> forall x, 0 <= x < Z.of_nat n -> f x = true.
Proof.
  intros H x X. rewrite forallb_forall in H. apply H. unfold upto. apply in_map_iff.
  exists (Z.to_nat x). split; [lia|]. apply in_seq. lia.
Qed.

(** ** Little and big endian *)

Lemma le_bytes_length n : forall x, length (le_bytes n x) = n.
Proof. induction n; intros; cbn; auto. Qed.
Lemma le_bytes_bytes n : forall x, bytes (le_bytes n x).
Proof.
  induction n as [|n IH]; intros x; cbn; constructor; [unfold u8; apply Z.mod_pos_bound; lia|apply IH].
Qed.
Lemma of_le_bytes n : forall x, of_le (le_bytes n x) = x mod 2 ^ (8 * Z.of_nat n).
Proof.
  induction n as [|n IH]; intros x; cbn [le_bytes of_le].
  - cbn. rewrite Z.mod_1_r. reflexivity.
  - rewrite IH. unfold u8. replace (8 * Z.of_nat (S n)) with (8 + 8 * Z.of_nat n) by lia.
    rewrite Z.pow_add_r by lia. change (2 ^ 8) with 256.
    assert (P : 0 < 2 ^ (8 * Z.of_nat n)) by (apply Z.pow_pos_nonneg; lia).
    rewrite Z.rem_mul_r by lia. lia.
Qed.
Lemma to_bytes_length bg n x : length (to_bytes bg n x) = n.
Proof. destruct bg; cbn; rewrite ?rev_length; apply le_bytes_length. Qed.
Lemma to_bytes_bytes bg n x : bytes (to_bytes bg n x).
Proof. destruct bg; cbn; [apply Forall_rev|]; apply le_bytes_bytes. Qed.
Lemma of_to_bytes bg n x : of_bytes bg (to_bytes bg n x) = x mod 2 ^ (8 * Z.of_nat n).
Proof. destruct bg; cbn; rewrite ?rev_involutive; apply of_le_bytes. Qed.

(** ** C34 *)

Lemma wrap_s_mod b x : 0 <= b -> wrap_s b x mod 2 ^ b = x mod 2 ^ b.
Proof.
  intros B. unfold wrap_s. assert (P : 0 < 2 ^ b) by (apply Z.pow_pos_nonneg; lia).
  destruct (Z.ltb _ _); [apply Z.mod_mod; lia|].
  replace (x mod 2 ^ b - 2 ^ b) with (x mod 2 ^ b + (-1) * 2 ^ b) by lia.
  rewrite Z.mod_add by lia. apply Z.mod_mod. lia.
Qed.
Lemma opp_mod a b m : a mod m = b mod m -> (- a) mod m = (- b) mod m.
Proof. intros E. rewrite <- (Z.sub_0_l a), <- (Z.sub_0_l b), Zminus_mod, E, <- Zminus_mod. reflexivity. Qed.
Lemma pack_u64_ok z : pack_u64 z = z mod 2 ^ 64.
Proof.
  unfold pack_u64, u64. destruct (is_fixnum z) eqn:F; [reflexivity|]. clear F.
  destruct (Z.ltb_spec z 0) as [N|N].
  - rewrite Z.abs_neq by exact (Z.lt_le_incl _ _ N).
    rewrite (opp_mod (i64 ((- z) mod 2 ^ 64)) (- z)); [rewrite Z.opp_involutive; reflexivity|].
    unfold i64. rewrite wrap_s_mod by discriminate. apply Z.mod_mod. discriminate.
  - rewrite Z.abs_eq by exact N. reflexivity.
Qed.

Definition good_size (size : nat) : Prop := (1 <= size <= 8)%nat.
Lemma mod_mod_pow z a b : 0 <= a <= b -> (z mod 2 ^ b) mod 2 ^ a = z mod 2 ^ a.
Proof.
  intros H. replace b with (a + (b - a)) by lia. rewrite Z.pow_add_r by lia.
  assert (0 < 2 ^ a) by (apply Z.pow_pos_nonneg; lia).
  assert (0 < 2 ^ (b - a)) by (apply Z.pow_pos_nonneg; lia).
  rewrite Z.rem_mul_r by lia. rewrite Z.mul_comm, Z.mod_add by lia. apply Z.mod_mod. lia.
Qed.

Lemma wrap_s_range b x : 0 < b -> - (2 ^ b / 2) <= wrap_s b x < 2 ^ b / 2.
Proof.
  intros B. unfold wrap_s. replace (2 ^ b) with (2 * 2 ^ (b - 1)) by (rewrite <- Z.pow_succ_r; f_equal; lia).
  assert (0 < 2 ^ (b - 1)) by (apply Z.pow_pos_nonneg; lia). generalize dependent (2 ^ (b - 1)). intros m M.
  rewrite (Z.mul_comm 2 m), Z.div_mul by lia.
  pose proof (Z.mod_pos_bound x (m * 2)). destruct (Z.ltb_spec (x mod (m * 2)) m); lia.
Qed.
Lemma mod_eq_mult a b m : 0 < m -> a mod m = b mod m -> exists k, b = a + k * m.
Proof.
  intros M E. exists (b / m - a / m). rewrite (Z.div_mod a m) at 1 by lia. rewrite (Z.div_mod b m) at 1 by lia. nia.
Qed.

Lemma int_back sg bg size z : good_size size -> reduces sg size z (int_value sg bg size (int_bytes bg size z)).
Proof.
  intros G. unfold int_value, int_bytes. rewrite of_to_bytes, pack_u64_ok.
  assert (B : 0 <= 8 * Z.of_nat size <= 64) by (unfold good_size in G; lia).
  rewrite (mod_mod_pow z (8 * Z.of_nat size) 64) by exact B. set (b := 8 * Z.of_nat size) in *.
  assert (P : 0 < 2 ^ b) by (apply Z.pow_pos_nonneg; lia).
  rewrite Z.mod_mod by lia. unfold reduces. fold b. split.
  - apply mod_eq_mult; [exact P|]. destruct sg; [rewrite wrap_s_mod by lia|]; rewrite Z.mod_mod; lia.
  - destruct sg; [apply wrap_s_range; unfold good_size in G; lia|apply Z.mod_pos_bound; exact P].
Qed.

Lemma parse_sizes f : forall l nds, parse f l = Some nds ->
  Forall (fun nd => forall sg size, tmpl nd = IntOf sg size -> good_size size) nds.
Proof.
  induction f as [|f IH]; intros l nds E; [discriminate|]. cbn [parse] in E.
  destruct l as [|ch r]; [injection E as <-; constructor|].
  destruct (mem ch blanks); [eapply IH; exact E|]. destruct (ch =? 35); [eapply IH; exact E|].
  destruct (directive ch) as [[t0 bg0]|] eqn:D; [|discriminate].
  assert (T0 : forall sg size, t0 = IntOf sg size -> good_size size).
  { intros sg size ->. clear E IH. unfold directive in D.
    repeat match type of D with context [match ?x with _ => _ end] => destruct x end;
      try discriminate; injection D as _ <- _; unfold good_size; lia. }
  destruct (modifiers r bg0 false false) as [[[r1 bg] native] em].
  destruct (native && negb (mem ch native_ok)); [discriminate|].
  destruct (em && negb (mem ch endian_ok)); [discriminate|].
  set (t := if native && (ch =? 108) then IntOf true 8 else if native && (ch =? 76) then IntOf false 8 else t0) in *.
  assert (T : forall sg size, t = IntOf sg size -> good_size size).
  { intros sg size. subst t. destruct (native && (ch =? 108)); [intros Q; injection Q as <- <-; unfold good_size; lia|].
    destruct (native && (ch =? 76)); [intros Q; injection Q as <- <-; unfold good_size; lia|apply T0]. }
  clearbody t.
  assert (C : forall l' n ex, option_map (cons (Node t bg n ex)) (parse f l') = Some nds ->
    Forall (fun nd => forall sg size, tmpl nd = IntOf sg size -> good_size size) nds).
  { intros l' n ex Q. destruct (parse f l') eqn:P; [|discriminate]. injection Q as <-.
    constructor; [exact T|eapply IH; exact P]. }
  destruct r1 as [|c r2]; [eapply C; exact E|].
  destruct (c =? 42); [eapply C; exact E|]. destruct (is_digit c); [|eapply C; exact E].
  destruct (digits r2 (c - 48)) as [[n r3]|]; [eapply C; exact E|discriminate].
Qed.

(** Packing one value after the other. *)
Lemma pack_each_ok f n : forall xs b vs, pack_each f n (map VInt xs) = Some (b, vs) ->
  exists us rs es, xs = us ++ rs /\ vs = map VInt rs /\ b = concat es /\
    Forall2 (fun u e => f u = Some e) us es /\
    match n with Some k => length us = k | None => rs = [] end.
Proof.
  intros xs. revert n. induction xs as [|x xs IH]; intros n b vs E.
  - destruct n as [[|k]|]; cbn in E; try discriminate; injection E as <- <-;
      exists [], [], []; repeat split; constructor.
  - assert (Z0 : n = Some O -> exists us rs es, x :: xs = us ++ rs /\ vs = map VInt rs /\ b = concat es /\
      Forall2 (fun u e => f u = Some e) us es /\ match n with Some k => length us = k | None => rs = [] end).
    { intros ->. cbn in E. injection E as <- <-. exists [], (x :: xs), []. repeat split; constructor. }
    assert (ST : n <> Some O -> match f x, pack_each f (option_map pred n) (map VInt xs) with
      | Some b, Some (bs, r') => Some (b ++ bs, r') | _, _ => None end = Some (b, vs)).
    { intros N. destruct n as [[|k]|]; [congruence| |]; cbn in E |- *; exact E. }
    destruct n as [[|k]|] eqn:N; [apply Z0; reflexivity| |]; (specialize (ST ltac:(discriminate)));
      destruct (f x) as [e|] eqn:F; try discriminate;
      destruct (pack_each f _ (map VInt xs)) as [[bs r']|] eqn:P; try discriminate;
      injection ST as <- <-; apply IH in P; destruct P as (us & rs & es & A & B & C & D & G);
      exists (x :: us), rs, (e :: es); subst; cbn; repeat split; auto.
Qed.

Lemma take_n_ok size f : forall es rest, Forall (fun e => length e = size) es ->
  take_n size f (length es) (concat es ++ rest) = (map f es, rest).
Proof.
  induction es as [|e es IH]; intros rest F; [reflexivity|]. inversion F as [|? ? L F']; subst.
  cbn [length take_n concat map]. rewrite <- app_assoc.
  destruct (Nat.leb_spec (length e) (length (e ++ concat es ++ rest))) as [_|Q]; [|rewrite app_length in Q; lia].
  rewrite skipn_app, skipn_all, Nat.sub_diag, skipn_O. cbn [app]. rewrite IH by exact F'.
  rewrite firstn_app, firstn_all, Nat.sub_diag. cbn. rewrite app_nil_r. reflexivity.
Qed.
Lemma take_all_ok size f : (0 < size)%nat -> forall es fuel, Forall (fun e => length e = size) es ->
  (length (concat es) <= fuel)%nat -> take_all fuel size f (concat es) = (map f es, []).
Proof.
  intros S. induction es as [|e es IH]; intros fuel F L; cbn [concat map].
  - destruct fuel; cbn; [reflexivity|]. destruct size; [lia|reflexivity].
  - inversion F as [|? ? Q F']; subst. cbn [concat] in L. rewrite app_length in L.
    destruct fuel as [|fuel]; [lia|]. cbn [take_all].
    destruct (Nat.leb_spec (length e) (length (e ++ concat es))) as [_|X]; [|rewrite app_length in X; lia].
    rewrite skipn_app, skipn_all, Nat.sub_diag, skipn_O. cbn [app]. rewrite IH by (auto; lia).
    rewrite firstn_app, firstn_all, Nat.sub_diag. cbn. rewrite app_nil_r. reflexivity.
Qed.

Lemma skipn_pre (pre l : list Z) : skipn (length pre) (pre ++ l) = l.
Proof. rewrite skipn_app, skipn_all, Nat.sub_diag. reflexivity. Qed.
Lemma pos_after (pre b rest : list Z) : (length (pre ++ b ++ rest) - length rest)%nat = length (pre ++ b).
Proof. rewrite !app_length. lia. Qed.

Section With.
Variable widen : Z -> Z.
Variable c_string : Z -> list Z.
Variable fixed : Z -> nat -> list Z.
Notation unode := (unpack_node widen c_string fixed).
Notation unodes := (unpack_nodes widen c_string fixed).

Lemma ints_back base nds : Forall is_int nds ->
  Forall (fun nd => forall sg size, tmpl nd = IntOf sg size -> good_size size) nds ->
  forall packed xs out, pack_nodes nds packed (map VInt xs) = Some out ->
  exists b ys, out = packed ++ b /\ (xs = [] -> b = []) /\
    unodes base out nds (length packed) = Some (map VInt ys) /\
    length ys = length (layout nds (length xs)) /\
    Forall2 (fun d p => reduces (fst d) (snd d) (fst p) (snd p)) (layout nds (length xs)) (combine xs ys).
Proof.
  induction nds as [|nd nds IH]; intros I G packed xs out E.
  - cbn in E. injection E as <-. exists [], []. rewrite app_nil_r. cbn.
    destruct xs; repeat split; constructor.
  - inversion I as [|? ? I1 I2]; inversion G as [|? ? G1 G2]; subst. cbn [pack_nodes] in E.
    unfold is_int in I1. destruct (tmpl nd) as [| | | | |sg size| | | | | | | | | | | | | | |] eqn:T; try contradiction.
    specialize (G1 sg size eq_refl). unfold pack_node in E. rewrite T in E.
    destruct (pack_each _ (count nd) (map VInt xs)) as [[b vs]|] eqn:P; [|discriminate].
    apply pack_each_ok in P as (us & rs & es & -> & -> & -> & F2 & K).
    apply (IH I2 G2) in E as (b' & ys & -> & B & U & L & R).
    set (bg := big nd) in *.
    assert (ES : es = map (int_bytes bg size) us).
    { clear -F2. induction F2 as [|u e us es H F IH]; [reflexivity|]. injection H as <-. cbn. f_equal. exact IH. }
    assert (LE : Forall (fun e => length e = size) es).
    { subst es. apply Forall_forall. intros e Q. apply in_map_iff in Q as (u & <- & _). apply to_bytes_length. }
    assert (LU : length es = length us) by (subst es; apply map_length).
    set (f := fun b : list Z => VInt (int_value sg bg size b)).
    assert (TK : take_vals size f (count nd) (concat es ++ b') = (map f es, b')).
    { unfold take_vals. destruct (count nd) as [k|].
      - rewrite <- K, <- LU. apply take_n_ok. exact LE.
      - subst rs. rewrite (B eq_refl), app_nil_r. apply take_all_ok; [unfold good_size in G1; lia|exact LE|lia]. }
    exists (concat es ++ b'), (map (fun e => int_value sg bg size e) es ++ ys).
    split; [rewrite app_assoc; reflexivity|]. split.
    { intros X. apply app_eq_nil in X as [-> ->]. destruct es; [|discriminate]. cbn. apply B. reflexivity. }
    split; [|split].
    + cbn [unpack_nodes]. unfold unpack_node. rewrite T, <- app_assoc, skipn_pre. fold bg. fold f. rewrite TK.
      rewrite pos_after, app_assoc, U, map_app, map_map. reflexivity.
    + cbn [layout]. rewrite T, !app_length, map_length, repeat_length, L, LU.
      assert (KK : match count nd with Some k => k | None => (length us + length rs)%nat end = length us).
      { destruct (count nd); [symmetry; exact K|subst rs; cbn; lia]. }
      rewrite KK. replace (length us + length rs - length us)%nat with (length rs) by lia. reflexivity.
    + cbn [layout]. rewrite T, app_length.
      assert (KK : match count nd with Some k => k | None => (length us + length rs)%nat end = length us).
      { destruct (count nd); [symmetry; exact K|subst rs; cbn; lia]. }
      rewrite KK. replace (length us + length rs - length us)%nat with (length rs) by lia.
      assert (CB : combine (us ++ rs) (map (fun e => int_value sg bg size e) es ++ ys) =
                   combine us (map (fun e => int_value sg bg size e) es) ++ combine rs ys).
      { clear -LU. revert es LU. induction us as [|u us IH]; intros [|e es] L; try discriminate; [reflexivity|].
        cbn. f_equal. apply IH. cbn in L. lia. }
      rewrite CB. apply Forall2_app; [|exact R]. subst es. clear -G1.
      induction us as [|u us IH]; cbn; constructor; [apply int_back; exact G1|exact IH].
Qed.

Lemma ints_roundtrip base t nds xs out : parse_template t = Some nds -> Forall is_int nds ->
  pack (map VInt xs) t = Some out ->
  exists ys, unpack widen c_string fixed out t base = Some (map VInt ys) /\
    length ys = length (layout nds (length xs)) /\
    Forall2 (fun d p => reduces (fst d) (snd d) (fst p) (snd p)) (layout nds (length xs)) (combine xs ys).
Proof.
  intros P I E. unfold pack in E. rewrite P in E.
  apply (ints_back base nds I (parse_sizes _ _ _ P)) in E as (b & ys & -> & _ & U & L & R).
  exists ys. unfold unpack. rewrite P. cbn [app length] in U. auto.
Qed.

Lemma int_single base t nd sg size x : parse_template t = Some [nd] -> tmpl nd = IntOf sg size -> repeat nd = Some 1 ->
  exists b y, pack [VInt x] t = Some b /\ length b = size /\
    unpack1 widen c_string fixed b t base = Some (VInt y) /\ reduces sg size x y.
Proof.
  intros P T R. assert (C : count nd = Some 1%nat) by (unfold count; rewrite R; reflexivity).
  assert (E : pack [VInt x] t = Some (int_bytes (big nd) size x)).
  { unfold pack. rewrite P. cbn [pack_nodes]. unfold pack_node. rewrite T, C. cbn. rewrite app_nil_r. reflexivity. }
  exists (int_bytes (big nd) size x).
  destruct (ints_roundtrip base t [nd] [x] (int_bytes (big nd) size x) P) as (ys & U & L & F).
  - constructor; [|constructor]. unfold is_int. rewrite T. exact I.
  - exact E.
  - cbn in L, F. rewrite T, C in L, F. cbn in L, F. destruct ys as [|y ys]; [discriminate|]. destruct ys; [|discriminate].
    exists y. split; [exact E|]. split; [apply to_bytes_length|]. inversion F; subst. split; [|assumption].
    unfold unpack1. unfold unpack in U. rewrite P in *. cbn [firstn]. rewrite U. reflexivity.
Qed.
End With.

(** ** Groups of three bytes *)

Lemma lor_plus x b k : 0 <= k -> x mod 2 ^ k = 0 -> 0 <= b < 2 ^ k -> Z.lor x b = x + b.
Proof.
  intros K X B. assert (P : 0 < 2 ^ k) by (apply Z.pow_pos_nonneg; lia).
  assert (E : x = Z.shiftl (x / 2 ^ k) k).
  { rewrite Z.shiftl_mul_pow2 by exact K. rewrite (Z.div_mod x (2 ^ k)) at 1 by lia. lia. }
  rewrite E, lor_add by assumption. rewrite <- (Z.shiftl_mul_pow2 _ k) by exact K. reflexivity.
Qed.
Lemma shl x k : 0 <= k -> Z.shiftl x k = x * 2 ^ k.
Proof. apply Z.shiftl_mul_pow2. Qed.
Lemma triple_eq a b c : 0 <= b < 256 -> 0 <= c < 256 -> triple a b c = a * 65536 + b * 256 + c.
Proof.
  intros B C. unfold triple. rewrite !shl by lia. change (2 ^ 16) with 65536. change (2 ^ 8) with 256.
  rewrite (lor_plus (a * 65536) (b * 256) 16) by (change (2 ^ 16) with 65536; lia).
  rewrite (lor_plus _ c 8) by (change (2 ^ 8) with 256; lia). reflexivity.
Qed.
Definition quad (a b c d : Z) : Z :=
  Z.lor (Z.lor (Z.lor (Z.shiftl a 18) (Z.shiftl b 12)) (Z.shiftl c 6)) d.
Lemma quad_eq a b c d : 0 <= b < 64 -> 0 <= c < 64 -> 0 <= d < 64 ->
  quad a b c d = a * 262144 + b * 4096 + c * 64 + d.
Proof.
  intros B C D. unfold quad. rewrite !shl by lia.
  change (2 ^ 18) with 262144. change (2 ^ 12) with 4096. change (2 ^ 6) with 64.
  rewrite (lor_plus (a * 262144) (b * 4096) 18) by (change (2 ^ 18) with 262144; lia).
  rewrite (lor_plus _ (c * 64) 12) by (change (2 ^ 12) with 4096; lia).
  rewrite (lor_plus _ d 6) by (change (2 ^ 6) with 64; lia). reflexivity.
Qed.
Lemma sextet_eq t k : 0 <= k -> sextet t k = (t / 2 ^ k) mod 64.
Proof. intros K. unfold sextet. rewrite land_63, shiftr_div by exact K. reflexivity. Qed.

(** What goes in comes out. *)
Lemma three_back a b c : 0 <= a < 256 -> 0 <= b < 256 -> 0 <= c < 256 ->
  let t := triple a b c in
  let q := quad (sextet t 18) (sextet t 12) (sextet t 6) (sextet t 0) in
  u8 (Z.shiftr q 16) = a /\ u8 (Z.shiftr q 8) = b /\ u8 q = c /\
  0 <= sextet t 18 < 64 /\ 0 <= sextet t 12 < 64 /\ 0 <= sextet t 6 < 64 /\ 0 <= sextet t 0 < 64 /\
  (c = 0 -> sextet t 0 = 0) /\ (c = 0 -> b = 0 -> sextet t 6 = 0).
Proof.
  intros A B C t q.
  assert (S0 : forall k, 0 <= k -> 0 <= sextet t k < 64).
  { intros k K. rewrite sextet_eq by exact K. apply Z.mod_pos_bound. lia. }
  assert (Q : q = t).
  { unfold q. rewrite quad_eq by (apply S0; lia). rewrite !sextet_eq by lia.
    unfold t. rewrite triple_eq by assumption.
    change (2 ^ 18) with 262144. change (2 ^ 12) with 4096. change (2 ^ 6) with 64. change (2 ^ 0) with 1. lia. }
  rewrite Q. unfold u8. rewrite !shiftr_div by lia. change (2 ^ 16) with 65536. change (2 ^ 8) with 256.
  split; [unfold t; rewrite triple_eq by assumption; lia|].
  split; [unfold t; rewrite triple_eq by assumption; lia|].
  split; [unfold t; rewrite triple_eq by assumption; lia|].
  repeat (split; [apply S0; lia|]).
  split; intros; rewrite sextet_eq by lia; unfold t; rewrite triple_eq by assumption;
    [change (2 ^ 0) with 1|change (2 ^ 6) with 64]; lia.
Qed.

(** ** Base64 *)

Lemma b64_char v : 0 <= v < 64 -> base64_decode_char (b64 v) = Some v /\ b64 v =? 61 = false.
Proof.
  intros V.
  pose proof (all_upto 64 (fun v => match base64_decode_char (b64 v) with Some w => w =? v | None => false end
    && negb (b64 v =? 61)) ltac:(vm_compute; reflexivity) v V) as H.
  apply andb_true_iff in H as [H1 H2]. apply negb_true_iff in H2. split; [|exact H2].
  destruct (base64_decode_char (b64 v)); [|discriminate]. apply Z.eqb_eq in H1. congruence.
Qed.

Local Arguments b64 : simpl never.
Local Arguments sextet : simpl never.
Local Arguments triple : simpl never.
Local Arguments base64_decode_char : simpl never.
Local Arguments Z.eqb : simpl never.
Local Arguments b64_flush : simpl never.

Lemma dec_char v l buf pad : 0 <= v < 64 -> (length buf < 3)%nat ->
  b64_decode (b64 v :: l) buf pad = b64_decode l (buf ++ [v]) 0.
Proof.
  intros V L. destruct (b64_char v V) as [D N]. cbn [b64_decode]. rewrite N, D, app_length.
  destruct (Nat.eqb_spec (length buf + length [v]) 4) as [Q|Q]; [cbn in Q; lia|reflexivity].
Qed.
Lemma dec_pad l buf pad : (length buf < 3)%nat -> b64_decode (61 :: l) buf pad = b64_decode l (buf ++ [0]) (pad + 1).
Proof.
  intros L. cbn [b64_decode]. change (61 =? 61) with true. cbv iota. rewrite app_length.
  destruct (Nat.eqb_spec (length buf + length [0]) 4) as [Q|Q]; [cbn in Q; lia|reflexivity].
Qed.
Lemma dec_char4 v l buf pad : 0 <= v < 64 -> length buf = 3%nat ->
  b64_decode (b64 v :: l) buf pad = b64_flush (buf ++ [v]) 0 ++ b64_decode l [] 0.
Proof.
  intros V L. destruct (b64_char v V) as [D N]. cbn [b64_decode]. rewrite N, D, app_length, L. reflexivity.
Qed.
Lemma dec_pad4 l buf pad : length buf = 3%nat ->
  b64_decode (61 :: l) buf pad = b64_flush (buf ++ [0]) (pad + 1) ++ b64_decode l [] 0.
Proof. intros L. cbn [b64_decode]. change (61 =? 61) with true. cbv iota. rewrite app_length, L. reflexivity. Qed.
Lemma dec_newline l buf pad : b64_decode (10 :: l) buf pad = b64_decode l buf pad.
Proof. reflexivity. Qed.

Lemma flush_quad a b c d pad : b64_flush [a; b; c; d] pad =
  u8 (Z.shiftr (quad a b c d) 16) ::
  (if pad <? 2 then [u8 (Z.shiftr (quad a b c d) 8)] else []) ++ (if pad <? 1 then [u8 (quad a b c d)] else []).
Proof. reflexivity. Qed.

Lemma group_back chunk l : bytes chunk -> (1 <= length chunk <= 3)%nat ->
  b64_decode (b64_group chunk ++ l) [] 0 = chunk ++ b64_decode l [] 0.
Proof.
  intros B L.
  assert (G : exists a b c, 0 <= a < 256 /\ 0 <= b < 256 /\ 0 <= c < 256 /\
    ((chunk = [a] /\ b = 0 /\ c = 0) \/ (chunk = [a; b] /\ c = 0) \/ chunk = [a; b; c])).
  { destruct chunk as [|a [|b [|c [|d r]]]]; cbn in L; try lia;
      repeat match goal with H : bytes (_ :: _) |- _ => inversion H; clear H; subst end.
    - exists a, 0, 0. repeat split; try lia. left. auto.
    - match goal with H : Forall _ [b] |- _ => inversion H; subst end. exists a, b, 0. repeat split; try lia. right; left. auto.
    - match goal with H : Forall _ [b; c] |- _ => inversion H as [|? ? ? H']; subst; inversion H'; subst end.
      exists a, b, c. repeat split; try lia. right; right. reflexivity. }
  destruct G as (a & b & c & A & Bb & C & D).
  destruct (three_back a b c A Bb C) as (X & Y & W & S18 & S12 & S6 & S0 & Z0 & Z6).
  unfold b64_group. destruct D as [(-> & -> & ->)|[(-> & ->)| ->]]; cbn [nth length Nat.ltb Nat.leb app].
  - rewrite dec_char, dec_char, dec_pad, dec_pad4 by (auto; cbn; lia). cbn [app].
    rewrite (Z0 eq_refl), (Z6 eq_refl eq_refl) in X. rewrite flush_quad, X. reflexivity.
  - rewrite dec_char, dec_char, dec_char, dec_pad4 by (auto; cbn; lia). cbn [app].
    rewrite (Z0 eq_refl) in X, Y. rewrite flush_quad, X, Y. reflexivity.
  - rewrite dec_char, dec_char, dec_char, dec_char4 by (auto; cbn; lia). cbn [app].
    rewrite flush_quad, X, Y, W. reflexivity.
Qed.

Lemma lines_back cpl : forall cs col, Forall (fun c => bytes c /\ (1 <= length c <= 3)%nat) cs ->
  b64_decode (b64_lines cpl col cs) [] 0 = concat cs.
Proof.
  induction cs as [|c cs IH]; intros col F; cbn [b64_lines concat].
  - destruct ((0 <? cpl) && (0 <? col)); reflexivity.
  - inversion F as [|? ? [B L] F']; subst.
    destruct ((0 <? cpl) && (cpl <=? col + 4)); rewrite group_back by assumption;
      [rewrite dec_newline|]; rewrite IH by exact F'; reflexivity.
Qed.

Lemma Forall_firstn {A} (P : A -> Prop) n l : Forall P l -> Forall P (firstn n l).
Proof. intros F. rewrite <- (firstn_skipn n l) in F. apply Forall_app in F. apply F. Qed.
Lemma Forall_skipn {A} (P : A -> Prop) n l : Forall P l -> Forall P (skipn n l).
Proof. intros F. rewrite <- (firstn_skipn n l) in F. apply Forall_app in F. apply F. Qed.

Lemma chunks_ok n : (0 < n)%nat -> forall fuel l, bytes l -> (length l <= fuel)%nat ->
  concat (chunks fuel n l) = l /\ Forall (fun c => bytes c /\ (1 <= length c <= n)%nat) (chunks fuel n l).
Proof.
  intros N. induction fuel as [|f IH]; intros l B L.
  - destruct l; [split; [reflexivity|constructor]|cbn in L; lia].
  - destruct l as [|x l]; [split; [reflexivity|constructor]|]. cbn [chunks].
    destruct (IH (skipn n (x :: l))) as [A F].
    + apply Forall_skipn. exact B.
    + rewrite skipn_length. cbn [length] in *. lia.
    + split; [cbn [concat]; rewrite A; apply firstn_skipn|]. constructor; [|exact F].
      split; [apply Forall_firstn; exact B|]. rewrite firstn_length. cbn [length]. lia.
Qed.

Lemma base64_back s n : bytes s -> base64_decode (base64_encode s n) = s.
Proof.
  intros B. destruct (chunks_ok 3 ltac:(lia) (length s) s B (le_n _)) as [A F].
  unfold base64_decode, base64_encode. rewrite lines_back by exact F. exact A.
Qed.

(** ** Uuencode *)

Lemma uu_char_back v : 0 <= v < 64 -> uu_decode_char (uu_char v) = v /\ uu_char v =? 10 = false.
Proof.
  intros V.
  pose proof (all_upto 64 (fun v => (uu_decode_char (uu_char v) =? v) && negb (uu_char v =? 10))
    ltac:(vm_compute; reflexivity) v V) as H.
  apply andb_true_iff in H as [H1 H2]. apply negb_true_iff in H2. apply Z.eqb_eq in H1. auto.
Qed.

Local Arguments uu_char : simpl never.
Local Arguments uu_decode_char : simpl never.

Lemma uu_groups_quad a b c d l : 0 <= a < 64 -> 0 <= b < 64 -> 0 <= c < 64 -> 0 <= d < 64 ->
  uu_groups (uu_char a :: uu_char b :: uu_char c :: uu_char d :: l) =
  u8 (Z.shiftr (quad a b c d) 16) :: u8 (Z.shiftr (quad a b c d) 8) :: u8 (quad a b c d) :: uu_groups l.
Proof.
  intros A B C D. cbn [uu_groups]. rewrite !(proj1 (uu_char_back _ A)), !(proj1 (uu_char_back _ B)),
    !(proj1 (uu_char_back _ C)), !(proj1 (uu_char_back _ D)). reflexivity.
Qed.

(** A line: its groups start with the line's bytes. *)
Lemma uu_group_back a b c l : 0 <= a < 256 -> 0 <= b < 256 -> 0 <= c < 256 ->
  uu_groups (uu_group [a; b; c] ++ l) = a :: b :: c :: uu_groups l.
Proof.
  intros A B C. destruct (three_back a b c A B C) as (X & Y & W & S18 & S12 & S6 & S0 & _).
  unfold uu_group. cbn [nth app]. rewrite uu_groups_quad by assumption. rewrite X, Y, W. reflexivity.
Qed.
Lemma uu_groups_back : forall fuel l, bytes l -> (length l <= fuel)%nat ->
  exists pad, uu_groups (flat_map uu_group (chunks fuel 3 l)) = l ++ pad.
Proof.
  induction fuel as [|f IH]; intros l B L.
  - destruct l; [exists []; reflexivity|cbn in L; lia].
  - destruct l as [|a [|b [|c r]]].
    + exists []. reflexivity.
    + inversion B; subst. exists [0; 0]. cbn [chunks firstn skipn].
      destruct f; cbn [chunks flat_map]; change (uu_group [a]) with (uu_group [a; 0; 0]);
        rewrite uu_group_back by lia; reflexivity.
    + inversion B as [|? ? A B2]; inversion B2; subst. exists [0]. cbn [chunks firstn skipn].
      destruct f; cbn [chunks flat_map]; change (uu_group [a; b]) with (uu_group [a; b; 0]);
        rewrite uu_group_back by lia; reflexivity.
    + inversion B as [|? ? A B2]; inversion B2 as [|? ? A2 B3]; inversion B3 as [|? ? A3 B4]; subst.
      cbn [length] in L. destruct (IH r B4 ltac:(lia)) as [pad E]. exists pad.
      cbn [chunks firstn skipn flat_map]. rewrite uu_group_back by assumption. rewrite E. reflexivity.
Qed.

Definition no_nl (l : list Z) : Prop := Forall (fun c => c =? 10 = false) l.
Lemma split_line l : forall cur rest, no_nl l -> split_lines (l ++ 10 :: rest) cur = (cur ++ l) :: split_lines rest [].
Proof.
  induction l as [|c l IH]; intros cur rest N; cbn [app split_lines].
  - change (10 =? 10) with true. rewrite app_nil_r. reflexivity.
  - inversion N as [|? ? C N']; subst. rewrite C, IH by exact N'. rewrite <- app_assoc. reflexivity.
Qed.
Lemma uu_group_no_nl c : no_nl (uu_group c).
Proof.
  unfold uu_group. set (t := triple _ _ _).
  assert (S0 : forall k, 0 <= k -> 0 <= sextet t k < 64).
  { intros k K. rewrite sextet_eq by exact K. apply Z.mod_pos_bound. lia. }
  repeat (constructor; [apply uu_char_back; apply S0; lia|]). constructor.
Qed.
Lemma uu_groups_no_nl cs : no_nl (flat_map uu_group cs).
Proof. induction cs; cbn [flat_map]; [constructor|]. apply Forall_app. split; [apply uu_group_no_nl|assumption]. Qed.

Local Arguments uu_group : simpl never.

Lemma uu_lines_back : forall cs, Forall (fun c => bytes c /\ (1 <= length c <= 45)%nat) cs ->
  uu_decode (flat_map uu_line cs) = concat cs.
Proof.
  unfold uu_decode. induction cs as [|c cs IH]; intros F; [reflexivity|].
  inversion F as [|? ? [B L] F']; subst. cbn [flat_map concat]. unfold uu_line at 1.
  set (h := u8 (Z.of_nat (length c) + 32)).
  assert (H : h = Z.of_nat (length c) + 32) by (unfold h, u8; lia).
  change ((h :: ?a ++ [10]) ++ ?r) with (h :: (a ++ [10]) ++ r).
  rewrite <- app_assoc. cbn [app].
  change (h :: flat_map uu_group (chunks (length c) 3 c) ++ 10 :: flat_map uu_line cs)
    with ((h :: flat_map uu_group (chunks (length c) 3 c)) ++ 10 :: flat_map uu_line cs).
  rewrite split_line by (constructor; [lia|apply uu_groups_no_nl]).
  cbn [app flat_map]. rewrite IH by exact F'. f_equal.
  cbn [uu_decode_line]. destruct (uu_groups_back (length c) c B (le_n _)) as [pad E]. rewrite E, H.
  destruct (Z.leb_spec 32 (Z.of_nat (length c) + 32)) as [_|Q]; [|lia].
  replace (Z.of_nat (length c) + 32 - 32) with (Z.of_nat (length c)) by lia.
  destruct (Z.eqb_spec (Z.of_nat (length c)) 0) as [Q|_]; [lia|].
  rewrite Nat2Z.id, firstn_app, firstn_all, Nat.sub_diag. cbn. apply app_nil_r.
Qed.

Lemma uu_back s n : bytes s -> n = 0 \/ 3 <= n -> uu_decode (uu_encode s n) = s.
Proof.
  intros B N. unfold uu_encode.
  assert (P : (0 < Z.to_nat (bytes_per_line n) <= 45)%nat).
  { unfold bytes_per_line. destruct (Z.eqb_spec n 0); lia. }
  destruct (chunks_ok (Z.to_nat (bytes_per_line n)) ltac:(lia) (length s) s B (le_n _)) as [A F].
  rewrite uu_lines_back; [exact A|]. eapply Forall_impl; [|exact F]. intros c [X Y]. split; [exact X|lia].
Qed.

(** ** Quoted-printable *)

Lemma hex_back n : 0 <= n < 16 -> hex_val (hex_digit n) = Some n /\ hex_digit n =? 10 = false /\
  hex_digit n =? 13 = false.
Proof.
  intros V.
  pose proof (all_upto 16 (fun n => match hex_val (hex_digit n) with Some w => w =? n | None => false end
    && (negb (hex_digit n =? 10) && negb (hex_digit n =? 13))) ltac:(vm_compute; reflexivity) n V) as H.
  apply andb_true_iff in H as [H1 H2]. apply andb_true_iff in H2 as [H2 H3].
  apply negb_true_iff in H2. apply negb_true_iff in H3. split; [|auto].
  destruct (hex_val (hex_digit n)); [|discriminate]. apply Z.eqb_eq in H1. congruence.
Qed.

Local Arguments hex_digit : simpl never.
Local Arguments hex_val : simpl never.

(** A soft break, before anything or at the end. *)
Lemma qp_soft f l : qp_dec (S f) (61 :: 10 :: l) = qp_dec f l.
Proof. cbn [qp_dec]. change (61 =? 61) with true. cbv iota. destruct l; reflexivity. Qed.
Lemma qp_hex f b l : 0 <= b < 256 ->
  qp_dec (S f) (61 :: hex_digit (b / 16) :: hex_digit (b mod 16) :: l) = b :: qp_dec f l.
Proof.
  intros B. destruct (hex_back (b / 16) ltac:(lia)) as (H1 & N1 & M1).
  destruct (hex_back (b mod 16) ltac:(lia)) as (H2 & N2 & _).
  cbn [qp_dec]. change (61 =? 61) with true. cbv iota. rewrite N1, M1. cbn [andb]. rewrite H1, H2. f_equal.
  unfold u8. rewrite shl by lia. change (2 ^ 4) with 16.
  rewrite (lor_plus _ _ 4) by (change (2 ^ 4) with 16; lia). lia.
Qed.
Lemma qp_lit f b l : b =? 61 = false -> qp_dec (S f) (b :: l) = b :: qp_dec f l.
Proof. intros B. cbn [qp_dec]. rewrite B. reflexivity. Qed.

Lemma qp_loop_back limit : forall data col last fuel, bytes data ->
  (length (qp_loop data limit col last) < fuel)%nat ->
  qp_dec fuel (qp_loop data limit col last) = data.
Proof.
  induction data as [|b r IH]; intros col last fuel B L; cbn [qp_loop] in *.
  - destruct (last =? 10); cbn [length] in L.
    + destruct fuel; reflexivity.
    + destruct fuel as [|f]; [lia|]. rewrite qp_soft. destruct f; reflexivity.
  - inversion B as [|? ? B1 B2]; subst. destruct (Z.eqb_spec b 10) as [->|NB].
    + set (c := (0 <? col) && ((last =? 9) || (last =? 32))) in *.
      rewrite app_length in L. cbn [length] in L.
      assert (T : forall f, (length (qp_loop r limit 0 10) + 1 < f)%nat ->
        qp_dec f (10 :: qp_loop r limit 0 10) = 10 :: r).
      { intros f F. destruct f as [|f]; [lia|]. rewrite qp_lit by reflexivity. rewrite IH by (auto; lia). reflexivity. }
      destruct c; cbn [app length] in *.
      * destruct fuel as [|f]; [lia|]. rewrite qp_soft. apply T. lia.
      * apply T. lia.
    + set (soft := limit <? col) in *. set (col1 := if soft then 0 else col) in *. clearbody col1.
      rewrite app_length in L.
      match type of L with context [(_ + length ?x < _)%nat] => set (body := x) in * end.
      assert (T : forall f, (length body < f)%nat -> qp_dec f body = b :: r).
      { subst body. intros f F. destruct (qp_plain b) eqn:P; cbn [length] in F; (destruct f as [|f]; [lia|]).
        - rewrite qp_lit.
          + rewrite IH by (auto; lia). reflexivity.
          + unfold qp_plain in P. destruct (Z.eqb_spec b 61) as [->|]; [discriminate|reflexivity].
        - rewrite qp_hex by exact B1. rewrite IH by (auto; lia). reflexivity. }
      destruct soft; cbn [app length] in *.
      * destruct fuel as [|f]; [lia|]. rewrite qp_soft. apply T. lia.
      * apply T. lia.
Qed.

Lemma qp_back s n : bytes s -> qp_decode (qp_encode s n) = s.
Proof.
  intros B. unfold qp_decode, qp_encode. destruct s as [|b r]; [reflexivity|].
  apply qp_loop_back; [exact B|]. apply Nat.lt_succ_diag_r.
Qed.

(** ** BER *)

Lemma byte_cont x : 0 <= x < 128 ->
  Z.land (Z.lor x 128) 127 = x /\ Z.land (Z.lor x 128) 128 =? 0 = false /\
  Z.land x 127 = x /\ Z.land x 128 =? 0 = true.
Proof.
  intros X.
  pose proof (all_upto 128 (fun x => (Z.land (Z.lor x 128) 127 =? x) && negb (Z.land (Z.lor x 128) 128 =? 0)
    && ((Z.land x 127 =? x) && (Z.land x 128 =? 0))) ltac:(vm_compute; reflexivity) x X) as H.
  apply andb_true_iff in H as [H1 H2]. apply andb_true_iff in H1 as [A B]. apply andb_true_iff in H2 as [C D].
  apply Z.eqb_eq in A. apply negb_true_iff in B. apply Z.eqb_eq in C. auto.
Qed.

Lemma ber_shift v x : 0 <= x < 128 -> 0 <= v ->
  Z.lor (u64 (Z.shiftl (v mod 2 ^ 64) 7)) x = (v * 128 + x) mod 2 ^ 64.
Proof.
  intros X V. unfold u64. rewrite shl by lia. change (2 ^ 7) with 128.
  change (2 ^ 64) with (128 * 2 ^ 57). assert (M : 0 < 2 ^ 57) by reflexivity. revert M.
  generalize (2 ^ 57). intros m M.
  assert (E : (v mod (128 * m) * 128) mod (128 * m) = (v mod m) * 128).
  { rewrite (Z.mul_comm (v mod (128 * m)) 128), Z.mul_mod_distr_l by lia.
    rewrite (Z.mul_comm 128 m) at 1. rewrite Z.rem_mul_r by lia.
    rewrite (Z.mul_comm m), Z.mod_add, Z.mod_mod by lia. lia. }
  rewrite E, (lor_plus _ _ 7); [|lia|change (2 ^ 7) with 128; rewrite Z.mod_mul; lia|exact X].
  rewrite (Z.rem_mul_r (v * 128 + x) 128 m) by lia.
  replace ((v * 128 + x) mod 128) with x by (rewrite Z.add_comm, Z.mod_add, Z.mod_small; lia).
  replace ((v * 128 + x) / 128) with v by (rewrite Z.div_add_l, Z.div_small; lia). lia.
Qed.

Lemma ber_high_back f : forall v l, 0 <= v < 128 ^ Z.of_nat f ->
  ber_decode (rev (ber_high f v) ++ l) 0 = ber_decode l (v mod 2 ^ 64).
Proof.
  induction f as [|f IH]; intros v l V.
  - cbn in V. replace v with 0 by lia. reflexivity.
  - cbn [ber_high]. destruct (Z.eqb_spec v 0) as [->|N]; [reflexivity|].
    cbn [rev]. rewrite <- app_assoc. rewrite Nat2Z.inj_succ, Z.pow_succ_r in V by lia.
    rewrite shiftr_div by lia. change (2 ^ 7) with 128.
    assert (D : 0 <= v / 128 < 128 ^ Z.of_nat f) by (split; [lia|apply Z.div_lt_upper_bound; lia]).
    rewrite IH by exact D. cbn [app ber_decode]. rewrite land_127.
    destruct (byte_cont (v mod 128) ltac:(lia)) as (A & B & _). rewrite A, B, ber_shift by lia.
    f_equal. f_equal. lia.
Qed.

Lemma ber_back z rest : 0 <= z -> ber_decode (ber_bytes z ++ rest) 0 = Some (i64 z, rest).
Proof.
  intros Z0. unfold ber_bytes. cbn [rev]. rewrite <- app_assoc, shiftr_div by lia. change (2 ^ 7) with 128.
  rewrite ber_high_back.
  - cbn [app ber_decode]. rewrite land_127. destruct (byte_cont (z mod 128) ltac:(lia)) as (_ & _ & C & D).
    rewrite C, D, ber_shift by lia. replace (z / 128 * 128 + z mod 128) with z by lia.
    unfold i64, wrap_s. rewrite Z.mod_mod by discriminate. reflexivity.
  - split; [lia|]. destruct (Z.eq_dec z 0) as [->|N]; [reflexivity|].
    rewrite Nat2Z.inj_succ, Z2Nat.id by apply Z.log2_nonneg.
    destruct (Z.log2_spec z ltac:(lia)) as [_ H]. pose proof (Z.log2_nonneg z) as L.
    apply Z.le_lt_trans with z; [lia|]. apply Z.lt_le_trans with (1 := H).
    apply Z.pow_le_mono_l. lia.
Qed.
Lemma ber_bytes_cons z : ber_bytes z <> [].
Proof. unfold ber_bytes. cbn [rev]. intros E. apply app_eq_nil in E as [_ E]. discriminate. Qed.
Lemma ber_value z : 0 <= z -> ber_encode_value z = Some (ber_bytes z).
Proof.
  intros Z0. unfold ber_encode_value. destruct (Z.ltb_spec z 0); [lia|].
  destruct (is_fixnum z); [|reflexivity]. destruct (Z.eqb_spec z 0) as [->|]; reflexivity.
Qed.
Lemma i64_id z : - 2 ^ 63 <= z < 2 ^ 63 -> i64 z = z.
Proof.
  unfold i64, wrap_s. change (2 ^ (64 - 1)) with (2 ^ 63). change (2 ^ 64) with (2 * 2 ^ 63).
  generalize (2 ^ 63). intros m M. destruct (Z.lt_ge_cases z 0) as [N|N].
  - replace (z mod (2 * m)) with (z + 2 * m).
    + destruct (Z.ltb_spec (z + 2 * m) m); lia.
    + rewrite <- (Z.mod_add z 1 (2 * m)) by lia. rewrite Z.mod_small by lia. lia.
  - rewrite Z.mod_small by lia. destruct (Z.ltb_spec z m); lia.
Qed.
Lemma i64_range z : - 2 ^ 63 <= i64 z < 2 ^ 63.
Proof. apply (wrap_s_range 64 z). lia. Qed.

(** ** LEB128 *)

Lemma uleb_back f : forall v result shift rest, 0 <= v < 128 ^ Z.of_nat f -> (0 < f)%nat ->
  0 <= shift < 64 -> 0 <= result < 2 ^ shift -> v * 2 ^ shift < 2 ^ 64 ->
  uleb_loop (uleb f v ++ rest) result shift = Value (result + v * 2 ^ shift) rest.
Proof.
  induction f as [|f IH]; intros v result shift rest V F S R T; [lia|]. cbn [uleb].
  rewrite land_127, shiftr_div by lia. change (2 ^ 7) with 128.
  assert (PS : 0 < 2 ^ shift) by (apply Z.pow_pos_nonneg; lia).
  assert (ST : forall byte, Z.land byte 127 = v mod 128 ->
    (if shift <? 64 then Z.lor result (u64 (Z.shiftl (Z.land byte 127) shift)) else result)
    = result + (v mod 128) * 2 ^ shift).
  { intros byte E. rewrite E. destruct (Z.ltb_spec shift 64) as [_|Q]; [|lia].
    assert (TR : v mod 128 * 2 ^ shift < 2 ^ 64).
    { apply Z.le_lt_trans with (v * 2 ^ shift); [|exact T]. apply Z.mul_le_mono_nonneg_r; lia. }
    unfold u64. rewrite Z.mod_small by (rewrite shl by lia; split; [apply Z.mul_nonneg_nonneg; lia|exact TR]).
    rewrite Z.lor_comm, lor_add by lia. lia. }
  destruct (byte_cont (v mod 128) ltac:(lia)) as (A & B & C & D).
  destruct (Z.eqb_spec (v / 128) 0) as [E|E]; cbn [app uleb_loop].
  - rewrite (ST _ C), D. f_equal. replace (v mod 128) with v by lia. reflexivity.
  - rewrite (ST _ A), B.
    assert (P7 : 2 ^ (shift + 7) = 2 ^ shift * 128) by (rewrite Z.pow_add_r by lia; reflexivity).
    assert (T' : v / 128 * 2 ^ (shift + 7) < 2 ^ 64).
    { rewrite P7. apply Z.le_lt_trans with (v * 2 ^ shift); [|exact T].
      replace (v / 128 * (2 ^ shift * 128)) with (v / 128 * 128 * 2 ^ shift) by ring.
      apply Z.mul_le_mono_nonneg_r; lia. }
    assert (S' : shift + 7 < 64).
    { apply (Z.pow_lt_mono_r_iff 2); [lia|lia|].
      apply Z.le_lt_trans with (v / 128 * 2 ^ (shift + 7)); [|exact T'].
      assert (0 < 2 ^ (shift + 7)) by (apply Z.pow_pos_nonneg; lia).
      assert (1 <= v / 128) by lia. rewrite <- (Z.mul_1_l (2 ^ (shift + 7))) at 1. apply Z.mul_le_mono_nonneg_r; lia. }
    rewrite (Z.mod_small (shift + 7)) by (split; [lia|apply Z.lt_trans with 64; [exact S'|reflexivity]]).
    rewrite Nat2Z.inj_succ, Z.pow_succ_r in V by lia.
    assert (V' : v / 128 < 128 ^ Z.of_nat f) by (apply Z.div_lt_upper_bound; lia).
    rewrite IH; [| | |lia| |exact T'].
    + f_equal. rewrite P7. rewrite (Z.div_mod v 128) at 3 by lia. ring.
    + split; [lia|exact V'].
    + destruct f; [cbn in V'; lia|lia].
    + rewrite P7. clear -R PS. generalize dependent (2 ^ shift). intros p R P. nia.
Qed.
Lemma uleb_cons f v : (0 < f)%nat -> uleb f v <> [].
Proof. destruct f; [lia|]. cbn [uleb]. destruct (_ =? 0); discriminate. Qed.
Lemma uleb_decode v rest : 0 <= v < 2 ^ 64 -> unpack_uleb128 (encode_uleb128 v ++ rest) = Value v rest.
Proof.
  intros V. unfold unpack_uleb128, encode_uleb128.
  pose proof (uleb_back 10 v 0 0 rest) as H.
  destruct (uleb 10 v ++ rest) as [|b l] eqn:E.
  - apply app_eq_nil in E as [E _]. apply uleb_cons in E; [contradiction|lia].
  - rewrite H; [f_equal; lia| |lia|lia|cbn; lia|rewrite Z.mul_1_r; apply V].
    split; [apply V|]. apply Z.lt_trans with (2 ^ 64); [apply V|reflexivity].
Qed.

Lemma low_byte x : 0 <= x < 128 -> negb (Z.land x 64 =? 0) = (64 <=? x).
Proof.
  intros X. pose proof (all_upto 128 (fun x => eqb (negb (Z.land x 64 =? 0)) (64 <=? x))
    ltac:(vm_compute; reflexivity) x X) as H. apply eqb_prop in H. exact H.
Qed.

Lemma sleb_back f : forall v result shift rest, shift + 7 * Z.of_nat f = 70 -> (0 < f)%nat -> 0 <= shift ->
  0 <= result < 2 ^ shift -> - 2 ^ (63 - shift) <= v < 2 ^ (63 - shift) ->
  sleb_loop (sleb f v ++ rest) result shift = Value (result + v * 2 ^ shift) rest.
Proof.
  induction f as [|f IH]; intros v result shift rest SF F S R V; [lia|]. cbn [sleb].
  rewrite land_127, shiftr_div by lia. change (2 ^ 7) with 128.
  set (x := v mod 128). assert (X : 0 <= x < 128) by (apply Z.mod_pos_bound; lia).
  rewrite low_byte by exact X.
  assert (PS : 0 < 2 ^ shift) by (apply Z.pow_pos_nonneg; lia).
  assert (P7 : 2 ^ (shift + 7) = 2 ^ shift * 128) by (rewrite Z.pow_add_r by lia; reflexivity).
  destruct (byte_cont x X) as (A & B & C & D).
  assert (SH : (shift + 7) mod 2 ^ 32 = shift + 7).
  { apply Z.mod_small. split; [lia|]. apply Z.le_lt_trans with 70; [lia|reflexivity]. }
  destruct (Z.eq_dec shift 63) as [S63|N63].
  - (* the tenth byte: only the sign is left *)
    assert (f = O) by lia. subst f shift. clear SF F S IH.
    change (2 ^ (63 - 63)) with 1 in V. assert (VV : v = 0 \/ v = -1) by lia.
    destruct VV as [-> | ->]; subst x.
    + match goal with |- sleb_loop (?l ++ _) _ _ = _ => replace l with [0] by reflexivity end. cbn [app sleb_loop].
      change (Z.land 0 128 =? 0) with true. change (63 <? 64) with true. cbv iota.
      change (i64 (Z.shiftl (Z.land 0 127) 63)) with 0.
      change (((63 + 7) mod 2 ^ 32 <? 64) && negb (Z.land 0 64 =? 0)) with false. cbv iota.
      rewrite Z.lor_0_r. f_equal. lia.
    + match goal with |- sleb_loop (?l ++ _) _ _ = _ => replace l with [127] by reflexivity end. cbn [app sleb_loop].
      change (Z.land 127 128 =? 0) with true. change (63 <? 64) with true. cbv iota.
      change (i64 (Z.shiftl (Z.land 127 127) 63)) with (Z.shiftl (-1) 63).
      change (((63 + 7) mod 2 ^ 32 <? 64) && negb (Z.land 127 64 =? 0)) with false. cbv iota.
      rewrite Z.lor_comm, lor_add by lia. f_equal. lia.
  - assert (S56 : shift <= 56) by lia.
    assert (Q : 0 < 2 ^ (63 - shift - 7)) by (apply Z.pow_pos_nonneg; lia).
    assert (Q7 : 2 ^ (63 - shift) = 2 ^ (63 - shift - 7) * 128).
    { replace (63 - shift) with ((63 - shift - 7) + 7) at 1 by lia. rewrite Z.pow_add_r by lia. reflexivity. }
    assert (TOP : 2 ^ shift * 128 <= 2 ^ 63).
    { rewrite <- P7. apply Z.pow_le_mono_r; lia. }
    assert (ST : forall byte, Z.land byte 127 = x ->
      (if shift <? 64 then Z.lor result (i64 (Z.shiftl (Z.land byte 127) shift)) else result) = result + x * 2 ^ shift).
    { intros byte E. rewrite E. destruct (Z.ltb_spec shift 64) as [_|Y]; [|lia].
      assert (XS : 0 <= x * 2 ^ shift < 2 ^ 63) by nia.
      rewrite i64_id by (rewrite shl by lia; lia). rewrite Z.lor_comm, lor_add by lia. lia. }
    assert (R' : 0 <= result + x * 2 ^ shift < 2 ^ (shift + 7)) by (rewrite P7; nia).
    destruct (((v / 128 =? 0) && negb (64 <=? x)) || ((v / 128 =? -1) && (64 <=? x))) eqn:E; cbn [app sleb_loop].
    + rewrite (ST _ C), D, SH, low_byte by exact X. destruct (Z.ltb_spec (shift + 7) 64) as [_|Y]; [|lia]. cbn [andb].
      destruct (Z.leb_spec 64 x) as [L|L]; cbn [negb] in E; rewrite ?andb_false_r, ?andb_true_r, ?orb_false_r in E; cbn [orb] in E.
      * apply Z.eqb_eq in E. assert (VE : v = x - 128) by (subst x; lia).
        rewrite i64_id by (rewrite shl, P7 by lia; nia).
        rewrite Z.lor_comm, lor_add by lia. f_equal. rewrite P7, VE. ring.
      * apply Z.eqb_eq in E. assert (VE : v = x) by (subst x; lia). rewrite VE. reflexivity.
    + rewrite (ST _ A), B, SH. clear ST.
      assert (V' : - 2 ^ (63 - (shift + 7)) <= v / 128 < 2 ^ (63 - (shift + 7))).
      { replace (63 - (shift + 7)) with (63 - shift - 7) by lia. split.
        - apply Z.div_le_lower_bound; lia.
        - apply Z.div_lt_upper_bound; lia. }
      rewrite IH; [| |lia|lia|exact R'|exact V'].
      * f_equal. rewrite P7. rewrite (Z.div_mod v 128) at 2 by lia. fold x. ring.
      * lia.
Qed.
Lemma sleb_cons f v : (0 < f)%nat -> sleb f v <> [].
Proof. destruct f; [lia|]. cbn [sleb]. destruct (_ || _); discriminate. Qed.
Lemma sleb_decode v rest : - 2 ^ 63 <= v < 2 ^ 63 -> unpack_sleb128 (encode_sleb128 v ++ rest) = Value v rest.
Proof.
  intros V. unfold unpack_sleb128, encode_sleb128.
  pose proof (sleb_back 10 v 0 0 rest) as H.
  destruct (sleb 10 v ++ rest) as [|b l] eqn:E.
  - apply app_eq_nil in E as [E _]. apply sleb_cons in E; [contradiction|lia].
  - rewrite H; [f_equal; lia|lia|lia|lia|cbn; lia|exact V].
Qed.

(** ** UTF-8 *)

Lemma tail_back x : 0 <= x < 64 -> Z.land (Z.lor 128 x) 63 = x.
Proof.
  intros X. pose proof (all_upto 64 (fun x => Z.land (Z.lor 128 x) 63 =? x) ltac:(vm_compute; reflexivity) x X) as H.
  apply Z.eqb_eq in H. exact H.
Qed.
Lemma tail6_back cp k : 0 <= k -> Z.land (tail6 cp k) 63 = (cp / 2 ^ k) mod 64.
Proof.
  intros K. unfold tail6. rewrite shiftr_div by exact K. rewrite (land_63 (cp / 2 ^ k)). apply tail_back. apply Z.mod_pos_bound. lia.
Qed.
Lemma head2 q : 0 <= q < 32 -> let f := u8 (Z.lor 192 q) in
  Z.land f 128 =? 0 = false /\ Z.land f 224 =? 192 = true /\ Z.land f 31 = q.
Proof.
  intros Q f. pose proof (all_upto 32 (fun q => let f := u8 (Z.lor 192 q) in
    negb (Z.land f 128 =? 0) && ((Z.land f 224 =? 192) && (Z.land f 31 =? q))) ltac:(vm_compute; reflexivity) q Q) as H.
  cbv zeta in H. fold f in H. apply andb_true_iff in H as [A H]. apply andb_true_iff in H as [B C].
  apply negb_true_iff in A. apply Z.eqb_eq in C. auto.
Qed.
Lemma head3 q : 0 <= q < 16 -> let f := u8 (Z.lor 224 q) in
  Z.land f 128 =? 0 = false /\ Z.land f 224 =? 192 = false /\ Z.land f 240 =? 224 = true /\ Z.land f 15 = q.
Proof.
  intros Q f. pose proof (all_upto 16 (fun q => let f := u8 (Z.lor 224 q) in
    negb (Z.land f 128 =? 0) && (negb (Z.land f 224 =? 192) && ((Z.land f 240 =? 224) && (Z.land f 15 =? q))))
    ltac:(vm_compute; reflexivity) q Q) as H.
  cbv zeta in H. fold f in H. apply andb_true_iff in H as [A H]. apply andb_true_iff in H as [B H].
  apply andb_true_iff in H as [C D]. apply negb_true_iff in A. apply negb_true_iff in B. apply Z.eqb_eq in D. auto.
Qed.
Lemma head4 q : 0 <= q < 8 -> let f := u8 (Z.lor 240 q) in
  Z.land f 128 =? 0 = false /\ Z.land f 224 =? 192 = false /\ Z.land f 240 =? 224 = false /\
  Z.land f 248 =? 240 = true /\ Z.land f 7 = q.
Proof.
  intros Q f. pose proof (all_upto 8 (fun q => let f := u8 (Z.lor 240 q) in
    negb (Z.land f 128 =? 0) && (negb (Z.land f 224 =? 192) && (negb (Z.land f 240 =? 224) &&
    ((Z.land f 248 =? 240) && (Z.land f 7 =? q)))))
    ltac:(vm_compute; reflexivity) q Q) as H.
  cbv zeta in H. fold f in H. apply andb_true_iff in H as [A H]. apply andb_true_iff in H as [B H].
  apply andb_true_iff in H as [C H]. apply andb_true_iff in H as [D E].
  apply negb_true_iff in A. apply negb_true_iff in B. apply negb_true_iff in C. apply Z.eqb_eq in E. auto.
Qed.
Lemma head_long q : 0 <= q < 4 -> forall f, f = u8 (Z.lor 248 q) \/ f = u8 (Z.lor 252 q) ->
  Z.land f 128 =? 0 = false /\ Z.land f 224 =? 192 = false /\ Z.land f 240 =? 224 = false /\ Z.land f 248 =? 240 = false.
Proof.
  intros Q f. assert (C : q = 0 \/ q = 1 \/ q = 2 \/ q = 3) by lia.
  intros [-> | ->]; destruct C as [->|[->|[->| ->]]]; repeat split; reflexivity.
Qed.

Local Arguments tail6 : simpl never.
Local Arguments Z.land : simpl never.
Local Arguments Z.lor : simpl never.
Local Arguments Z.shiftl : simpl never.

Lemma utf8_back cp rest : 0 <= cp < 2 ^ 21 -> utf8_decode_one (utf8_encode_one cp ++ rest) = Some (cp, rest).
Proof.
  intros R. change (2 ^ 21) with 2097152 in R. unfold utf8_encode_one.
  destruct (Z.leb_spec cp 127) as [L1|L1].
  { cbn [app utf8_decode_one]. unfold u8. rewrite Z.mod_small by lia.
    destruct (byte_cont cp ltac:(lia)) as (_ & _ & _ & D). rewrite D. reflexivity. }
  destruct (Z.leb_spec cp 2047) as [L2|L2].
  { cbn [app utf8_decode_one]. rewrite shiftr_div by lia. change (2 ^ 6) with 64.
    destruct (head2 (cp / 64) ltac:(lia)) as (A & B & C). rewrite A, B, C, tail6_back by lia.
    change (2 ^ 0) with 1. rewrite Z.div_1_r. rewrite lor_add by (change (2 ^ 6) with 64; lia).
    change (2 ^ 6) with 64. do 2 f_equal. lia. }
  destruct (Z.leb_spec cp 65535) as [L3|L3].
  { cbn [app utf8_decode_one]. rewrite shiftr_div by lia. change (2 ^ 12) with 4096.
    destruct (head3 (cp / 4096) ltac:(lia)) as (A & B & C & D). rewrite A, B, C, D, !tail6_back by lia.
    change (2 ^ 0) with 1. change (2 ^ 6) with 64. rewrite Z.div_1_r, !shl by lia.
    change (2 ^ 12) with 4096. change (2 ^ 6) with 64.
    rewrite (lor_plus _ ((cp / 64) mod 64 * 64) 12) by (change (2 ^ 12) with 4096; lia).
    rewrite (lor_plus _ (cp mod 64) 6) by (change (2 ^ 6) with 64; lia). do 2 f_equal. lia. }
  destruct (Z.leb_spec cp 2097151) as [L4|L4]; [|lia].
  cbn [app utf8_decode_one]. rewrite shiftr_div by lia. change (2 ^ 18) with 262144.
  destruct (head4 (cp / 262144) ltac:(lia)) as (A & B & C & D & E). rewrite A, B, C, D, E, !tail6_back by lia.
  change (2 ^ 0) with 1. rewrite Z.div_1_r, !shl by lia.
  change (2 ^ 18) with 262144. change (2 ^ 12) with 4096. change (2 ^ 6) with 64.
  rewrite (lor_plus _ ((cp / 4096) mod 64 * 4096) 18) by (change (2 ^ 18) with 262144; lia).
  rewrite (lor_plus _ ((cp / 64) mod 64 * 64) 12) by (change (2 ^ 12) with 4096; lia).
  rewrite (lor_plus _ (cp mod 64) 6) by (change (2 ^ 6) with 64; lia). do 2 f_equal. lia.
Qed.
Lemma utf8_cons cp : utf8_encode_one cp <> [].
Proof. unfold utf8_encode_one. repeat destruct (_ <=? _); discriminate. Qed.
Lemma utf8_long cp rest : 2 ^ 21 <= cp < 2 ^ 32 -> utf8_decode_one (utf8_encode_one cp ++ rest) = None.
Proof.
  intros R. change (2 ^ 21) with 2097152 in R. change (2 ^ 32) with 4294967296 in R. unfold utf8_encode_one.
  destruct (Z.leb_spec cp 127); [lia|]. destruct (Z.leb_spec cp 2047); [lia|].
  destruct (Z.leb_spec cp 65535); [lia|]. destruct (Z.leb_spec cp 2097151); [lia|].
  destruct (Z.leb_spec cp 67108863) as [L|L]; cbn [app utf8_decode_one]; rewrite shiftr_div by lia.
  - change (2 ^ 24) with 16777216.
    destruct (head_long (cp / 16777216) ltac:(lia) _ (or_introl eq_refl)) as (A & B & C & D). rewrite A, B, C, D. reflexivity.
  - change (2 ^ 30) with 1073741824.
    destruct (head_long (cp / 1073741824) ltac:(lia) _ (or_intror eq_refl)) as (A & B & C & D). rewrite A, B, C, D. reflexivity.
Qed.

(** ** Bits and digits *)

Lemma upto_in n x : 0 <= x < Z.of_nat n -> In x (upto n).
Proof. intros X. unfold upto. apply in_map_iff. exists (Z.to_nat x). split; [lia|]. apply in_seq. lia. Qed.


Definition byte_of (bg : bool) (l : list Z) : Z := hd 0 (bits_loop bg l 8 0 0).
Lemma bits_step bg c0 c1 c2 c3 c4 c5 c6 c7 l n : bit_string [c0; c1; c2; c3; c4; c5; c6; c7] ->
  bits_loop bg (c0 :: c1 :: c2 :: c3 :: c4 :: c5 :: c6 :: c7 :: l) (8 + n) 0 0 =
    byte_of bg [c0; c1; c2; c3; c4; c5; c6; c7] :: bits_loop bg l n 0 0
  /\ bits8 bg (byte_of bg [c0; c1; c2; c3; c4; c5; c6; c7]) = [c0; c1; c2; c3; c4; c5; c6; c7].
Proof.
  intros B. unfold bit_string in B.
  repeat match goal with H : Forall _ (_ :: _) |- _ => inversion H; clear H; subst end.
  split; [reflexivity|].
  repeat match goal with H : _ = 48 \/ _ = 49 |- _ => destruct H; subst end;
  destruct bg; reflexivity.
Qed.
Lemma bit_of_bit bg c i : bit_of bg c i = 48 \/ bit_of bg c i = 49.
Proof.
  unfold bit_of. set (y := Z.shiftr _ _). assert (E : Z.land y 1 = y mod 2) by (apply (Z.land_ones y 1); lia).
  rewrite E. clearbody y. lia.
Qed.
Lemma bits8_loop bg c l n : 0 <= c < 256 ->
  bits_loop bg (bits8 bg c ++ l) (8 + n) 0 0 = c :: bits_loop bg l n 0 0.
Proof.
  intros C.
  assert (B : bit_string (bits8 bg c)).
  { unfold bits8. apply Forall_forall. intros x X. apply in_map_iff in X as (i & <- & _). apply bit_of_bit. }
  pose proof (all_upto 256 (fun c => (byte_of true (bits8 true c) =? c) && (byte_of false (bits8 false c) =? c))
    ltac:(vm_compute; reflexivity) c C) as H. apply andb_true_iff in H as [H1 H2].
  apply Z.eqb_eq in H1. apply Z.eqb_eq in H2.
  assert (H : byte_of bg (bits8 bg c) = c) by (destruct bg; assumption).
  rewrite <- H at 2. apply (bits_step bg (bit_of bg c 0) (bit_of bg c 1) (bit_of bg c 2) (bit_of bg c 3)
    (bit_of bg c 4) (bit_of bg c 5) (bit_of bg c 6) (bit_of bg c 7) l n B).
Qed.
Lemma bits_to_bytes bg s : bytes s -> bits_loop bg (flat_map (bits8 bg) s) (length (flat_map (bits8 bg) s)) 0 0 = s.
Proof.
  induction s as [|c s IH]; intros B; [reflexivity|]. inversion B; subst. cbn [flat_map]. rewrite app_length.
  change (length (bits8 bg c)) with 8%nat. rewrite bits8_loop by assumption. f_equal. apply IH. assumption.
Qed.

(** Fewer than 8 bits left: all of them. *)
Fixpoint strs (n : nat) : list (list Z) :=
  match n with O => [[]] | S m => map (cons 48) (strs m) ++ map (cons 49) (strs m) end.
Lemma strs_in s : bit_string s -> In s (strs (length s)).
Proof.
  induction s as [|c s IH]; intros B; [left; reflexivity|]. inversion B as [|? ? C B']; subst. cbn [length strs].
  apply in_app_iff. destruct C as [-> | ->]; [left|right]; apply in_map; apply IH; exact B'.
Qed.
Definition same (a b : list Z) : bool := if list_eq_dec Z.eq_dec a b then true else false.
Definition tail_ok (bg : bool) (s : list Z) : bool :=
  match bits_loop bg s (length s) 0 0 with
  | [c] => same (firstn (length s) (bits8 bg c)) s
  | _ => false
  end.
Lemma tails_ok : forallb (fun n => forallb (fun s => tail_ok true s && tail_ok false s) (strs n)) (seq 1 7) = true.
Proof. vm_compute. reflexivity. Qed.
Lemma bits_tail bg s rest : bit_string s -> (0 < length s < 8)%nat ->
  exists c, bits_loop bg s (length s) 0 0 = [c] /\ bits_n bg (length s) (c :: rest) = (s, rest).
Proof.
  intros B L. pose proof tails_ok as H. rewrite forallb_forall in H.
  specialize (H (length s) ltac:(apply in_seq; lia)). rewrite forallb_forall in H.
  specialize (H s (strs_in s B)). apply andb_true_iff in H as [H1 H2].
  assert (H : tail_ok bg s = true) by (destruct bg; assumption). clear H1 H2. unfold tail_ok in H.
  destruct (bits_loop bg s (length s) 0 0) as [|c [|]]; try discriminate. exists c. split; [reflexivity|].
  unfold same in H. destruct (list_eq_dec Z.eq_dec _ _) as [E|]; [|discriminate].
  cbn [bits_n]. destruct (length s) as [|m] eqn:M; [lia|].
  replace (S m - 8)%nat with O by lia. destruct rest; cbn [bits_n]; rewrite E, app_nil_r; reflexivity.
Qed.
Local Arguments bits8 : simpl never.

Lemma bits_back bg : forall k s rest, (length s <= k)%nat -> bit_string s ->
  bits_n bg (length s) (bits_loop bg s (length s) 0 0 ++ rest) = (s, rest).
Proof.
  induction k as [|k IH]; intros s rest L B.
  - destruct s; [|cbn in L; lia]. destruct rest; reflexivity.
  - destruct (Nat.ltb_spec (length s) 8) as [S8|S8].
    + destruct s as [|c s]; [destruct rest; reflexivity|].
      destruct (bits_tail bg (c :: s) rest B ltac:(cbn [length] in *; lia)) as (x & -> & E). exact E.
    + destruct s as [|c0 [|c1 [|c2 [|c3 [|c4 [|c5 [|c6 [|c7 s]]]]]]]]; cbn [length] in S8; try lia.
      change (c0 :: c1 :: c2 :: c3 :: c4 :: c5 :: c6 :: c7 :: s) with ([c0; c1; c2; c3; c4; c5; c6; c7] ++ s) in B.
      apply Forall_app in B as [B8 B].
      destruct (bits_step bg c0 c1 c2 c3 c4 c5 c6 c7 s (length s) B8) as [E1 E2].
      change (length (c0 :: c1 :: c2 :: c3 :: c4 :: c5 :: c6 :: c7 :: s)) with (8 + length s)%nat.
      rewrite E1. cbn [app bits_n Nat.add].
      replace (S (S (S (S (S (S (S (S (length s)))))))) - 8)%nat with (length s) by lia.
      rewrite IH; [|cbn [length] in L; lia|exact B]. rewrite E2, firstn_all2 by (cbn [length]; lia). reflexivity.
Qed.
Lemma bits_back_star bg : forall k s, length s = (8 * k)%nat -> bit_string s ->
  flat_map (bits8 bg) (bits_loop bg s (length s) 0 0) = s.
Proof.
  induction k as [|k IH]; intros s L B.
  - destruct s; [reflexivity|discriminate].
  - destruct s as [|c0 [|c1 [|c2 [|c3 [|c4 [|c5 [|c6 [|c7 s]]]]]]]]; cbn [length] in L; try lia.
    change (c0 :: c1 :: c2 :: c3 :: c4 :: c5 :: c6 :: c7 :: s) with ([c0; c1; c2; c3; c4; c5; c6; c7] ++ s) in B.
    apply Forall_app in B as [B8 B].
    destruct (bits_step bg c0 c1 c2 c3 c4 c5 c6 c7 s (length s) B8) as [E1 E2].
    change (length (c0 :: c1 :: c2 :: c3 :: c4 :: c5 :: c6 :: c7 :: s)) with (8 + length s)%nat.
    rewrite E1. cbn [flat_map]. rewrite E2, IH by (lia || exact B). reflexivity.
Qed.

Lemma hex_digit c : 48 <= c <= 57 \/ 97 <= c <= 102 -> exists d, 0 <= d < 16 /\ c = hex_lower d.
Proof.
  unfold hex_lower. intros [H|H].
  - exists (c - 48). split; [lia|]. destruct (Z.ltb_spec (c - 48) 10); lia.
  - exists (c - 87). split; [lia|]. destruct (Z.ltb_spec (c - 87) 10); lia.
Qed.
Definition hex_byte (high : bool) (a b : Z) : Z :=
  Z.lor (if high then u8 (Z.shiftl (nibble a) 4) else nibble a) (if high then nibble b else u8 (Z.shiftl (nibble b) 4)).
Lemma hex_pair_back high a b : hex_string [a; b] -> hex_pair high (hex_byte high a b) = [a; b].
Proof.
  intros H. inversion H as [|? ? A H']; subst. inversion H' as [|? ? B _]; subst.
  apply hex_digit in A as (x & X & ->). apply hex_digit in B as (y & Y & ->).
  pose proof (all_upto 16 (fun x => forallb (fun y => forallb (fun h =>
     same (hex_pair h (hex_byte h (hex_lower x) (hex_lower y))) [hex_lower x; hex_lower y]) [true; false]) (upto 16))
     ltac:(vm_compute; reflexivity) x X) as Q. cbv beta in Q.
  rewrite forallb_forall in Q. specialize (Q y (upto_in 16 y Y)). rewrite forallb_forall in Q.
  specialize (Q high ltac:(destruct high; cbn; auto)). unfold same in Q.
  destruct (list_eq_dec Z.eq_dec _ _) as [E|]; [exact E|discriminate].
Qed.
Lemma hex_one_back high a : hex_string [a] -> 
  firstn 1 (hex_pair high (if high then u8 (Z.shiftl (nibble a) 4) else nibble a)) = [a].
Proof.
  intros H. inversion H as [|? ? A H']; subst.
  apply hex_digit in A as (x & X & ->).
  pose proof (all_upto 16 (fun x => forallb (fun h : bool =>
     same (firstn 1 (hex_pair h (if h then u8 (Z.shiftl (nibble (hex_lower x)) 4) else nibble (hex_lower x)))) [hex_lower x])
     [true; false]) ltac:(vm_compute; reflexivity) x X) as Q. cbv beta in Q.
  rewrite forallb_forall in Q.
  specialize (Q high ltac:(destruct high; cbn; auto)). unfold same in Q.
  destruct (list_eq_dec Z.eq_dec _ _) as [E|]; [exact E|discriminate].
Qed.
Lemma hex_step high a b l n : hex_loop high (a :: b :: l) (S (S n)) 0 false = hex_byte high a b :: hex_loop high l n 0 false.
Proof. destruct high; reflexivity. Qed.
Local Opaque hex_pair hex_byte.
Lemma hexes_back high : forall k s rest, (length s <= k)%nat -> hex_string s ->
  hex_n high (length s) (hex_loop high s (length s) 0 false ++ rest) = (s, rest).
Proof.
  induction k as [|k IH]; intros s rest L H.
  - destruct s; [|cbn in L; lia]. destruct rest; reflexivity.
  - destruct s as [|a [|b s]].
    + destruct rest; reflexivity.
    + cbn [length hex_loop tl app hex_n]. rewrite hex_one_back by exact H. reflexivity.
    + cbn [length]. rewrite hex_step. cbn [app hex_n].
      change (a :: b :: s) with ([a; b] ++ s) in H. apply Forall_app in H as [H2 H].
      rewrite IH by (exact H || cbn [length] in L; lia). rewrite hex_pair_back by exact H2. reflexivity.
Qed.
Lemma hexes_back_star high : forall k s, length s = (2 * k)%nat -> hex_string s ->
  flat_map (hex_pair high) (hex_loop high s (length s) 0 false) = s.
Proof.
  induction k as [|k IH]; intros s L H.
  - destruct s; [reflexivity|discriminate].
  - destruct s as [|a [|b s]]; cbn [length] in L; try lia.
    cbn [length]. rewrite hex_step. cbn [flat_map].
    change (a :: b :: s) with ([a; b] ++ s) in H. apply Forall_app in H as [H2 H].
    rewrite IH by (exact H || lia). rewrite hex_pair_back by exact H2. reflexivity.
Qed.
Lemma hex_to_bytes high s : bytes s ->
  hex_loop high (flat_map (hex_pair high) s) (length (flat_map (hex_pair high) s)) 0 false = s.
Proof.
  induction s as [|c s IH]; intros B; [reflexivity|]. inversion B; subst. cbn [flat_map].
  assert (E : exists a b, hex_pair high c = [a; b] /\ hex_byte high a b = c).
  { Transparent hex_pair hex_byte. eexists _, _. split; [reflexivity|].
    pose proof (all_upto 256 (fun c => forallb (fun h =>
      match hex_pair h c with [a; b] => hex_byte h a b =? c | _ => false end) [true; false])
      ltac:(vm_compute; reflexivity) c ltac:(assumption)) as Q. cbv beta in Q.
    rewrite forallb_forall in Q. specialize (Q high ltac:(destruct high; cbn; auto)). apply Z.eqb_eq in Q. exact Q. }
  destruct E as (a & b & E1 & E2). rewrite E1. cbn [app length]. rewrite hex_step, E2. f_equal. apply IH. assumption.
Qed.

(** ** Padding *)

Lemma strip_id s : (forall t c, s = t ++ [c] -> c <> 32 /\ c <> 0) -> strip s = s.
Proof.
  induction s as [|c s IH]; intros H; [reflexivity|]. cbn [strip]. rewrite IH.
  - destruct s as [|d s]; [|reflexivity]. destruct (H [] c eq_refl) as [A B].
    destruct (Z.eqb_spec c 32); [contradiction|]. destruct (Z.eqb_spec c 0); [contradiction|]. reflexivity.
  - intros t x E. apply (H (c :: t) x). rewrite E. reflexivity.
Qed.
Lemma strip_pad s n : strip (s ++ List.repeat 32 n) = strip s.
Proof.
  assert (R : strip (List.repeat 32 n) = []) by (induction n as [|n IH]; [reflexivity|cbn [List.repeat strip]; rewrite IH; reflexivity]).
  induction s as [|c s IH]; [exact R|]. cbn [app strip]. rewrite IH. reflexivity.
Qed.
Lemma until_nul_id s : ~ In 0 s -> forall r, (r = [] \/ exists q, r = 0 :: q) -> until_nul (s ++ r) = s.
Proof.
  intros N r R. induction s as [|c s IH].
  - destruct R as [-> | [q ->]]; reflexivity.
  - cbn [app until_nul]. destruct (Z.eqb_spec c 0) as [->|C]; [exfalso; apply N; left; reflexivity|].
    f_equal. apply IH. intros I. apply N. right. exact I.
Qed.
Lemma padded_length s n p : length (padded s n p) = n.
Proof. unfold padded. destruct (Nat.leb_spec n (length s)); rewrite ?firstn_length, ?app_length, ?repeat_length; lia. Qed.
Lemma padded_room s n p : (length s <= n)%nat -> padded s n p = s ++ List.repeat p (n - length s).
Proof.
  intros L. unfold padded. destruct (Nat.leb_spec n (length s)) as [G|G]; [|reflexivity].
  replace (n - length s)%nat with O by lia. cbn [List.repeat]. rewrite app_nil_r. apply firstn_all2. lia.
Qed.
Lemma firstn_pre {A} (a b : list A) n : length a = n -> firstn n (a ++ b) = a.
Proof. intros <-. rewrite firstn_app, firstn_all, Nat.sub_diag. cbn. apply app_nil_r. Qed.
Lemma skipn_pre2 {A} (a b : list A) n : length a = n -> skipn n (a ++ b) = b.
Proof. intros <-. rewrite skipn_app, skipn_all, Nat.sub_diag. reflexivity. Qed.

(** ** One directive, then all of them *)

Lemma each_fwd f n : forall xs es more, Forall2 (fun x e => f x = Some e) xs es ->
  for_count n (length xs) -> (n = None -> more = []) ->
  pack_each f n (map VInt xs ++ more) = Some (concat es, more).
Proof.
  intros xs es more F. revert n. induction F as [|x e xs es H F IH]; intros n C M.
  - destruct C as [-> | ->]; cbn; [|destruct more as [|[]]; reflexivity]. rewrite (M eq_refl). reflexivity.
  - cbn [map app pack_each length concat] in *. rewrite H.
    destruct C as [-> | ->]; cbn [option_map pred];
      (rewrite IH; [reflexivity|first [left; reflexivity|right; reflexivity]|first [exact M|discriminate]]).
Qed.
Lemma floats_fwd bg n : forall xs more, for_count n (length xs) -> (n = None -> more = []) ->
  pack_floats bg n (map VFlt xs ++ more) = Some (concat (map (to_bytes bg 8) xs), more).
Proof.
  intros xs more. revert n. induction xs as [|x xs IH]; intros n C M.
  - destruct C as [-> | ->]; cbn; [|destruct more as [|[]]; reflexivity]. rewrite (M eq_refl). reflexivity.
  - cbn [map app pack_floats length concat] in *.
    destruct C as [-> | ->]; cbn [option_map pred];
      (rewrite IH; [reflexivity|first [left; reflexivity|right; reflexivity]|first [exact M|discriminate]]).
Qed.

Lemma decode_ok dec xs es rest : Forall2 (fun x e => e <> [] /\ forall r, dec (e ++ r) = Some (x, r)) xs es ->
  forall n, n = length xs \/ ((length xs <= n)%nat /\ rest = []) ->
  decode_n dec n (concat es ++ rest) = Some (map VInt xs, rest).
Proof.
  induction 1 as [|x e xs es [N H] F IH]; intros n C.
  - cbn [concat app map length] in *. destruct C as [-> | [_ ->]]; [destruct rest; reflexivity|destruct n; reflexivity].
  - cbn [concat map length] in *. rewrite <- app_assoc. destruct n as [|n]; [lia|].
    destruct e as [|b e]; [contradiction|]. cbn [decode_n app]. change (b :: e ++ ?r) with ((b :: e) ++ r).
    rewrite H, IH by (destruct C as [C|[C ->]]; [left; lia|right; split; [lia|reflexivity]]). reflexivity.
Qed.
Lemma leb_ok dec star xs es rest : dec [] = End ->
  Forall2 (fun x e => e <> [] /\ forall r, dec (e ++ r) = Value x r) xs es ->
  forall n, n = length xs \/ ((length xs <= n)%nat /\ rest = []) ->
  leb_n dec star n (concat es ++ rest) = (map VInt xs, rest).
Proof.
  intros D. induction 1 as [|x e xs es [N H] F IH]; intros n C.
  - cbn [concat app map length] in *. destruct C as [-> | [_ ->]]; [reflexivity|]. destruct n; cbn [leb_n]; rewrite ?D; reflexivity.
  - cbn [concat map length] in *. rewrite <- app_assoc. destruct n as [|n]; [lia|]. cbn [leb_n].
    rewrite H, IH by (destruct C as [C|[C ->]]; [left; lia|right; split; [lia|reflexivity]]). reflexivity.
Qed.
Lemma concat_length_ge {A} (P : A -> list Z -> Prop) xs es : Forall2 P xs es -> (forall x e, P x e -> e <> []) ->
  (length xs <= length (concat es))%nat.
Proof.
  intros F N. induction F as [|x e xs es H F IH]; cbn [concat length]; [lia|]. rewrite app_length.
  apply N in H. destruct e; [contradiction|]. cbn [length]. lia.
Qed.
Lemma Forall2_map_r {A B} (P : A -> B -> Prop) (f : A -> B) l : Forall (fun x => P x (f x)) l -> Forall2 P l (map f l).
Proof. induction 1; cbn; constructor; auto. Qed.
Lemma Forall2_map_lr {A B C} (P : B -> C -> Prop) (g : A -> B) (f : A -> C) l :
  Forall (fun x => P (g x) (f x)) l -> Forall2 P (map g l) (map f l).
Proof. induction 1; cbn; constructor; auto. Qed.

Lemma ber_wrong x : 2 ^ 63 <= x -> i64 x <> x.
Proof. intros L. pose proof (i64_range x) as R. destruct R as [_ R]. intros E. rewrite E in R. revert L R. generalize (2 ^ 63). intros; lia. Qed.
Lemma uleb_wrong x : x < 0 \/ 2 ^ 64 <= x -> x mod 2 ^ 64 <> x.
Proof.
  intros O E. pose proof (Z.mod_pos_bound x (2 ^ 64) ltac:(reflexivity)) as R. rewrite E in R.
  revert O R. generalize (2 ^ 64). intros; lia.
Qed.
Lemma sleb_wrong t x : one t SlebSigned (Some 1%nat) -> x < - 2 ^ 63 \/ 2 ^ 63 <= x -> pack [VInt x] t = None.
Proof.
  intros (nd & P & T & C) R. unfold pack. rewrite P. cbn [pack_nodes]. unfold pack_node. rewrite T, C. cbn [pack_each].
  destruct (Z.leb_spec (- 2 ^ 63) x); cbn [andb]; [|reflexivity]. destruct (Z.ltb_spec x (2 ^ 63)); [lia|reflexivity].
Qed.

Section Fields.
Variable widen : Z -> Z.
Variable c_string : Z -> list Z.
Variable fixed : Z -> nat -> list Z.
Variable base : Z.
Notation unode := (unpack_node widen c_string fixed).
Notation unodes := (unpack_nodes widen c_string fixed).

(** [vs] packed by [nd] unpacks as [vs']. *)
Definition back (nd : node) (vs vs' : list val) : Prop :=
  exists b, forall pre more rest, delimited nd \/ (more = [] /\ rest = []) ->
    pack_node nd pre (vs ++ more) = Some (pre ++ b, more) /\
    unode base (pre ++ b ++ rest) nd (length pre) = Some (vs', length (pre ++ b)).

Lemma delim_none nd (more rest : list val) : delimited nd -> count nd = None -> more = rest.
Proof. unfold delimited. intros D N. rewrite N in D. destruct (tmpl nd); contradiction. Qed.
Lemma delim_none' nd (more : list val) (rest : list Z) :
  delimited nd \/ more = [] /\ rest = [] -> count nd = None -> more = [] /\ rest = [].
Proof. unfold delimited. intros [D|D] N; [|exact D]. rewrite N in D. destruct (tmpl nd); contradiction. Qed.

(** The directives of one integer after the other. *)
Lemma back_each nd f g dec xs : 
  (forall pre vs, pack_node nd pre vs =
     match pack_each f (count nd) vs with Some (b, vs') => Some (pre ++ b, vs') | None => None end) ->
  (forall s i, unode base s nd i =
     match decode_vals dec (count nd) (skipn i s) with
     | Some (vs, rest) => Some (vs, (length s - length rest)%nat) | None => None end) ->
  (forall x, In x xs -> exists e, f x = Some e /\ e <> [] /\ forall r, dec (e ++ r) = Some (g x, r)) ->
  for_count (count nd) (length xs) -> back nd (map VInt xs) (map VInt (map g xs)).
Proof.
  intros PK UN H C.
  assert (ES : exists es, Forall2 (fun x e => f x = Some e) xs es /\
    Forall2 (fun x e => e <> [] /\ forall r, dec (e ++ r) = Some (x, r)) (map g xs) es).
  { clear C. induction xs as [|x xs IH]; [exists []; split; constructor|].
    destruct (H x (or_introl eq_refl)) as (e & E & N & D). destruct IH as (es & A & B); [intros y Y; apply H; right; exact Y|].
    exists (e :: es). split; constructor; auto. }
  destruct ES as (es & A & B). exists (concat es). intros pre more rest DL.
  split.
  - rewrite PK, (each_fwd f (count nd) xs es more A C); [reflexivity|]. intros N. apply (delim_none' _ _ _ DL N).
  - rewrite UN, skipn_pre. unfold decode_vals. rewrite (decode_ok dec (map g xs) es rest B).
    + rewrite pos_after. reflexivity.
    + rewrite map_length. destruct C as [N | ->]; [|left; reflexivity]. rewrite N. right.
      destruct (delim_none' _ _ _ DL N) as [_ ->]. split; [|reflexivity]. rewrite app_nil_r, <- (map_length g).
      apply (concat_length_ge _ _ _ B). intros x e [Q _]. exact Q.
Qed.
Lemma back_leb nd f g dec xs : 
  (forall pre vs, pack_node nd pre vs =
     match pack_each f (count nd) vs with Some (b, vs') => Some (pre ++ b, vs') | None => None end) ->
  (forall s i, unode base s nd i =
     match leb_vals dec (count nd) (skipn i s) with (vs, rest) => Some (vs, (length s - length rest)%nat) end) ->
  dec [] = End ->
  (forall x, In x xs -> exists e, f x = Some e /\ e <> [] /\ forall r, dec (e ++ r) = Value (g x) r) ->
  for_count (count nd) (length xs) -> back nd (map VInt xs) (map VInt (map g xs)).
Proof.
  intros PK UN DE H C.
  assert (ES : exists es, Forall2 (fun x e => f x = Some e) xs es /\
    Forall2 (fun x e => e <> [] /\ forall r, dec (e ++ r) = Value x r) (map g xs) es).
  { clear C. induction xs as [|x xs IH]; [exists []; split; constructor|].
    destruct (H x (or_introl eq_refl)) as (e & E & N & D). destruct IH as (es & A & B); [intros y Y; apply H; right; exact Y|].
    exists (e :: es). split; constructor; auto. }
  destruct ES as (es & A & B). exists (concat es). intros pre more rest DL.
  split.
  - rewrite PK, (each_fwd f (count nd) xs es more A C); [reflexivity|]. intros N. apply (delim_none' _ _ _ DL N).
  - rewrite UN, skipn_pre. unfold leb_vals. destruct C as [N | N]; rewrite N.
    + destruct (delim_none' _ _ _ DL N) as [_ ->]. rewrite (leb_ok dec _ (map g xs) es [] DE B), pos_after; [reflexivity|].
      right. split; [|reflexivity]. rewrite app_nil_r.
      apply (concat_length_ge _ _ _ B). intros x e [Q _]. exact Q.
    + rewrite (leb_ok dec _ (map g xs) es rest DE B), pos_after; [reflexivity|]. left. rewrite map_length. reflexivity.
Qed.

Lemma ber_node nd xs : tmpl nd = BerCompressedInt -> Forall (fun x => 0 <= x) xs -> for_count (count nd) (length xs) ->
  back nd (map VInt xs) (map VInt (map i64 xs)).
Proof.
  intros T F C. apply (back_each nd ber_encode_value i64 (fun l => ber_decode l 0)); [| | |exact C].
  - intros. unfold pack_node. rewrite T. reflexivity.
  - intros. unfold unpack_node. rewrite T. reflexivity.
  - intros x X. rewrite Forall_forall in F. apply F in X. exists (ber_bytes x).
    split; [apply ber_value; exact X|]. split; [apply ber_bytes_cons|]. intros r. apply ber_back. exact X.
Qed.
Lemma utf8_node nd xs : tmpl nd = Utf8 -> Forall (fun x => 0 <= x < 2 ^ 21) xs -> for_count (count nd) (length xs) ->
  back nd (map VInt xs) (map VInt xs).
Proof.
  intros T F C. rewrite <- (map_id xs) at 2. apply (back_each nd utf8_encode_value (fun x => x) utf8_decode_one); [| | |exact C].
  - intros. unfold pack_node. rewrite T. reflexivity.
  - intros. unfold unpack_node. rewrite T. reflexivity.
  - intros x X. rewrite Forall_forall in F. apply F in X. exists (utf8_encode_one x).
    split; [|split; [apply utf8_cons|intros r; apply utf8_back; exact X]].
    unfold utf8_encode_value. assert (R : 2 ^ 21 < 2 ^ 32) by reflexivity.
    destruct (Z.leb_spec 0 x); [|lia]. destruct (Z.leb_spec x (2 ^ 32 - 1)); [reflexivity|lia].
Qed.
Lemma uleb_node nd xs : tmpl nd = UlebUnsigned -> for_count (count nd) (length xs) ->
  back nd (map VInt xs) (map VInt (map (fun x => x mod 2 ^ 64) xs)).
Proof.
  intros T C. apply (back_leb nd (fun z => Some (encode_uleb128 (pack_u64 z))) _ unpack_uleb128); [| |reflexivity| |exact C].
  - intros. unfold pack_node. rewrite T. reflexivity.
  - intros. unfold unpack_node. rewrite T. reflexivity.
  - intros x X. exists (encode_uleb128 (pack_u64 x)). split; [reflexivity|]. split; [apply uleb_cons; lia|].
    intros r. rewrite pack_u64_ok. apply uleb_decode. apply Z.mod_pos_bound. reflexivity.
Qed.
Lemma sleb_node nd xs : tmpl nd = SlebSigned -> Forall (fun x => - 2 ^ 63 <= x < 2 ^ 63) xs ->
  for_count (count nd) (length xs) -> back nd (map VInt xs) (map VInt xs).
Proof.
  intros T F C. rewrite <- (map_id xs) at 2.
  apply (back_leb nd (fun z => if (- 2 ^ 63 <=? z) && (z <? 2 ^ 63) then Some (encode_sleb128 z) else None)
    (fun x => x) unpack_sleb128); [| |reflexivity| |exact C].
  - intros. unfold pack_node. rewrite T. reflexivity.
  - intros. unfold unpack_node. rewrite T. reflexivity.
  - intros x X. rewrite Forall_forall in F. apply F in X. exists (encode_sleb128 x).
    split; [|split; [apply sleb_cons; lia|intros r; apply sleb_decode; exact X]].
    destruct (Z.leb_spec (- 2 ^ 63) x); [|lia]. destruct (Z.ltb_spec x (2 ^ 63)); [reflexivity|lia].
Qed.

Lemma back_take nd size f pk xs (es : list (list Z)) vs ws :
  (0 < size)%nat ->
  (forall pre vs, pack_node nd pre vs =
     match pk (count nd) vs with Some (b, vs') => Some (pre ++ b, vs') | None => None end) ->
  (forall s i, unode base s nd i =
     match take_vals size f (count nd) (skipn i s) with (vs, rest) => Some (vs, (length s - length rest)%nat) end) ->
  (forall more, (count nd = None -> more = []) -> pk (count nd) (vs ++ more) = Some (concat es, more)) ->
  length es = length (xs : list Z) -> Forall (fun e => length e = size) es -> map f es = ws ->
  for_count (count nd) (length xs) -> back nd vs ws.
Proof.
  intros S PK UN P L F E C. exists (concat es). intros pre more rest DL. split.
  - rewrite PK, P; [reflexivity|]. intros N. apply (delim_none' _ _ _ DL N).
  - rewrite UN, skipn_pre. unfold take_vals. destruct C as [N|N]; rewrite N.
    + destruct (delim_none' _ _ _ DL N) as [_ ->]. rewrite app_nil_r, take_all_ok by (auto; lia).
      rewrite E. cbn [length]. rewrite Nat.sub_0_r. reflexivity.
    + rewrite <- L, take_n_ok, pos_after, E by exact F. reflexivity.
Qed.
Lemma reduces_id sg size x y : in_range sg size x -> reduces sg size x y -> y = x.
Proof.
  unfold in_range, reduces. assert (P : 0 < 2 ^ (8 * Z.of_nat size)) by (apply Z.pow_pos_nonneg; lia).
  revert P. generalize (2 ^ (8 * Z.of_nat size)). intros m P R [[k K] Y].
  assert (k = 0); [|subst; lia]. destruct sg; nia.
Qed.
Lemma int_node nd sg size xs : tmpl nd = IntOf sg size -> good_size size -> Forall (in_range sg size) xs ->
  for_count (count nd) (length xs) -> back nd (map VInt xs) (map VInt xs).
Proof.
  intros T G F C. set (f := fun b => VInt (int_value sg (big nd) size b)).
  apply (back_take nd size f (pack_each (fun z => Some (int_bytes (big nd) size z))) xs (map (int_bytes (big nd) size) xs)).
  - unfold good_size in G. lia.
  - intros. unfold pack_node. rewrite T. reflexivity.
  - intros. unfold unpack_node. rewrite T. reflexivity.
  - intros more M. apply each_fwd; [|exact C|exact M]. apply Forall2_map_r. apply Forall_forall. reflexivity.
  - apply map_length.
  - apply Forall_forall. intros e E. apply in_map_iff in E as (x & <- & _). apply to_bytes_length.
  - rewrite map_map. apply map_ext_in. intros x X. unfold f. f_equal.
    rewrite Forall_forall in F. apply (reduces_id sg size); [apply F; exact X|]. apply int_back. exact G.
  - exact C.
Qed.
Lemma float_node nd xs : tmpl nd = F64 -> Forall (fun x => 0 <= x < 2 ^ 64) xs ->
  for_count (count nd) (length xs) -> back nd (map VFlt xs) (map VFlt xs).
Proof.
  intros T F C. apply (back_take nd 8 (fun b => VFlt (of_bytes (big nd) b)) (pack_floats (big nd)) xs (map (to_bytes (big nd) 8) xs)).
  - lia.
  - intros. unfold pack_node. rewrite T. reflexivity.
  - intros. unfold unpack_node. rewrite T. reflexivity.
  - intros more M. apply floats_fwd; assumption.
  - apply map_length.
  - apply Forall_forall. intros e E. apply in_map_iff in E as (x & <- & _). apply to_bytes_length.
  - rewrite map_map. apply map_ext_in. intros x X. f_equal. rewrite of_to_bytes.
    rewrite Forall_forall in F. apply Z.mod_small. apply F. exact X.
  - exact C.
Qed.

Lemma back_string nd f g s :
  (forall pre vs, pack_node nd pre vs =
     match pack_text text f vs with Some (b, vs') => Some (pre ++ b, vs') | None => None end) ->
  (forall str i, unode base str nd i =
     match g (skipn i str) with (t, rest) => Some ([VStr t], (length str - length rest)%nat) end) ->
  (forall rest, (count nd = None -> rest = []) -> g (f s ++ rest) = (s, rest)) ->
  back nd [VStr s] [VStr s].
Proof.
  intros PK UN E. exists (f s). intros pre more rest DL. split; [rewrite PK; reflexivity|].
  rewrite UN, skipn_pre, E, pos_after; [reflexivity|]. intros N. apply (delim_none' _ _ _ DL N).
Qed.
Lemma string_vals_eq f n l : string_vals f n l =
  (let p := match n with Some k => (f (firstn k l), skipn k l) | None => (f l, []) end in ([VStr (fst p)], snd p)).
Proof. destruct n; reflexivity. Qed.
Lemma string_node nd f g s :
  (forall pre vs, pack_node nd pre vs =
     match pack_text text f vs with Some (b, vs') => Some (pre ++ b, vs') | None => None end) ->
  (forall str i, unode base str nd i =
     match string_vals g (count nd) (skipn i str) with (vs, rest) => Some (vs, (length str - length rest)%nat) end) ->
  (forall k, count nd = Some k -> length (f s) = k) -> g (f s) = s -> back nd [VStr s] [VStr s].
Proof.
  intros PK UN L E.
  apply (back_string nd f (fun l => match count nd with Some k => (g (firstn k l), skipn k l) | None => (g l, []) end)).
  - exact PK.
  - intros str i. rewrite UN, string_vals_eq. cbv zeta. destruct (match count nd with Some k => _ | None => _ end). reflexivity.
  - intros rest R. destruct (count nd) as [k|].
    + rewrite (firstn_pre (f s) rest k), (skipn_pre2 (f s) rest k) by auto. rewrite E. reflexivity.
    + rewrite (R eq_refl), app_nil_r, E. reflexivity.
Qed.
Lemma encoded_node nd f g s get : get (VStr s) = Some s ->
  (forall pre vs, pack_node nd pre vs =
     match pack_text get f vs with Some (b, vs') => Some (pre ++ b, vs') | None => None end) ->
  (forall str i, unode base str nd i = Some ([VStr (g (skipn i str))], length str)) ->
  g (f s) = s -> ~ delimited nd -> back nd [VStr s] [VStr s].
Proof.
  intros GT PK UN E D. exists (f s). intros pre more rest DL. split.
  - rewrite PK. cbn [app pack_text]. rewrite GT. reflexivity.
  - destruct DL as [DL|[_ ->]]; [contradiction|]. rewrite app_nil_r, UN, skipn_pre, E. reflexivity.
Qed.

Lemma field_back nd vs : (forall sg size, tmpl nd = IntOf sg size -> good_size size) -> field nd vs -> back nd vs vs.
Proof.
  intros G F. destruct F as [xs N H C|xs T H C|s T C|s T R E|s T R Z|s T B W|s T H W|T C|s T B].
  - unfold numeric in N. destruct (tmpl nd) as [| | | | |sg size| | | | | | | | | | | | | | |] eqn:T; try contradiction.
    + apply int_node with (sg := sg) (size := size); [exact T|apply (G sg size); reflexivity|exact H|exact C].
    + apply utf8_node; auto.
    + assert (E : map i64 xs = xs).
      { rewrite <- (map_id xs) at 2. apply map_ext_in. intros x X. rewrite Forall_forall in H. apply H in X. cbn in X.
        apply i64_id. assert (0 < 2 ^ 63) by reflexivity. lia. }
      rewrite <- E at 2. apply ber_node; auto. eapply Forall_impl; [|exact H]. intros x X. apply X.
    + assert (E : map (fun x => x mod 2 ^ 64) xs = xs).
      { rewrite <- (map_id xs) at 2. apply map_ext_in. intros x X. rewrite Forall_forall in H. apply H in X.
        apply Z.mod_small. exact X. }
      rewrite <- E at 2. apply uleb_node; auto.
    + apply sleb_node; auto.
  - apply float_node; auto.
  - apply string_node with (f := fun s => match count nd with Some n => padded s n 0 | None => s end) (g := fun b => b).
    + intros. unfold pack_node. rewrite T. reflexivity.
    + intros. unfold unpack_node. rewrite T. reflexivity.
    + intros k ->. apply padded_length.
    + destruct C as [-> | ->]; [reflexivity|]. rewrite padded_room, Nat.sub_diag by lia. cbn. apply app_nil_r.
  - apply string_node with (f := fun s => match count nd with Some n => padded s n 32 | None => s end) (g := strip).
    + intros. unfold pack_node. rewrite T. reflexivity.
    + intros. unfold unpack_node. rewrite T. reflexivity.
    + intros k ->. apply padded_length.
    + destruct (count nd) as [k|]; [rewrite padded_room, strip_pad by exact R|]; apply strip_id; exact E.
  - apply string_node with (f := fun s => match count nd with Some n => padded s n 0 | None => s ++ [0] end) (g := until_nul).
    + intros. unfold pack_node. rewrite T. reflexivity.
    + intros. unfold unpack_node. rewrite T. reflexivity.
    + intros k ->. apply padded_length.
    + destruct (count nd) as [k|]; [rewrite padded_room by exact R|]; apply until_nul_id; auto.
      * destruct (k - length s)%nat; [left; reflexivity|right]. eexists. reflexivity.
      * right. eexists. reflexivity.
  - apply back_string with (f := fun s => bits_loop (big nd) s (match count nd with Some n => n | None => length s end) 0 0)
      (g := bit_chars (big nd) (count nd)).
    + intros. unfold pack_node. rewrite T. reflexivity.
    + intros. unfold unpack_node. rewrite T. destruct (bit_chars _ _ _). reflexivity.
    + intros rest Q. unfold bit_chars. destruct W as [-> | [W [k K]]]; [|rewrite W].
      * apply bits_back with (k := length s); auto.
      * rewrite (Q W), app_nil_r, (bits_back_star _ k) by assumption. reflexivity.
  - apply back_string with (f := fun s => hex_loop (big nd) s (match count nd with Some n => n | None => length s end) 0 false)
      (g := hex_chars (big nd) (count nd)).
    + intros. unfold pack_node. rewrite T. reflexivity.
    + intros. unfold unpack_node. rewrite T. destruct (hex_chars _ _ _). reflexivity.
    + intros rest Q. unfold hex_chars. destruct W as [-> | [W [k K]]]; [|rewrite W].
      * apply hexes_back with (k := length s); auto.
      * rewrite (Q W), app_nil_r, (hexes_back_star _ k) by assumption. reflexivity.
  - destruct (count nd) as [k|] eqn:K; [|contradiction]. exists (List.repeat 0 k). intros pre more rest _.
    unfold pack_node, unpack_node. rewrite T, K, skipn_pre. split; [reflexivity|].
    rewrite app_length, repeat_length. destruct (Nat.leb_spec k (k + length rest)); [|lia].
    rewrite app_length, repeat_length. reflexivity.
  - destruct T as [T|[T|[T|[]]]].
    + apply encoded_node with (f := fun s => base64_encode s (line_len_3 nd)) (g := base64_decode) (get := text_strict).
      * reflexivity.
      * intros. unfold pack_node. rewrite <- T. reflexivity.
      * intros. unfold unpack_node. rewrite <- T. reflexivity.
      * apply base64_back. exact B.
      * unfold delimited. rewrite <- T. auto.
    + apply encoded_node with (f := fun s => qp_encode s (line_len_qp nd)) (g := qp_decode) (get := text).
      * reflexivity.
      * intros. unfold pack_node. rewrite <- T. reflexivity.
      * intros. unfold unpack_node. rewrite <- T. reflexivity.
      * apply qp_back. exact B.
      * unfold delimited. rewrite <- T. auto.
    + apply encoded_node with (f := fun s => uu_encode s (line_len_3 nd)) (g := uu_decode) (get := text_strict).
      * reflexivity.
      * intros. unfold pack_node. rewrite <- T. reflexivity.
      * intros. unfold unpack_node. rewrite <- T. reflexivity.
      * apply uu_back; [exact B|]. unfold line_len_3. destruct (explicit nd); [|lia].
        destruct (repeat nd) as [n|]; [|lia]. destruct (Z.eqb_spec n 0); [lia|]. destruct (Z.leb_spec 3 n); lia.
      * unfold delimited. rewrite <- T. auto.
Qed.

Lemma fields_back nds vss : Forall2 (fun nd vs => back nd (fst vs) (snd vs)) nds vss -> delimited_but_last nds ->
  exists b, forall pre, pack_nodes nds pre (concat (map fst vss)) = Some (pre ++ b) /\
    unodes base (pre ++ b) nds (length pre) = Some (concat (map snd vss)).
Proof.
  induction 1 as [|nd vs nds vss [b B] F IH]; intros D.
  - exists []. intros pre. rewrite app_nil_r. split; reflexivity.
  - assert (D2 : delimited_but_last nds) by (cbn in D; destruct nds; [exact I|apply D]).
    destruct (IH D2) as [b' B']. exists (b ++ b'). intros pre. cbn [pack_nodes unpack_nodes concat map].
    assert (DL : delimited nd \/ concat (map fst vss) = [] /\ b' = []).
    { destruct nds as [|nd' nds]; [right|left; apply D]. inversion F; subst. split; [reflexivity|].
      specialize (B' []). cbn in B'. destruct B' as [E _]. injection E as <-. reflexivity. }
    destruct (B pre (concat (map fst vss)) b' DL) as [P U]. rewrite P, U.
    destruct (B' (pre ++ b)) as [P' U']. rewrite <- !app_assoc in P', U'. rewrite P', U'. split; reflexivity.
Qed.
Lemma record_back t nds vss : parse_template t = Some nds -> Forall2 field nds vss -> delimited_but_last nds ->
  exists b, pack (concat vss) t = Some b /\ unpack widen c_string fixed b t base = Some (concat vss).
Proof.
  intros P F D. unfold pack, unpack. rewrite P.
  assert (G : Forall (fun nd => forall sg size, tmpl nd = IntOf sg size -> good_size size) nds) by (apply (parse_sizes _ _ _ P)).
  assert (B : Forall2 (fun nd vs => back nd (fst vs) (snd vs)) nds (map (fun vs => (vs, vs)) vss)).
  { clear -F G. induction F as [|nd vs nds vss H F IH]; cbn; constructor.
    - inversion G; subst. apply field_back; assumption.
    - apply IH. inversion G; assumption. }
  destruct (fields_back nds _ B D) as [b H]. exists b. specialize (H []). cbn [app length] in H.
  rewrite !map_map in H. cbn [fst snd] in H. rewrite map_id in H. exact H.
Qed.
Lemma one_back t d n vs vs' : one t d n -> (forall nd, tmpl nd = d -> count nd = n -> back nd vs vs') ->
  exists b, pack vs t = Some b /\ unpack widen c_string fixed b t base = Some vs'.
Proof.
  intros (nd & P & T & C) B. destruct (B nd T C) as [b H]. exists b. unfold pack, unpack. rewrite P.
  destruct (H [] [] [] (or_intror (conj eq_refl eq_refl))) as [A U]. rewrite !app_nil_r in *.
  cbn [pack_nodes unpack_nodes app length] in *. rewrite A, U, app_nil_r. split; reflexivity.
Qed.

Lemma encoded_one t d n s : one t d n -> In d [Base64; QuotedPrintable; UuEncoded] -> bytes s ->
  exists b, pack [VStr s] t = Some b /\ unpack widen c_string fixed b t base = Some [VStr s].
Proof.
  intros O D B. apply (one_back t d n); [exact O|]. intros nd T C. apply field_back.
  - intros sg size E. rewrite E in T. subst d. destruct D as [D|[D|[D|[]]]]; discriminate.
  - apply f_encoded; [rewrite T; exact D|exact B].
Qed.
Lemma numbers_one t d n xs : one t d n -> In d [BerCompressedInt; UlebUnsigned; SlebSigned; Utf8] ->
  Forall (holds d) xs -> for_count n (length xs) ->
  exists b, pack (map VInt xs) t = Some b /\ unpack widen c_string fixed b t base = Some (map VInt xs).
Proof.
  intros O D H C. apply (one_back t d n); [exact O|]. intros nd T N. apply field_back.
  - intros sg size E. rewrite E in T. subst d. destruct D as [D|[D|[D|[D|[]]]]]; discriminate.
  - apply f_ints; [|rewrite T; exact H|rewrite N; exact C].
    rewrite T. destruct D as [<-|[<-|[<-|[<-|[]]]]]; exact I.
Qed.
Lemma ber_one t n xs : one t BerCompressedInt n -> Forall (fun x => 0 <= x) xs -> for_count n (length xs) ->
  exists b, pack (map VInt xs) t = Some b /\ unpack widen c_string fixed b t base = Some (map VInt (map i64 xs)).
Proof. intros O F C. apply (one_back t _ n _ _ O). intros nd T N. apply ber_node; try rewrite N; assumption. Qed.
Lemma uleb_one t n xs : one t UlebUnsigned n -> for_count n (length xs) ->
  exists b, pack (map VInt xs) t = Some b /\
    unpack widen c_string fixed b t base = Some (map VInt (map (fun x => x mod 2 ^ 64) xs)).
Proof. intros O C. apply (one_back t _ n _ _ O). intros nd T N. apply uleb_node; try rewrite N; assumption. Qed.
Lemma utf8_wrong t x : one t Utf8 (Some 1%nat) -> 2 ^ 21 <= x < 2 ^ 32 ->
  exists b, pack [VInt x] t = Some b /\ unpack widen c_string fixed b t base = None.
Proof.
  intros (nd & P & T & C) R. exists (utf8_encode_one x). unfold pack, unpack. rewrite P.
  cbn [pack_nodes unpack_nodes]. unfold pack_node, unpack_node. rewrite T, C. cbn [skipn].
  cbn [pack_each option_map pred]. assert (0 < 2 ^ 21) by reflexivity.
  assert (V : utf8_encode_value x = Some (utf8_encode_one x)).
  { unfold utf8_encode_value. destruct (Z.leb_spec 0 x); [|lia]. destruct (Z.leb_spec x (2 ^ 32 - 1)); [reflexivity|lia]. }
  rewrite V, app_nil_r. split; [reflexivity|].
  pose proof (utf8_cons x) as N. pose proof (utf8_long x [] R) as L. rewrite app_nil_r in L.
  unfold decode_vals. destruct (utf8_encode_one x) as [|b r]; [contradiction|]. cbn [decode_n]. rewrite L. reflexivity.
Qed.

(** ** C37 *)

Lemma unpack1_first s t nds nd v vs i vs' : parse_template t = Some (nd :: nds) ->
  unode base s nd 0 = Some (v :: vs, i) -> unpack widen c_string fixed s t base = Some vs' ->
  unpack1 widen c_string fixed s t base = Some v /\ exists r, vs' = v :: r.
Proof.
  intros P U A. unfold unpack in A. unfold unpack1. rewrite P in *. cbn [firstn unpack_nodes] in *. rewrite U in *.
  destruct (unodes base s nds i) as [r|]; [|discriminate]. injection A as <-.
  split; [reflexivity|]. eexists. reflexivity.
Qed.
Lemma unpack1_none s t nds nd i v vs : parse_template t = Some (nd :: nds) ->
  unode base s nd 0 = Some ([], i) -> unpack widen c_string fixed s t base = Some (v :: vs) ->
  unpack1 widen c_string fixed s t base = Some VNil.
Proof.
  intros P U A. unfold unpack1. rewrite P. cbn [firstn unpack_nodes]. rewrite U. reflexivity.
Qed.
(** When the template asks for one value at all, and more than positioning comes first, unpack1
    also succeeds where a later directive of unpack fails. *)
Lemma unpack1_total s t vs : unpack widen c_string fixed s t base = Some vs ->
  exists v, unpack1 widen c_string fixed s t base = Some v.
Proof.
  unfold unpack, unpack1. destruct (parse_template t) as [[|nd nds]|]; cbn [firstn unpack_nodes]; [eexists; reflexivity| |discriminate].
  destruct (unode base s nd 0) as [[[|v r] i]|]; cbn [app]; [eexists; reflexivity|eexists; reflexivity|discriminate].
Qed.
(** The directives that yield a value whatever is left of the string. *)
Lemma yields s nd i : (match tmpl nd with
    | IntOf _ _ | F64 | F32 => exists k, count nd = Some (S k)
    | Hex | Ascii | AsciiTrim | CString | Base64 | QuotedPrintable | UuEncoded | BitString | Offset => True
    | _ => False end) -> exists v vs j, unode base s nd i = Some (v :: vs, j).
Proof.
  intros H. unfold unpack_node, take_vals, string_vals. destruct (tmpl nd); try contradiction.
  all: try match type of H with ex _ => destruct H as [k ->]; cbn [take_n]; destruct (Nat.leb _ _) end.
  all: try match goal with |- context [take_n ?a ?f ?b ?c] => destruct (take_n a f b c) end.
  all: try match goal with |- context [hex_chars ?a ?b ?c] => destruct (hex_chars a b c) end.
  all: try match goal with |- context [bit_chars ?a ?b ?c] => destruct (bit_chars a b c) end.
  all: try match goal with |- context [count ?n] => destruct (count n) end.
  all: eexists _, _, _; reflexivity.
Qed.
End Fields.
