From Coq Require Import String Ascii ZArith List Bool Lia.
From Verif Require Import Utf8Spec Utf8Model Utf8Proofs IdModel EncModel MarshalModel MarshalSpec.
From Verif Require ValueModel.
Import ListNotations.
Open Scope Z_scope.
Ltac Zify.zify_post_hook ::= Z.to_euclidean_division_equations.

Local Arguments ascii : simpl never.
Local Arguments bs : simpl never.
Local Arguments Z.pow : simpl never.
Notation len l := (Z.of_nat (length l)).

(** * Numbers *)
Lemma le_len k x : length (le_bytes k x) = k.
Proof. revert x. induction k; intros; cbn; auto. Qed.
Lemma of_le_le k : forall x, of_le (le_bytes k x) = x mod 256 ^ Z.of_nat k.
Proof.
  induction k as [|k IH]; intros x.
  - cbn [le_bytes of_le]. change (256 ^ Z.of_nat 0) with 1. now rewrite Z.mod_1_r.
  - cbn [le_bytes of_le]. rewrite IH. unfold u8.
    replace (256 ^ Z.of_nat (S k)) with (256 * 256 ^ Z.of_nat k)
      by (rewrite Nat2Z.inj_succ, Z.pow_succ_r; lia).
    rewrite (Z.rem_mul_r x 256 (256 ^ Z.of_nat k)); [reflexivity | lia | apply Z.pow_pos_nonneg; lia].
Qed.
Lemma le_byte k x : Forall (fun b => 0 <= b <= 255) (le_bytes k x).
Proof.
  revert x. induction k; intros; cbn; constructor; auto. unfold u8.
  pose proof (Z.mod_pos_bound x 256). lia.
Qed.

Lemma to_i32_id n : - 2 ^ 31 <= n < 2 ^ 31 -> to_i32 n = n.
Proof.
  intros. unfold to_i32. change (2 ^ 31) with 2147483648 in *. change (2 ^ 32) with 4294967296.
  cbv zeta. destruct (n mod 4294967296 <? 2147483648) eqn:E; [apply Z.ltb_lt in E | apply Z.ltb_ge in E]; lia.
Qed.
Lemma to_i32_mod n : to_i32 (n mod 2 ^ 32) = to_i32 n.
Proof. unfold to_i32. now rewrite Z.mod_mod by lia. Qed.
Lemma to_i32_add n : to_i32 (2 ^ 32 + n) = to_i32 n.
Proof. unfold to_i32. replace (2 ^ 32 + n) with (n + 1 * 2 ^ 32) by lia. now rewrite Z.mod_add by lia. Qed.

(** * Reading what was written *)
Definition tri : Type := (list sym * list val * heap)%type.
Definition st (p : Z) (r : list Z) (s : tri) : rst := mkr p r (fst (fst s)) (snd (fst s)) (snd s).
(** [m] reads exactly the bytes [out] whatever follows them. *)
Definition reads {A} (m : R A) (out : list Z) (s : tri) (a : A) (s' : tri) : Prop :=
  forall p tl, 0 <= p -> p + len out + len tl < 2 ^ 63 ->
  m (st p (out ++ tl) s) = Ok (a, st (p + len out) tl s').

Lemma reads_ret {A} (a : A) s : reads (ret a) [] s a s.
Proof. intros p tl h0 h1. cbn [app length Z.of_nat]. now rewrite Z.add_0_r. Qed.
Lemma reads_bind {A B} (m : R A) (k : A -> R B) o1 o2 s s1 s2 a b :
  reads m o1 s a s1 -> reads (k a) o2 s1 b s2 -> reads (bind m k) (o1 ++ o2) s b s2.
Proof.
  intros h1 h2 p tl hp hl. unfold bind. rewrite app_length, Nat2Z.inj_add in *.
  rewrite <- app_assoc, (h1 p (o2 ++ tl) hp) by (rewrite app_length, Nat2Z.inj_add; lia).
  rewrite h2 by lia. do 2 f_equal. f_equal. lia.
Qed.
Lemma reads_bind0 {A B} (m : R A) (k : A -> R B) o s s1 s2 a b :
  reads m [] s a s1 -> reads (k a) o s1 b s2 -> reads (bind m k) o s b s2.
Proof. intros h1 h2. exact (reads_bind m k [] o s s1 s2 a b h1 h2). Qed.
Lemma reads_bindr {A B} (m : R A) (k : A -> R B) o s s1 s2 a b :
  reads m o s a s1 -> reads (k a) [] s1 b s2 -> reads (bind m k) o s b s2.
Proof. intros h1 h2. rewrite <- (app_nil_r o). exact (reads_bind m k o [] s s1 s2 a b h1 h2). Qed.

Lemma reads_byte b s : reads read_byte [b] s b s.
Proof. intros p tl h0 h1. reflexivity. Qed.
Lemma reads_peek {A} (k : Z -> R A) b o s a s' : reads (k b) (b :: o) s a s' -> reads (peek k) (b :: o) s a s'.
Proof. intros h p tl h0 h1. exact (h p tl h0 h1). Qed.
Lemma reads_skip {A} (m : R A) b o s a s' : reads m o s a s' -> reads (skip m) (b :: o) s a s'.
Proof. intros h. exact (reads_bind read_byte (fun _ => m) [b] o s s s' b a (reads_byte b s) h). Qed.

Lemma firstn_exact {A} (l r : list A) : firstn (length l) (l ++ r) = l.
Proof. induction l; cbn; [destruct r; reflexivity | now f_equal]. Qed.

Lemma reads_bytes l s : reads (read_bytes (len l)) l s l s.
Proof.
  intros p tl h0 h1. unfold read_bytes, st. cbn [pos rest rsyms robjs rheap].
  rewrite app_length, Nat2Z.inj_add. change (2 ^ 63) with 9223372036854775808 in h1.
  change (2 ^ 64) with 18446744073709551616.
  rewrite Z.mod_small by lia.
  destruct (_ <? _) eqn:E1; [apply Z.ltb_lt in E1; lia|].
  destruct (p + len l <? p) eqn:E2; [apply Z.ltb_lt in E2; lia|]. cbv zeta.
  rewrite Nat2Z.id, firstn_exact, skipn_exact. reflexivity.
Qed.
Lemma reads_bytes' n l s : n = len l -> reads (read_bytes n) l s l s.
Proof. intros ->. apply reads_bytes. Qed.

Ltac boolz :=
  repeat match goal with
  | H : (_ && _) = true |- _ => apply andb_true_iff in H; destruct H
  | H : (_ =? _) = true |- _ => apply Z.eqb_eq in H
  | H : (_ =? _) = false |- _ => apply Z.eqb_neq in H
  | H : (_ <? _) = true |- _ => apply Z.ltb_lt in H
  | H : (_ <? _) = false |- _ => apply Z.ltb_ge in H
  | H : (_ <=? _) = true |- _ => apply Z.leb_le in H
  | H : (_ <=? _) = false |- _ => apply Z.leb_gt in H
  end.

Lemma eqb_f a b : a <> b -> (a =? b) = false. Proof. apply Z.eqb_neq. Qed.
Lemma leb_t a b : a <= b -> (a <=? b) = true. Proof. apply Z.leb_le. Qed.
Lemma leb_f a b : b < a -> (a <=? b) = false. Proof. apply Z.leb_gt. Qed.

Lemma reads_fix_one n b s : 0 <= b < 256 -> b <> 0 ->
  (b < 128 -> 4 < b /\ n = b - 5) -> (128 <= b -> b < 252 /\ n = b - 256 + 5) -> reads read_fixnum [b] s n s.
Proof.
  intros h0 h1 h2 h3. unfold read_fixnum. eapply reads_bindr; [apply reads_byte|]. cbv zeta.
  destruct (b <? 128) eqn:E; boolz.
  - rewrite eqb_f, ltb_t, leb_f by lia. replace n with (b - 5) by lia. apply reads_ret.
  - rewrite eqb_f, ltb_f, leb_f by lia. replace n with (b - 256 + 5) by lia. apply reads_ret.
Qed.
Lemma reads_fix_pos n k s : 1 <= k <= 4 -> 0 <= n < 2 ^ 31 -> n < 256 ^ k ->
  reads read_fixnum (k :: le_bytes (Z.to_nat k) n) s n s.
Proof.
  intros hk hn hb. unfold read_fixnum.
  change (k :: le_bytes (Z.to_nat k) n) with ([k] ++ le_bytes (Z.to_nat k) n).
  eapply reads_bind; [apply reads_byte|]. cbv zeta.
  rewrite (ltb_t k 128), eqb_f, ltb_t, leb_t by lia.
  eapply reads_bindr; [apply reads_bytes'; rewrite le_len; lia|].
  rewrite of_le_le, Z2Nat.id, Z.mod_small, to_i32_id by lia. apply reads_ret.
Qed.
Lemma reads_fix_neg n k s : 1 <= k <= 4 -> - 2 ^ 31 <= n < 0 -> - 256 ^ k <= n ->
  reads read_fixnum (u8 (- k) :: le_bytes (Z.to_nat k) n) s n s.
Proof.
  intros hk hn hb. unfold read_fixnum.
  change (u8 (- k) :: le_bytes (Z.to_nat k) n) with ([u8 (- k)] ++ le_bytes (Z.to_nat k) n).
  eapply reads_bind; [apply reads_byte|]. cbv zeta.
  assert (E : u8 (- k) = 256 - k) by (unfold u8; lia). rewrite E.
  rewrite (ltb_f (256 - k) 128), eqb_f, ltb_f, leb_t by lia.
  replace (- (256 - k - 256)) with k by lia.
  eapply reads_bindr; [apply reads_bytes'; rewrite le_len; lia|].
  rewrite of_le_le, Z2Nat.id by lia.
  replace (to_i32 (2 ^ 32 - 256 ^ k + n mod 256 ^ k)) with n; [apply reads_ret|].
  assert (0 < 256 ^ k) by (apply Z.pow_pos_nonneg; lia).
  assert (M : n mod 256 ^ k = n + 256 ^ k).
  { symmetry. apply Z.mod_unique with (-1); [left; lia|]. lia. }
  rewrite M. replace (2 ^ 32 - 256 ^ k + (n + 256 ^ k)) with (2 ^ 32 + n) by lia.
  now rewrite to_i32_add, to_i32_id by lia.
Qed.

(** 1204-1243 and 208-252 are inverse. *)
Lemma reads_fixnum n s : - 2 ^ 31 <= n < 2 ^ 31 -> reads read_fixnum (w_fixnum n) s n s.
Proof.
  intros h. unfold w_fixnum. destruct (n =? 0) eqn:E0; boolz.
  { subst. unfold read_fixnum. eapply reads_bindr; [apply reads_byte|]. apply reads_ret. }
  destruct ((0 <? n) && (n <=? 122)) eqn:E1; boolz.
  { assert (u8 (n + 5) = n + 5) by (unfold u8; lia). apply reads_fix_one; lia. }
  destruct ((n <? 0) && (-123 <=? n)) eqn:E2; boolz.
  { assert (u8 (n - 5) = n - 5 + 256) by (unfold u8; lia). apply reads_fix_one; lia. }
  apply andb_false_iff in E1, E2. destruct (0 <? n) eqn:E3; boolz; cbv zeta.
  - destruct (n <=? 255) eqn:?; boolz; [apply reads_fix_pos; lia|].
    destruct (n <=? 65535) eqn:?; boolz; [apply reads_fix_pos; lia|].
    destruct (n <=? 16777215) eqn:?; boolz; apply reads_fix_pos; lia.
  - destruct (-256 <=? n) eqn:?; boolz; [apply reads_fix_neg; lia|].
    destruct (-65536 <=? n) eqn:?; boolz; [apply reads_fix_neg; lia|].
    destruct (-16777216 <=? n) eqn:?; boolz; apply reads_fix_neg; lia.
Qed.
Lemma w_fixnum_len n : (1 <= length (w_fixnum n))%nat.
Proof.
  unfold w_fixnum. destruct (_ =? _); [cbn; lia|]. destruct (_ && _); [cbn; lia|]. destruct (_ && _); [cbn; lia|].
  destruct (_ <? _); cbn [length]; lia.
Qed.

Lemma usize_id n : 0 <= n < 2 ^ 63 -> to_usize n = n.
Proof. intros. unfold to_usize. apply Z.mod_small. lia. Qed.
Lemma len_i32_id {A} (l : list A) : len l < 2 ^ 31 -> len_i32 l = len l.
Proof. intros. apply to_i32_id. lia. Qed.

Lemma reads_blob l s : len l < 2 ^ 31 -> reads read_blob (w_fixnum (len_i32 l) ++ l) s l s.
Proof.
  intros h. unfold read_blob. rewrite len_i32_id by auto.
  eapply reads_bind; [apply reads_fixnum; lia|]. rewrite usize_id by lia. apply reads_bytes.
Qed.

Lemma reads_push_sym x sy ob H : reads (push_rsym x) [] (sy, ob, H) tt (sy ++ [x], ob, H).
Proof. intros p tl _ _. unfold st. cbn. now rewrite Z.add_0_r. Qed.
Lemma reads_push_obj x sy ob H : reads (push_robj x) [] (sy, ob, H) tt (sy, ob ++ [x], H).
Proof. intros p tl _ _. unfold st. cbn. now rewrite Z.add_0_r. Qed.
Lemma reads_alloc o sy ob H : reads (alloc o) [] (sy, ob, H) (length H) (sy, ob, H ++ [o]).
Proof. intros p tl _ _. unfold st. cbn. now rewrite Z.add_0_r. Qed.
Lemma nth_mid {A} (H T : list A) o : nth_error (H ++ o :: T) (length H) = Some o.
Proof. rewrite nth_error_app2, Nat.sub_diag by lia. reflexivity. Qed.
Lemma set_mid {A} (H T : list A) o o' : set_nth (H ++ o :: T) (length H) o' = H ++ o' :: T.
Proof. induction H; cbn; [reflexivity | now f_equal]. Qed.
Lemma reads_update sy ob H o T f :
  reads (update (length H) f) [] (sy, ob, H ++ o :: T) tt (sy, ob, H ++ f o :: T).
Proof.
  intros p tl _ _. unfold update, st. cbn [fst snd rheap pos rest rsyms robjs app].
  rewrite nth_mid, set_mid. cbn. now rewrite Z.add_0_r.
Qed.

(** * Bignums *)
Lemma of_le_app l r : of_le (l ++ r) = of_le l + 256 ^ len l * of_le r.
Proof.
  induction l as [|b l IH]; cbn [app of_le length].
  - change (256 ^ Z.of_nat 0) with 1. lia.
  - rewrite IH, Nat2Z.inj_succ, Z.pow_succ_r by lia. lia.
Qed.
Lemma mag_val m : 0 <= m -> of_le (mag_bytes m) = m.
Proof.
  intros h. unfold mag_bytes. rewrite of_le_le. apply Z.mod_small. split; [lia|].
  rewrite Z2Nat.id by (pose proof (Z.log2_nonneg m); lia).
  destruct (Z.eq_dec m 0) as [->|hn]; [apply Z.pow_pos_nonneg; cbn; lia|].
  replace 256 with (2 ^ 8) by reflexivity. rewrite <- Z.pow_mul_r by (pose proof (Z.log2_nonneg m); lia).
  pose proof (Z.log2_spec m ltac:(lia)) as [_ hs].
  eapply Z.lt_le_trans; [exact hs|]. apply Z.pow_le_mono_r; lia.
Qed.
Lemma pow256_pos n : 0 <= n -> 0 < 256 ^ n. Proof. intros. apply Z.pow_pos_nonneg; lia. Qed.

Definition big_val (n : Z) : R val := new_int n.
Lemma read_bignum_ok n b sy ob H v H' :
  w_bignum n = b -> len (mag_bytes (Z.abs n)) < 2 ^ 32 - 1 ->
  reads (new_int n) [] (sy, ob, H) v (sy, ob, H') ->
  reads read_bignum (tl b) (sy, ob, H) v (sy, ob ++ [v], H').
Proof.
  intros <- hl hv. unfold w_bignum in *. cbv zeta in *. cbn [app tl].
  set (le := mag_bytes (Z.abs n)) in *.
  set (pad := if len le mod 2 =? 0 then [] else [0]) in *.
  set (words := (len le + 1) / 2) in *.
  assert (hp : len (le ++ pad) = words * 2).
  { rewrite app_length, Nat2Z.inj_add. unfold pad, words. destruct (len le mod 2 =? 0) eqn:E; boolz; cbn [length]; lia. }
  assert (hw : 0 <= words < 2 ^ 31).
  { change (2 ^ 32) with (2 * 2 ^ 31) in hl. unfold words. lia. }
  unfold read_bignum.
  change ((if n <? 0 then 45 else 43) :: w_fixnum (to_i32 words) ++ le ++ pad)
    with ([if n <? 0 then 45 else 43] ++ (w_fixnum (to_i32 words) ++ (le ++ pad))).
  eapply reads_bind; [apply reads_byte|].
  rewrite to_i32_id by lia.
  eapply reads_bind; [apply reads_fixnum; lia|].
  eapply reads_bindr.
  { apply reads_bytes'. rewrite usize_id by lia. rewrite Z.mod_small by lia. lia. }
  assert (E : of_le (le ++ pad) = Z.abs n).
  { rewrite of_le_app. unfold le at 1. rewrite mag_val by lia.
    unfold pad. destruct (_ =? _); cbn [of_le]; lia. }
  rewrite E.
  replace (if (if n <? 0 then 45 else 43) =? 45 then - Z.abs n else Z.abs n) with n
    by (destruct (n <? 0) eqn:Q; boolz; cbn; lia).
  eapply reads_bind0; [exact hv|]. eapply reads_bind0; [apply reads_push_obj|]. apply reads_ret.
Qed.

Lemma bignum_room n : len (w_bignum n) < 2 ^ 31 -> len (mag_bytes (Z.abs n)) < 2 ^ 32 - 1.
Proof. unfold w_bignum. cbv zeta. rewrite !app_length, !Nat2Z.inj_add. cbn [length]. lia. Qed.

Lemma is_i63_iff n : - 2 ^ 63 <= n < 2 ^ 63 -> (ValueModel.is_i63 n = true <-> small n).
Proof.
  intros h. unfold ValueModel.is_i63, ValueModel.u64_of_i64, small, ValueModel.word64.
  rewrite Z.eqb_eq. set (u := n mod 2 ^ 64).
  assert (hu : (0 <= n /\ u = n) \/ (n < 0 /\ u = n + 2 ^ 64)) by (unfold u; lia). clearbody u.
  rewrite !Z.shiftr_div_pow2 by lia.
  assert (u / 2 ^ 62 = 0 /\ u / 2 ^ 63 = 0 \/ u / 2 ^ 62 = 1 /\ u / 2 ^ 63 = 0 \/
          u / 2 ^ 62 = 2 /\ u / 2 ^ 63 = 1 \/ u / 2 ^ 62 = 3 /\ u / 2 ^ 63 = 1) as D by lia.
  destruct D as [[E1 E2]|[[E1 E2]|[[E1 E2]|[E1 E2]]]]; rewrite E1, E2; cbn; lia.
Qed.
Lemma new_int_big n sy ob H : ~ small n ->
  reads (new_int n) [] (sy, ob, H) (VRef (length H)) (sy, ob, H ++ [OBig n]).
Proof.
  intros h. unfold new_int.
  destruct ((- 2 ^ 63 <=? n) && (n <? 2 ^ 63) && ValueModel.is_i63 n) eqn:E.
  - apply andb_true_iff in E as [E1 E2]. boolz. exfalso. apply h, is_i63_iff; auto.
  - eapply reads_bind0; [apply reads_alloc|]. apply reads_ret.
Qed.
Lemma new_int_small n sy ob H : small n -> reads (new_int n) [] (sy, ob, H) (VFix n) (sy, ob, H).
Proof.
  intros h. unfold new_int. assert (- 2 ^ 63 <= n < 2 ^ 63) by (unfold small in h; lia).
  rewrite leb_t, ltb_t by lia. rewrite (proj2 (is_i63_iff n ltac:(lia)) h). apply reads_ret.
Qed.

(** * Symbols *)
Lemma utf8_valid_ok b : utf8_valid b -> utf8_ok b = true.
Proof.
  intros h. apply utf8_ok_iff; auto. apply valid_bytes in h.
  eapply Forall_impl; [|exact h]. cbn. lia.
Qed.
Lemma ascii_iff b : ascii b = true <-> Forall (fun x => x < 128) b.
Proof.
  unfold ascii. rewrite forallb_forall, Forall_forall. split; intros h x hx; specialize (h x hx).
  - now apply Z.ltb_lt. - now apply Z.ltb_lt.
Qed.
Lemma position_spec {A} (p : A -> bool) l : forall i, match position p l i with
  | Some j => i <= j < i + len l /\ exists x, nth_error l (Z.to_nat (j - i)) = Some x /\ p x = true
  | None => Forall (fun x => p x = false) l end.
Proof.
  induction l as [|x l IH]; intros i; cbn [position]; [constructor|].
  destruct (p x) eqn:E.
  - cbn [length]. split; [lia|]. exists x. rewrite Z.sub_diag. auto.
  - specialize (IH (i + 1)). destruct (position p l (i + 1)) as [j|]; [|constructor; auto].
    destruct IH as [h1 (y & h2 & h3)]. cbn [length]. split; [lia|]. exists y. split; [|exact h3].
    replace (Z.to_nat (j - i)) with (S (Z.to_nat (j - (i + 1)))) by lia. exact h2.
Qed.

Lemma wseq_inv a b s out s' : wseq a b s = Some (out, s') ->
  exists o1 s1 o2, a s = Some (o1, s1) /\ b s1 = Some (o2, s') /\ out = o1 ++ o2.
Proof.
  unfold wseq. intros h. destruct (a s) as [[o1 s1]|]; [|discriminate].
  destruct (b s1) as [[o2 s2]|] eqn:E; [|discriminate]. injection h as <- <-. eauto 8.
Qed.
Ltac winv H :=
  let o1 := fresh "o" in let s1 := fresh "s" in let o2 := fresh "o" in
  let h1 := fresh "w" in let h2 := fresh "w" in let e := fresh "eo" in
  apply wseq_inv in H as (o1 & s1 & o2 & h1 & h2 & e).

(** The forms a symbol is written in. *)
Inductive sform (s : sym) : list sym -> list Z -> list sym -> Prop :=
| sf_link sy i : 0 <= i < len sy -> nth_error sy (Z.to_nat i) = Some s ->
    sform s sy ([59] ++ w_fixnum (to_i32 i)) sy
| sf_plain sy : sform s sy ([58] ++ w_fixnum (len_i32 (sym_bytes s)) ++ sym_bytes s) (sy ++ [s]).
Lemma w_symbol0_form s sy ob out sy' ob' :
  w_symbol0 s (sy, ob) = Some (out, (sy', ob')) -> ob' = ob /\ sform s sy out sy'.
Proof.
  unfold w_symbol0, w_symlink. cbn [fst].
  pose proof (position_spec (fun x => if sym_dec x s then true else false) sy 0) as P.
  destruct (position _ sy 0) as [i|].
  - intros E. injection E as <- <- <-. split; [reflexivity|]. destruct P as [P1 (x & P2 & P3)].
    rewrite Z.sub_0_r in P2. destruct (sym_dec x s) as [->|]; [|discriminate]. constructor; auto. 
  - unfold wseq, wput, push_sym. cbn [fst snd]. intros E. injection E as <- <- <-.
    split; [reflexivity|]. rewrite app_nil_r. constructor.
Qed.

Lemma reads_new_symbol s sy ob H : len (sym_bytes s) < 2 ^ 31 ->
  intern (sym_bytes s) (if ascii (sym_bytes s) then UsAscii else Ascii8) = s ->
  reads read_new_symbol (w_fixnum (len_i32 (sym_bytes s)) ++ sym_bytes s) (sy, ob, H) s (sy ++ [s], ob, H).
Proof.
  intros h1 h2. unfold read_new_symbol. eapply reads_bindr; [apply reads_blob; auto|]. rewrite h2.
  eapply reads_bind0; [apply reads_push_sym|]. apply reads_ret.
Qed.
Lemma reads_sym_ref s i sy ob H : 0 <= i < len sy -> len sy < 2 ^ 31 -> nth_error sy (Z.to_nat i) = Some s ->
  reads read_sym_ref (w_fixnum (to_i32 i)) (sy, ob, H) s (sy, ob, H).
Proof.
  intros h1 h2 h3. unfold read_sym_ref. rewrite to_i32_id by lia.
  eapply reads_bindr; [apply reads_fixnum; lia|]. rewrite usize_id by lia.
  intros p tl _ _. unfold st. cbn [fst snd rsyms app length Z.of_nat]. rewrite ltb_t by lia. rewrite h3.
  now rewrite Z.add_0_r.
Qed.

(** A symbol that the plain form keeps. *)
Definition plain_sym (s : sym) : Prop := intern (sym_bytes s) (if ascii (sym_bytes s) then UsAscii else Ascii8) = s.
Lemma read_symbol_form rd s sy out sy' ob H : sform s sy out sy' -> plain_sym s \/ sy' = sy ->
  len sy + len out < 2 ^ 31 -> reads (read_symbol rd) out (sy, ob, H) s (sy', ob, H).
Proof.
  intros f hp hl. destruct f as [sy i h1 h2|sy].
  - cbn [app] in *. cbn [length] in hl. unfold read_symbol. apply reads_peek. cbn [Z.eqb Pos.eqb]. apply reads_skip.
    apply reads_sym_ref; auto. lia.
  - cbn [app] in *. cbn [length] in hl. rewrite app_length in hl. unfold read_symbol.
    apply reads_peek. cbn [Z.eqb Pos.eqb]. apply reads_skip. apply reads_new_symbol; [lia|].
    destruct hp as [hp|hp]; [exact hp|]. apply (f_equal (@length _)) in hp. rewrite app_length in hp. cbn in hp. lia.
Qed.
Lemma ascii_plain b : ascii b = true -> plain_sym (SStr b).
Proof.
  intros h. unfold plain_sym. cbn [sym_bytes]. rewrite h. cbn [intern].
  rewrite utf8_ok_ascii; auto. now apply ascii_iff.
Qed.
Lemma times_one {A} (acc : A) f out s b s' : reads (f acc) out s b s' -> reads (times 1 acc f) out s b s'.
Proof.
  intros h p tl h0 h1. unfold times. change (rest (st p (out ++ tl) s)) with (out ++ tl).
  cbn [times_fuel]. change (1 <=? 0) with false. cbv iota.
  unfold bind. rewrite (h p tl h0 h1). destruct (length (out ++ tl)); reflexivity.
Qed.

(** The encoding pair of the three basic encodings, after a count of one. *)
Definition basic_enc (e : encoding) : Prop := In e [Ascii8; Utf8; UsAscii].
Definition enc_byte (e : encoding) : Z := match e with Utf8 => 84 | _ => 70 end.
Lemma w_enc_pair_form e sy ob out sy' ob' : basic_enc e -> w_enc_pair e (sy, ob) = Some (out, (sy', ob')) ->
  ob' = ob /\ exists o1, out = o1 ++ [enc_byte e] /\ sform (SStr (bs "E")) sy o1 sy'.
Proof.
  intros he h.
  assert (E : w_enc_pair e = wseq (w_symbol0 (SStr (bs "E"))) (wput [enc_byte e]))
    by (destruct he as [<-|[<-|[<-|[]]]]; reflexivity).
  rewrite E in h. winv h. destruct s as [sy1 ob1]. apply w_symbol0_form in w as [-> f].
  injection w0 as <- <- <-. eauto.
Qed.
Lemma reads_enc_pair rd e acc sy out sy' ob ob' H : basic_enc e -> e <> Ascii8 ->
  w_enc_pair e (sy, ob) = Some (out, (sy', ob')) -> len sy + len out < 2 ^ 31 ->
  reads (enc_ivar rd acc) out (sy, ob, H) (e, snd acc) (sy', ob, H).
Proof.
  intros he hn hw hl. apply w_enc_pair_form in hw as [-> (o1 & -> & f)]; auto.
  rewrite app_length, Nat2Z.inj_add in hl. cbn [length] in hl.
  unfold enc_ivar. eapply reads_bind; [eapply read_symbol_form; [exact f | left; now apply ascii_plain | lia]|].
  destruct (bytes_dec (sym_name (SStr (bs "E"))) (bs "E")) as [_|n]; [|now destruct n].
  apply reads_peek. destruct he as [<-|[<-|[<-|[]]]]; [congruence | |]; cbn [enc_byte Z.eqb Pos.eqb];
    apply reads_skip, reads_ret.
Qed.

(** [w_symbol] in general: also the wrapped form. *)
Inductive sform' (s : sym) (sy : list sym) (out : list Z) (sy' : list sym) : Prop :=
| sf_sform : sform s sy out sy' -> plain_sym s \/ sy' = sy -> sform' s sy out sy'
| sf_wrap o : out = [73; 58] ++ (w_fixnum (len_i32 (sym_bytes s)) ++ sym_bytes s) ++ w_fixnum 1 ++ o ++ [84] ->
    sform (SStr (bs "E")) (sy ++ [s]) o sy' -> ascii (sym_bytes s) = false -> s = SStr (sym_bytes s) ->
    sform' s sy out sy'.
Lemma w_symbol_form s sy ob out sy' ob' : sym_ok s ->
  w_symbol s (sy, ob) = Some (out, (sy', ob')) -> ob' = ob /\ sform' s sy out sy'.
Proof.
  intros hs h. unfold w_symbol in h. destruct (ascii (sym_bytes s) || _) eqn:E.
  - apply w_symbol0_form in h as [-> f]. split; [reflexivity | constructor; [exact f|left]].
    destruct s as [b|b e]; cbn in hs, E |- *.
    + rewrite orb_comm in E. cbn in E. destruct (enc_dec Utf8 Ascii8) in E; [discriminate|]. now apply ascii_plain.
    + destruct hs as [-> hs]. unfold plain_sym. cbn. destruct (ascii b) eqn:Q; [|reflexivity].
      apply ascii_iff in Q. contradiction.
  - apply orb_false_iff in E as [E1 E2]. destruct s as [b|b e].
    2: { cbn in hs. destruct hs as [-> _]. cbn in E2. destruct (enc_dec Ascii8 Ascii8); [discriminate|congruence]. }
    unfold w_symlink in h. cbn [fst] in h.
    pose proof (position_spec (fun x => if sym_dec x (SStr b) then true else false) sy 0) as P.
    destruct (position _ sy 0) as [i|].
    + injection h as <- <- <-. split; [reflexivity|]. destruct P as [P1 (x & P2 & P3)].
      rewrite Z.sub_0_r in P2. destruct (sym_dec x (SStr b)) as [->|]; [|discriminate].
      constructor; [constructor; auto | now right].
    + winv h. winv w0. winv w2. subst. injection w as <- <-. injection w1 as <- <-. injection w0 as <- <-.
      apply w_enc_pair_form in w3 as [-> (o' & -> & f)]; [|right; left; reflexivity].
      split; [reflexivity|]. cbn [fst snd sym_enc enc_byte] in *.
      eapply sf_wrap with (o := o'); auto.
Qed.
Lemma sform_len s sy out sy' : sform s sy out sy' -> (2 <= length out)%nat /\ exists n, sy' = sy ++ n /\ (length n + 1 <= length out)%nat.
Proof.
  intros [sy0 i h1 h2|sy0]; cbn [app length].
  - pose proof (w_fixnum_len (to_i32 i)). split; [lia|]. exists []. rewrite app_nil_r. cbn. split; [auto|lia].
  - rewrite app_length. pose proof (w_fixnum_len (len_i32 (sym_bytes s))).
    split; [lia|]. exists [s]. cbn. split; [auto|lia].
Qed.
Lemma sform'_len s sy out sy' : sform' s sy out sy' -> (2 <= length out)%nat /\ exists n, sy' = sy ++ n /\ (length n + 1 <= length out)%nat.
Proof.
  intros [f _|o -> f _ _]; [now apply sform_len in f|]. apply sform_len in f as [h (n & -> & h')].
  rewrite !app_length in *. cbn [length] in *. split; [lia|]. exists ([s] ++ n). rewrite app_assoc. split; auto.
  rewrite app_length. cbn [length]. lia.
Qed.
Lemma set_last {A} (l : list A) x y r : set_nth (l ++ x :: r) (length l) y = l ++ y :: r.
Proof. induction l; cbn; [reflexivity | now f_equal]. Qed.

Section Sim.
Variables (prs : list Z -> option Z) (plain sub : list Z -> bool) (deep : heap -> nat -> nat -> bool).
Notation step := (read_step prs plain sub deep).
Notation rdv := (read_value prs plain sub deep).

(** Reading a symbol as a value. *)
Lemma read_sym_value rd s sy out sy' ob H : sym_ok s -> sform' s sy out sy' -> len sy + len out < 2 ^ 31 ->
  reads (step rd) out (sy, ob, H) (VSym s) (sy', ob, H).
Proof.
  intros hs f hl. destruct f as [f hp|o -> f ha hq].
  - destruct f as [sy i h1 h2|sy]; unfold read_step; (eapply reads_bind; [apply reads_byte|]);
      cbn [Z.eqb Pos.eqb app length] in *.
    + eapply reads_bindr; [apply reads_sym_ref; eauto; lia|]. apply reads_ret.
    + rewrite app_length in hl. eapply reads_bindr; [apply reads_new_symbol; [lia|]|apply reads_ret].
      destruct hp as [hp|hp]; [exact hp|]. apply (f_equal (@length _)) in hp. rewrite app_length in hp. cbn in hp. lia.
  - rewrite !app_length in hl. cbn [length] in hl.
    unfold read_step. change ([73; 58] ++ ?x) with ([73] ++ (58 :: x)). eapply reads_bind; [apply reads_byte|].
    cbn [Z.eqb Pos.eqb]. unfold read_ivar_wrapped. apply reads_peek. cbn [Z.eqb Pos.eqb]. apply reads_skip.
    eapply reads_bind; [apply reads_blob; lia|].
    eapply reads_bind0 with (a := length sy) (s1 := (sy, ob, H)).
    { intros p tl _ _. unfold count_rsyms, st. cbn. now rewrite Z.add_0_r. }
    eapply reads_bind0; [apply reads_push_sym|].
    assert (hne : s <> SStr (bs "E")) by (intros ->; cbn in ha; discriminate).
    assert (X : exists sy2, sform (SStr (bs "E")) (sy ++ [SStr []]) o sy2 /\ set_nth sy2 (length sy) s = sy' /\
                            (length sy2 = length sy')%nat).
    { inversion f as [sy0 i h1 h2 e1 e2 e3|sy0 e1 e2 e3]; subst.
      - exists (sy ++ [SStr []]). rewrite set_last, !app_length. split; [|auto]. 
        assert (i <> len sy).
        { intros ->. rewrite Nat2Z.id, nth_mid in h2. congruence. }
        rewrite app_length in h1. cbn [length] in h1. constructor.
        + rewrite app_length. cbn [length]. lia.
        + rewrite nth_error_app1 in h2 |- * by lia. exact h2.
      - exists ((sy ++ [SStr []]) ++ [SStr (bs "E")]). split; [constructor|].
        rewrite <- !app_assoc. cbn [app]. rewrite set_last, !app_length. auto. }
    destruct X as (sy2 & f2 & e2 & l2).
    eapply reads_bindr with (a := (Utf8, [])) (s1 := (sy2, ob, H)).
    { unfold read_enc_ivars. eapply reads_bind; [apply reads_fixnum; lia|].
      change (to_usize 1) with 1. apply times_one. unfold enc_ivar.
      eapply reads_bind.
      { eapply read_symbol_form; [exact f2 | left; now apply ascii_plain |].
        rewrite app_length. cbn [length]. lia. }
      destruct (bytes_dec (sym_name (SStr (bs "E"))) (bs "E")) as [_|n]; [|now destruct n].
      apply reads_peek. cbn [Z.eqb Pos.eqb]. apply reads_skip, reads_ret. }
    cbv zeta. cbn [fst intern]. rewrite hq in hs. cbn in hs. rewrite (utf8_valid_ok _ hs), <- hq.
    eapply reads_bind0 with (s1 := (sy', ob, H)); [|apply reads_ret].
    intros p tl _ _. unfold put_rsym, st. cbn [fst snd pos rest rsyms robjs rheap app length Z.of_nat].
    rewrite e2. now rewrite Z.add_0_r.
Qed.

(** … and where a symbol is expected. *)
Lemma read_sym_ok n s sy out sy' ob H : sym_ok s -> sform' s sy out sy' -> len sy + len out < 2 ^ 31 ->
  (1 <= n)%nat -> reads (read_symbol (rdv n)) out (sy, ob, H) s (sy', ob, H).
Proof.
  intros hs f hl hn. pose proof f as f0. destruct f as [f hp|o e f ha hq].
  - eapply read_symbol_form; eauto.
  - destruct n as [|n]; [lia|]. unfold read_symbol.
    rewrite e in *. cbn [app] in *. apply reads_peek. cbn [Z.eqb Pos.eqb].
    eapply reads_bindr; [exact (read_sym_value (rdv n) s sy _ sy' ob H hs f0 hl)|]. apply reads_ret.
Qed.
End Sim.
