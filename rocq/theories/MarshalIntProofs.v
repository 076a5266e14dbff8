(** Integers through Marshal, and lengths that do not fit 32 bits. *)
From Coq Require Import String Ascii ZArith List Bool Lia.
From Verif Require Import Utf8Model IdModel EncModel MarshalModel MarshalSpec MarshalProofs MarshalRProofs.
From Verif Require ValueModel.
Import ListNotations.
Open Scope Z_scope.
Local Notation len l := (Z.of_nat (length l)).
Local Arguments Z.mul : simpl never.
Local Arguments Z.pow : simpl never.

Lemma mag_len m : len (mag_bytes m) = Z.log2 m / 8 + 1.
Proof. unfold mag_bytes. rewrite le_len. pose proof (Z.log2_nonneg m). rewrite Z2Nat.id; [reflexivity|]. pose proof (Z.div_pos (Z.log2 m) 8). lia. Qed.
Lemma mag_room n : Z.log2 (Z.abs n) < 2 ^ 35 - 16 -> len (mag_bytes (Z.abs n)) < 2 ^ 32 - 1.
Proof.
  intros h. rewrite mag_len. change (2 ^ 35) with 34359738368 in h. change (2 ^ 32) with 4294967296.
  pose proof (Z.div_mod (Z.log2 (Z.abs n)) 8 ltac:(lia)). pose proof (Z.mod_pos_bound (Z.log2 (Z.abs n)) 8 ltac:(lia)). lia.
Qed.

Section Ints.
Variables (fmt : Z -> list Z) (prs : list Z -> option Z) (plain sub : list Z -> bool) (deep : heap -> nat -> nat -> bool).
Notation load := (load prs plain sub deep).

Lemma load_reads out v H sy ob : reads (read_value prs plain sub deep (S (length out))) out ([], [], []) v (sy, ob, H) ->
  len out < 2 ^ 62 -> load ([4; 8] ++ out) = Ok (v, H).
Proof.
  intros r hl. specialize (r 0 [] ltac:(lia)). cbn [length] in r. rewrite app_nil_r in r. unfold st in r. cbn [fst snd] in r.
  unfold MarshalModel.load. cbn [app Z.eqb Pos.eqb andb]. rewrite r; [reflexivity|].
  change (2 ^ 62) with 4611686018427387904 in hl. change (2 ^ 63) with 9223372036854775808. lia.
Qed.
Lemma fixnum_short n : (length (w_fixnum n) <= 5)%nat.
Proof.
  unfold w_fixnum. repeat match goal with |- context [if ?b then _ else _] => destruct b end; cbn [length]; rewrite ?le_len; cbn; lia.
Qed.
Lemma bignum_len n : len (w_bignum n) <= len (mag_bytes (Z.abs n)) + 8.
Proof.
  unfold w_bignum. cbv zeta. rewrite !app_length. cbn [length]. pose proof (fixnum_short (to_i32 ((len (mag_bytes (Z.abs n)) + 1) / 2))).
  destruct (_ =? _); cbn [length]; lia.
Qed.
Lemma load_bignum n v H : Z.log2 (Z.abs n) < 2 ^ 35 - 16 ->
  (forall sy ob, reads (new_int n) [] (sy, ob, []) v (sy, ob, H)) -> load ([4; 8] ++ w_bignum n) = Ok (v, H).
Proof.
  intros h hv. apply mag_room in h. eapply load_reads.
  - assert (w_bignum n = 108 :: tl (w_bignum n)) as -> by reflexivity. cbn [read_value]. unfold read_step.
    apply reads_tag. cbn [Z.eqb Pos.eqb]. eapply read_bignum_ok; [reflexivity | exact h | apply hv].
  - pose proof (bignum_len n). change (2 ^ 32) with 4294967296 in h. change (2 ^ 62) with 4611686018427387904. lia.
Qed.
Lemma load_fixnum n : - 2 ^ 31 <= n < 2 ^ 31 -> load ([4; 8] ++ [105] ++ w_fixnum n) = Ok (VFix n, []).
Proof.
  intros h. eapply load_reads.
  - cbn [read_value app]. unfold read_step. apply reads_tag. cbn [Z.eqb Pos.eqb]. eapply reads_bindr; [now apply reads_fixnum|]. apply reads_ret.
  - cbn [app length]. pose proof (fixnum_short n). change (2 ^ 62) with 4611686018427387904. lia.
Qed.
Theorem int_roundtrip n k : Z.log2 (Z.abs n) < 2 ^ 35 - 16 ->
  exists out, dump fmt (S k) (fst (int_graph n)) (snd (int_graph n)) = Some out /\
              load out = Ok (snd (int_graph n), fst (int_graph n)).
Proof.
  intros h. unfold int_graph. destruct (_ && _) eqn:E; cbn [fst snd].
  - unfold dump. cbn [dump_value]. destruct (in30 n) eqn:E3.
    + eexists. split; [reflexivity|]. cbn [fst]. unfold in30 in E3. apply andb_true_iff in E3 as [e1 e2].
      apply Z.leb_le in e1, e2. rewrite to_i32_id by (change (2 ^ 31) with 2147483648; lia). apply load_fixnum.
      change (2 ^ 31) with 2147483648; lia.
    + eexists. split; [reflexivity|]. cbn [fst]. apply load_bignum; auto. intros. apply new_int_small. unfold small.
      apply andb_true_iff in E as [e1 e2]. apply Z.leb_le in e1. apply Z.ltb_lt in e2. lia.
  - assert (B : ~ small n). { unfold small. intros [e1 e2]. apply Z.leb_le in e1. apply Z.ltb_lt in e2. rewrite e1, e2 in E. discriminate. }
    assert (I3 : in30 n = false).
    { unfold in30. destruct (Z.leb_spec (-0x40000000) n), (Z.leb_spec n 0x3fffffff); cbn; auto. exfalso. apply B. unfold small.
      change (2 ^ 62) with 4611686018427387904. lia. }
    unfold dump. cbn [dump_value nth_error]. rewrite I3. unfold w_linked. cbn [fst snd position]. eexists. split; [reflexivity|].
    cbn [fst]. apply load_bignum; auto. intros. now apply new_int_big.
Qed.

(** Eight gibibytes of magnitude: the word count is 2^32, written as 0. *)
Lemma huge_load n : 0 < n -> Z.log2 n = 2 ^ 36 - 1 -> load ([4; 8] ++ w_bignum n) = Ok (VFix 0, []).
Proof.
  intros hn hl.
  unfold w_bignum. cbv zeta. replace ((len (mag_bytes (Z.abs n)) + 1) / 2) with (2 ^ 32).
  2: { rewrite mag_len. rewrite Z.abs_eq by lia. rewrite hl. reflexivity. }
  change (to_i32 (2 ^ 32)) with 0. change (w_fixnum 0) with [0].
  replace (n <? 0) with false by (symmetry; apply Z.ltb_ge; lia).
  set (T := mag_bytes (Z.abs n) ++ (if len (mag_bytes (Z.abs n)) mod 2 =? 0 then [] else [0])).
  clearbody T. clear n hn hl. unfold MarshalModel.load. cbn [app]. change ((4 =? 4) && (8 =? 8)) with true. cbn iota.
  set (m := length _). clearbody m. cbn [read_value]. unfold read_step, read_bignum, read_fixnum, bind, read_byte.
  cbn [rest pos rsyms robjs rheap Z.eqb Pos.eqb]. cbn [Z.ltb Z.compare Z.eqb ret]. unfold read_bytes.
  change (to_usize 0 * 2) with 0. cbn [pos rest]. change ((0 + 1 + 1 + 1 + 0 mod 2 ^ 64) mod 2 ^ 64) with 3.
  cbn [rest pos rsyms robjs rheap]. destruct (Z.ltb_spec (0 + 1 + 1 + 1 + len T) 3) as [q|_]; [lia|]. reflexivity.
Qed.
Theorem huge_int k : exists n out, dump fmt (S k) [OBig n] (VRef 0) = Some out /\ load out = Ok (VFix 0, []) /\ n <> 0 /\ ~ small n.
Proof.
  assert (E : exists n, 0 < n /\ Z.log2 n = 2 ^ 36 - 1 /\ 2 ^ 62 <= n).
  { exists (2 ^ (2 ^ 36 - 1)). split; [apply Z.pow_pos_nonneg; [reflexivity|discriminate]|]. split; [now apply Z.log2_pow2|].
    apply Z.pow_le_mono_r; [reflexivity|discriminate]. }
  destruct E as (n & h1 & h2 & h3). exists n.
  assert (I3 : in30 n = false).
  { unfold in30. destruct (Z.leb_spec n 0x3fffffff); [|apply andb_false_r]. change (2 ^ 62) with 4611686018427387904 in h3. lia. }
  eexists. unfold dump. cbn [dump_value nth_error]. rewrite I3. unfold w_linked. cbn [fst snd position].
  split; [reflexivity|]. cbn [fst]. split; [now apply huge_load|]. split; [lia|]. unfold small. lia.
Qed.
(** A String of 2^32 bytes loads as an empty one. *)
Theorem huge_string b : len b = 2 ^ 32 ->
  exists out, dump fmt 1 [OStr None b Ascii8 []] (VRef 0) = Some out /\ load out = Ok (VRef 0, [OStr None [] Ascii8 []]).
Proof.
  intros hb. eexists. split; [reflexivity|]. cbn [fst app]. unfold len_i32. rewrite hb. change (w_fixnum (to_i32 (2 ^ 32))) with [0].
  cbn [app]. rewrite app_nil_r. unfold MarshalModel.load. change ((4 =? 4) && (8 =? 8)) with true. cbn iota.
  set (m := length (34 :: _)). clearbody m. cbn [read_value]. unfold read_step, read_raw_string, read_blob, read_fixnum, bind, read_byte.
  cbn [rest pos rsyms robjs rheap Z.eqb Pos.eqb]. cbn [Z.ltb Z.compare Z.eqb ret]. unfold read_bytes.
  cbn [pos rest]. change ((0 + 1 + 1 + to_usize 0) mod 2 ^ 64) with 2.
  cbn [rest pos rsyms robjs rheap]. destruct (Z.ltb_spec (0 + 1 + 1 + len b) 2) as [q|_]; [lia|]. reflexivity.
Qed.
End Ints.
